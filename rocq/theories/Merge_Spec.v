(** What merging a distributed scene should do. *)
From Coq Require Import List Arith Bool.
From Verif Require Import Subd_Model Subd_Spec Merge_Model.
Import ListNotations.

Section Spec.
Context {D X Y : Type}.
Notation world := (bodies D X (rest Y)).

(** body [id] of scene [w] belongs to process [k] *)
Definition belongs (w : world) (id k : nat) : Prop := exists b, nth_error w id = Some (Some b) /\ subdomain (bRest b) = k.
(** master and workers agree about who has which body *)
Definition agreed (ws : list world) : Prop :=
  forall w0 k w id, nth_error ws 0 = Some w0 -> nth_error ws k = Some w -> belongs w0 id k <-> belongs w id k.
(** workers have boxes for all their bodies *)
Definition boxed (ws : list world) : Prop :=
  forall k w id b, nth_error ws k = Some w -> nth_error w id = Some (Some b) -> subdomain (bRest b) = k -> 0 < k -> bound b <> None.
(** the flag bounded is set, except for grid nodes; all the rest is the same *)
Definition marked (a b : body D X (rest Y)) : Prop :=
  stRest (bstate a) = stRest (bstate b) /\ subdomain (bRest a) = subdomain (bRest b) /\ gridNode (bRest a) = gridNode (bRest b) /\ others (bRest a) = others (bRest b) /\
  bounded (bRest a) = (if gridNode (bRest b) then bounded (bRest b) else true).
(** [w'] is the scene of the master with the bodies of workers as these have them *)
Definition merged (ws : list world) (w0 w' : world) : Prop :=
  length w' = length w0 /\
  (forall id k w, 0 < k -> nth_error ws k = Some w -> belongs w0 id k ->
    exists s b b', nth_error w id = Some (Some s) /\ nth_error w0 id = Some (Some b) /\ nth_error w' id = Some (Some b') /\ same_motion b' s /\ bound b' = bound s /\ marked b' b) /\
  (forall id, (forall k, 0 < k < length ws -> ~ belongs w0 id k) -> nth_error w' id = nth_error w0 id).
End Spec.
