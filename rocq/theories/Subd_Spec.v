(** What transmitting body states should do. *)
From Coq Require Import List Arith ZArith.
From Verif Require Import Subd_Model.
Import ListNotations.

Section Spec.
Context {D X Y : Type}.

(** the four transmitted quantities of two bodies are the same *)
Definition same_motion (a b : body D X Y) : Prop :=
  pos (bstate a) = pos (bstate b) /\ vel (bstate a) = vel (bstate b) /\
  angVel (bstate a) = angVel (bstate b) /\ ori (bstate a) = ori (bstate b).

(** everything else in two bodies, except possibly the bound, is the same *)
Definition same_rest (a b : body D X Y) : Prop :=
  stRest (bstate a) = stRest (bstate b) /\ bRest a = bRest b.

Definition exist_all (w : bodies D X Y) (ids : list nat) : Prop :=
  forall id, In id ids -> exists b, nth_error w id = Some (Some b).

(** [w'] is [w] where the bodies listed have taken the motion of those of [src],
    and nothing else has changed *)
Definition motion_copied (src w w' : bodies D X Y) (ids : list nat) : Prop :=
  length w' = length w /\
  (forall id, ~ In id ids -> nth_error w' id = nth_error w id) /\
  (forall id, In id ids -> exists s b b',
     nth_error src id = Some (Some s) /\ nth_error w id = Some (Some b) /\ nth_error w' id = Some (Some b') /\
     same_motion b' s /\ same_rest b' b /\ bound b' = bound b).

(** the same, where the bound is copied as well *)
Definition motion_bound_copied (src w w' : bodies D X Y) (ids : list nat) : Prop :=
  length w' = length w /\
  (forall id, ~ In id ids -> nth_error w' id = nth_error w id) /\
  (forall id, In id ids -> exists s b b',
     nth_error src id = Some (Some s) /\ nth_error w id = Some (Some b) /\ nth_error w' id = Some (Some b') /\
     same_motion b' s /\ same_rest b' b /\ bound b' = bound s).
End Spec.

(** box [b] lies within box [a], coordinate by coordinate *)
Definition vle (a b : vec ext) : Prop :=
  ext_le (v0 a) (v0 b) = true /\ ext_le (v1 a) (v1 b) = true /\ ext_le (v2 a) (v2 b) = true.
Definition inside (b a : vec ext * vec ext) : Prop := vle (fst a) (fst b) /\ vle (snd b) (snd a).
