(** What is assumed of the local computations of a process and of the scene that
    is distributed, and the vocabulary of the properties of the exchanges. *)
From Coq Require Import List Arith Bool.
From Verif Require Import Subd_Model Subd_Spec Comm_Model Comm_Spec Mpi_Model.
Import ListNotations.

Section Spec.
Context {D X Bx F : Type}.
Notation bodies := (bodies D X attrs).
Notation locals := (@locals D X Bx F).
Notation lstate := (@lstate D X Bx F).

(** the attributes of all bodies *)
Definition ats (w : bodies) : list (option attrs) := map (option_map (@bRest D X attrs)) w.

(** A scene that can be distributed over n processes: no erased body, and one
    subdomain body for each of the workers 1..n-1, in this order. *)
Definition ready (n : nat) (w : bodies) : Prop :=
  (forall id, id < length w -> exists b, nth_error w id = Some (Some b)) /\
  sd_ranks (shape w) = workers n.

(** What is assumed of the local computations:
    - they neither create nor erase bodies nor change their attributes;
    - each interaction is listed once;
    - ordinary bodies that are not bounded have no interaction with a subdomain body;
    - a process finds its subdomain body and another one to overlap according to
      their boxes, by a symmetric test [ovl]. *)
Record good (L : locals) (ovl : Bx -> Bx -> bool) : Prop := mkGood {
  g_dispatch : forall p w, ats (dispatch L p w) = ats w;
  g_collide : forall p w bx, ats (fst (collide L p w bx)) = ats w;
  g_engines : forall p w f, ats (engines L p w f) = ats w;
  g_once : forall p w bx sd, NoDup (others sd (snd (collide L p w bx)));
  g_bounded : forall p w bx sd k o d, at_ (shape w) sd = Some (k, true) -> at_ (shape w) o = Some (d, false) ->
     In o (others sd (snd (collide L p w bx))) ->
     exists b, nth_error w o = Some (Some b) /\ bounded (bRest b) = true;
  g_ovl : forall p w bx a b ka kb, at_ (shape w) a = Some (ka, true) -> at_ (shape w) b = Some (kb, true) ->
     ka <> kb -> (ka = p \/ kb = p) ->
     (In b (others a (snd (collide L p w bx))) <-> ovl (bx ka) (bx kb) = true);
  g_sym : forall x y, ovl x y = ovl y x }.

(** the bodies of the master are bounded *)
Definition own_bounded (w : bodies) : Prop :=
  forall id b, nth_error w id = Some (Some b) -> subdomain (bRest b) = 0 -> isSubdomain (bRest b) = false -> bounded (bRest b) = true.
(** the master always has a body touching each subdomain *)
Definition master_touches_all (L : locals) (sh : list (option (nat * bool))) : Prop :=
  forall w bx sd k, shape w = sh -> own_bounded w -> at_ sh sd = Some (k, true) ->
    exists o, In o (others sd (snd (collide L 0 w bx))) /\ at_ sh o = Some (0, false).

(** the scene of a process, its body [id] *)
Definition has_body (s : lstate) (id : nat) (b : body D X attrs) : Prop :=
  exists w, sc s = Some w /\ nth_error w id = Some (Some b).

Definition all_finished {S M} (n : nat) (prog : list (phase S M)) (c : conf S M) : Prop :=
  forall p, p < n -> finished prog c p.
(** nobody can move, not even if the library buffers no message *)
Definition all_stuck {S M} (n : nat) (prog : list (phase S M)) (c : conf S M) : Prop :=
  forall p, p < n -> move prog true p c = None.

(** The exchange of states leads from s to s'.  The master changes nothing.  A
    worker p has, for each body id of its scene belonging to another process k:
    if it mirrors the body, the motion of the body in k's scene, all else
    unchanged; if not, the body as it was.  Its own bodies do not change. *)
Definition states_exchanged (n : nat) (s s' : nat -> lstate) : Prop :=
  s' 0 = s 0 /\
  forall p, 1 <= p < n -> exists w w', sc (s p) = Some w /\ sc (s' p) = Some w' /\ length w' = length w /\
    (forall k, In k (inter (s p) p) -> mirror (s p) k = inter (s k) p) /\
    forall id, match nth_error w id with
      | Some (Some b) => exists b', nth_error w' id = Some (Some b') /\
          (subdomain (bRest b) <> p -> In id (mirror (s p) (subdomain (bRest b))) ->
             exists bk, has_body (s (subdomain (bRest b))) id bk /\ subdomain (bRest bk) = subdomain (bRest b) /\
               same_motion b' bk /\ same_rest b' b /\ bound b' = bound b) /\
          (subdomain (bRest b) = p \/ ~ In id (mirror (s p) (subdomain (bRest b))) -> b' = b)
      | other => nth_error w' id = other
      end.

(** The forces of the master: its own plus those computed by the workers that see
    the body. *)
Definition forces_summed (Fadd : F -> F -> F) (L : locals) (n : nat) (s : nat -> lstate) : Prop :=
  forall w0, sc (s 0) = Some w0 -> forall id,
    frc (s 0) id = fold_left (fun f p => if in_dec Nat.eq_dec id (mirror (s p) 0)
                                         then match sc (s p) with Some wp => Fadd f (forces L p wp id) | None => f end
                                         else f) (workers n) (forces L 0 w0 id).

(** Merging leads from s to s'.  The workers change nothing.  The master has for
    each body of a worker the motion and the bound it has there. *)
Definition scene_merged (n : nat) (s s' : nat -> lstate) : Prop :=
  (forall k, 1 <= k < n -> s' k = s k) /\
  exists w w', sc (s 0) = Some w /\ sc (s' 0) = Some w' /\ length w' = length w /\
    forall id b, nth_error w id = Some (Some b) -> exists b', nth_error w' id = Some (Some b') /\
      (1 <= subdomain (bRest b) < n -> exists bk, has_body (s (subdomain (bRest b))) id bk /\
         same_motion b' bk /\ bound b' = bound bk /\ stRest (bstate b') = stRest (bstate b) /\
         bRest b' = mkAttrs (subdomain (bRest b)) (isSubdomain (bRest b)) true) /\
      (~ 1 <= subdomain (bRest b) < n -> b' = b).

(** all executions of [prog] that end leave the processes in states s *)
Definition ends_in {S M} (n : nat) (prog : list (phase S M)) (s0 s : nat -> S) : Prop :=
  forall sched c, ranks n sched -> exec prog sched (init prog s0) = Some c -> all_finished n prog c ->
    forall p, p < n -> lst (procs c p) = s p.
End Spec.
