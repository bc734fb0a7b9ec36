(** Properties C23, C24, C48, C49: transmission of body states, box of a subdomain. *)
From Coq Require Import List Arith ZArith.
From Verif Require Import Subd_Model Subd_Spec Subd_Proofs.
Import ListNotations.

(** C23: the states of any bodies of [src], packed and unpacked in [w] (the same
    scene later, or the scene of another process) for the same ids, give those
    bodies of [w] the motion they have in [src]; nothing else changes.  The
    message has 13 numbers per body. *)
Theorem C23_states_survive_transmission :
  forall (D X Y : Type) (src w : bodies D X Y) (ids : list nat),
  exist_all src ids -> exist_all w ids ->
  exists m w', getStateValuesFromIds src ids = Some m /\ length m = 13 * length ids /\
    setStateValuesFromIds w ids m = Some w' /\ motion_copied src w w' ids.
Proof. exact @round_trip. Qed.
Print Assumptions C23_states_survive_transmission.

Definition C23_v (k : nat) : vec nat := mkVec k (k + 1) (k + 2).
Definition C23_b (k : nat) (bd : option (vec nat * vec nat)) : body nat nat nat :=
  mkBody (mkState (C23_v k) (C23_v (k + 3)) (C23_v (k + 6)) (mkQuat (k + 9) (k + 10) (k + 11) (k + 12)) (k * 7)) bd k.
Definition C23_src : bodies nat nat nat := [Some (C23_b 10 None); None; Some (C23_b 30 None); Some (C23_b 50 (Some (C23_v 1, C23_v 4)))].
Definition C23_dst : bodies nat nat nat := [Some (C23_b 100 (Some (C23_v 0, C23_v 9))); None; Some (C23_b 200 None); Some (C23_b 300 None)].

Example C23_hyp : exist_all C23_src [3; 0] /\ exist_all C23_dst [3; 0].
Proof. split; intros id [<-|[<-|[]]]; eexists; reflexivity. Qed.
Example C23_nontrivial :
  match getStateValuesFromIds C23_src [3; 0] with
  | Some m => match setStateValuesFromIds C23_dst [3; 0] m with
              | Some w => match nth_error w 3 with Some (Some b) => Some (qw (ori (bstate b)), bRest b) | _ => None end
              | None => None end
  | None => None end = Some (62, 300).
Proof. reflexivity. Qed.

(** C24, violated: a body without bound arrives with a bound of two zero corners. *)
Theorem C24_states_with_bounds_refuted :
  exists (src w w' : bodies nat nat nat) ids m,
    exist_all src ids /\ exist_all w ids /\
    getStateBoundsValuesFromIds 0 src ids = Some m /\ setStateBoundsValuesFromIds w ids m = Some w' /\
    (exists b, nth_error src 0 = Some (Some b) /\ bound b = None) /\
    (exists b, nth_error w' 0 = Some (Some b) /\ bound b = Some (mkVec 0 0 0, mkVec 0 0 0)) /\
    ~ motion_bound_copied src w w' ids.
Proof.
  exists C23_src, C23_src, [Some (C23_b 10 (Some (mkVec 0 0 0, mkVec 0 0 0))); None; Some (C23_b 30 None); Some (C23_b 50 (Some (C23_v 1, C23_v 4)))], [0].
  eexists. repeat match goal with |- _ /\ _ => split end.
  - intros id [<-|[]]. eexists; reflexivity.
  - intros id [<-|[]]. eexists; reflexivity.
  - reflexivity.
  - reflexivity.
  - eexists; split; reflexivity.
  - eexists; split; reflexivity.
  - intros (_ & _ & H). destruct (H 0 (or_introl eq_refl)) as (s & b & b' & H1 & H2 & H3 & _ & _ & H4).
    injection H1 as <-. injection H3 as <-. discriminate H4.
Qed.
Print Assumptions C24_states_with_bounds_refuted.

(** C24, what holds: if every body sent has a bound, motion and bounds arrive. *)
Theorem C24_states_with_bounds_partial :
  forall (D X Y : Type) (zero : D) (src w : bodies D X Y) (ids : list nat),
  exist_all src ids -> exist_all w ids ->
  (forall id s, In id ids -> nth_error src id = Some (Some s) -> bound s <> None) ->
  exists m w', getStateBoundsValuesFromIds zero src ids = Some m /\ length m = 19 * length ids /\
    setStateBoundsValuesFromIds w ids m = Some w' /\ motion_bound_copied src w w' ids.
Proof. exact @round_trip_bounds. Qed.
Print Assumptions C24_states_with_bounds_partial.

Example C24_hyp : exist_all C23_src [3] /\ exist_all C23_dst [3] /\
  (forall id s, In id [3] -> nth_error C23_src id = Some (Some s) -> bound s <> None).
Proof.
  repeat match goal with |- _ /\ _ => split end.
  - intros id [<-|[]]. eexists; reflexivity.
  - intros id [<-|[]]. eexists; reflexivity.
  - intros id s [<-|[]] H. injection H as <-. discriminate.
Qed.

(** C48, violated: a message too short for the ids is not rejected, memory beyond
    its end is read. *)
Theorem C48_wrong_length_rejected_refuted :
  exists (w : bodies nat nat nat) ids m, exist_all w ids /\ length m < 13 * length ids /\
    setStateValuesFromIds w ids m = None.
Proof.
  exists C23_dst, [0], [1; 2]. split; [intros id [<-|[]]; eexists; reflexivity|].
  split; [apply Nat.ltb_lt; reflexivity|reflexivity].
Qed.
Print Assumptions C48_wrong_length_rejected_refuted.

(** C48, exactly what happens: every message that is too short is undefined
    behaviour, whatever the bodies; surplus numbers are ignored. *)
Theorem C48_wrong_length_partial :
  forall (D X Y : Type) (w : bodies D X Y) (ids : list nat) (m : list D),
  (length m < 13 * length ids -> setStateValuesFromIds w ids m = None) /\
  (forall extra w', setStateValuesFromIds w ids m = Some w' -> setStateValuesFromIds w ids (m ++ extra) = Some w').
Proof. intros D X Y w ids m. exact (conj (short_message w ids m) (long_message w ids m)). Qed.
Print Assumptions C48_wrong_length_partial.

Example C48_hyp : exists w', setStateValuesFromIds C23_dst [0] (push_state (bstate (C23_b 7 None))) = Some w'.
Proof. eexists; reflexivity. Qed.

(** C49: the box of a subdomain contains the bound of each of its bodies, is the
    smallest such box, and does not depend on the order of the ids. *)
Theorem C49_subdomain_box :
  forall (X Y : Type) (w : bodies ext X Y) (ids : list nat),
  (forall id b bx, In id ids -> nth_error w id = Some (Some b) -> bound b = Some bx -> inside bx (setMinMax w ids)) /\
  (forall big, (forall id b bx, In id ids -> nth_error w id = Some (Some b) -> bound b = Some bx -> inside bx big) ->
     inside (setMinMax w ids) big) /\
  (forall ids', (forall id, In id ids <-> In id ids') -> setMinMax w ids' = setMinMax w ids).
Proof.
  intros X Y w ids. exact (conj (box_contains w ids) (conj (box_least w ids)
    (fun ids' H => eq_sym (box_order_free w ids ids' H)))).
Qed.
Print Assumptions C49_subdomain_box.

Definition C49_b (lo hi : Z) : body ext nat nat :=
  let z := mkVec MInf MInf MInf in
  mkBody (mkState z z z (mkQuat MInf MInf MInf MInf) 0) (Some (mkVec (Fin lo) (Fin lo) (Fin lo), mkVec (Fin hi) (Fin hi) (Fin hi))) 0.
Example C49_nontrivial :
  setMinMax [Some (C49_b 0 3); None; Some (C49_b (-5) 1)] [2; 1; 0] =
  (mkVec (Fin (-5)) (Fin (-5)) (Fin (-5)), mkVec (Fin 3) (Fin 3) (Fin 3)).
Proof. reflexivity. Qed.
