(** Properties of the automatic time step. *)
From Coq Require Import List ZArith Bool Arith Reals Lra.
From Verif Require Import Vec_Model Tstep_Model Tstep_Spec Tstep_Proofs3 Tstep_Proofs4 Tstep_Example.
Import ListNotations.
Local Open Scope R_scope.

(** ** C113: with the time step computed, motions of bodies in elastic contact stay bounded *)
Theorem C113_default_refuted : plain pair /\ (forall c, In c [touch diagonal] -> loaded (length pair) c) /\ sane (engine_with (8 / 10)) /\
  forall dt, exists E' dt', computeTimeStep (engine_with (8 / 10)) dt pair [touch diagonal] = Done (E', dt', pair) /\ ~ stable false dt' pair [touch diagonal].
Proof. split; [exact pair_plain|]. split; [exact (touch_loaded diagonal diagonal1)|]. split; [apply engine_sane; lra|exact default_unstable]. Qed.
Print Assumptions C113_default_refuted.
Theorem C113_unloaded_refuted : sane start /\ safety start <= 1 / 2 /\ forall dt, exists E' dt', computeTimeStep start dt pair [idle diagonal] = Done (E', dt', pair) /\ ~ stable false dt' pair [idle diagonal].
Proof.
  split; [unfold sane, start; cbn; pose proof MAX_REAL_pos; repeat split; lra|]. split; [unfold start; cbn; lra|]. intros dt. destruct (idle_compute diagonal dt) as (E' & H). exists E', (27 / 14). split; [exact H|]. exact (idle_unstable diagonal diagonal1).
Qed.
Print Assumptions C113_unloaded_refuted.
Theorem C113_half_partial : forall E dt bs cs E' dt' bs', sane E -> plain bs -> (forall c, In c cs -> loaded (length bs) c) -> safety E <= 1 / 2 ->
  computeTimeStep E dt bs cs = Done (E', dt', bs') -> stable (densityScaling E) dt' bs' cs.
Proof. exact stable_half. Qed.
Print Assumptions C113_half_partial.
Example C113_half_ex : sane (engine_with (1 / 2)) /\ plain pair /\ (forall c, In c [touch diagonal] -> loaded (length pair) c) /\ exists E' dt', computeTimeStep (engine_with (1 / 2)) 1 pair [touch diagonal] = Done (E', dt', pair).
Proof. split; [apply engine_sane; lra|]. split; [exact pair_plain|]. split; [exact (touch_loaded diagonal diagonal1)|exact half_case]. Qed.
Theorem C113_frictionless_partial : forall E dt bs cs E' dt' bs', sane E -> plain bs -> (forall c, In c cs -> loaded (length bs) c /\ frictionless c) -> safety E * safety E <= 1 / 3 ->
  computeTimeStep E dt bs cs = Done (E', dt', bs') -> stable (densityScaling E) dt' bs' cs.
Proof. exact stable_frictionless. Qed.
Print Assumptions C113_frictionless_partial.
Example C113_frictionless_ex : 1 / 2 * (1 / 2) <= 1 / 3 /\ forall c, In c [touch diagonal] -> loaded (length pair) c /\ frictionless c.
Proof. split; [lra|]. intros c Hc. split; [exact (touch_loaded diagonal diagonal1 c Hc)|]. destruct Hc as [<-|[]]. repeat split. Qed.
Theorem C113_aligned_partial : forall E dt bs cs E' dt' bs', sane E -> plain bs -> (forall c, In c cs -> loaded (length bs) c /\ frictionless c /\ aligned c) -> safety E <= 1 ->
  computeTimeStep E dt bs cs = Done (E', dt', bs') -> stable (densityScaling E) dt' bs' cs.
Proof. exact stable_aligned. Qed.
Print Assumptions C113_aligned_partial.
Example C113_aligned_ex : (forall c, In c [touch ex] -> loaded (length pair) c /\ frictionless c /\ aligned c) /\ exists E' dt', computeTimeStep (engine_with 1) 1 pair [touch ex] = Done (E', dt', pair).
Proof. exact aligned_case. Qed.

(** ** C114: the time step is positive, at most the maximum, and grows by 5 % at most per computation *)
Theorem C114_negative_refuted : exists E' dt', computeTimeStep negative_max 1 pair [touch ex] = Done (E', dt', pair) /\ dt' < 0.
Proof. exact negative_dt. Qed.
Print Assumptions C114_negative_refuted.
Theorem C114_bounds_partial : forall E dt l E1 dt1, sane E -> computedOnce E = false -> 0 < dt -> Forall ordinary l -> runs E dt l = Done (E1, dt1) ->
  0 < dt1 /\ (computedOnce E1 = true -> dt1 <= maxDt E) /\
  forall bs cs E2 dt2 bs2, computedOnce E1 = true -> computeTimeStep E1 dt1 bs cs = Done (E2, dt2, bs2) -> dt2 <= 105 / 100 * dt1.
Proof.
  intros E dt l E1 dt1 S C D F H. destruct (runs_sane l E dt E1 dt1 S D F H) as (S1 & D1). split; [exact D1|]. split; [apply (runs_max l E dt E1 dt1); [congruence|exact H]|].
  intros bs cs E2 dt2 bs2 C1 Q. apply (runs_growth l E dt E1 dt1 bs cs E2 dt2 bs2); [congruence|exact H|exact C1|exact D1|exact Q].
Qed.
Print Assumptions C114_bounds_partial.
Example C114_ex : sane (engine_with (1 / 2)) /\ computedOnce (engine_with (1 / 2)) = false /\ ordinary (pair, [touch diagonal]).
Proof. split; [apply engine_sane; lra|]. split; [reflexivity|]. split; [exact pair_plain|exact (touch_loaded diagonal diagonal1)]. Qed.

(** ** C115: no option or history of the scene makes the computation use what is not there *)
Theorem C115_unassigned_refuted : forall dt, computeTimeStep (viscous 0 0) dt [Some ball] [] = UB.
Proof. exact unassigned. Qed.
Print Assumptions C115_unassigned_refuted.
Theorem C115_not_resized_refuted : forall dt, computeTimeStep (viscous 2 0) dt pair [touch ex] = UB.
Proof. exact not_resized. Qed.
Print Assumptions C115_not_resized_refuted.
Theorem C115_null_refuted : forall dt, computeTimeStep scaled dt boxes [] = UB.
Proof. exact null_sphere. Qed.
Print Assumptions C115_null_refuted.
Theorem C115_interval_refuted : forall E iter, active E = true -> computedOnce E = true -> interval E = 0%Z -> isActivated E iter = UB.
Proof. intros E iter A C I. unfold isActivated. rewrite A, C, I. reflexivity. Qed.
Print Assumptions C115_interval_refuted.
Theorem C115_defined_partial : forall E dt l, (viscEl E = true -> nStiff E = nVisc E) ->
  Forall (fun s => (densityScaling E = true -> spheres (fst s)) /\ (viscEl E = true -> densityScaling E = false -> ordinary s /\ touched (fst s) (snd s))) l -> exists r, runs E dt l = Done r.
Proof. intros E dt l V F. exact (runs_done l E dt V F). Qed.
Print Assumptions C115_defined_partial.
Theorem C115_activated_partial : forall E iter, interval E <> 0%Z -> exists b, isActivated E iter = Done b.
Proof. exact activated_done. Qed.
Print Assumptions C115_activated_partial.
Example C115_ex : nStiff (viscous 0 0) = nVisc (viscous 0 0) /\ ordinary (pair, [touch diagonal]) /\ touched pair [touch diagonal].
Proof.
  split; [reflexivity|]. split; [split; [exact pair_plain|exact (touch_loaded diagonal diagonal1)]|]. intros i b H D. exists (touch diagonal). split; [left; reflexivity|]. destruct i as [|[|i]]; [left; reflexivity|right; reflexivity|]. destruct i; discriminate H.
Qed.
