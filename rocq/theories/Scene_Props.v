(** Properties C19, C20 and C44: the simulation step. *)
From Coq Require Import List ZArith Bool.
From Verif Require Import Scene_Model Scene_Spec Scene_Proofs.
Import ListNotations.
Open Scope Z_scope.

(** C19: from any scene between two steps, if the step's items (cell update, the
    engines O.engines shows, clock) run without exception and no engine assigns
    O.subStepping, then one ordinary step and (number of engines + 2) sub-steps
    reach the same scene, namely the one given by executing the items in order. *)
Theorem C19_substeps_equal_step :
  forall (E W T : Type) (sm : sem E W T) (s : scene E W T) (k : core E W T),
  subStep s = -1 ->
  execs sm (program (engines_get s)) (core_of s) = (k, false) -> no_flag_req (k_reqs k) ->
  exists s', moveToNextTimeStep sm (with_ss s false) = (s', false) /\
    calls sm (length (engines_get s) + 2) (with_ss s true) = Some (with_ss s' true) /\
    subStep s' = -1 /\ subStepping s' = false /\
    iter s' = iter s + 1 /\ time s' = k_time k /\ world s' = k_world k /\
    engines s' = engines_get s /\ next s' = last_engines [] (k_reqs k).
Proof. exact @substeps_equal_step. Qed.
Print Assumptions C19_substeps_equal_step.

(** ... for any number of steps, engines being free to change O.engines. *)
Theorem C19_substeps_equal_steps :
  forall (E W T : Type) (sm : sem E W T) (n : nat) (s s' : scene E W T),
  subStep s = -1 -> subStepping s = false -> good sm n s -> steps sm n s = Some s' ->
  exists m, calls sm m (with_ss s true) = Some (with_ss s' true).
Proof. exact @substeps_equal_steps. Qed.
Print Assumptions C19_substeps_equal_steps.

(** ... and switching O.subStepping on and off at any moment between calls: the
    scene is always the result of m complete steps plus the first j items of the
    next one, iter counts the complete ones and subStep is j-1. *)
Theorem C19_mixed_mode :
  forall (E W T : Type) (sm : sem E W T) (s : scene E W T) (l : list uop),
  quiet sm -> subStep s = -1 -> next s = [] ->
  exists s' m j, session sm l s = Some s' /\ (j <= S (length (engines s)))%nat /\
    subStep s' = Z.of_nat j - 1 /\ engines s' = engines s /\
    iter s' = iter s + Z.of_nat m /\
    exists k, execs sm (cyc m (engines s) ++ firstn j (program (engines s))) (core_of s) = (k, false) /\
      time s' = k_time k /\ world s' = k_world k.
Proof. exact @mixed_sessions. Qed.
Print Assumptions C19_mixed_mode.

Example C19_hyp :
  let sm := log_sem (fun e => if Nat.eqb e 7 then [SetEngines [9%nat]] else []) in
  subStep s0 = -1 /\ good sm 3 s0 /\
  exists s', steps sm 3 s0 = Some s' /\ world s' = [0; 8; 9; 0; 10; 0; 10]%nat.
Proof.
  cbv zeta. split; [reflexivity|]. split.
  - eexists. split; [vm_compute; reflexivity|]. split; [intros b [H|[]]; discriminate|].
    intros s' H. vm_compute in H. injection H as <-.
    eexists. split; [vm_compute; reflexivity|]. split; [intros b []|].
    intros s' H. vm_compute in H. injection H as <-.
    eexists. split; [vm_compute; reflexivity|]. split; [intros b []|]. intros; exact I.
  - eexists. split; vm_compute; reflexivity.
Qed.
Example C19_mixed_hyp : quiet (log_sem (fun _ => [])) /\
  exists s', session (log_sem (fun _ => []))
     [USubStepping true; UCall; UCall; USubStepping false; UCall; UCall; USubStepping true; UCall] s0 = Some s' /\
     world s' = [0; 8; 9; 0; 8; 9; 0]%nat /\ iter s' = 2.
Proof.
  split; [repeat split|]. eexists. split; [vm_compute; reflexivity|]. split; reflexivity.
Qed.

(** C20, violated (1): after one sub-step (cell update) the user assigns
    O.engines, leaves sub-stepping and steps: the new engine already runs in
    the step in progress and the cell is updated twice for one counted step. *)
Theorem C20_engine_change_mid_step_refuted :
  exists s1 s2,
    moveToNextTimeStep (log_sem (fun _ => [])) (with_ss s0 true) = (s1, false) /\ subStep s1 = 0 /\
    moveToNextTimeStep (log_sem (fun _ => [])) (with_ss (engines_set [9%nat] s1) false) = (s2, false) /\
    iter s2 = 1 /\ world s2 = [0%nat; 0%nat; 10%nat].
Proof. exact engines_mid_step. Qed.
Print Assumptions C20_engine_change_mid_step_refuted.

(** C20, violated (2): assigning the empty list from inside a step is ignored. *)
Theorem C20_empty_engine_list_refuted :
  exists s', moveToNextTimeStep (log_sem (fun e => if Nat.eqb e 7 then [SetEngines []] else [])) s0 = (s', false) /\
    engines_get s' = [7%nat; 8%nat].
Proof. exact engines_empty_lost. Qed.
Print Assumptions C20_empty_engine_list_refuted.

(** C20, what holds: in an ordinary step the engines that run are those O.engines
    showed before it, whatever is assigned meanwhile, and afterwards O.engines
    (which the next step will run, by the same theorem) is the last list assigned,
    unless the last list assigned is empty.  Missing: the two cases above. *)
Theorem C20_engine_change_at_boundary_partial :
  forall (E W T : Type) (sm : sem E W T) (s : scene E W T) (k : core E W T),
  subStep s = -1 -> subStepping s = false ->
  execs sm (program (engines_get s)) (core_of s) = (k, false) ->
  last_engines [] (k_reqs k) <> [] \/ (forall l, ~ In (SetEngines l) (k_reqs k)) ->
  exists s', moveToNextTimeStep sm s = (s', false) /\ subStep s' = -1 /\ world s' = k_world k /\
    engines_get s' = last_engines (engines_get s) (k_reqs k).
Proof. exact @engine_change_at_boundary. Qed.
Print Assumptions C20_engine_change_at_boundary_partial.

(** C20: a call does not depend on what a dead engine would do. *)
Theorem C20_dead_engines_do_not_run :
  forall (E W T : Type) (m1 m2 : sem E W T) (s : scene E W T),
  dead m1 = dead m2 -> prologue m1 = prologue m2 -> tick m1 = tick m2 ->
  (forall e i t w, dead m1 e w = false -> activated m1 e i t w = activated m2 e i t w /\
     act m1 e i t (o_w (fst (activated m1 e i t w))) = act m2 e i t (o_w (fst (activated m2 e i t w)))) ->
  moveToNextTimeStep m1 s = moveToNextTimeStep m2 s.
Proof. exact @dead_move. Qed.
Print Assumptions C20_dead_engines_do_not_run.

Example C20_hyp :
  let sm := log_sem (fun e => if Nat.eqb e 7 then [SetEngines [9%nat; 7%nat]] else []) in
  exists k, execs sm (program (engines_get s0)) (core_of s0) = (k, false) /\
    last_engines [] (k_reqs k) = [9%nat; 7%nat].
Proof. eexists. split; vm_compute; reflexivity. Qed.

(** C44: an exception raised by the cell update or an engine leaves iter and time
    unchanged; the effects made before it stay.  The next ordinary step runs all
    engines of that step again from the first, without updating the cell again. *)
Theorem C44_exception_keeps_clock :
  forall (E W T : Type) (sm : sem E W T) (s : scene E W T) (k : core E W T),
  subStep s = -1 -> subStepping s = false ->
  execs sm (program (engines_get s)) (core_of s) = (k, true) ->
  exists s', moveToNextTimeStep sm s = (s', true) /\ iter s' = iter s /\ time s' = time s /\ world s' = k_world k /\
    engines s' = engines_get s /\ subStep s' = 0 /\ next s' = last_engines [] (k_reqs k) /\
    subStepping s' = last_flag false (k_reqs k).
Proof. exact @exception_step. Qed.
Print Assumptions C44_exception_keeps_clock.

Theorem C44_retry_after_exception :
  forall (E W T : Type) (sm : sem E W T) (s : scene E W T) (k : core E W T),
  subStep s = 0 -> subStepping s = false -> next s = [] ->
  execs sm (map Eng (engines s) ++ [Clock]) (core_of s) = (k, false) ->
  exists s', moveToNextTimeStep sm s = (s', false) /\ subStep s' = -1 /\ iter s' = k_iter k /\
    time s' = k_time k /\ world s' = k_world k /\ engines s' = engines s.
Proof.
  intros E W T sm s k H1 H2 H3 Hx. rewrite retry_after_exception by assumption. rewrite Hx.
  eexists. split; [reflexivity|]. repeat split.
Qed.
Print Assumptions C44_retry_after_exception.

(** in sub-stepping mode the failed item is the next one to run *)
Theorem C44_substep_exception_retries_item :
  forall (E W T : Type) (sm : sem E W T) (s s' : scene E W T),
  -1 <= subStep s <= Z.of_nat (length (engines_get s)) -> (0 <= subStep s -> next s = []) -> subStepping s = true ->
  moveToNextTimeStep sm s = (s', true) ->
  subStep s' = subStep s /\ iter s' = iter s /\ time s' = time s /\ engines s' = engines_get s.
Proof. exact @sub_exception. Qed.
Print Assumptions C44_substep_exception_retries_item.

(** an engine 8 that raises when it finds the log shorter than 4 *)
Definition exc_sem : sem nat (list nat) nat :=
  mkSem (fun _ _ => false) (fun _ _ _ w => (mkOut w [] false, true))
        (fun e _ _ w => mkOut (w ++ [S e]) [] (Nat.eqb e 8 && Nat.ltb (length w) 4))
        (fun w => (w ++ [O], false)) (fun t _ => S t).
Example C44_hyp :
  exists s1 s2, moveToNextTimeStep exc_sem s0 = (s1, true) /\ world s1 = [0; 8; 9]%nat /\ iter s1 = 0 /\
                moveToNextTimeStep exc_sem s1 = (s2, false) /\ world s2 = [0; 8; 9; 8; 9]%nat /\ iter s2 = 1.
Proof.
  eexists. eexists. split; [vm_compute; reflexivity|]. split; [reflexivity|]. split; [reflexivity|].
  split; [vm_compute; reflexivity|]. split; reflexivity.
Qed.
