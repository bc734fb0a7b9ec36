(** Property theorems about O.run / O.pause / O.step / O.load: C21, C22, C45, C46. *)
From Coq Require Import List ZArith Bool Arith Lia.
From Verif Require Import Runner_Model Runner_Spec Runner_Proofs.
Import ListNotations.
Open Scope Z_scope.

(** C21. On a simulation at rest, O.run(n, wait=True) with n>0: whatever the
    interleaving of the caller with the background thread, the iteration counter
    never passes iter+n; when the call has returned it is exactly iter+n; the
    interleaving has bounded length; and an execution in which nobody can move
    any more is one where the call has returned and the simulation is at rest. *)
Theorem C21_run_n_is_exactly_n_steps :
  forall s n l s',
    idle s -> 0 <= iter s -> 0 < n ->
    Forall (fun a => ~ is_exc a /\ ~ is_cmd a) l ->
    exec s (ACmd (CmdRun n true) :: l) = Some s' ->
    Z.of_nat (length l) <= 8 * n + 20 /\ iter s' <= iter s + n /\
    (caller s' = CIdle -> iter s' = iter s + n) /\
    (quiescent s' -> idle s' /\ iter s' = iter s + n).
Proof. exact run_n_exact. Qed.
Print Assumptions C21_run_n_is_exactly_n_steps.

(** C21, progress: as long as the run is not complete somebody can move. *)
Theorem C21_run_never_blocks :
  forall s n l s',
    idle s -> 0 <= iter s -> 0 < n ->
    Forall (fun a => ~ is_exc a /\ ~ is_cmd a) l ->
    exec s (ACmd (CmdRun n true) :: l) = Some s' -> ~ (idle s' /\ iter s' = iter s + n) ->
    exists a s2, ~ is_exc a /\ ~ is_cmd a /\ move s' a = Some s2.
Proof. exact run_n_progress. Qed.
Print Assumptions C21_run_never_blocks.

Example C21_hypotheses_met :
  idle (init 7) /\
  exists s', exec (init 7) (ACmd (CmdRun 2 true) :: [ACaller] ++ repeat (AThread 0 false) 17 ++ [ACaller]) = Some s'
             /\ quiescent s' /\ iter s' = 9.
Proof.
  split; [repeat split; constructor|]. eexists. split; [vm_compute; reflexivity|]. split; [|reflexivity].
  split; [reflexivity|]. intros [|[|i]] exc; reflexivity.
Qed.

(** C22. In every execution, whatever the commands (pauses, loads, several runs):
    two background threads are never inside a step at the same time. *)
Theorem C22_background_steps_exclusive_partial :
  forall it l s i j, exec (init it) l = Some s -> in_step s i -> in_step s j -> i = j.
Proof. exact background_exclusive. Qed.
Print Assumptions C22_background_steps_exclusive_partial.

(** C22 fails for O.pause() followed by O.step(): the caller's step overlaps the
    background step that the pause did not wait for. *)
Theorem C22_steps_never_overlap_refuted :
  exists it l s i, exec (init it) l = Some s /\ caller_in_step s /\ in_step s i.
Proof. destruct steps_overlap as (s & E & C & I). exists 0, overlap_schedule, s, 0%nat. auto. Qed.
Print Assumptions C22_steps_never_overlap_refuted.

(** C22, what is true: without O.pause, a step made by O.step() never overlaps a
    background step. *)
Theorem C22_steps_never_overlap_partial :
  forall it l s i,
    Forall (fun a => ~ is_pause a) l -> exec (init it) l = Some s ->
    caller_in_step s -> in_step s i -> False.
Proof. exact steps_exclusive_no_pause. Qed.
Print Assumptions C22_steps_never_overlap_partial.

Example C22_hypotheses_met :
  exists s, exec (init 0) ([ACmd (CmdRun 1 true); ACaller] ++ repeat (AThread 0 false) 9 ++ [ACaller; ACmd CmdStep]) = Some s
            /\ caller_in_step s.
Proof. eexists. split; [vm_compute; reflexivity|reflexivity]. Qed.

(** C45. O.pause(); O.run(5, wait=True) may return, everything at rest, with no
    step done: the stop request left by the previous run ends the new one. *)
Theorem C45_run_after_pause_refuted :
  exists l1 l2 s1 s2,
    exec (init 0) (l1 ++ [ACmd CmdPause]) = Some s1 /\ caller s1 = CIdle /\ looping s1 = false /\
    Forall (fun a => ~ is_exc a /\ ~ is_cmd a) l2 /\
    exec s1 (ACmd (CmdRun 5 true) :: l2) = Some s2 /\ quiescent s2 /\ idle s2 /\ iter s2 = iter s1.
Proof.
  exists ([ACmd (CmdRun 1 false); ACaller] ++ repeat (AThread 0 false) 7).
  exists [ACaller; AThread 0 false; AThread 0 false; AThread 0 false; ACaller; AThread 1 false; AThread 1 false; AThread 1 false].
  eexists. eexists. split; [vm_compute; reflexivity|]. split; [reflexivity|]. split; [reflexivity|].
  split; [repeat (constructor; [split; intros [x Hx]; discriminate|]); constructor|].
  split; [vm_compute; reflexivity|].
  split; [split; [reflexivity|]; intros [|[|[|i]]] exc; reflexivity|].
  split; [repeat split; cbn; repeat constructor|reflexivity].
Qed.
Print Assumptions C45_run_after_pause_refuted.

(** C45, what is true: after any history, once the earlier background threads have
    ended, O.run(n, wait=True) makes exactly n steps. *)
Theorem C45_run_after_pause_partial :
  forall it h s n l s',
    0 <= it -> exec (init it) h = Some s ->
    looping s = false -> caller s = CIdle -> Forall (fun p => p = RDone) (threads s) -> 0 < n ->
    Forall (fun a => ~ is_exc a /\ ~ is_cmd a) l ->
    exec s (ACmd (CmdRun n true) :: l) = Some s' ->
    (caller s' = CIdle -> iter s' = iter s + n) /\ (quiescent s' -> idle s' /\ iter s' = iter s + n).
Proof.
  intros it h s n l s' H0 Eh Hl Hc HD Hn HF E.
  destruct (run_n_exact s n l s' (reach_idle _ _ _ Eh Hl Hc HD) (reach_iter _ _ _ H0 Eh) Hn HF E) as (_ & _ & A & B).
  split; assumption.
Qed.
Print Assumptions C45_run_after_pause_partial.

Example C45_hypotheses_met :
  exists s, exec (init 0) ([ACmd (CmdRun 9 false); ACaller] ++ repeat (AThread 0 false) 5 ++ [ACmd CmdPause] ++ repeat (AThread 0 false) 5)
            = Some s /\ looping s = false /\ caller s = CIdle /\ Forall (fun p => p = RDone) (threads s) /\ iter s = 1.
Proof. eexists. split; [vm_compute; reflexivity|]. repeat split; cbn; repeat constructor. Qed.

(** C46. Loading or resetting a simulation right after O.run may destroy the
    runner under a thread that has not started yet, which then uses it. *)
Theorem C46_reload_while_running_refuted :
  exists l s, exec (init 0) l = Some s /\ crashed s = true.
Proof. destruct destroy_crash as (s & E & C). exists crash_schedule, s. auto. Qed.
Print Assumptions C46_reload_while_running_refuted.

(** C46, what is true: if whenever the destruction completes every background
    thread has taken its first lock, no thread ever uses a destroyed runner. *)
Theorem C46_reload_while_running_partial :
  forall it l s, safe_destroy (init it) l -> exec (init it) l = Some s -> crashed s = false.
Proof. exact no_crash. Qed.
Print Assumptions C46_reload_while_running_partial.

Definition C46_schedule : list action :=
  [ACmd (CmdRun 9 false); ACaller] ++ repeat (AThread 0 false) 4 ++ [ACmd CmdDestroy] ++ repeat (AThread 0 false) 6 ++ [ACaller].
Example C46_hypotheses_met :
  safe_destroy (init 0) C46_schedule /\ exists s, exec (init 0) C46_schedule = Some s.
Proof.
  split; [|eexists; vm_compute; reflexivity].
  vm_compute. do 13 (split; [intros Ha Hc; discriminate|]).
  split; [|exact I]. intros _ _ [|[|i]]; discriminate.
Qed.

(** C50. When a background step raises, the run is over: whatever the caller and
    the background threads do next, short of asking for new steps, no further
    step is made, and when nobody can move any more O.running is False, the caller
    is free (O.wait has returned) and every background thread has ended. *)
Theorem C50_exception_ends_run :
  forall it h s i l s',
    exec (init it) h = Some s -> in_step s i ->
    caller s <> CInStep -> (forall w, caller s <> CRun w) ->
    Forall (fun a => forall c, a = ACmd c -> ~ starts_steps c) l ->
    exec s (AThread i true :: l) = Some s' ->
    iter s' = iter s /\ (forall j, ~ in_step s' j) /\
    (quiescent s' -> looping s' = false /\ caller s' = CIdle /\ Forall (fun p => p = RDone) (threads s')).
Proof. exact exception_ends_run. Qed.
Print Assumptions C50_exception_ends_run.

Example C50_hypotheses_met :
  exists s s', exec (init 0) ([ACmd (CmdRun 9 true); ACaller] ++ repeat (AThread 0 false) 11) = Some s /\ in_step s 0 /\
    caller s = CWaiting /\ exec s (AThread 0 true :: repeat (AThread 0 false) 3 ++ [ACaller]) = Some s' /\
    quiescent s' /\ iter s' = 1.
Proof.
  eexists. eexists. split; [vm_compute; reflexivity|]. split; [reflexivity|]. split; [reflexivity|].
  split; [vm_compute; reflexivity|]. split; [|reflexivity]. split; [reflexivity|]. intros [|[|i]] exc; reflexivity.
Qed.
