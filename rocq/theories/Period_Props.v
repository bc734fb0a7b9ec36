(** Periodic engines: C34, C57. *)
From Coq Require Import List ZArith Bool Lia.
From Verif Require Import Period_Model Period_Spec Period_Proofs.
Import ListNotations.
Local Open Scope Z_scope.

(** C34: whatever the engine did before, while the step number does not decrease it
    runs at most nDo >= 1 times *)
Theorem C34_at_most_nDo_partial : forall e m l, nDo e = m -> 1 <= m -> 0 <= nDone e -> increasing (iterLast e) l -> count (runs e l) <= m.
Proof. exact count_bound. Qed.
Print Assumptions C34_at_most_nDo_partial.
Example C34_at_most_nDo_ex : increasing 0 [at_step 3; at_step 3; at_step 8; at_step 20; at_step 21; at_step 40] /\
  runs (fresh 0 0 0 5 2 true 0) [at_step 3; at_step 3; at_step 8; at_step 20; at_step 21; at_step 40] = [true; false; true; false; false; false].
Proof. split; [cbn; lia|reflexivity]. Qed.

(** C34 refuted for nDo = 0: with initRun the engine runs once *)
Theorem C34_at_most_nDo_refuted : exists e l, iter_only e 5 /\ new_engine e /\ nDo e = 0 /\ increasing 0 l /\ count (runs e l) > nDo e.
Proof. exists (fresh 0 0 0 5 0 true 0), [at_step 0]. repeat split; cbn; lia. Qed.
Print Assumptions C34_at_most_nDo_refuted.

(** C34: two runs are at least iterPeriod steps apart *)
Theorem C34_never_within_period : forall l e n, iter_only e n -> 0 <= nDone e -> increasing (iterLast e) l ->
  forall j k t u, (j < k)%nat -> nth_error l j = Some t -> nth_error l k = Some u -> ran e l j -> ran e l k -> n <= iterNow u - iterNow t.
Proof. exact spaced. Qed.
Print Assumptions C34_never_within_period.
Example C34_never_within_period_ex : iter_only (fresh 0 0 0 5 (-1) true 0) 5 /\ increasing 0 [at_step 3; at_step 5; at_step 8] /\
  ran (fresh 0 0 0 5 (-1) true 0) [at_step 3; at_step 5; at_step 8] 0 /\ ran (fresh 0 0 0 5 (-1) true 0) [at_step 3; at_step 5; at_step 8] 2.
Proof. repeat split; cbn; lia. Qed.

(** C34: with any combination of periods, after the first activation the engine runs
    when one of the periods has passed since the last run, and the counting of all
    periods starts again only then *)
Theorem C34_whichever_comes_first : forall e t, 1 <= nDone e -> iterLast e <= iterNow t ->
  (snd (isActivated e t) = true <-> due e t /\ below_limit e (nDone e)) /\
  (snd (isActivated e t) = true -> fst (isActivated e t) = mark e t) /\ (snd (isActivated e t) = false -> fst (isActivated e t) = e).
Proof. exact due_runs. Qed.
Print Assumptions C34_whichever_comes_first.
Example C34_whichever_comes_first_ex : let e := fst (calls (fresh 100 0 50 10 (-1) false 0) [mkNow 0 110 0; mkNow 1 120 1]) in
  1 <= nDone e /\ iterLast e <= 4 /\ due e (mkNow 4 160 4).
Proof. cbn. split; [lia|]. split; [lia|]. right. left. cbn. lia. Qed.

(** C34: when the step number goes back (O.resetTime), and no period has passed, the
    engine is as if called for the first time: it runs if initRun is set, and all
    counting starts again from there *)
Theorem C34_starts_again : forall e t, (firstIterRun e <= 0 \/ 1 <= nDone e) -> iterNow t < iterLast e -> ~ due e t ->
  snd (isActivated e t) = initRun e /\ nDone (fst (isActivated e t)) = 1 /\
  iterLast (fst (isActivated e t)) = iterNow t /\ virtLast (fst (isActivated e t)) = virtNow t /\ realLast (fst (isActivated e t)) = realNow t.
Proof. exact reset_again. Qed.
Print Assumptions C34_starts_again.
Example C34_starts_again_ex : let e := fst (calls (fresh 0 0 0 10 (-1) false 0) [at_step 0; at_step 10; at_step 20]) in
  nDone e = 3 /\ iterNow (at_step 15) < iterLast e /\ ~ due e (at_step 15) /\ runs e [at_step 15; at_step 20; at_step 25] = [false; false; true].
Proof. cbv zeta. split; [reflexivity|]. split; [reflexivity|]. split; [|reflexivity]. intros [D|[D|D]]; cbn in D; lia. Qed.

(** C57: an engine that is called in every step from step s < iterPeriod on runs in
    the steps s, s+iterPeriod, s+2 iterPeriod, ...: in the first one only with initRun,
    and in the j-th following one only if j < nDo (or nDo < 0) *)
Theorem C57_exact_schedule_partial : forall e n s l, iter_only e n -> new_engine e -> firstIterRun e <= 0 -> 0 <= s < n -> every_step s l ->
  forall k, (k < length l)%nat -> ran e l k <-> exists j, 0 <= j /\ Z.of_nat k = j * n /\ (j = 0 -> initRun e = true) /\ (1 <= j -> below_limit e j).
Proof. exact schedule_plain. Qed.
Print Assumptions C57_exact_schedule_partial.
Example C57_exact_schedule_ex : iter_only (fresh 0 0 0 2 3 false 0) 2 /\ new_engine (fresh 0 0 0 2 3 false 0) /\ every_step 1 [at_step 1; at_step 2; at_step 3; at_step 4; at_step 5; at_step 6; at_step 7] /\
  runs (fresh 0 0 0 2 3 false 0) [at_step 1; at_step 2; at_step 3; at_step 4; at_step 5; at_step 6; at_step 7] = [false; false; true; false; true; false; false].
Proof.
  split; [repeat split; cbn; lia|]. split; [repeat split|]. split; [|reflexivity]. intros k t E. do 7 (destruct k as [|k]; [injection E as <-; reflexivity|]). destruct k; discriminate E.
Qed.

(** C57 refuted: an engine added at step s >= iterPeriod runs at once even without initRun *)
Theorem C57_no_initial_run_refuted : exists e s l, iter_only e 10 /\ new_engine e /\ firstIterRun e <= 0 /\ initRun e = false /\ every_step s l /\ ran e l 0.
Proof.
  exists (fresh 0 0 0 10 (-1) false 0), 5000, [at_step 5000]. repeat split; cbn; try lia. intros [|[|k]] t E; cbn in E; try discriminate. injection E as <-. reflexivity.
Qed.
Print Assumptions C57_no_initial_run_refuted.

(** C57 refuted: the initial call without a run is counted, so that an engine with
    nDo = m runs m - 1 times; with m = 1 it never runs *)
Theorem C57_nDo_runs_refuted : exists e, iter_only e 10 /\ new_engine e /\ firstIterRun e <= 0 /\ nDo e = 1 /\ initRun e = false /\
  forall l, every_step 0 l -> forall k, ~ ran e l k.
Proof.
  exists (fresh 0 0 0 10 1 false 0). assert (Hn : iter_only (fresh 0 0 0 10 1 false 0) 10) by (repeat split; cbn; lia). split; [exact Hn|]. split; [repeat split|]. split; [cbn; lia|]. split; [reflexivity|]. split; [reflexivity|].
  intros l He k R. assert (Hk : (k < length l)%nat). { assert (Hl : forall l e, length (runs e l) = length l) by (clear; intros l; induction l as [|t l IH]; intros e; [reflexivity|rewrite runs_cons; cbn; f_equal; apply IH]). rewrite <- (Hl l (fresh 0 0 0 10 1 false 0)). apply nth_error_Some. unfold ran in R. congruence. }
  apply (schedule_plain _ 10 0 l Hn ltac:(repeat split) ltac:(cbn; lia) ltac:(lia) He k Hk) in R. destruct R as (j & Hj & Ej & Hi & Hb). destruct (Z.eq_dec j 0) as [->|N]; [discriminate (Hi eq_refl)|]. destruct (Hb ltac:(lia)) as [H|H]; cbn in H; lia.
Qed.
Print Assumptions C57_nDo_runs_refuted.

(** C57: with firstIterRun = f, called in every step from some step s <= f on, it runs
    in the steps f, f+iterPeriod, ... *)
Theorem C57_first_run_partial : forall e n s f l, iter_only e n -> nDone e = 0 -> firstIterRun e = f -> 0 < f -> s <= f -> every_step s l ->
  forall k, (k < length l)%nat -> ran e l k <-> exists j, 0 <= j /\ s + Z.of_nat k = f + j * n /\ (1 <= j -> below_limit e j).
Proof. exact schedule_first. Qed.
Print Assumptions C57_first_run_partial.
Example C57_first_run_ex : iter_only (fresh 0 0 0 2 2 false 3) 2 /\ every_step 2 [at_step 2; at_step 3; at_step 4; at_step 5; at_step 6; at_step 7] /\
  runs (fresh 0 0 0 2 2 false 3) [at_step 2; at_step 3; at_step 4; at_step 5; at_step 6; at_step 7] = [false; true; false; true; false; false].
Proof.
  split; [repeat split; cbn; lia|]. split; [|reflexivity]. intros k t E. do 6 (destruct k as [|k]; [injection E as <-; reflexivity|]). destruct k; discriminate E.
Qed.

(** C57 refuted: if it is not called in that very step (dead, or added later), it never runs *)
Theorem C57_first_run_refuted : exists e, iter_only e 10 /\ new_engine e /\ firstIterRun e = 3 /\
  forall l, every_step 4 l -> forall k, ~ ran e l k.
Proof.
  exists (fresh 0 0 0 10 (-1) true 3). split; [repeat split; cbn; lia|]. split; [repeat split|]. split; [reflexivity|]. intros l He. apply first_missed; [reflexivity|cbn; lia|].
  intros t Ht. apply In_nth_error in Ht. destruct Ht as (k & E). apply He in E. cbn. lia.
Qed.
Print Assumptions C57_first_run_refuted.
