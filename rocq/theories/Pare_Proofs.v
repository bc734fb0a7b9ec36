(** Engines run in parallel *)
From Coq Require Import List Bool Arith Lia Permutation.
From Verif Require Import Pare_Model Pare_Spec.
Import ListNotations.

(** ** C272 *)
Lemma set_get {E} (s : list (list E)) : forall acc, slaves_set acc (slaves_get s) = (acc ++ s, true).
Proof.
  induction s as [|g s IH]; intros acc; cbn [slaves_get map slaves_set]; [rewrite app_nil_r; reflexivity|].
  assert (A : forall x : list E, (acc ++ [x]) ++ s = acc ++ x :: s) by (intros x; rewrite <- app_assoc; reflexivity).
  destruct g as [|e [|e' g']]; cbn [slaves_set]; fold (slaves_get s); rewrite IH, A; reflexivity.
Qed.
Theorem round_trip {E} (old s : list (list E)) : assign old (slaves_get s) = (s, true).
Proof. unfold assign. rewrite set_get. reflexivity. Qed.
Lemma get_app {E} (a b : list (list E)) : slaves_get (a ++ b) = slaves_get a ++ slaves_get b. Proof. apply map_app. Qed.
Lemma set_valid {E} (l : list (pyval E)) : Forall valid l -> forall acc, exists s, slaves_set acc l = (acc ++ s, true) /\ Forall2 same_value l (slaves_get s).
Proof.
  induction l as [|v l IH]; intros F acc; [exists []; rewrite app_nil_r; split; [reflexivity|constructor]|].
  pose proof (Forall_inv F) as V. apply Forall_inv_tail in F. destruct v as [e|g|]; [| |destruct V].
  - destruct (IH F (acc ++ [[e]])) as (s & E1 & E2). exists ([e] :: s). cbn [slaves_set]. rewrite E1, <- app_assoc. split; [reflexivity|]. cbn [slaves_get map]. constructor; [left; reflexivity|exact E2].
  - destruct (IH F (acc ++ [g])) as (s & E1 & E2). exists (g :: s). cbn [slaves_set]. rewrite E1, <- app_assoc. split; [reflexivity|]. cbn [slaves_get map]. constructor; [|exact E2].
    destruct g as [|e [|e' g']]; [left; reflexivity|right; exists e; split; reflexivity|left; reflexivity].
Qed.
Theorem assigned {E} (old : list (list E)) l : Forall valid l -> exists s, assign old l = (s, true) /\ Forall2 same_value l (slaves_get s).
Proof. intros F. exact (set_valid l F []). Qed.
Theorem rejected {E} (old : list (list E)) l : snd (assign old l) = false <-> ~ Forall valid l.
Proof.
  unfold assign. generalize (@nil (list E)) as acc. induction l as [|v l IH]; intros acc; [cbn; split; [discriminate|intros H; exfalso; apply H; constructor]|].
  destruct v as [e|g|]; cbn [slaves_set].
  - rewrite IH. split; intros H F; apply H; [exact (Forall_inv_tail F)|constructor; [exact I|exact F]].
  - rewrite IH. split; intros H F; apply H; [exact (Forall_inv_tail F)|constructor; [exact I|exact F]].
  - cbn. split; [intros _ F; exact (Forall_inv F)|reflexivity].
Qed.
Theorem lost_refuted : assign [[1; 2]; [3]] [PAlone 4; POther] = ([[4]], false).
Proof. reflexivity. Qed.

(** ** C273 and C274 *)
Lemma take_concat {E} (gs : list (list E)) : forall i e gs', take gs i = Some (e, gs') -> Permutation (concat gs) (e :: concat gs') /\ length gs' = length gs /\ nth i gs [] = e :: nth i gs' [] /\ (forall j, j <> i -> nth j gs' [] = nth j gs []).
Proof.
  induction gs as [|g gs IH]; intros i e gs' H; [destruct i; discriminate H|]. destruct i as [|i]; cbn [take] in H.
  - destruct g as [|x g']; [discriminate H|]. injection H as <- <-. split; [reflexivity|]. split; [reflexivity|]. split; [reflexivity|]. intros [|j] N; [contradiction N; reflexivity|reflexivity].
  - destruct (take gs i) as [[x r]|] eqn:T; [|discriminate H]. injection H as <- <-. destruct (IH i x r T) as (P & L & Q & Z). split; [|split; [|split]].
    + cbn [concat]. rewrite P. symmetry. apply Permutation_middle.
    + cbn [length]. rewrite L. reflexivity.
    + exact Q.
    + intros [|j] N; [reflexivity|]. cbn [nth]. apply Z. intros ->. apply N. reflexivity.
Qed.
Lemma independent_sub {S} (gs : list (list (engine S))) : forall i e gs', independent gs -> take gs i = Some (e, gs') -> independent gs'.
Proof.
  induction gs as [|g gs IH]; intros i e gs' D H; [destruct i; discriminate H|]. destruct D as (D1 & D2). destruct i as [|i]; cbn [take] in H.
  - destruct g as [|x g']; [discriminate H|]. injection H as <- <-. cbn [independent]. split; [|exact D2]. intros a b A B. apply D1; [right; exact A|exact B].
  - destruct (take gs i) as [[x r]|] eqn:T; [|discriminate H]. injection H as <- <-. cbn [independent]. split; [|exact (IH i x r D2 T)]. intros a b A B. apply D1; [exact A|]. destruct (take_concat gs i x r T) as (P & _). apply (Permutation_in _ (Permutation_sym P)). right. exact B.
Qed.
Lemma pass {S} (l : list (engine S)) e : (forall a, In a l -> commute a e) -> forall s, fold_left (fun s x => fst (run_one x s)) l (fst (run_one e s)) = fst (run_one e (fold_left (fun s x => fst (run_one x s)) l s)).
Proof.
  induction l as [|a l IH]; intros C s; [reflexivity|]. cbn [fold_left]. rewrite (C a (or_introl eq_refl) s). apply IH. intros b B. apply C. right. exact B.
Qed.
Lemma take_first {S} (gs : list (list (engine S))) : forall i e gs' s, independent gs -> take gs i = Some (e, gs') -> one_after_another gs s = one_after_another gs' (fst (run_one e s)).
Proof.
  induction gs as [|g gs IH]; intros i e gs' s D H; [destruct i; discriminate H|]. destruct D as (D1 & D2). destruct i as [|i]; cbn [take] in H.
  - destruct g as [|x g']; [discriminate H|]. injection H as <- <-. reflexivity.
  - destruct (take gs i) as [[x r]|] eqn:T; [|discriminate H]. injection H as <- <-. unfold one_after_another in *. cbn [concat]. rewrite !fold_left_app. rewrite (IH i x r _ D2 T). f_equal.
    symmetry. apply pass. intros a A. apply D1; [exact A|]. destruct (take_concat gs i x r T) as (P & _). apply (Permutation_in _ (Permutation_sym P)). left. reflexivity.
Qed.
Lemma ended_concat {E} (gs : list (list E)) : ended gs -> concat gs = [].
Proof. induction gs as [|g gs IH]; intros F; [reflexivity|]. cbn [concat]. rewrite (Forall_inv F), IH; [reflexivity|exact (Forall_inv_tail F)]. Qed.
Theorem any_schedule {S} sched : forall (gs : list (list (engine S))) s tr gs' s' tr', independent gs -> run gs sched s tr = (gs', s', tr') -> ended gs' -> s' = one_after_another gs s.
Proof.
  induction sched as [|i sched IH]; intros gs s tr gs' s' tr' D H F; cbn [run] in H.
  - injection H as <- <- <-. unfold one_after_another. rewrite (ended_concat gs F). reflexivity.
  - destruct (take gs i) as [[e r]|] eqn:T; [|exact (IH _ _ _ _ _ _ D H F)]. rewrite (take_first gs i e r s D T). exact (IH _ _ _ _ _ _ (independent_sub gs i e r D T) H F).
Qed.
Theorem schedule_refuted : (exists tr, run [[adds 1]; [doubles]] [0; 1] 0 [] = ([[]; []], 2, tr)) /\ (exists tr, run [[adds 1]; [doubles]] [1; 0] 0 [] = ([[]; []], 1, tr)).
Proof. split; eexists; reflexivity. Qed.

Lemma of_group_app {S} i (a b : list (nat * engine S)) : of_group i (a ++ b) = of_group i a ++ of_group i b.
Proof. unfold of_group. rewrite filter_app, map_app. reflexivity. Qed.
Theorem trace_spec {S} sched : forall (gs : list (list (engine S))) s tr gs' s' tr', run gs sched s tr = (gs', s', tr') -> length gs' = length gs /\ forall i, of_group i tr' ++ nth i gs' [] = of_group i tr ++ nth i gs [].
Proof.
  induction sched as [|j sched IH]; intros gs s tr gs' s' tr' H; cbn [run] in H.
  - injection H as <- <- <-. split; [reflexivity|]. intros i. reflexivity.
  - destruct (take gs j) as [[e r]|] eqn:T; [|exact (IH _ _ _ _ _ _ H)]. destruct (take_concat gs j e r T) as (_ & L & Q & Z). destruct (IH _ _ _ _ _ _ H) as (L' & I). split; [congruence|]. intros i. rewrite I, of_group_app. unfold of_group at 2. cbn [filter fst]. destruct (Nat.eqb j i) eqn:J.
    + apply Nat.eqb_eq in J. subst j. cbn [map snd]. rewrite <- app_assoc. cbn [app]. rewrite Q. reflexivity.
    + apply Nat.eqb_neq in J. cbn [map]. rewrite app_nil_r. rewrite (Z i) by (intros ->; apply J; reflexivity). reflexivity.
Qed.
Theorem each_once {S} sched (gs : list (list (engine S))) s gs' s' tr' : run gs sched s [] = (gs', s', tr') -> ended gs' -> forall i, of_group i tr' = nth i gs [].
Proof.
  intros H F i. destruct (trace_spec sched gs s [] gs' s' tr' H) as (L & I). specialize (I i). assert (N : nth i gs' [] = []).
  { destruct (Nat.lt_ge_cases i (length gs')) as [J | J]; [|apply nth_overflow; exact J]. unfold ended in F. rewrite Forall_forall in F. apply F. apply nth_In. exact J. }
  rewrite N, app_nil_r in I. exact I.
Qed.
(** a schedule that gives every group enough turns ends *)
Lemma take_len {E} (gs : list (list E)) : forall i e gs', take gs i = Some (e, gs') -> length (concat gs) = Datatypes.S (length (concat gs')).
Proof. intros i e gs' H. destruct (take_concat gs i e gs' H) as (P & _). apply Permutation_length in P. exact P. Qed.
Lemma busy {E} (gs : list (list E)) : concat gs <> [] -> exists i e gs', take gs i = Some (e, gs').
Proof.
  induction gs as [|g gs IH]; intros N; [contradiction N; reflexivity|]. destruct g as [|x g']; [|exists 0, x, (g' :: gs); reflexivity].
  destruct (IH N) as (i & e & r & T). exists (Datatypes.S i), e, ([] :: r). cbn [take]. rewrite T. reflexivity.
Qed.
Lemma concat_ended {E} (gs : list (list E)) : concat gs = [] -> ended gs.
Proof. induction gs as [|g gs IH]; intros H; [constructor|]. apply app_eq_nil in H as (-> & H). constructor; [reflexivity|exact (IH H)]. Qed.
Theorem not_stuck {S} : forall n (gs : list (list (engine S))) s tr, length (concat gs) = n -> exists sched gs' s' tr', run gs sched s tr = (gs', s', tr') /\ ended gs' /\ length sched = n.
Proof.
  induction n as [|n IH]; intros gs s tr L.
  - exists [], gs, s, tr. split; [reflexivity|]. split; [apply concat_ended; apply length_zero_iff_nil; exact L|reflexivity].
  - destruct (busy gs) as (i & e & r & T); [intros Z; rewrite Z in L; discriminate L|]. pose proof (take_len gs i e r T) as LE. destruct (IH r (fst (run_one e s)) (tr ++ [(i, e)])) as (sched & gs' & s' & tr' & R & F & N); [lia|]. exists (i :: sched), gs', s', tr'. cbn [run]. rewrite T. split; [exact R|]. split; [exact F|]. cbn [length]. rewrite N. reflexivity.
Qed.
Theorem inactive {S} (e : engine S) s : (dead e = true -> run_one e s = (s, false)) /\ (dead e = false -> fst (activated e s) = false -> run_one e s = (snd (activated e s), false)) /\ (dead e = false -> fst (activated e s) = true -> run_one e s = (act e (snd (activated e s)), true)).
Proof. unfold run_one. destruct (activated e s) as [a s1]. cbn [fst snd]. split; [intros ->; reflexivity|]. split; intros -> ->; reflexivity. Qed.
