From Coq Require Import List ZArith Bool Lia.
From Verif Require Import Period_Model Period_Spec.
Import ListNotations.
Local Open Scope Z_scope.

Lemma elapsed_due e t : elapsed e t = true <-> due e t.
Proof.
  unfold elapsed, due. rewrite !orb_true_iff, !andb_true_iff, !Z.gtb_lt, !Z.geb_le. tauto.
Qed.
Lemma elapsed_iter e n t : iter_only e n -> elapsed e t = (iterNow t - iterLast e >=? n).
Proof.
  intros (V & R & <- & Hn). unfold elapsed. replace (virtPeriod e >? 0) with false by (symmetry; rewrite Z.gtb_ltb; apply Z.ltb_ge; lia).
  replace (realPeriod e >? 0) with false by (symmetry; rewrite Z.gtb_ltb; apply Z.ltb_ge; lia). replace (iterPeriod e >? 0) with true by (symmetry; apply Z.gtb_lt; lia). reflexivity.
Qed.
Lemma iter_only_mark e n t : iter_only e n -> iter_only (mark e t) n.
Proof. exact (fun H => H). Qed.
Lemma runs_cons e t l : runs e (t :: l) = snd (isActivated e t) :: runs (fst (isActivated e t)) l.
Proof. unfold runs. cbn [calls]. destruct (isActivated e t) as [e1 b]. cbn [fst]. destruct (calls e1 l) as [e2 r]. reflexivity. Qed.
Lemma count_cons b l : count (b :: l) = (if b then 1 else 0) + count l.
Proof. unfold count. cbn [filter]. destruct b; cbn [length]; lia. Qed.
Lemma count_nonneg l : 0 <= count l.
Proof. unfold count. lia. Qed.

(** a call after the first activation, the step number not smaller than at the last one *)
Lemma activated_later e t : 1 <= nDone e -> iterLast e <= iterNow t ->
  isActivated e t = if ((nDo e <? 0) || (nDone e <? nDo e)) && elapsed e t then (mark e t, true) else (e, false).
Proof.
  intros Hd Hi. unfold isActivated. replace (nDone e =? 0) with false by (symmetry; apply Z.eqb_neq; lia). rewrite andb_false_r.
  replace (iterNow t <? iterLast e) with false by (symmetry; apply Z.ltb_ge; lia). cbv zeta. replace (nDone e =? 0) with false by (symmetry; apply Z.eqb_neq; lia). reflexivity.
Qed.
Lemma activated_cases e t : exists e1 b, isActivated e t = (e1, b) /\
  ((e1 = e /\ b = false) \/
   (e1 = mark e t /\ b = true /\ nDone e = 0 /\ 0 < firstIterRun e) \/
   (e1 = restart e /\ b = false /\ nDone (restart e) <> 0) \/
   (exists e0, (e0 = e \/ (e0 = restart e /\ iterNow t < iterLast e)) /\ e1 = mark e0 t /\
      ((b = true /\ below_limit e0 (nDone e0) /\ due e0 t) \/ (b = initRun e /\ nDone e0 = 0)))).
Proof.
  unfold isActivated. destruct ((firstIterRun e >? 0) && (nDone e =? 0)) eqn:E.
  - apply andb_true_iff in E. destruct E as [E1 E2]. apply Z.gtb_lt in E1. apply Z.eqb_eq in E2. destruct (firstIterRun e =? iterNow t); eexists _, _; (split; [reflexivity|]); auto 6.
  - cbv zeta. destruct (iterNow t <? iterLast e) eqn:Ei.
    + apply Z.ltb_lt in Ei. destruct (((nDo (restart e) <? 0) || (nDone (restart e) <? nDo (restart e))) && elapsed (restart e) t) eqn:Eb.
      * apply andb_true_iff in Eb. destruct Eb as [Ea Eb]. apply elapsed_due in Eb. apply orb_true_iff in Ea. rewrite !Z.ltb_lt in Ea. eexists _, _. split; [reflexivity|]. right. right. right. exists (restart e). split; [auto|]. split; [reflexivity|]. left. auto.
      * cbn [nDone restart]. rewrite Z.eqb_refl. eexists _, _. split; [reflexivity|]. right. right. right. exists (restart e). split; [auto|]. split; [reflexivity|]. right. auto.
    + destruct (((nDo e <? 0) || (nDone e <? nDo e)) && elapsed e t) eqn:Eb.
      * apply andb_true_iff in Eb. destruct Eb as [Ea Eb]. apply elapsed_due in Eb. apply orb_true_iff in Ea. rewrite !Z.ltb_lt in Ea. eexists _, _. split; [reflexivity|]. right. right. right. exists e. split; [auto|]. split; [reflexivity|]. left. auto.
      * destruct (nDone e =? 0) eqn:En; eexists _, _; (split; [reflexivity|]); [|auto]. apply Z.eqb_eq in En. right. right. right. exists e. split; [auto|]. split; [reflexivity|]. right. auto.
Qed.

(** ** counting *)
Lemma count_later l : forall e m, nDo e = m -> 0 <= m -> 1 <= nDone e -> increasing (iterLast e) l -> count (runs e l) <= Z.max 0 (m - nDone e).
Proof.
  induction l as [|t l IH]; intros e m Em Hm Hd Hi; [unfold count, runs; cbn; lia|]. destruct Hi as [H1 H2]. rewrite runs_cons, count_cons, (activated_later e t Hd H1).
  destruct (((nDo e <? 0) || (nDone e <? nDo e)) && elapsed e t) eqn:E; cbn [fst snd].
  - apply andb_true_iff in E. destruct E as [E _]. apply orb_true_iff in E. rewrite !Z.ltb_lt in E. specialize (IH (mark e t) m Em Hm). cbn [nDone mark iterLast] in IH. specialize (IH ltac:(lia) H2). lia.
  - assert (H3 : increasing (iterLast e) l). { clear -H1 H2. destruct l as [|t' l]; [exact I|]. destruct H2. split; [lia|assumption]. } specialize (IH e m Em Hm Hd H3). lia.
Qed.
Lemma increasing_weak a b l : a <= b -> increasing b l -> increasing a l.
Proof. destruct l as [|t l]; [auto|]. intros Hab [H1 H2]. split; [lia|exact H2]. Qed.
Theorem count_bound e m l : nDo e = m -> 1 <= m -> 0 <= nDone e -> increasing (iterLast e) l -> count (runs e l) <= m.
Proof.
  intros Em Hm Hd Hi. destruct (Z.eq_dec (nDone e) 0) as [E0|E0]; [|pose proof (count_later l e m Em ltac:(lia) ltac:(lia) Hi); lia]. clear Hd.
  revert e Em E0 Hi. induction l as [|t l IH]; intros e Em E0 Hi; [unfold count, runs; cbn; lia|]. destruct Hi as [H1 H2]. rewrite runs_cons, count_cons.
  destruct (activated_cases e t) as (e1 & b & -> & C). cbn [fst snd].
  assert (K : forall e0, nDo e0 = m -> nDone e0 = 0 -> (if b then 1 else 0) + count (runs (mark e0 t) l) <= m).
  { intros e0 Ed E. pose proof (count_later l (mark e0 t) m Ed ltac:(lia)) as B. cbn [nDone mark iterLast] in B. specialize (B ltac:(lia) H2). destruct b; lia. }
  destruct C as [[-> ->]|[(-> & -> & _ & _)|[(_ & _ & N)|(e0 & [->|[-> Hlt]] & -> & _)]]].
  - specialize (IH e Em E0 (increasing_weak _ _ _ H1 H2)). lia.
  - apply K; assumption.
  - exfalso. apply N. reflexivity.
  - apply K; assumption.
  - lia.
Qed.

(** ** spacing *)
Lemma spaced_later l : forall e n, iter_only e n -> 1 <= nDone e -> increasing (iterLast e) l ->
  (forall k t, nth_error l k = Some t -> ran e l k -> n <= iterNow t - iterLast e) /\
  (forall j k t u, (j < k)%nat -> nth_error l j = Some t -> nth_error l k = Some u -> ran e l j -> ran e l k -> n <= iterNow u - iterNow t).
Proof.
  induction l as [|t l IH]; intros e n Hn Hd Hi; [split; [intros [|k] u E; discriminate E|intros [|j] k u v Hlt E; discriminate E]|].
  destruct Hi as [H1 H2]. unfold ran. rewrite runs_cons, (activated_later e t Hd H1). pose proof (elapsed_iter e n t Hn) as Ee. pose proof (proj2 (proj2 (proj2 Hn))) as Hpos.
  destruct (((nDo e <? 0) || (nDone e <? nDo e)) && elapsed e t) eqn:E; cbn [fst snd].
  - apply andb_true_iff in E. destruct E as [_ E]. rewrite Ee in E. apply Z.geb_le in E. destruct (IH (mark e t) n Hn ltac:(cbn; lia) H2) as [A B]. cbn [iterLast mark] in A. split.
    + intros [|k] u E1 E2; cbn in E1, E2; [injection E1 as <-; lia|]. specialize (A k u E1 E2). lia.
    + intros [|j] [|k] u v Hlt E1 E2 R1 R2; try lia; cbn in E1, E2, R1, R2; [injection E1 as <-; exact (A k v E2 R2)|]. eapply (B j k); eauto; lia.
  - destruct (IH e n Hn Hd (increasing_weak _ _ _ H1 H2)) as [A B]. split.
    + intros [|k] u E1 E2; cbn in E1, E2; [discriminate|]. exact (A k u E1 E2).
    + intros [|j] [|k] u v Hlt E1 E2 R1 R2; try lia; cbn in E1, E2, R1, R2; [discriminate|]. eapply (B j k); eauto; lia.
Qed.
Theorem spaced l : forall e n, iter_only e n -> 0 <= nDone e -> increasing (iterLast e) l ->
  forall j k t u, (j < k)%nat -> nth_error l j = Some t -> nth_error l k = Some u -> ran e l j -> ran e l k -> n <= iterNow u - iterNow t.
Proof.
  induction l as [|t l IH]; intros e n Hn Hd Hi j k u v Hlt E1 E2 R1 R2; [destruct j; discriminate E1|].
  destruct (Z.eq_dec (nDone e) 0) as [E0|E0]; [|destruct (spaced_later (t :: l) e n Hn ltac:(lia) Hi) as [_ B]; eapply (B j k); eassumption].
  destruct Hi as [H1 H2]. unfold ran in R1, R2. rewrite runs_cons in R1, R2. destruct k as [|k]; [lia|]. cbn [nth_error] in E2, R2.
  destruct (activated_cases e t) as (e1 & b & Ea & C). rewrite Ea in R1, R2. cbn [fst snd] in R1, R2.
  assert (K : forall e0, iter_only e0 n -> nDone e0 = 0 -> e1 = mark e0 t -> n <= iterNow v - iterNow u).
  { intros e0 Hn0 Ez ->. destruct (spaced_later l (mark e0 t) n Hn0 ltac:(cbn; lia) H2) as [A B]. destruct j as [|j]; cbn [nth_error] in E1, R1; [injection E1 as <-; exact (A k v E2 R2)|]. eapply (B j k); eauto; lia. }
  destruct C as [[-> ->]|[(-> & -> & _ & _)|[(_ & _ & N)|(e0 & [->|[-> Hl]] & -> & _)]]].
  - destruct j as [|j]; [discriminate R1|]. cbn [nth_error] in E1, R1. eapply (IH e n Hn Hd (increasing_weak _ _ _ H1 H2) j k); eauto; lia.
  - eapply K; eauto.
  - destruct N. reflexivity.
  - eapply K; eauto.
  - lia.
Qed.

(** ** the exact schedule *)
Lemma never_over l : forall e, 1 <= nDone e -> 0 <= nDo e <= nDone e -> increasing (iterLast e) l -> forall k, ~ ran e l k.
Proof.
  induction l as [|t l IH]; intros e Hd Ho Hi k; [destruct k; intros H; discriminate H|]. destruct Hi as [H1 H2]. unfold ran. rewrite runs_cons, (activated_later e t Hd H1).
  replace (nDo e <? 0) with false by (symmetry; apply Z.ltb_ge; lia). replace (nDone e <? nDo e) with false by (symmetry; apply Z.ltb_ge; lia). cbn [orb andb fst snd].
  destruct k as [|k]; [discriminate|]. exact (IH e Hd Ho (increasing_weak _ _ _ H1 H2) k).
Qed.
Lemma every_cons s t l : every_step s (t :: l) -> iterNow t = s /\ every_step (s + 1) l.
Proof.
  intros H. split; [specialize (H 0%nat t eq_refl); lia|]. intros k u E. specialize (H (S k) u E). lia.
Qed.
Lemma every_increasing l : forall a s, a <= s -> every_step s l -> increasing a l.
Proof. induction l as [|t l IH]; intros a s Ha He; [exact I|]. destruct (every_cons _ _ _ He) as [E He']. split; [lia|]. apply (IH _ (s + 1)); [lia|exact He']. Qed.
Lemma schedule_later l : forall e n i, iter_only e n -> 1 <= nDone e -> every_step i l -> iterLast e <= i <= iterLast e + n ->
  forall k, (k < length l)%nat -> ran e l k <-> exists j, 1 <= j /\ i + Z.of_nat k = iterLast e + j * n /\ below_limit e (nDone e + j - 1).
Proof.
  induction l as [|t l IH]; intros e n i Hn Hd He Hi k Hk; [cbn in Hk; lia|]. destruct (every_cons _ _ _ He) as [Et He']. pose proof (proj2 (proj2 (proj2 Hn))) as Hpos. unfold below_limit.
  destruct (Z_lt_le_dec (nDo e) 0) as [Hneg|Hneg]; [|destruct (Z_lt_le_dec (nDone e) (nDo e)) as [Hlt|Hge]].
  3: { split; [intros R; destruct (never_over (t :: l) e Hd ltac:(lia) (every_increasing _ _ _ (proj1 Hi) He) k R)|intros (j & Hj & _ & L); lia]. }
  all: unfold ran; rewrite runs_cons, (activated_later e t Hd ltac:(lia)), (elapsed_iter e n t Hn), Et.
  all: assert (Hb : (nDo e <? 0) || (nDone e <? nDo e) = true) by (apply orb_true_iff; rewrite !Z.ltb_lt; lia); rewrite Hb; cbn [andb].
  all: destruct (i - iterLast e >=? n) eqn:E; [apply Z.geb_le in E|rewrite Z.geb_leb in E; apply Z.leb_gt in E]; cbn [fst snd].
  all: destruct k as [|k]; cbn [nth_error].
  all: try (split; [intros _; exists 1; split; [lia|]; split; [lia|lia]|reflexivity]).
  all: try (split; [discriminate|]; intros (j & Hj & Ej & _); exfalso; nia).
  - specialize (IH (mark e t) n (i + 1) Hn ltac:(cbn; lia) He' ltac:(cbn [iterLast mark]; lia) k ltac:(cbn in Hk; lia)). unfold ran in IH. rewrite IH. cbn [iterLast mark nDone]. unfold below_limit. cbn [nDo mark]. rewrite Et. split.
    + intros (j & Hj & Ej & L). exists (j + 1). split; [lia|]. split; [lia|left; lia].
    + intros (j & Hj & Ej & L). exists (j - 1). split; [nia|]. split; [lia|left; lia].
  - specialize (IH e n (i + 1) Hn Hd He' ltac:(lia) k ltac:(cbn in Hk; lia)). unfold ran in IH. rewrite IH. unfold below_limit. split; intros (j & Hj & Ej & L); exists j; (split; [exact Hj|]); (split; [lia|exact L]).
  - specialize (IH (mark e t) n (i + 1) Hn ltac:(cbn; lia) He' ltac:(cbn [iterLast mark]; lia) k ltac:(cbn in Hk; lia)). unfold ran in IH. rewrite IH. cbn [iterLast mark nDone]. unfold below_limit. cbn [nDo mark]. rewrite Et. split.
    + intros (j & Hj & Ej & L). exists (j + 1). split; [lia|]. split; [lia|right; lia].
    + intros (j & Hj & Ej & L). exists (j - 1). split; [nia|]. split; [lia|right; lia].
  - specialize (IH e n (i + 1) Hn Hd He' ltac:(lia) k ltac:(cbn in Hk; lia)). unfold ran in IH. rewrite IH. unfold below_limit. split; intros (j & Hj & Ej & L); exists j; (split; [exact Hj|]); (split; [lia|exact L]).
Qed.
Theorem schedule_plain e n s l : iter_only e n -> new_engine e -> firstIterRun e <= 0 -> 0 <= s < n -> every_step s l ->
  forall k, (k < length l)%nat -> ran e l k <-> exists j, 0 <= j /\ Z.of_nat k = j * n /\ (j = 0 -> initRun e = true) /\ (1 <= j -> below_limit e j).
Proof.
  intros Hn (Hv & Hil & Hnd) Hf Hs He k Hk. destruct l as [|t l]; [cbn in Hk; lia|]. destruct (every_cons _ _ _ He) as [Et He']. unfold ran. rewrite runs_cons.
  assert (E : isActivated e t = (mark e t, initRun e)).
  { unfold isActivated. replace (firstIterRun e >? 0) with false by (symmetry; rewrite Z.gtb_ltb; apply Z.ltb_ge; lia). cbn [andb]. cbv zeta. replace (iterNow t <? iterLast e) with false by (symmetry; apply Z.ltb_ge; lia).
    rewrite (elapsed_iter e n t Hn). replace (iterNow t - iterLast e >=? n) with false by (symmetry; rewrite Z.geb_leb; apply Z.leb_gt; lia). rewrite andb_false_r, Hnd. reflexivity. }
  rewrite E. cbn [fst snd]. destruct k as [|k]; cbn [nth_error].
  - split; [intros H; injection H as H; exists 0; split; [lia|]; split; [lia|]; split; [auto|lia]|]. intros (j & Hj & Ej & Hini & _). assert (j = 0) by nia. rewrite (Hini H). reflexivity.
  - pose proof (schedule_later l (mark e t) n (s + 1) Hn ltac:(cbn; lia) He' ltac:(cbn [iterLast mark]; lia) k ltac:(cbn in Hk; lia)) as S. unfold ran in S. rewrite S. cbn [iterLast mark nDone]. unfold below_limit. cbn [nDo mark]. rewrite Et, Hnd. split.
    + intros (j & Hj & Ej & L). exists j. split; [lia|]. split; [lia|]. split; [lia|]. intros _. lia.
    + intros (j & Hj & Ej & _ & L). assert (1 <= j) by nia. exists j. split; [assumption|]. split; [lia|]. specialize (L H). lia.
Qed.
Theorem schedule_first e n s f : forall l, iter_only e n -> nDone e = 0 -> firstIterRun e = f -> 0 < f -> s <= f -> every_step s l ->
  forall k, (k < length l)%nat -> ran e l k <-> exists j, 0 <= j /\ s + Z.of_nat k = f + j * n /\ (1 <= j -> below_limit e j).
Proof.
  intros l. revert s. induction l as [|t l IH]; intros s Hn Hnd Hf Hpos Hs He k Hk; [cbn in Hk; lia|]. destruct (every_cons _ _ _ He) as [Et He']. pose proof (proj2 (proj2 (proj2 Hn))) as Hn0. unfold ran. rewrite runs_cons.
  unfold isActivated. replace (firstIterRun e >? 0) with true by (symmetry; apply Z.gtb_lt; lia). rewrite Hnd, Hf. cbn [Z.eqb andb]. rewrite Et. destruct (Z.eqb_spec f s) as [->|N]; cbn [fst snd].
  - destruct k as [|k]; cbn [nth_error]; [split; [intros _; exists 0; split; [lia|]; split; [lia|lia]|reflexivity]|].
    pose proof (schedule_later l (mark e t) n (s + 1) Hn ltac:(cbn; lia) He' ltac:(cbn [iterLast mark]; lia) k ltac:(cbn in Hk; lia)) as S. unfold ran in S. rewrite S. cbn [iterLast mark nDone]. unfold below_limit. cbn [nDo mark]. rewrite Et, Hnd. split.
    + intros (j & Hj & Ej & L). exists j. split; [lia|]. split; [lia|]. intros _. lia.
    + intros (j & Hj & Ej & L). assert (1 <= j) by nia. exists j. split; [assumption|]. split; [lia|]. specialize (L H). lia.
  - destruct k as [|k]; cbn [nth_error]; [split; [discriminate|]; intros (j & Hj & Ej & _); exfalso; nia|].
    specialize (IH (s + 1) Hn Hnd Hf Hpos ltac:(lia) He' k ltac:(cbn in Hk; lia)). unfold ran in IH. rewrite IH. split; intros (j & Hj & Ej & L); exists j; (split; [exact Hj|]); (split; [lia|exact L]).
Qed.
(** missed: never *)
Theorem first_missed e : forall l, nDone e = 0 -> 0 < firstIterRun e -> (forall t, In t l -> iterNow t <> firstIterRun e) -> forall k, ~ ran e l k.
Proof.
  intros l. induction l as [|t l IH]; intros Hnd Hf Hno k; [destruct k; intros H; discriminate H|]. unfold ran. rewrite runs_cons. unfold isActivated. replace (firstIterRun e >? 0) with true by (symmetry; apply Z.gtb_lt; lia). rewrite Hnd. cbn [Z.eqb andb].
  destruct (Z.eqb_spec (firstIterRun e) (iterNow t)) as [E|N]; [destruct (Hno t (or_introl eq_refl)); auto|]. cbn [fst snd]. destruct k as [|k]; [discriminate|]. apply IH; auto. intros u Hu. apply Hno. right. exact Hu.
Qed.
(** all clocks: after the first activation *)
Theorem due_runs e t : 1 <= nDone e -> iterLast e <= iterNow t ->
  (snd (isActivated e t) = true <-> due e t /\ below_limit e (nDone e)) /\
  (snd (isActivated e t) = true -> fst (isActivated e t) = mark e t) /\ (snd (isActivated e t) = false -> fst (isActivated e t) = e).
Proof.
  intros Hd Hi. rewrite (activated_later e t Hd Hi). unfold below_limit. rewrite <- elapsed_due.
  destruct (((nDo e <? 0) || (nDone e <? nDo e)) && elapsed e t) eqn:E; cbn [fst snd].
  - apply andb_true_iff in E. destruct E as [E1 E2]. apply orb_true_iff in E1. rewrite !Z.ltb_lt in E1. split; [split; auto|]. split; [reflexivity|discriminate].
  - split; [|split; [discriminate|reflexivity]]. split; [discriminate|]. intros [H1 H2]. rewrite <- !Z.ltb_lt in H2. apply orb_true_iff in H2. rewrite H1, H2 in E. discriminate E.
Qed.

(** ** the step number goes back *)
Lemma reset_again e t : (firstIterRun e <= 0 \/ 1 <= nDone e) -> iterNow t < iterLast e -> ~ due e t ->
  snd (isActivated e t) = initRun e /\ nDone (fst (isActivated e t)) = 1 /\
  iterLast (fst (isActivated e t)) = iterNow t /\ virtLast (fst (isActivated e t)) = virtNow t /\ realLast (fst (isActivated e t)) = realNow t.
Proof.
  intros F L ND. unfold isActivated.
  assert (C : (firstIterRun e >? 0) && (nDone e =? 0) = false).
  { apply andb_false_iff. destruct F as [F|F]; [left; rewrite Z.gtb_ltb; apply Z.ltb_ge; lia|right; apply Z.eqb_neq; lia]. }
  rewrite C. cbv zeta. rewrite (proj2 (Z.ltb_lt _ _) L).
  assert (E : elapsed (restart e) t = false).
  { destruct (elapsed (restart e) t) eqn:E; [|reflexivity]. exfalso. apply ND. apply elapsed_due in E. exact E. }
  rewrite E, andb_false_r. cbn [restart nDone]. rewrite Z.eqb_refl. cbn [fst snd]. repeat split.
Qed.
