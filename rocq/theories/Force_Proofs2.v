(** The statements of Force_Props.v derived from the invariant. *)
From Coq Require Import List Arith Bool ZArith Permutation Lia.
From Verif Require Import Force_Model Force_Spec Force_Proofs.
Import ListNotations.

Lemma cm_00 {V} (v0 : V) vadd : is_cmonoid v0 vadd -> vadd v0 v0 = v0.
Proof. intros C. apply (cm_unit _ _ C). Qed.

Lemma perm_unused_zero {V} (v0 : V) (h : list (op V)) : perm_used h = false -> forall id, perm_actual v0 h id = (v0, v0).
Proof.
  induction h as [|o h IH] using rev_ind; [reflexivity|].
  rewrite perm_used_snoc. intros H id. rewrite perm_actual_snoc.
  destruct o as [ | | | |it [|]]; simpl; auto; discriminate.
Qed.

Lemma reading_is_sum {V} (v0 : V) vadd : is_cmonoid v0 vadd ->
  forall n (h : list (op V)), Forall (valid n) h ->
  exists s, run v0 vadd n (h ++ [OSync]) = Val s /\
    forall id, exists pF pT,
      getPerm v0 true id s = Val pF /\ getPerm v0 false id s = Val pT /\
      get v0 ChF id s = Val (vadd (fold_left vadd (all_values id ChF h) v0) pF) /\
      get v0 ChT id s = Val (vadd (fold_left vadd (all_values id ChT h) v0) pT) /\
      get v0 ChM id s = Val (fold_left vadd (all_values id ChM h) v0) /\
      get v0 ChR id s = Val (fold_left vadd (all_values id ChR h) v0).
Proof.
  intros C n h HF.
  destruct (read_after_sync v0 vadd (cm_00 _ _ C) n h HF) as (s & E & Hr).
  destruct (perm_read v0 vadd (cm_00 _ _ C) n h HF) as (s' & E' & Hp).
  rewrite E in E'. injection E' as <-. exists s. split; [exact E|]. intros id.
  exists (fst (perm_actual v0 h id)), (snd (perm_actual v0 h id)).
  rewrite !Hr. repeat split; try apply (Hp id true); try apply (Hp id false); f_equal;
  unfold reading; rewrite (grand_all_values v0 vadd C) by assumption; try reflexivity;
  (destruct (perm_used h) eqn:Epu; [reflexivity|]);
  rewrite perm_unused_zero by assumption; simpl; symmetry; apply cm_unit_r; assumption.
Qed.

Lemma fold_perm {V} (v0 : V) vadd : is_cmonoid v0 vadd ->
  forall l l', Permutation l l' -> fold_left vadd l v0 = fold_left vadd l' v0.
Proof.
  intros C l l' P. induction P as [|x l l' P IH|x y l|l l' l'' P IH P' IH']; simpl.
  - reflexivity.
  - rewrite (fold_left_acc v0 vadd C l), (fold_left_acc v0 vadd C l'), IH. reflexivity.
  - f_equal. rewrite !(cm_unit _ _ C). apply (cm_comm _ _ C).
  - congruence.
Qed.

Lemma reading_no_perm {V} (v0 : V) vadd p n id c (h : list (op V)) :
  perm_used h = false -> reading v0 vadd p n id c h = grand v0 vadd n id c h.
Proof. intros H. unfold reading. rewrite H. destruct c; reflexivity. Qed.

Lemma reading_order_exact {V} (v0 : V) vadd : vadd v0 v0 = v0 ->
  forall n (h : list (op V)), Forall (valid n) h -> perm_used h = false ->
  exists s, run v0 vadd n (h ++ [OSync]) = Val s /\
    forall id c, get v0 c id s = Val (grand v0 vadd n id c h).
Proof.
  intros H0 n h HF Hp. destruct (read_after_sync v0 vadd H0 n h HF) as (s & E & Hr).
  exists s. split; [exact E|]. intros. rewrite Hr, reading_no_perm by assumption. reflexivity.
Qed.

Lemma schedule_independent {V} (v0 : V) vadd : is_cmonoid v0 vadd ->
  forall n1 n2 (h1 h2 : list (op V)),
  Forall (valid n1) h1 -> Forall (valid n2) h2 ->
  perm_used h1 = false -> perm_used h2 = false ->
  (forall id c, Permutation (all_values id c h1) (all_values id c h2)) ->
  exists s1 s2, run v0 vadd n1 (h1 ++ [OSync]) = Val s1 /\ run v0 vadd n2 (h2 ++ [OSync]) = Val s2 /\
    forall id c, get v0 c id s1 = get v0 c id s2.
Proof.
  intros C n1 n2 h1 h2 F1 F2 P1 P2 HP.
  destruct (reading_order_exact v0 vadd (cm_00 _ _ C) n1 h1 F1 P1) as (s1 & E1 & R1).
  destruct (reading_order_exact v0 vadd (cm_00 _ _ C) n2 h2 F2 P2) as (s2 & E2 & R2).
  exists s1, s2. split; [exact E1|]. split; [exact E2|]. intros id c.
  rewrite R1, R2, !(grand_all_values v0 vadd C) by assumption.
  f_equal. apply fold_perm; auto.
Qed.

Lemma unsynced_read_refused {V} (v0 : V) vadd : vadd v0 v0 = v0 ->
  forall n (h : list (op V)), Forall (valid n) h ->
  exists s, run v0 vadd n h = Val s /\
    forall id c, (dirty h = true -> get v0 c id s = Throw) /\
                 (dirty h = false -> exists v, get v0 c id s = Val v).
Proof.
  intros H0 n h HF. destruct (read_throws_iff_dirty v0 vadd H0 n h HF) as (s & E & H).
  exists s. split; [exact E|]. intros id c. rewrite H. destruct (dirty h); split; intros; try discriminate; eauto.
Qed.

Lemma add_makes_reads_raise {V} (v0 : V) vadd : vadd v0 v0 = v0 ->
  forall n (h k : list (op V)) t id c v,
  Forall (valid n) (h ++ OAdd t id c v :: k) ->
  (forall o, In o k -> match o with OAdd _ _ _ _ | OMaxId _ _ | OSetPerm _ _ _ _ => True | _ => False end) ->
  exists s, run v0 vadd n (h ++ OAdd t id c v :: k) = Val s /\
    forall id' c', get v0 c' id' s = Throw.
Proof.
  intros H0 n h k t id c v HF Hk.
  destruct (unsynced_read_refused v0 vadd H0 n _ HF) as (s & E & H).
  exists s. split; [exact E|]. intros id' c'. apply H.
  unfold dirty. rewrite fold_left_app. simpl. generalize (snd (fold_left dirty_step h (false, false))).
  clear - Hk. induction k as [|o k IH]; intros b; [reflexivity|].
  simpl. pose proof (Hk o (or_introl eq_refl)) as Ho.
  destruct o; try contradiction; simpl; apply IH; intros; apply Hk; right; assumption.
Qed.

Lemma sync_idempotent_ok {V} (v0 : V) vadd : vadd v0 v0 = v0 ->
  forall n (h : list (op V)), Forall (valid n) h ->
  (exists s, run v0 vadd n (h ++ [OSync]) = Val s) /\
  run v0 vadd n (h ++ [OSync; OSync]) = run v0 vadd n (h ++ [OSync]).
Proof.
  intros H0 n h HF. split; [|apply sync_idempotent; assumption].
  destruct (read_after_sync v0 vadd H0 n h HF) as (s & E & _). eauto.
Qed.

Definition lost_h : list (op Z) := [OSetPerm 0 500 true 9%Z; OSetPerm 0 3 true 1%Z].
Lemma perm_lost :
  exists (h : list (op Z)) (s : fc Z),
    Forall (valid 1) h /\ run 0%Z Z.add 1 (h ++ [OSync]) = Val s /\
    fst (perm_ideal 0%Z h 500) = 9%Z /\ getPerm 0%Z true 500 s = Val 0%Z /\
    get 0%Z ChF 500 s = Val 0%Z.
Proof.
  exists lost_h. destruct (run 0%Z Z.add 1 (lost_h ++ [OSync])) as [s| |] eqn:E; try (vm_compute in E; discriminate).
  exists s. split; [repeat constructor|]. split; [reflexivity|].
  split; [vm_compute; reflexivity|].
  assert (G : bindr (run 0%Z Z.add 1 (lost_h ++ [OSync])) (getPerm 0%Z true 500) = Val 0%Z) by (vm_compute; reflexivity).
  assert (G2 : bindr (run 0%Z Z.add 1 (lost_h ++ [OSync])) (get 0%Z ChF 500) = Val 0%Z) by (vm_compute; reflexivity).
  rewrite E in G, G2. auto.
Qed.

Lemma perm_persist {V} (v0 : V) vadd : vadd v0 v0 = v0 ->
  forall n (h : list (op V)), Forall (valid n) h ->
  (forall g a isF v g' b isF' v', In (OSetPerm g a isF v) h -> In (OSetPerm g' b isF' v') h -> b < a + 100) ->
  exists s, run v0 vadd n (h ++ [OSync]) = Val s /\
    forall id,
      getPerm v0 true id s = Val (fst (perm_ideal v0 h id)) /\
      getPerm v0 false id s = Val (snd (perm_ideal v0 h id)) /\
      forall c, get v0 c id s = Val (reading v0 vadd (perm_ideal v0 h) n id c h).
Proof.
  intros H0 n h HF Hw.
  destruct (read_after_sync v0 vadd H0 n h HF) as (s & E & Hr).
  destruct (perm_read v0 vadd H0 n h HF) as (s' & E' & Hp).
  rewrite E in E'. injection E' as <-. exists s. split; [exact E|]. intros id.
  assert (W : forall id, perm_actual v0 h id = perm_ideal v0 h id).
  { apply perm_window. unfold perm_ids. intros a b Ha Hb.
    apply in_flat_map in Ha as (oa & Hoa & Ha). apply in_flat_map in Hb as (ob & Hob & Hb).
    destruct oa; simpl in Ha; try contradiction. destruct ob; simpl in Hb; try contradiction.
    destruct Ha as [<-|[]], Hb as [<-|[]]. eapply Hw; eassumption. }
  rewrite (Hp id true), (Hp id false), !W. repeat split.
  intros c. rewrite Hr. f_equal. unfold reading. rewrite W. reflexivity.
Qed.

Lemma grand_after_reset {V} (v0 : V) vadd : vadd v0 v0 = v0 ->
  forall n id c (h : list (op V)) it all, grand v0 vadd n id c (h ++ [OReset it all]) = v0.
Proof. intros; apply grand_reset; assumption. Qed.

Lemma reset_clears {V} (v0 : V) vadd : is_cmonoid v0 vadd ->
  forall n (h : list (op V)) iter, Forall (valid n) h ->
  exists s s', run v0 vadd n (h ++ [OSync]) = Val s /\
    run v0 vadd n (h ++ [OReset iter false; OSync]) = Val s' /\
    forall id,
      getPerm v0 true id s' = getPerm v0 true id s /\
      getPerm v0 false id s' = getPerm v0 false id s /\
      get v0 ChF id s' = getPerm v0 true id s /\
      get v0 ChT id s' = getPerm v0 false id s /\
      get v0 ChM id s' = Val v0 /\ get v0 ChR id s' = Val v0.
Proof.
  intros C n h it HF. pose proof (cm_00 _ _ C) as H0.
  assert (HF' : Forall (valid n) (h ++ [OReset it false])) by (apply Forall_app; split; auto; repeat constructor).
  destruct (perm_read v0 vadd H0 n h HF) as (s & E & Hp).
  destruct (perm_read v0 vadd H0 n _ HF') as (s' & E' & Hp').
  destruct (read_after_sync v0 vadd H0 n _ HF') as (s'' & E'' & Hr).
  rewrite E' in E''. injection E'' as <-.
  rewrite <- app_assoc in E'. exists s, s'. split; [exact E|]. split; [exact E'|].
  intros id. rewrite !Hr, (Hp' id true), (Hp' id false), (Hp id true), (Hp id false).
  rewrite perm_actual_snoc. cbn [perm_actual_step]. unfold reading.
  rewrite !(grand_after_reset v0 vadd H0), perm_used_snoc.
  repeat split; f_equal; (destruct (perm_used h) eqn:Epu; [apply (cm_unit _ _ C)|]);
    rewrite perm_unused_zero by assumption; reflexivity.
Qed.

Lemma resetAll_clears {V} (v0 : V) vadd : vadd v0 v0 = v0 ->
  forall n (h : list (op V)) iter, Forall (valid n) h ->
  exists s, run v0 vadd n (h ++ [OReset iter true]) = Val s /\
    forall id c, get v0 c id s = Val v0 /\ getPerm v0 true id s = Val v0 /\ getPerm v0 false id s = Val v0.
Proof.
  intros H0 n h it HF.
  assert (HF' : Forall (valid n) (h ++ [OReset it true])) by (apply Forall_app; split; auto; repeat constructor).
  destruct (run_inv v0 vadd H0 n _ HF') as (s & E & I). exists s. split; [exact E|].
  assert (Hs : synced s = true).
  { rewrite (i_dirty _ _ _ _ _ I). rewrite dirty_snoc. reflexivity. }
  intros id c. split.
  - rewrite (get_spec v0 vadd H0 _ _ _ _ _ I Hs). f_equal. rewrite reading_no_perm by (rewrite perm_used_snoc; reflexivity).
    apply grand_after_reset; assumption.
  - unfold getPerm. rewrite Hs. simpl.
    pose proof (i_perm _ _ _ _ _ I id) as Hp. rewrite perm_actual_snoc in Hp. simpl in Hp.
    destruct (i_ss _ _ _ _ _ I (i_sy _ _ _ _ _ I Hs)) as (_ & _ & Hl).
    destruct (Nat.ltb_spec id (size s)); [|auto].
    rewrite (nth_error_nth_lt _ _ (v0, v0)) by lia. rewrite Hp. auto.
Qed.

Definition ub_h : list (op Z) := [OAdd 0 150 ChF 2%Z; OSetPerm 0 5 true 7%Z].
Lemma single_ub :
  exists (h : list (op Z)) (s : fc Z) (id : nat),
    Forall (valid 1) h /\ run 0%Z Z.add 1 h = Val s /\ id < size s /\ getSingle 0%Z Z.add ChF id s = UB.
Proof.
  exists ub_h. destruct (run 0%Z Z.add 1 ub_h) as [s| |] eqn:E; try (vm_compute in E; discriminate).
  exists s, 150. split; [repeat constructor|]. split; [reflexivity|].
  assert (G : bindr (run 0%Z Z.add 1 ub_h) (fun s => Val (150 <? size s)) = Val true) by (vm_compute; reflexivity).
  assert (G2 : bindr (run 0%Z Z.add 1 ub_h) (getSingle 0%Z Z.add ChF 150) = UB) by (vm_compute; reflexivity).
  rewrite E in G, G2. cbn [bindr] in G. split; [|exact G2]. apply Nat.ltb_lt. congruence.
Qed.

Lemma single_read_synced {V} (v0 : V) vadd : vadd v0 v0 = v0 ->
  forall n (h : list (op V)), Forall (valid n) h ->
  exists s, run v0 vadd n (h ++ [OSync]) = Val s /\
    forall id c, id < size s -> getSingle v0 vadd c id s = get v0 c id s.
Proof.
  intros H0 n h HF.
  assert (HF' : Forall (valid n) (h ++ [OSync])) by (apply Forall_app; split; auto; repeat constructor).
  destruct (run_inv v0 vadd H0 n _ HF') as (s & E & I). exists s. split; [exact E|].
  assert (Hs : synced s = true) by (rewrite (i_dirty _ _ _ _ _ I), dirty_snoc; reflexivity).
  intros id c Hid. rewrite (get_spec v0 vadd H0 _ _ _ _ _ I Hs).
  apply getSingle_spec; [apply Inv_W; assumption|].
  intros _ _. destruct (i_ss _ _ _ _ _ I (i_sy _ _ _ _ _ I Hs)) as (_ & _ & Hl). lia.
Qed.
