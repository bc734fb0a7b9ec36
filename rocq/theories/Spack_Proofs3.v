(** Packings of spheres: distribution of sizes. *)
From Coq Require Import Reals List ZArith Bool Lra Lia Psatz.
From Verif Require Import Vec_Model Vec_Proofs Cloud_Model Cloud_Spec Cloud_Proofs Spack_Model Spack_Spec.
Import ListNotations.
Local Open Scope R_scope.

Definition sum (h : list R) : R := fold_right Rplus 0 h.
Lemma sum_nonneg h : Forall (fun x => 0 <= x) h -> 0 <= sum h.
Proof. induction 1 as [|x h X H IH]; cbn [sum fold_right]; [lra|]. fold (sum h). lra. Qed.
Lemma firstn_forall {A} (P : A -> Prop) i l : Forall P l -> Forall P (firstn i l).
Proof. revert l. induction i as [|i IH]; intros l H; [constructor|]. destruct H; [constructor|]. cbn [firstn]. constructor; auto. Qed.
Lemma cumulate_spec h : Forall (fun x => 0 <= x) h -> forall acc i, acc <= 1 -> (i <= length h)%nat -> nth i (cumulate acc h) 0 = Rmin 1 (acc + sum (firstn i h)).
Proof.
  induction 1 as [|x h X H IH]; intros acc i A I.
  - cbn [length] in I. replace i with O by lia. cbn [cumulate nth firstn sum fold_right]. rewrite Rplus_0_r, Rmin_right by exact A. reflexivity.
  - destruct i as [|i]; [cbn [cumulate nth firstn sum fold_right]; rewrite Rplus_0_r, Rmin_right by exact A; reflexivity|].
    cbn [cumulate nth firstn]. cbn [length] in I. rewrite IH by (try apply Rmin_l; lia). cbn [sum fold_right]. fold (sum (firstn i h)).
    pose proof (sum_nonneg _ (firstn_forall _ i _ H)) as S0. unfold Rmin. destruct (Rle_dec 1 (acc + x)), (Rle_dec 1 (acc + (x + sum (firstn i h)))), (Rle_dec 1 (acc + x + sum (firstn i h))), (Rle_dec 1 (1 + sum (firstn i h))); lra.
Qed.
Lemma cumulate_length h : forall acc, length (cumulate acc h) = S (length h).
Proof. induction h as [|x h IH]; intros acc; [reflexivity|]. cbn [cumulate length]. rewrite IH. reflexivity. Qed.
Lemma add_at_length h : forall i w, length (add_at i w h) = length h.
Proof. induction h as [|x h IH]; intros [|i] w; cbn [add_at length]; try reflexivity. rewrite IH. reflexivity. Qed.
Lemma add_at_sum h : forall j w i, (j < length h)%nat -> sum (firstn i (add_at j w h)) = sum (firstn i h) + if (j <? i)%nat then w else 0.
Proof.
  induction h as [|x h IH]; intros j w i J; [cbn [length] in J; lia|]. destruct i as [|i].
  - cbn [firstn sum fold_right]. destruct (Nat.ltb_spec j 0); [lia|ring].
  - destruct j as [|j]; cbn [add_at firstn sum fold_right]; fold (sum (firstn i h)).
    + cbn [Nat.ltb Nat.leb]. ring.
    + fold (sum (firstn i (add_at j w h))). cbn [length] in J. rewrite IH by lia. change (S j <? S i)%nat with (j <? i)%nat. ring.
Qed.
Lemma add_at_nonneg h : forall j w, 0 <= w -> Forall (fun x => 0 <= x) h -> Forall (fun x => 0 <= x) (add_at j w h).
Proof. induction h as [|x h IH]; intros [|j] w W F; cbn [add_at]; try constructor; inversion_clear F; auto. lra. Qed.
Lemma total_nonneg f l : (forall a, In a l -> 0 <= f a) -> 0 <= total f l.
Proof. induction l as [|a l IH]; intros H; cbn [total fold_right]; [lra|]. fold (total f l). pose proof (H a (or_introl eq_refl)). pose proof (IH (fun x I => H x (or_intror I))). lra. Qed.
Lemma hist_spec (b : sph -> nat) (w : sph -> R) l : forall h i, (forall a, In a l -> (b a < length h)%nat) ->
  let h' := fold_left (fun h x => add_at (b x) (w x) h) l h in
  length h' = length h /\ sum (firstn i h') = sum (firstn i h) + total w (filter (fun a => (b a <? i)%nat) l) /\
  ((forall a, In a l -> 0 <= w a) -> Forall (fun x => 0 <= x) h -> Forall (fun x => 0 <= x) h').
Proof.
  induction l as [|a l IH]; intros h i B; cbn [fold_left filter].
  - split; [reflexivity|]. split; [cbn [total fold_right]; ring|auto].
  - destruct (IH (add_at (b a) (w a) h) i) as (A1 & A2 & A3); [intros x I; rewrite add_at_length; apply B; right; exact I|]. split; [rewrite A1; apply add_at_length|]. split.
    + rewrite A2, add_at_sum by (apply B; left; reflexivity). destruct (b a <? i)%nat; cbn [total fold_right]; [fold (total w (filter (fun a => (b a <? i)%nat) l))|]; ring.
    + intros W F. apply A3; [intros x I; apply W; right; exact I|]. apply add_at_nonneg; [apply W; left; reflexivity|exact F].
Qed.
(** ** extremes *)
Lemma min_spec l : forall m, fold_left (fun m x => Rmin (2 * r x) m) l m <= m /\ (forall a, In a l -> fold_left (fun m x => Rmin (2 * r x) m) l m <= 2 * r a) /\
  (fold_left (fun m x => Rmin (2 * r x) m) l m = m \/ exists a, In a l /\ fold_left (fun m x => Rmin (2 * r x) m) l m = 2 * r a).
Proof.
  induction l as [|x l IH]; intros m; cbn [fold_left]; [split; [lra|split; [intros a []|left; reflexivity]]|].
  destruct (IH (Rmin (2 * r x) m)) as (A & B & D). pose proof (Rmin_l (2 * r x) m). pose proof (Rmin_r (2 * r x) m). split; [lra|]. split.
  - intros a [<-|I]; [lra|apply B; exact I].
  - destruct D as [D|(a & I & D)]; [|right; exists a; split; [right; exact I|exact D]]. rewrite D. destruct (Rle_dec (2 * r x) m) as [L|L].
    + right. exists x. split; [left; reflexivity|]. apply Rmin_left. exact L.
    + left. apply Rmin_right. lra.
Qed.
Lemma max_spec l : forall m, m <= fold_left (fun m x => Rmax (2 * r x) m) l m /\ (forall a, In a l -> 2 * r a <= fold_left (fun m x => Rmax (2 * r x) m) l m) /\
  (fold_left (fun m x => Rmax (2 * r x) m) l m = m \/ exists a, In a l /\ fold_left (fun m x => Rmax (2 * r x) m) l m = 2 * r a).
Proof.
  induction l as [|x l IH]; intros m; cbn [fold_left]; [split; [lra|split; [intros a []|left; reflexivity]]|].
  destruct (IH (Rmax (2 * r x) m)) as (A & B & D). pose proof (Rmax_l (2 * r x) m). pose proof (Rmax_r (2 * r x) m). split; [lra|]. split.
  - intros a [<-|I]; [lra|apply B; exact I].
  - destruct D as [D|(a & I & D)]; [|right; exists a; split; [right; exact I|exact D]]. rewrite D. destruct (Rle_dec (2 * r x) m) as [L|L].
    + left. apply Rmax_right. exact L.
    + right. exists x. split; [left; reflexivity|]. apply Rmax_left. lra.
Qed.
Lemma range_spec a l lo hi : range a l = (lo, hi) -> lo < hi /\ (forall x, In x (a :: l) -> lo <= 2 * r x <= hi) /\
  ((exists x y, In x (a :: l) /\ In y (a :: l) /\ 2 * r x = lo /\ 2 * r y = hi) \/ (forall x, In x (a :: l) -> 2 * r x - 1/2 = lo /\ 2 * r x + 1/2 = hi)).
Proof.
  unfold range, minD, maxD. destruct (min_spec l (2 * r a)) as (A1 & A2 & A3). destruct (max_spec l (2 * r a)) as (B1 & B2 & B3).
  remember (fold_left (fun m x => Rmin (2 * r x) m) l (2 * r a)) as m eqn:Em. remember (fold_left (fun m x => Rmax (2 * r x) m) l (2 * r a)) as M eqn:EM.
  destruct (is_zero (m - M)) eqn:Z.
  - apply is_zero_true in Z. intros [= <- <-]. split; [lra|]. assert (H : forall x, In x (a :: l) -> 2 * r x = m) by (intros x [<-|I]; [lra|specialize (A2 x I); specialize (B2 x I); lra]).
    split; [intros x I; rewrite (H x I); lra|]. right. intros x I. rewrite (H x I). lra.
  - apply is_zero_false in Z. intros [= <- <-]. split; [lra|]. split; [intros x [<-|I]; [lra|split; auto]|]. left.
    assert (X : exists x, In x (a :: l) /\ 2 * r x = m) by (destruct A3 as [E|(x & I & E)]; [exists a; split; [left; reflexivity|congruence]|exists x; split; [right; exact I|congruence]]).
    assert (Y : exists x, In x (a :: l) /\ 2 * r x = M) by (destruct B3 as [E|(x & I & E)]; [exists a; split; [left; reflexivity|congruence]|exists x; split; [right; exact I|congruence]]).
    destruct X as (x & Ix & Ex), Y as (y & Iy & Ey). exists x, y. auto.
Qed.
Lemma bin_below n lo hi d i : (0 < n)%nat -> lo < hi -> lo <= d -> (i < n)%nat -> (bin n lo hi d <? i)%nat = ltb d (lo + INR i * (hi - lo) / INR n).
Proof.
  intros N H D I. assert (P : 0 < INR n) by (apply lt_0_INR; exact N). unfold bin. set (t := INR n * (d - lo) / (hi - lo)).
  assert (T : 0 <= t) by (unfold t; apply Rmult_le_pos; [apply Rmult_le_pos; lra|apply Rlt_le, Rinv_0_lt_compat; lra]).
  assert (K : d < lo + INR i * (hi - lo) / INR n <-> t < INR i).
  { assert (E : d = lo + t * ((hi - lo) / INR n)) by (unfold t; field; lra). assert (E2 : lo + INR i * (hi - lo) / INR n = lo + INR i * ((hi - lo) / INR n)) by (field; lra). rewrite E2. rewrite E at 1.
    assert (Q : 0 < (hi - lo) / INR n) by (apply Rdiv_lt_0_compat; lra). split; intros L; [apply (Rmult_lt_reg_r _ _ _ Q); lra|apply Rplus_lt_compat_l; apply Rmult_lt_compat_r; assumption]. }
  destruct (base_Int_part t) as [B1 B2]. assert (F : (Nat.min (Z.to_nat (Int_part t)) (n - 1) < i)%nat <-> t < INR i).
  { rewrite INR_IZR_INZ. split.
    - intros L. assert (Z.to_nat (Int_part t) < i)%nat by lia. assert (Int_part t + 1 <= Z.of_nat i)%Z by lia. apply IZR_le in H1. rewrite plus_IZR in H1. lra.
    - intros L. assert (Int_part t < Z.of_nat i)%Z by (apply lt_IZR; lra). assert (-1 < Int_part t)%Z by (apply lt_IZR; lra). lia. }
  destruct (Nat.ltb_spec (Nat.min (Z.to_nat (Int_part t)) (n - 1)) i) as [L|L].
  - symmetry. apply ltb_true. apply K, F. exact L.
  - symmetry. apply ltb_false. apply Rnot_lt_le. intros G. apply K, F in G. lia.
Qed.
Lemma bin_range n lo hi d : (0 < n)%nat -> (bin n lo hi d < n)%nat. Proof. intros N. unfold bin. lia. Qed.
Lemma total_ext f g l : (forall a, In a l -> f a = g a) -> total f l = total g l.
Proof. induction l as [|a l IH]; intros H; [reflexivity|]. cbn [total fold_right]. fold (total f l) (total g l). rewrite (H a), IH; [reflexivity| |left; reflexivity]. intros x I. apply H. right. exact I. Qed.
Lemma total_div f l v : total (fun a => f a / v) l = total f l / v.
Proof. induction l as [|a l IH]; cbn [total fold_right]; [unfold Rdiv; ring|]. fold (total f l) (total (fun a => f a / v) l). rewrite IH. unfold Rdiv. ring. Qed.
Lemma vol_total l : vol l = total (fun a => r a ^ 3) l.
Proof.
  unfold vol. assert (H : forall l x, fold_left (fun v a => v + r a ^ 3) l x = x + total (fun a => r a ^ 3) l).
  { clear l. induction l as [|a l IH]; intros x; cbn [fold_left total fold_right]; [ring|]. rewrite IH. fold (total (fun a => r a ^ 3) l). ring. }
  rewrite H. ring.
Qed.
Lemma count_total l : INR (length l) = total (fun _ => 1) l.
Proof. induction l as [|a l IH]; [reflexivity|]. cbn [length total fold_right]. fold (total (fun _ => 1) l). rewrite S_INR, IH. ring. Qed.
Lemma fraction_weight mass P l : total (weight mass l) (filter P l) = fraction mass P l.
Proof. unfold weight, fraction. destruct mass; rewrite <- total_div; apply total_ext; intros a _; [rewrite vol_total|rewrite count_total]; reflexivity. Qed.
Lemma filter_true {A} (f : A -> bool) l : (forall a, In a l -> f a = true) -> filter f l = l.
Proof. induction l as [|a l IH]; intros H; [reflexivity|]. cbn [filter]. rewrite (H a (or_introl eq_refl)). f_equal. apply IH. intros x I. apply H. right. exact I. Qed.
Lemma total_pos f a l : (forall x, In x (a :: l) -> 0 < f x) -> 0 < total f (a :: l).
Proof. intros H. cbn [total fold_right]. pose proof (H a (or_introl eq_refl)). pose proof (total_nonneg f l (fun x I => Rlt_le _ _ (H x (or_intror I)))). unfold total in *. lra. Qed.
Lemma total_filter f P l : (forall x, In x l -> 0 <= f x) -> total f (filter P l) <= total f l.
Proof.
  induction l as [|a l IH]; intros H; [cbn [filter total fold_right]; lra|]. pose proof (H a (or_introl eq_refl)). pose proof (IH (fun x I => H x (or_intror I))). cbn [filter]. destruct (P a); cbn [total fold_right]; fold (total f l); [fold (total f (filter P l))|]; lra.
Qed.
Lemma psd_spec bins mass l : l <> [] -> (0 < bins)%Z -> (mass = true -> forall a, In a l -> 0 < r a) ->
  exists e cu lo hi, psd bins mass l = Distribution e cu /\ length e = S (Z.to_nat bins) /\ length cu = S (Z.to_nat bins) /\ lo < hi /\
    (forall a, In a l -> lo <= 2 * r a <= hi) /\
    ((exists x y, In x l /\ In y l /\ 2 * r x = lo /\ 2 * r y = hi) \/ (forall x, In x l -> 2 * r x - 1/2 = lo /\ 2 * r x + 1/2 = hi)) /\
    (forall i, (i <= Z.to_nat bins)%nat -> nth i e 0 = lo + INR i * (hi - lo) / IZR bins) /\
    (forall i, (i < Z.to_nat bins)%nat -> nth i cu 0 = fraction mass (below (nth i e 0)) l) /\
    nth (Z.to_nat bins) cu 0 = 1.
Proof.
  intros Ne B Rp. destruct l as [|a l]; [contradiction|]. unfold psd. destruct (range a l) as [lo hi] eqn:Er. destruct (range_spec a l lo hi Er) as (LH & In_ & Ex).
  destruct (Z.ltb_spec bins 0) as [ZA|ZA]; [lia|]. destruct (Z.eqb_spec bins 0) as [ZB|ZB]; [lia|]. set (n := Z.to_nat bins). assert (N : (0 < n)%nat) by (unfold n; lia).
  assert (En : INR n = IZR bins) by (rewrite INR_IZR_INZ; unfold n; rewrite Z2Nat.id by lia; reflexivity).
  set (hist := fold_left (fun h x => add_at (bin n lo hi (2 * r x)) (weight mass (a :: l) x) h) (a :: l) (repeat 0 n)).
  assert (W : forall x, In x (a :: l) -> 0 <= weight mass (a :: l) x).
  { intros x I. unfold weight. destruct mass.
    - rewrite vol_total. apply Rlt_le, Rdiv_lt_0_compat; [apply pow_lt; auto|]. apply total_pos. intros y J. apply pow_lt. auto.
    - rewrite count_total. apply Rlt_le, Rdiv_lt_0_compat; [lra|]. apply total_pos. intros; lra. }
  assert (F1 : fraction mass (fun _ => true) (a :: l) = 1).
  { unfold fraction. rewrite filter_true by reflexivity. set (f := fun x : sph => if mass then r x ^ 3 else 1). assert (0 < total f (a :: l)); [|field; lra]. apply total_pos. intros x I. unfold f. destruct mass; [apply pow_lt; auto|lra]. }
  assert (Hs : forall i, length hist = n /\ sum (firstn i hist) = total (weight mass (a :: l)) (filter (fun x => (bin n lo hi (2 * r x) <? i)%nat) (a :: l)) /\ Forall (fun x => 0 <= x) hist).
  { intros i. destruct (hist_spec (fun x => bin n lo hi (2 * r x)) (weight mass (a :: l)) (a :: l) (repeat 0 n) i) as (H1 & H2 & H3); [intros x _; rewrite repeat_length; apply bin_range; exact N|].
    fold hist in H1, H2, H3. rewrite repeat_length in H1. split; [exact H1|]. split.
    - rewrite H2. assert (Z0 : forall k m, sum (firstn m (repeat 0 k)) = 0) by (induction k as [|k IHk]; intros [|m]; cbn [repeat firstn sum fold_right]; try reflexivity; fold (sum (firstn m (repeat 0 k))); rewrite IHk; ring). rewrite Z0. ring.
    - apply H3; [exact W|]. apply Forall_forall. intros x I. apply repeat_spec in I. lra. }
  exists (edges n lo hi), (cumulate 0 hist), lo, hi. split; [reflexivity|]. split; [unfold edges; rewrite map_length, seq_length; reflexivity|]. split; [rewrite cumulate_length; rewrite (proj1 (Hs O)); reflexivity|].
  split; [exact LH|]. split; [exact In_|]. split; [exact Ex|].
  assert (Ed : forall i, (i <= n)%nat -> nth i (edges n lo hi) 0 = lo + INR i * (hi - lo) / INR n).
  { intros i I. unfold edges. set (g := fun i => lo + INR i * (hi - lo) / INR n). rewrite (nth_indep _ 0 (g O)) by (rewrite map_length, seq_length; lia). rewrite map_nth, seq_nth by lia. reflexivity. }
  split; [intros i I; rewrite <- En; apply Ed; exact I|].
  assert (Cu : forall i, (i <= n)%nat -> nth i (cumulate 0 hist) 0 = total (weight mass (a :: l)) (filter (fun x => (bin n lo hi (2 * r x) <? i)%nat) (a :: l))).
  { intros i I. destruct (Hs i) as (H1 & H2 & H3). rewrite cumulate_spec by (try exact H3; try lra; lia). rewrite H2, Rplus_0_l. apply Rmin_right.
    eapply Rle_trans; [apply total_filter; exact W|]. rewrite <- F1, <- (fraction_weight mass (fun _ => true)). rewrite filter_true by reflexivity. lra. }
  split.
  - intros i I. rewrite Cu, <- fraction_weight by lia. f_equal. apply filter_ext_in. intros x Ix. unfold below. rewrite Ed by lia. apply bin_below; [exact N|exact LH|apply In_; exact Ix|exact I].
  - rewrite Cu by lia. rewrite <- F1, <- (fraction_weight mass (fun _ => true)). f_equal. apply filter_ext_in. intros x _. apply Nat.ltb_lt. apply bin_range. exact N.
Qed.
