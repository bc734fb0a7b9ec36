(** Grading of the particles that SpheresFactory makes. *)
From Coq Require Import Reals List ZArith Bool Arith Lra Lia.
From Verif Require Import Vec_Model Vec_Proofs Fact_Model Fact_Spec Fact_Proofs.
Import ListNotations.
Local Open Scope R_scope.

Fixpoint rsum (l : list R) : R := match l with [] => 0 | x :: l' => x + rsum l' end.
Lemma differences_item cum : forall p k, (k < length cum)%nat -> item (differences p cum) k = item cum k - match k with O => p | S j => item cum j end.
Proof.
  induction cum as [|x cum IH]; intros p k L; cbn [length] in L; [lia|]. destruct k as [|k]; cbn [differences item nth]; [reflexivity|].
  fold (item (differences x cum) k). rewrite IH by lia. destruct k as [|k]; reflexivity.
Qed.
Lemma differences_length cum : forall p, length (differences p cum) = length cum.
Proof. induction cum as [|x cum IH]; intros p; cbn [differences length]; [|rewrite IH]; reflexivity. Qed.
Lemma differences_sum cum : forall p, rsum (differences p cum) = last cum p - p.
Proof.
  induction cum as [|x cum IH]; intros p; cbn [differences rsum]; [cbn [last]; lra|]. rewrite IH.
  replace (last (x :: cum) p) with (last cum x); [lra|]. clear IH. revert x p. induction cum as [|y cum IH]; intros x p; [reflexivity|].
  change (last (y :: cum) x = last (y :: cum) p). rewrite <- (IH y x), <- (IH y p). reflexivity.
Qed.
Lemma last_default (l : list R) a b : l <> [] -> last l a = last l b.
Proof. induction l as [|x l IH]; intros H; [congruence|]. destruct l; [reflexivity|]. apply IH. discriminate. Qed.

Lemma sum_le l : forall l' j, length l = length l' -> (forall k, (k < length l)%nat -> item l k <= item l' k) -> (j < length l)%nat -> rsum l + (item l' j - item l j) <= rsum l'.
Proof.
  induction l as [|x l IH]; intros l' j E H J; cbn [length] in *; [lia|]. destruct l' as [|y l']; [discriminate|]. cbn [rsum].
  assert (X : x <= y) by (apply (H 0%nat); lia).
  assert (T : forall k, (k < length l)%nat -> item l k <= item l' k) by (intros k K; apply (H (S k)); lia).
  cbn [length] in E. injection E as E. destruct j as [|j]; cbn [item nth].
  - destruct l as [|z l0]; [destruct l'; [cbn [rsum]; lra|discriminate]|]. pose proof (IH l' 0%nat E T ltac:(cbn [length]; lia)) as I. pose proof (T 0%nat ltac:(cbn [length]; lia)). lra.
  - pose proof (IH l' j E T ltac:(lia)) as I. unfold item in I. lra.
Qed.
Lemma addAt_item id w l : forall k, item (addAt id w l) k = if Nat.eqb k id && Nat.ltb id (length l) then item l k + w else item l k.
Proof.
  revert id. induction l as [|x l IH]; intros id k; [destruct id, k; cbn [addAt length Nat.ltb Nat.leb]; rewrite andb_false_r; reflexivity|].
  destruct id as [|id], k as [|k]; cbn [addAt item nth Nat.eqb]; try reflexivity. fold (item (addAt id w l) k). rewrite IH. cbn [length]. reflexivity.
Qed.
Lemma addAt_length id w l : length (addAt id w l) = length l.
Proof. revert id. induction l as [|x l IH]; intros [|id]; cbn [addAt length]; try reflexivity. rewrite IH. reflexivity. Qed.
Lemma addAt_sum id w l : (id < length l)%nat -> rsum (addAt id w l) = rsum l + w.
Proof. revert id. induction l as [|x l IH]; intros [|id] H; cbn [length] in H; try lia; cbn [addAt rsum]; [lra|]. rewrite IH by lia. lra. Qed.
Lemma item_map (f : R -> R) l k : (k < length l)%nat -> item (map f l) k = f (item l k).
Proof. revert k. induction l as [|x l IH]; intros [|k] H; cbn [length] in H; try lia; cbn [map item nth]; [reflexivity|]. apply IH. lia. Qed.
Lemma sum_affine T m l : rsum (map (fun n => T * n + m) l) = T * rsum l + INR (length l) * m.
Proof. induction l as [|x l IH]; [cbn; lra|]. cbn [map rsum length]. rewrite IH, S_INR. lra. Qed.

(** the bin that is chosen lacks material, or none does *)
Lemma best_spec l : forall k0 md id,
  (best k0 l md id = id /\ forall i n p, nth_error l i = Some (n, p) -> n - p <= md)
  \/ (exists i n p, nth_error l i = Some (n, p) /\ best k0 l md id = (k0 + i)%nat /\ md < n - p).
Proof.
  induction l as [|[n p] l IH]; intros k0 md id; cbn [best]; [left; split; [reflexivity|intros [|i] n p; discriminate]|].
  destruct (Rlt_dec md (n - p)) as [L|L].
  - right. destruct (IH (S k0) (n - p) k0) as [(E & _)|(i & n' & p' & E1 & E2 & E3)].
    + exists 0%nat, n, p. rewrite E. split; [reflexivity|]. split; [lia|exact L].
    + exists (S i), n', p'. rewrite E2. split; [exact E1|]. split; [lia|lra].
  - destruct (IH (S k0) md id) as [(E & A)|(i & n' & p' & E1 & E2 & E3)].
    + left. split; [exact E|]. intros [|i] n' p' X; [cbn in X; injection X as <- <-; lra|eapply A; exact X].
    + right. exists (S i), n', p'. rewrite E2. split; [exact E1|]. split; [lia|exact E3].
Qed.
Lemma nth_combine (a b : list R) : forall i n p, nth_error (combine a b) i = Some (n, p) -> (i < length a)%nat /\ item a i = n /\ item b i = p.
Proof.
  revert b. induction a as [|x a IH]; intros [|y b] [|i] n p H; try discriminate H; cbn [combine nth_error length] in *.
  - injection H as <- <-. split; [lia|]. split; reflexivity.
  - destruct (IH _ _ _ _ H) as (A & B & C). split; [lia|]. split; assumption.
Qed.
Lemma combine_nth (a b : list R) : forall i, length a = length b -> (i < length a)%nat -> nth_error (combine a b) i = Some (item a i, item b i).
Proof. revert b. induction a as [|x a IH]; intros [|y b] [|i] E L; cbn [length] in *; try lia; cbn [combine nth_error item nth]; [reflexivity|]. apply IH; lia. Qed.
Lemma chosen (need proc : list R) : length need = length proc -> (0 < length need)%nat ->
  let id := best 0 (combine need proc) 0 0 in (id < length need)%nat /\ (item proc id < item need id \/ (forall k, (k < length need)%nat -> item need k <= item proc k)).
Proof.
  intros E L. cbv zeta. destruct (best_spec (combine need proc) 0 0 0) as [(A & B)|(i & n & p & E1 & E2 & E3)].
  - rewrite A. split; [exact L|]. right. intros k K. specialize (B k _ _ (combine_nth _ _ k E K)). lra.
  - cbn [plus] in E2. rewrite E2. destruct (nth_combine _ _ _ _ _ E1) as (A & B & C). split; [exact A|]. left. lra.
Qed.

(** sizes in order *)
Lemma increasing_lt l : increasing l -> forall j i, (i < j)%nat -> (j < length l)%nat -> item l i < item l j.
Proof.
  intros (_ & H). induction j as [|j IH]; intros i I J; [lia|]. pose proof (H j J). destruct (Nat.eq_dec i j) as [->|N]; [assumption|]. specialize (IH i ltac:(lia) ltac:(lia)). lra.
Qed.
Lemma increasing_pos l i : increasing l -> (i < length l)%nat -> 0 < item l i.
Proof. intros H L. pose proof (proj1 H). destruct i as [|i]; [assumption|]. pose proof (increasing_lt l H (S i) 0 ltac:(lia) L). lra. Qed.
Lemma last_item (l : list R) : last l 0 = item l (length l - 1).
Proof.
  induction l as [|x l IH]; [reflexivity|]. destruct l as [|y l]; [reflexivity|]. change (last (x :: y :: l) 0) with (last (y :: l) 0). rewrite IH. cbn [length].
  replace (S (S (length l)) - 1)%nat with (S (S (length l) - 1)) by lia. reflexivity.
Qed.
Lemma increasing_last l i : increasing l -> (i < length l)%nat -> item l i <= last l 0.
Proof. intros H L. rewrite last_item. destruct (Nat.eq_dec i (length l - 1)) as [->|N]; [lra|]. left. apply increasing_lt; auto; lia. Qed.
Lemma nth_error_item (l : list R) i : (i < length l)%nat -> nth_error l i = Some (item l i).
Proof. intros H. apply nth_error_nth'. exact H. Qed.

(** the invariant *)
Record G (c : fconf) (cum : list R) (mu : R) (s : fstate) : Prop := mkG {
  g_use : PSDuse s = true; g_cum : PSDcum s = cum; g_need : PSDNeedProc s = differences 0 cum;
  g_lm : length (PSDCurMean s) = length cum; g_lp : length (PSDCurProc s) = length cum;
  g_part : forall k, (k < length cum)%nat -> item (PSDCurMean s) k = part c k (made s);
  g_whole : whole c (made s) = if PSDcalculateMass c then totalMass s else IZR (numParticles s);
  g_proc : forall k, (k < length cum)%nat -> whole c (made s) * item (PSDCurProc s) k = item (PSDCurMean s) k;
  g_zero : whole c (made s) = 0 -> forall k, (k < length cum)%nat -> item (PSDCurProc s) k = 0;
  g_pos : 0 <= whole c (made s);
  g_sum : rsum (PSDCurMean s) = whole c (made s);
  g_low : forall k, (k < length cum)%nat -> - mu <= whole c (made s) * asked cum k - part c k (made s) }.

Lemma G_same c cum mu s s' : PSDuse s' = PSDuse s -> PSDcum s' = PSDcum s -> PSDNeedProc s' = PSDNeedProc s -> PSDCurMean s' = PSDCurMean s -> PSDCurProc s' = PSDCurProc s ->
  made s' = made s -> totalMass s' = totalMass s -> numParticles s' = numParticles s -> G c cum mu s -> G c cum mu s'.
Proof. intros A B C D E F H I []. constructor; rewrite ?A, ?B, ?C, ?D, ?E, ?F, ?H, ?I; assumption. Qed.

Lemma graded_need c cum : graded c cum -> rsum (differences 0 cum) = 1 /\ (forall k, (k < length cum)%nat -> 0 <= asked cum k) /\ 0 < asked cum 0.
Proof.
  intros (L & _ & _ & I & E). split; [rewrite differences_sum, E; lra|]. split.
  - intros [|k] K; unfold asked; [pose proof (proj1 I); lra|]. pose proof (proj2 I k K). lra.
  - unfold asked. pose proof (proj1 I). lra.
Qed.

(** the radius taken for a bin is in this bin and in no other *)
Lemma radius_graded c rnd cum mu s r id sd : randoms rnd -> graded c cum -> G c cum mu s -> radius c rnd s = Some (r, id, sd) ->
  id = best 0 (combine (differences 0 cum) (PSDCurProc s)) 0 0 /\ (forall k, (k < length cum)%nat -> in_bin c k r = Nat.eqb k id) /\ 0 < r /\ 2 * r <= last (PSDsizes c) 0.
Proof.
  intros R Gr Gs. unfold radius. rewrite (g_use _ _ _ _ Gs), (g_cum _ _ _ _ Gs), (g_need _ _ _ _ Gs).
  rewrite (firstn_all2 (combine (differences 0 cum) (PSDCurProc s))) by (rewrite combine_length, differences_length; lia).
  destruct (_ || _); [discriminate|].
  destruct (chosen (differences 0 cum) (PSDCurProc s)) as (L & _); [rewrite differences_length, (g_lp _ _ _ _ Gs); reflexivity|rewrite differences_length; apply Gr|].
  remember (best 0 (combine (differences 0 cum) (PSDCurProc s)) 0 0) as j eqn:Ej. rewrite differences_length in L. cbv zeta.
  destruct Gr as (_ & Ls & Is & _). unfold in_bin. destruct (exactDiam c).
  - rewrite (nth_error_item _ j) by lia. destruct (nth_error (PSDsizes c) (S j)); intros E; injection E as <- <- _.
    all: split; [reflexivity|]; split; [|pose proof (increasing_pos _ j Is ltac:(lia)); pose proof (increasing_last _ j Is ltac:(lia)); lra].
    all: intros k K; replace (2 * (item (PSDsizes c) j / 2)) with (item (PSDsizes c) j) by lra.
    all: destruct (Nat.eq_dec k j) as [->|N]; [rewrite Nat.eqb_refl; destruct (Req_EM_T _ _) as [_|N]; [reflexivity|lra]|].
    all: replace (Nat.eqb k j) with false by (symmetry; apply Nat.eqb_neq; exact N); destruct (Req_EM_T _ _) as [X|_]; [exfalso|reflexivity].
    all: destruct (Nat.lt_ge_cases k j) as [C|C]; [pose proof (increasing_lt _ Is j k C ltac:(lia)); lra|pose proof (increasing_lt _ Is k j ltac:(lia) ltac:(lia)); lra].
  - rewrite (nth_error_item _ j), (nth_error_item _ (S j)) by lia. intros E; injection E as <- <- _.
    pose proof (increasing_lt _ Is (S j) j ltac:(lia) ltac:(lia)) as Lt. pose proof (R (seed s)) as (U1 & U2).
    assert (B1 : item (PSDsizes c) j <= 2 * (item (PSDsizes c) j / 2 + rnd (seed s) * (item (PSDsizes c) (S j) / 2 - item (PSDsizes c) j / 2))).
    { pose proof (Rmult_le_pos (rnd (seed s)) (item (PSDsizes c) (S j) / 2 - item (PSDsizes c) j / 2)). lra. }
    assert (B2 : 2 * (item (PSDsizes c) j / 2 + rnd (seed s) * (item (PSDsizes c) (S j) / 2 - item (PSDsizes c) j / 2)) < item (PSDsizes c) (S j)).
    { pose proof (Rmult_lt_compat_r (item (PSDsizes c) (S j) / 2 - item (PSDsizes c) j / 2) (rnd (seed s)) 1). lra. }
    remember (item (PSDsizes c) j / 2 + rnd (seed s) * (item (PSDsizes c) (S j) / 2 - item (PSDsizes c) j / 2)) as r0. clear Heqr0.
    split; [reflexivity|]. split; [|pose proof (increasing_pos _ j Is ltac:(lia)); pose proof (increasing_last _ (S j) Is ltac:(lia)); lra].
    intros k K. destruct (Nat.eq_dec k j) as [->|N]; [rewrite Nat.eqb_refl; destruct (Rle_dec _ _); [|lra]; destruct (Rlt_dec _ _); [reflexivity|lra]|].
    replace (Nat.eqb k j) with false by (symmetry; apply Nat.eqb_neq; exact N).
    destruct (Nat.lt_ge_cases k j) as [C|C].
    + assert (item (PSDsizes c) (S k) <= item (PSDsizes c) j). { destruct (Nat.eq_dec (S k) j) as [->|M]; [lra|]. left. apply increasing_lt; auto; lia. }
      rewrite andb_comm. destruct (Rlt_dec _ _); [lra|reflexivity].
    + assert (item (PSDsizes c) (S j) <= item (PSDsizes c) k). { destruct (Nat.eq_dec (S j) k) as [->|M]; [lra|]. left. apply increasing_lt; auto; lia. }
      destruct (Rle_dec _ _); [lra|reflexivity].
Qed.

Lemma weight_bounds c rho r x vel : density c = Some rho -> 0 < rho -> 0 < r -> 2 * r <= last (PSDsizes c) 0 -> 0 < weight c (born x r vel rho) <= heaviest c rho.
Proof.
  intros _ Rp P L. unfold weight, heaviest, born. cbn [bmass]. destruct (PSDcalculateMass c); [|lra]. split; [apply Rmult_lt_0_compat; [apply volume_pos|]; assumption|].
  apply Rmult_le_compat_r; [lra|]. replace (4 / 3 * PI * (last (PSDsizes c) 0 / 2) ^ 3) with (sphereVolume (last (PSDsizes c) 0 / 2)) by (unfold sphereVolume; ring).
  apply volume_mono; lra.
Qed.

(** the chosen bin does not have too much *)
Lemma chosen_short c cum mu s id : graded c cum -> G c cum mu s -> id = best 0 (combine (differences 0 cum) (PSDCurProc s)) 0 0 ->
  (id < length cum)%nat /\ 0 <= whole c (made s) * asked cum id - part c id (made s).
Proof.
  intros Gr Gs Ei. destruct (chosen (differences 0 cum) (PSDCurProc s)) as (L & H); [rewrite differences_length, (g_lp _ _ _ _ Gs); reflexivity|rewrite differences_length; apply Gr|].
  rewrite <- Ei in *. rewrite differences_length in *. split; [exact L|].
  destruct (graded_need _ _ Gr) as (Sn & Np & N0).
  assert (It : forall k, (k < length cum)%nat -> item (differences 0 cum) k = asked cum k) by (intros k K; rewrite differences_item by exact K; reflexivity).
  pose proof (g_pos _ _ _ _ Gs) as P. rewrite <- (g_part _ _ _ _ Gs id L), <- (g_proc _ _ _ _ Gs id L).
  destruct H as [H|H].
  - rewrite It in H by exact L. pose proof (Rmult_le_compat_l _ _ _ P (Rlt_le _ _ H)). lra.
  - assert (X : forall k, (k < length (map (fun n => (whole c (made s) * n + 0)%R) (differences 0 cum)))%nat -> item (map (fun n => (whole c (made s) * n + 0)%R) (differences 0 cum)) k <= item (PSDCurMean s) k).
    { intros k K. rewrite map_length, differences_length in K. rewrite item_map by (rewrite differences_length; exact K). rewrite <- (g_proc _ _ _ _ Gs k K).
      pose proof (Rmult_le_compat_l _ _ _ P (H k K)). lra. }
    pose proof (sum_le (map (fun n => (whole c (made s) * n + 0)%R) (differences 0 cum)) (PSDCurMean s) id ltac:(rewrite map_length, differences_length, (g_lm _ _ _ _ Gs); reflexivity) X ltac:(rewrite map_length, differences_length; exact L)) as Y.
    rewrite sum_affine, Sn, (g_sum _ _ _ _ Gs), item_map, It, <- (g_proc _ _ _ _ Gs id L) in Y; try rewrite differences_length; try exact L. lra.
Qed.

Lemma asked_le1 c cum k : graded c cum -> (k < length cum)%nat -> 0 <= asked cum k.
Proof. intros Gr. apply (graded_need _ _ Gr). Qed.

Lemma G_add c cum mu s id sd rnd r sd0 x vel rho : randoms rnd -> graded c cum -> density c = Some rho -> 0 < rho -> heaviest c rho <= mu ->
  G c cum mu s -> radius c rnd s = Some (r, id, sd0) -> G c cum mu (add c s id sd (born x r vel rho)).
Proof.
  intros R Gr D Rp Mu Gs Er. destruct (radius_graded _ _ _ _ _ _ _ _ R Gr Gs Er) as (Ei & Bin & Rpos & Rl).
  destruct (chosen_short _ _ _ _ _ Gr Gs Ei) as (L & Short). pose proof (weight_bounds c rho r x vel D Rp Rpos Rl) as (W1 & W2).
  remember (born x r vel rho) as b eqn:Eb. assert (Br : bradius b = r) by (rewrite Eb; reflexivity).
  assert (Wh : whole c (made (add c s id sd b)) = whole c (made s) + weight c b) by (unfold add; cbn [made]; rewrite whole_app; cbn [whole]; lra).
  assert (Pt : forall k, (k < length cum)%nat -> part c k (made (add c s id sd b)) = part c k (made s) + if Nat.eqb k id then weight c b else 0).
  { intros k K. unfold add. cbn [made]. rewrite part_app. cbn [part]. rewrite Br, (Bin k K). lra. }
  assert (Mn : PSDCurMean (add c s id sd b) = addAt id (weight c b) (PSDCurMean s)) by (unfold add; cbn [PSDCurMean]; rewrite (g_use _ _ _ _ Gs); reflexivity).
  assert (Lm : length (addAt id (weight c b) (PSDCurMean s)) = length cum) by (rewrite addAt_length; apply (g_lm _ _ _ _ Gs)).
  assert (Pr : PSDCurProc (add c s id sd b) = map (fun m => m / (whole c (made s) + weight c b)) (addAt id (weight c b) (PSDCurMean s))).
  { unfold add. cbn [PSDCurProc]. rewrite (g_use _ _ _ _ Gs), (g_cum _ _ _ _ Gs). fold (weight c b).
    rewrite (firstn_all2 (addAt id (weight c b) (PSDCurMean s))) by lia. rewrite (skipn_all2 (PSDCurProc s)) by (rewrite (g_lp _ _ _ _ Gs); lia). rewrite app_nil_r.
    apply map_ext. intros m. f_equal. rewrite (g_whole _ _ _ _ Gs). unfold weight. destruct (PSDcalculateMass c); [reflexivity|]. rewrite plus_IZR. reflexivity. }
  pose proof (g_pos _ _ _ _ Gs) as P.
  constructor; rewrite ?Wh, ?Mn, ?Pr.
  - exact (g_use _ _ _ _ Gs).
  - exact (g_cum _ _ _ _ Gs).
  - exact (g_need _ _ _ _ Gs).
  - exact Lm.
  - rewrite map_length. exact Lm.
  - intros k K. rewrite addAt_item, Pt, (g_part _ _ _ _ Gs k K) by exact K. replace (Nat.ltb id (length (PSDCurMean s))) with true by (symmetry; apply Nat.ltb_lt; rewrite (g_lm _ _ _ _ Gs); exact L).
    rewrite andb_true_r. destruct (Nat.eqb k id); lra.
  - rewrite (g_whole _ _ _ _ Gs). unfold add, weight. cbn [totalMass numParticles]. destruct (PSDcalculateMass c); [reflexivity|]. rewrite plus_IZR. reflexivity.
  - intros k K. rewrite item_map by (rewrite Lm; exact K). field. lra.
  - intros Z. exfalso. lra.
  - lra.
  - rewrite addAt_sum by (rewrite (g_lm _ _ _ _ Gs); exact L). rewrite (g_sum _ _ _ _ Gs). reflexivity.
  - intros k K. rewrite Pt by exact K. pose proof (asked_le1 _ _ _ Gr K) as A. pose proof (Rmult_le_pos (weight c b) (asked cum k) ltac:(lra) A) as B.
    destruct (Nat.eq_dec k id) as [->|N]; [rewrite Nat.eqb_refl; lra|]. replace (Nat.eqb k id) with false by (symmetry; apply Nat.eqb_neq; exact N).
    pose proof (g_low _ _ _ _ Gs k K). lra.
Qed.

(** the first step puts the curve into use *)
Lemma ascending_ok l : increasing l -> ascending l = true.
Proof.
  destruct l as [|x l]; [reflexivity|]. revert x. induction l as [|y l IH]; intros x (A & B); [reflexivity|].
  assert (L : x < y) by (apply (B 0%nat); cbn [length]; lia). cbn [item nth] in A.
  change (ascending (x :: y :: l)) with (if Rlt_dec y x then false else if Rle_dec x 0 then false else ascending (y :: l)).
  destruct (Rlt_dec y x); [lra|]. destruct (Rle_dec x 0); [lra|]. apply IH. split; [cbn [item nth]; lra|]. intros i I. apply (B (S i)). cbn [length] in *. lia.
Qed.
Lemma normalized_id junk l : last l 0 = 1 -> normalized junk l = l.
Proof.
  intros E. unfold normalized. destruct (Req_EM_T junk 1); [reflexivity|]. destruct l as [|x l]; [reflexivity|]. rewrite E. f_equal.
  rewrite <- (map_id l) at 2. apply map_ext. intros y. lra.
Qed.
Lemma initPSD_graded c junk s : graded c (PSDcum s) -> PSDuse s = false -> exists s1, initPSD c junk s = Some s1 /\ PSDuse s1 = true /\ PSDcum s1 = PSDcum s
  /\ PSDNeedProc s1 = PSDNeedProc s ++ differences 0 (PSDcum s) /\ PSDCurMean s1 = PSDCurMean s ++ map (fun _ => 0) (PSDcum s) /\ PSDCurProc s1 = PSDCurProc s ++ map (fun _ => 0) (PSDcum s).
Proof.
  intros (L & Ls & Is & Ic & E) U. unfold initPSD. rewrite U. replace (Nat.eqb (length (PSDcum s)) 0) with false by (symmetry; apply Nat.eqb_neq; lia). cbn [orb].
  replace (exactDiam c && negb (Nat.eqb (length (PSDcum s)) (length (PSDsizes c)))) with false by (rewrite Ls; destruct (exactDiam c); [rewrite Nat.eqb_refl|]; reflexivity).
  replace (negb (exactDiam c) && negb (Nat.eqb (S (length (PSDcum s))) (length (PSDsizes c)))) with false by (rewrite Ls; destruct (exactDiam c); [|rewrite Nat.eqb_refl]; reflexivity).
  rewrite (ascending_ok _ Ic), (ascending_ok _ Is). cbn [andb negb]. cbv zeta. rewrite (normalized_id junk _ E). eexists. split; [reflexivity|]. cbn [PSDuse PSDcum PSDNeedProc PSDCurMean PSDCurProc]. auto.
Qed.
Lemma item_zeros (l : list R) k : item (map (fun _ => 0) l) k = 0.
Proof. unfold item. revert k. induction l as [|x l IH]; intros [|k]; cbn [map nth]; try reflexivity. apply IH. Qed.
Lemma sum_zeros (l : list R) : rsum (map (fun _ => 0) l) = 0.
Proof. induction l as [|x l IH]; cbn [map rsum]; [reflexivity|]. rewrite IH. lra. Qed.

(** not in use yet, or in order *)
Definition J (c : fconf) (cum : list R) (mu : R) (s : fstate) : Prop :=
  (PSDuse s = false /\ PSDcum s = cum /\ PSDNeedProc s = [] /\ PSDCurMean s = [] /\ PSDCurProc s = [] /\ made s = [] /\ totalMass s = 0 /\ numParticles s = 0%Z) \/ G c cum mu s.
Lemma J_init c cum mu junk s s1 : 0 <= mu -> graded c cum -> J c cum mu s -> initPSD c junk s = Some s1 -> G c cum mu s1.
Proof.
  intros Mu Gr [(U & C & N & M & P & Md & T & K)|Gs] E.
  - rewrite <- C in Gr. destruct (initPSD_graded c junk s Gr U) as (s2 & E2 & U2 & C2 & N2 & M2 & P2). rewrite E in E2. injection E2 as <-.
    destruct (initPSD_same _ _ _ _ E) as (_ & T1 & _ & K1 & _ & Md1 & _). rewrite N in N2. rewrite M in M2. rewrite P in P2. cbn [app] in *. rewrite C in *.
    constructor; rewrite ?U2, ?C2, ?N2, ?M2, ?P2, ?T1, ?K1, ?Md1, ?T, ?K, ?Md; cbn [whole part]; try reflexivity.
    + apply map_length.
    + apply map_length.
    + intros k _. apply item_zeros.
    + destruct (PSDcalculateMass c); reflexivity.
    + intros k _. rewrite !item_zeros. lra.
    + intros _ k _. apply item_zeros.
    + lra.
    + apply sum_zeros.
    + intros k _. lra.
  - unfold initPSD in E. rewrite (g_use _ _ _ _ Gs) in E. cbn [orb] in E. injection E as <-. exact Gs.
Qed.
Lemma J_same c cum mu s s' : PSDuse s' = PSDuse s -> PSDcum s' = PSDcum s -> PSDNeedProc s' = PSDNeedProc s -> PSDCurMean s' = PSDCurMean s -> PSDCurProc s' = PSDCurProc s ->
  made s' = made s -> totalMass s' = totalMass s -> numParticles s' = numParticles s -> J c cum mu s -> J c cum mu s'.
Proof.
  intros A B C D E F H I [X|X]; [left; rewrite A, B, C, D, E, F, H, I; exact X|right; exact (G_same c cum mu s s' A B C D E F H I X)].
Qed.
Lemma J_history c cum mu rho s s' : graded c cum -> density c = Some rho -> 0 < rho -> heaviest c rho <= mu -> 0 <= mu -> J c cum mu s -> history c s s' -> J c cum mu s'.
Proof.
  intros Gr D Rp Mu M0 J0 H. induction H as [|rnd probe junk dt fuel s1 s2 H IH R O]; [auto|].
  destruct (action_loop c rnd probe junk dt fuel s1) as [(E & X)|(s0 & s3 & E & St & C1 & C2 & C3 & C4 & C5 & X)]; rewrite X in O.
  - destruct O as [O|[O|[O|O]]]; try discriminate. injection O as <-. eapply J_same; [..|exact IH]; reflexivity.
  - assert (G3 : G c cum mu s3).
    { assert (G0 : G c cum mu s0) by (eapply (J_init c cum mu junk (throwing s1 dt)); [exact M0|exact Gr| |exact E]; eapply J_same; [..|exact IH]; reflexivity).
      destruct (initPSD_same _ _ _ _ E) as (_ & T1 & _ & K1 & _ & Md1 & _). destruct St as (_ & A & _ & B & _ & F & _).
      eapply G_same; [exact C2|exact C1|exact C3|exact C4|exact C5| | | |exact G0]; cbn [throwing made totalMass numParticles] in *; congruence. }
    right. assert (Y : exists new : list ball, G c cum mu s2); [|destruct Y; assumption].
    revert O. apply (loop_inv c rnd probe _ (fun _ s => G c cum mu s)).
    + intros new s4 r id sd sd' x rh _ Er _ Dr G4. rewrite D in Dr. injection Dr as <-. exact (G_add _ _ _ _ _ _ _ _ _ _ _ _ R Gr D Rp Mu G4 Er).
    + intros new s4 sd G4. eapply G_same; [..|exact G4]; reflexivity.
    + intros new s4 sd G4. eapply G_same; [..|exact G4]; reflexivity.
    + exact G3.
Qed.
Lemma heaviest_pos c rho cum : graded c cum -> 0 < rho -> 0 < heaviest c rho.
Proof.
  intros (L & Ls & Is & _) Rp. unfold heaviest. destruct (PSDcalculateMass c); [|lra]. apply Rmult_lt_0_compat; [|exact Rp].
  replace (4 / 3 * PI * (last (PSDsizes c) 0 / 2) ^ 3) with (sphereVolume (last (PSDsizes c) 0 / 2)) by (unfold sphereVolume; ring). apply volume_pos.
  rewrite last_item. pose proof (increasing_pos _ (length (PSDsizes c) - 1) Is ltac:(rewrite Ls; destruct (exactDiam c); lia)). lra.
Qed.
Lemma J_bounds c cum mu s k : graded c cum -> 0 <= mu -> J c cum mu s -> (k < length cum)%nat ->
  - mu <= whole c (made s) * asked cum k - part c k (made s) <= (INR (length cum) - 1) * mu.
Proof.
  intros Gr M0 [(_ & _ & _ & _ & _ & Md & _)|Gs] K.
  - rewrite Md. cbn [whole part]. split; [lra|]. replace (0 * asked cum k - 0) with 0 by lra. apply Rmult_le_pos; [|exact M0].
    pose proof (le_INR 1 (length cum) ltac:(lia)) as X. cbn [INR] in X. lra.
  - split; [apply (g_low _ _ _ _ Gs k K)|]. destruct (graded_need _ _ Gr) as (Sn & _).
    assert (It : forall k, (k < length cum)%nat -> item (differences 0 cum) k = asked cum k) by (intros i I; rewrite differences_item by exact I; reflexivity).
    pose proof (sum_le (PSDCurMean s) (map (fun n => whole c (made s) * n + mu) (differences 0 cum)) k) as X.
    rewrite map_length, differences_length, (g_lm _ _ _ _ Gs), sum_affine, Sn, (g_sum _ _ _ _ Gs), differences_length, item_map, It, (g_part _ _ _ _ Gs k K) in X; try rewrite differences_length; try exact K.
    specialize (X eq_refl). assert (Y : forall i, (i < length cum)%nat -> item (PSDCurMean s) i <= item (map (fun n => whole c (made s) * n + mu) (differences 0 cum)) i).
    { intros i I. rewrite item_map by (rewrite differences_length; exact I). rewrite It, (g_part _ _ _ _ Gs i I) by exact I. pose proof (g_low _ _ _ _ Gs i I). lra. }
    specialize (X Y K). lra.
Qed.
(** what is made follows the curve, up to a number of particles that does not grow *)
Lemma grading c flow mmass cum rho s k : graded c cum -> density c = Some rho -> 0 < rho -> history c (fresh flow mmass cum) s -> (k < length cum)%nat ->
  - heaviest c rho <= whole c (made s) * asked cum k - part c k (made s) <= (INR (length cum) - 1) * heaviest c rho.
Proof.
  intros Gr D Rp H K. pose proof (heaviest_pos _ _ _ Gr Rp). apply (J_bounds c cum); [exact Gr|lra| |exact K].
  refine (J_history c cum _ rho _ _ Gr D Rp (Rle_refl _) _ _ H); [lra|]. left. unfold fresh. cbn [PSDuse PSDcum PSDNeedProc PSDCurMean PSDCurProc made totalMass numParticles]. auto 10.
Qed.
(** and nothing is read outside of the arrays *)
Lemma grading_safe c flow mmass cum rho s rnd probe junk dt fuel : graded c cum -> density c = Some rho -> 0 < rho -> history c (fresh flow mmass cum) s -> randoms rnd ->
  action c rnd probe junk dt fuel s <> UB.
Proof.
  intros Gr D Rp H R. pose proof (heaviest_pos _ _ _ Gr Rp) as Hp.
  assert (Js : J c cum (heaviest c rho) s).
  { refine (J_history c cum _ rho _ _ Gr D Rp (Rle_refl _) _ _ H); [lra|]. left. unfold fresh. cbn [PSDuse PSDcum PSDNeedProc PSDCurMean PSDCurProc made totalMass numParticles]. auto 10. }
  destruct (action_loop c rnd probe junk dt fuel s) as [(E & X)|(s0 & s3 & E & St & C1 & C2 & C3 & C4 & C5 & X)]; rewrite X; [discriminate|].
  assert (G3 : G c cum (heaviest c rho) s3).
  { assert (G0 : G c cum (heaviest c rho) s0) by (eapply (J_init c cum _ junk (throwing s dt)); [lra|exact Gr| |exact E]; eapply J_same; [..|exact Js]; reflexivity).
    destruct (initPSD_same _ _ _ _ E) as (_ & T1 & _ & K1 & _ & Md1 & _). destruct St as (_ & A & _ & B & _ & F & _).
    eapply G_same; [exact C2|exact C1|exact C3|exact C4|exact C5| | | |exact G0]; cbn [throwing made totalMass numParticles] in *; congruence. }
  clear X E St C1 C2 C3 C4 C5. generalize (@nil ball). revert s3 G3. generalize (smul (speed c rnd s) (direction c)). intros vel.
  induction fuel as [|fuel IH]; intros s3 G3 new; cbn [loop]; destruct (wants c s3); try discriminate.
  destruct (radius c rnd s3) as [[[r id] sd]|] eqn:Er.
  - destruct (place c rnd probe new r sd) as [[x|] sd']; [|discriminate]. rewrite D. apply IH. exact (G_add _ _ _ _ _ _ _ _ _ _ _ _ R Gr D Rp (Rle_refl _) G3 Er).
  - exfalso. revert Er. unfold radius. rewrite (g_use _ _ _ _ G3), (g_cum _ _ _ _ G3), (g_need _ _ _ _ G3), differences_length, (g_lp _ _ _ _ G3), Nat.ltb_irrefl. cbn [orb].
    rewrite (firstn_all2 (combine (differences 0 cum) (PSDCurProc s3))) by (rewrite combine_length, differences_length; lia). cbv zeta.
    destruct (chosen_short _ _ _ _ _ Gr G3 eq_refl) as (L & _). destruct Gr as (_ & Ls & _).
    remember (best 0 (combine (differences 0 cum) (PSDCurProc s3)) 0 0) as j. destruct (exactDiam c).
    + rewrite (nth_error_item _ j) by lia. destruct (nth_error (PSDsizes c) (S j)); discriminate.
    + rewrite (nth_error_item _ j), (nth_error_item _ (S j)) by lia. discriminate.
Qed.
