(** Random packings: numbers and sizes of spheres. *)
From Coq Require Import Reals List ZArith Bool Lra Lia Psatz Sorted.
From Verif Require Import Vec_Model Vec_Proofs Cloud_Model Cloud_Spec Cloud_Proofs Cloud_Proofs3.
Import ListNotations.
Local Open Scope R_scope.

(** ** plans *)
Lemma prepare_rmean q p sc : prepare q = (Some p, sc) -> 0 < rMean q -> how p = RDIST_RMEAN /\ mean p = rMean q /\ psdSizes q = [].
Proof.
  unfold prepare. intros H L. apply ltb_true in L. rewrite L in H. destruct (is_zero (volume q) && negb (mat_zero (hSize q))); [discriminate|].
  destruct (length (psdSizes q) =? 0)%nat eqn:L0.
  - apply Nat.eqb_eq in L0. apply length_zero_iff_nil in L0. injection H as <- _. auto.
  - destruct (negb (length (psdSizes q) =? length (psdCumm q))%nat); [discriminate|]. destruct (length (psdSizes q) <=? 1)%nat; [discriminate|].
    destruct (negb (is_zero (hd 0 (psdCumm q))) && negb (is_zero (last (psdCumm q) 0 - 1))); [discriminate|].
    destruct (negb (increasing (psdSizes q)) || negb (increasing (psdCumm q))); discriminate.
Qed.
Lemma prepare_num q p sc : prepare q = (Some p, sc) -> rMean q <= 0 -> psdSizes q = [] -> how p = RDIST_NUM /\ mean_radius q = Some (mean p).
Proof.
  unfold prepare. intros H L E. apply ltb_false in L. rewrite L, E in H. destruct (is_zero (volume q) && negb (mat_zero (hSize q))); [discriminate|].
  cbn [length Nat.eqb] in H. rewrite andb_true_r in H. destruct (0 <? num q)%Z; [|discriminate]. destruct (mean_radius q); [|discriminate]. cbv beta iota zeta in H. injection H as <- _. auto.
Qed.
Definition factor (q : params) : R := if (1 <? num q)%Z then (if ltb (scaling q) 1 then scaling q else 1) else 1.
Lemma prepare_psd q p sc : prepare q = (Some p, sc) -> psdSizes q <> [] ->
  how p = RDIST_PSD /\ rMean q <= 0 /\ length (psdSizes q) = length (psdCumm q) /\ increasing (psdSizes q) = true /\ increasing (psdCumm q) = true /\
  psdRadii p = map (fun d => factor q * (1/2 * d)) (psdSizes q) /\
  cumm p = (if distributeMass q then map (fun x => x / last (psdCumm2 q) 0) (psdCumm2 q) else psdCumm q).
Proof.
  unfold prepare. intros H E. destruct (is_zero (volume q) && negb (mat_zero (hSize q))); [discriminate|].
  assert (L0 : (length (psdSizes q) =? 0)%nat = false) by (destruct (psdSizes q); [congruence|reflexivity]). rewrite L0 in H. rewrite andb_false_r in H.
  destruct (length (psdSizes q) =? length (psdCumm q))%nat eqn:L1; cbn [negb] in H; [|discriminate]. apply Nat.eqb_eq in L1. destruct (length (psdSizes q) <=? 1)%nat; [discriminate|].
  destruct (negb (is_zero (hd 0 (psdCumm q))) && negb (is_zero (last (psdCumm q) 0 - 1))); [discriminate|].
  destruct (increasing (psdSizes q)) eqn:I1; cbn [negb orb] in H; [|discriminate]. destruct (increasing (psdCumm q)) eqn:I2; cbn [negb] in H; [|discriminate].
  destruct (ltb 0 (rMean q)) eqn:Lr; [discriminate|]. apply ltb_false in Lr. injection H as <- _. cbn [how psdRadii cumm].
  split; [reflexivity|]. split; [exact Lr|]. split; [exact L1|]. split; [reflexivity|]. split; [reflexivity|]. split; [|reflexivity].
  unfold factor. destruct (1 <? num q)%Z; [|apply map_ext; intros; ring]. destruct (ltb (scaling q) 1); [rewrite map_map; reflexivity|apply map_ext; intros; ring].
Qed.
Lemma cbrt_pos x : 0 < x -> 0 < cbrt x.
Proof. intros H. unfold cbrt. assert (E : is_zero x = false) by (apply is_zero_false; lra). rewrite E. apply exp_pos. Qed.
Lemma cbrt_cube x : 0 < x -> cbrt x ^ 3 = x.
Proof.
  intros H. pose proof (cbrt_pos x H) as P. rewrite <- (Rpower_pow 3 _ P). unfold cbrt. assert (E : is_zero x = false) by (apply is_zero_false; lra). rewrite E.
  rewrite Rpower_mult. replace (1 / 3 * INR 3) with 1 by (cbn [INR]; field). apply Rpower_1. exact H.
Qed.
Lemma poro_retried q q' : retried q q' -> porosity q < 1 -> poro q <= poro q' < 1.
Proof.
  intros [j ->] H. assert (P : 0 < poro q < 1) by (unfold poro; destruct (leb (porosity q) 0) eqn:L; [lra|apply leb_false in L; lra]).
  assert (K : poro q <= poro (Nat.iter j again q) < 1 /\ 0 < poro (Nat.iter j again q)); [|tauto].
  induction j as [|j [IH1 IH2]]; [cbn [Nat.iter nat_rect]; lra|]. change (Nat.iter (S j) again q) with (again (Nat.iter j again q)). remember (Nat.iter j again q) as q1.
  assert (E : poro (again q1) = poro q1 + (1 - poro q1) / 10) by (unfold poro at 1, again; cbn [porosity]; assert (L : leb (poro q1 + (1 - poro q1) / 10) 0 = false) by (apply leb_false; lra); rewrite L; reflexivity).
  rewrite E. lra.
Qed.
Lemma retried_volume q q' : retried q q' -> volume q' = volume q /\ room q' = room q /\ area q' = area q.
Proof. intros H. destruct (retried_same _ _ H) as (E1 & E2 & E3 & E4 & E5 & E6 & _). unfold room, volume, area, period, box. rewrite E1, E2, E4, E6. auto. Qed.
Lemma retried_rmean q q' : retried q q' -> rMean q <= 0 -> rMean q' <= 0.
Proof. intros [j ->] H. destruct j as [|j]; [exact H|]. change (Nat.iter (S j) again q) with (again (Nat.iter j again q)). cbn [rMean again]. lra. Qed.

(** ** lists of sizes *)
Lemma increasing_sorted l : increasing l = true -> sorted l.
Proof.
  intros H. apply Sorted_StronglySorted; [intros a b c; apply Rle_trans|]. revert H. unfold increasing.
  induction l as [|a l IH]; intros H; [constructor|]. destruct l as [|b l]; [repeat constructor|].
  change (pairs (a :: b :: l)) with ((a, b) :: pairs (b :: l)) in H. cbn [forallb fst snd] in H. apply andb_prop in H as [H1 H2]. apply leb_true in H1.
  constructor; [exact (IH H2)|constructor; exact H1].
Qed.
Lemma sorted_map k l : 0 < k -> sorted l -> sorted (map (fun d => k * (1/2 * d)) l).
Proof.
  intros K H. induction H as [|a l H IH F]; [constructor|]. cbn [map]. constructor; [exact IH|]. apply Forall_map. refine (Forall_impl _ _ F). intros b B. apply Rmult_le_compat_l; lra.
Qed.
Lemma pairs_length {A} (l : list A) : length (pairs l) = (length l - 1)%nat.
Proof. induction l as [|a l IH]; [reflexivity|]. destruct l as [|b l]; [reflexivity|]. change (pairs (a :: b :: l)) with ((a, b) :: pairs (b :: l)). cbn [length] in *. rewrite IH. lia. Qed.
Lemma numbers_length k acc l : length (numbers k acc l) = length l.
Proof. revert acc. induction l as [|[[s0 s1] [c0 c1]] l IH]; intros acc; [reflexivity|]. cbn [numbers length]. rewrite IH. reflexivity. Qed.
Lemma psdCumm2_length q : psdSizes q <> [] -> length (psdSizes q) = length (psdCumm q) -> length (psdCumm2 q) = length (psdSizes q).
Proof. intros N L. unfold psdCumm2. cbn [length]. rewrite numbers_length, combine_length, !pairs_length, <- L, Nat.min_id. destruct (psdSizes q); [congruence|cbn [length]; lia]. Qed.
Lemma numbers_last k : 0 < k -> forall ds cs acc, strict ds -> increasing cs = true -> length ds = length cs -> ds <> [] ->
  acc <= last (acc :: numbers k acc (combine (pairs ds) (pairs cs))) 0 /\ (last (acc :: numbers k acc (combine (pairs ds) (pairs cs))) 0 <= acc -> last cs 0 <= hd 0 cs).
Proof.
  intros K. induction ds as [|d0 ds IH]; intros cs acc Hs Hi L N; [congruence|]. destruct cs as [|c0 cs]; [discriminate|].
  destruct ds as [|d1 ds].
  - destruct cs; [|discriminate]. cbn [pairs combine numbers last hd]. lra.
  - destruct cs as [|c1 cs]; [discriminate|].
    change (pairs (d0 :: d1 :: ds)) with ((d0, d1) :: pairs (d1 :: ds)) in *. change (pairs (c0 :: c1 :: cs)) with ((c0, c1) :: pairs (c1 :: cs)) in *.
    unfold strict in Hs. change (pairs (d0 :: d1 :: ds)) with ((d0, d1) :: pairs (d1 :: ds)) in Hs. inversion Hs as [|x y H1 H2]; subst. cbn [fst snd] in H1.
    unfold increasing in Hi. change (pairs (c0 :: c1 :: cs)) with ((c0, c1) :: pairs (c1 :: cs)) in Hi. cbn [forallb fst snd] in Hi. apply andb_prop in Hi as [I1 I2]. apply leb_true in I1.
    cbn [combine numbers]. set (acc' := acc + k * (c1 - c0) / (d1 - d0) * (/ (d0 * d0) - / (d1 * d1))).
    destruct (IH (c1 :: cs) acc' H2 I2 ltac:(cbn [length] in *; lia) ltac:(discriminate)) as [A B].
    set (w := k / (d1 - d0) * (/ (d0 * d0) - / (d1 * d1))).
    assert (W : 0 < w).
    { unfold w, Rdiv. apply Rmult_lt_0_compat; [apply Rmult_lt_0_compat; [exact K|apply Rinv_0_lt_compat; lra]|]. assert (/ (d1 * d1) < / (d0 * d0)); [|lra].
      apply Rinv_lt_contravar; [apply Rmult_lt_0_compat; apply Rmult_lt_0_compat; lra|apply Rmult_gt_0_lt_compat; lra]. }
    assert (E : acc' = acc + w * (c1 - c0)) by (unfold acc', w, Rdiv; ring). pose proof (Rmult_le_pos w (c1 - c0) ltac:(lra) ltac:(lra)) as P.
    change (last (acc :: acc' :: numbers k acc' (combine (pairs (d1 :: ds)) (pairs (c1 :: cs)))) 0) with (last (acc' :: numbers k acc' (combine (pairs (d1 :: ds)) (pairs (c1 :: cs)))) 0).
    remember (last (acc' :: numbers k acc' (combine (pairs (d1 :: ds)) (pairs (c1 :: cs)))) 0) as z. clear Heqz. clearbody acc' w.
    split; [lra|]. intros Z. assert (Q : w * (c1 - c0) <= 0) by lra. assert (c1 - c0 <= 0).
    { destruct (Rle_lt_dec (c1 - c0) 0) as [|G]; [assumption|]. pose proof (Rmult_lt_0_compat _ _ W G). lra. }
    specialize (B ltac:(lra)). change (last (c0 :: c1 :: cs) 0) with (last (c1 :: cs) 0). cbn [hd] in *. lra.
Qed.
Lemma last_map (h : R -> R) l d : l <> [] -> last (map h l) d = h (last l d).
Proof. intros N. induction l as [|a l IH]; [congruence|]. destruct l as [|b l]; [reflexivity|]. change (last (map h (b :: l)) d = h (last (b :: l) d)). apply IH. discriminate. Qed.
Lemma psd_ok_retried q q' : retried q q' -> psd_ok q -> psd_ok q'.
Proof.
  intros Rq (A & B & C & D & E & F). destruct (retried_same _ _ Rq) as (E1 & E2 & E3 & E4 & E5 & E6 & E7 & E8 & E9). destruct (retried_volume _ _ Rq) as (V1 & V2 & V3).
  unfold psd_ok. rewrite E6, E7, E8, V2. pose proof (poro_retried _ _ Rq E) as [_ P].
  assert (porosity q' < 1). { unfold poro in P. destruct (leb (porosity q') 0) eqn:L; [apply leb_true in L; lra|exact P]. } tauto.
Qed.
Lemma total_pos q : psd_ok q -> distributeMass q = true -> increasing (psdCumm q) = true -> psdSizes q <> [] -> length (psdSizes q) = length (psdCumm q) -> 0 < last (psdCumm2 q) 0.
Proof.
  intros (A & B & C & D & E & F) M I N L. unfold psdCumm2.
  assert (K : 0 < 3 * room q * (1 - poro q) / PI).
  { assert (0 < 1 - poro q) by (unfold poro; destruct (leb (porosity q) 0); lra). pose proof PI_RGT_0. unfold Rdiv. apply Rmult_lt_0_compat; [|apply Rinv_0_lt_compat; assumption]. apply Rmult_lt_0_compat; lra. }
  destruct (numbers_last _ K (psdSizes q) (psdCumm q) 0 (F M) I L N) as [P Q]. destruct (Rle_lt_dec (last (0 :: numbers (3 * room q * (1 - poro q) / PI) 0 (combine (pairs (psdSizes q)) (pairs (psdCumm q)))) 0) 0) as [G|G]; [|exact G].
  specialize (Q G). lra.
Qed.
Lemma factor_range q : psd_ok q -> increasing (psdCumm q) = true -> psdSizes q <> [] -> length (psdSizes q) = length (psdCumm q) -> 0 < factor q <= 1.
Proof.
  intros O I N L. unfold factor. destruct (1 <? num q)%Z eqn:E; [|lra]. apply Z.ltb_lt in E. destruct (ltb (scaling q) 1) eqn:G; [|lra]. apply ltb_true in G. split; [|lra].
  unfold scaling in *. destruct (distributeMass q) eqn:M.
  - pose proof (total_pos q O M I N L) as T. cbv zeta. destruct (ltb (last (psdCumm2 q) 0) (IZR (num q))); [|lra]. apply cbrt_pos. apply Rdiv_lt_0_compat; [exact T|apply (IZR_lt 0); lia].
  - cbv zeta. destruct (ltb 1 (totVol q / ((1 - poro q) * room q))) eqn:V; [|lra]. apply ltb_true in V. apply Rinv_0_lt_compat. apply cbrt_pos. lra.
Qed.
Lemma psd_good q p sc : psd_ok q -> prepare q = (Some p, sc) -> psdSizes q <> [] -> good q p /\ lowest q p = factor q * (1/2 * hd 0 (psdSizes q)) /\ highest q p = factor q * (1/2 * last (psdSizes q) 0) /\ 0 < factor q <= 1.
Proof.
  intros O P N. destruct (prepare_psd _ _ _ P N) as (A & B & C & D & E & F & G). pose proof (factor_range q O E N C) as K.
  unfold good, lowest, highest. rewrite A, F. split; [split|split; [|split; [|exact K]]].
  - apply sorted_map; [tauto|apply increasing_sorted; exact D].
  - intros _. apply Forall_map. destruct O as (_ & _ & O & _). refine (Forall_impl _ _ O). intros d Hd. apply Rmult_lt_0_compat; [tauto|lra].
  - destruct (psdSizes q); [congruence|reflexivity].
  - apply (last_map (fun d => factor q * (1/2 * d))). exact N.
Qed.
Lemma psd_defined q p sc x : psd_ok q -> prepare q = (Some p, sc) -> psdSizes q <> [] -> 0 <= x < 1 -> radius q p x <> None.
Proof.
  intros O P N X. destruct (prepare_psd _ _ _ P N) as (A & B & C & D & E & F & G). unfold radius. rewrite A.
  assert (Lc : length (cumm p) = length (psdSizes q)). { rewrite G. destruct (distributeMass q); [rewrite map_length; apply psdCumm2_length; assumption|congruence]. }
  assert (K : exists i t, psdGetPiece x (cumm p) = Some (i, t)).
  { apply piece_some.
    - rewrite G. destruct (distributeMass q) eqn:M; [cbn [psdCumm2 map hd]; unfold Rdiv; rewrite Rmult_0_l; lra|]. destruct O as (O1 & _). destruct (psdCumm q) as [|c0 cs]; [destruct (psdSizes q); [congruence|discriminate]|]. cbn [hd] in *. lra.
    - rewrite G. destruct (distributeMass q) eqn:M; [|destruct O as (_ & O2 & _); lra].
      rewrite (last_map (fun y => y / last (psdCumm2 q) 0)) by discriminate. pose proof (total_pos q O M E N C). unfold Rdiv. rewrite Rinv_r by lra. lra. }
  destruct K as (i & t & K). rewrite K. destruct (piece_spec _ _ _ _ K) as (_ & a & b & _ & N2 & _).
  assert (S i < length (psdRadii p))%nat. { rewrite F, map_length, <- Lc. apply nth_error_Some. congruence. }
  destruct (nth_error (psdRadii p) i) eqn:Q1; [|apply nth_error_None in Q1; lia]. destruct (nth_error (psdRadii p) (S i)) eqn:Q2; [discriminate|apply nth_error_None in Q2; lia].
Qed.

Section Cloud.
Variable rnd : nat -> R.
Lemma grows_count q p : forall new i l, grows rnd q p i l new -> new <> [] -> more (num q) (i + length new - 1) = true.
Proof.
  induction new as [|s new IH]; intros i l G N; [congruence|]. cbn [grows length] in *. destruct G as [(kr & kd & _ & _ & _ & _ & M) G].
  destruct new as [|s' new]; [cbn [length]; replace (i + 1 - 1)%nat with i by lia; exact M|]. specialize (IH _ _ G ltac:(discriminate)). cbn [length] in *.
  replace (i + S (S (length new)) - 1)%nat with (S i + S (length new) - 1)%nat by lia. exact IH.
Qed.
Lemma grows_le q p new l : grows rnd q p 0 l new -> (0 <= num q)%Z -> (Z.of_nat (length new) <= num q)%Z.
Proof.
  intros G N. destruct new as [|s new]; [cbn [length]; lia|]. pose proof (grows_count q p _ _ _ G ltac:(discriminate)) as M. unfold more in M. cbn [length] in *.
  apply orb_prop in M as [M|M]; apply Z.ltb_lt in M; lia.
Qed.
Lemma grows_exact q p new l : grows rnd q p 0 l new -> (0 < num q)%Z -> more (num q) (length new) = false -> Z.of_nat (length new) = num q.
Proof. intros G N M. pose proof (grows_le q p new l G ltac:(lia)). unfold more in M. apply orb_false_elim in M as [M _]. apply Z.ltb_ge in M. lia. Qed.

(** mean radius imposed *)
Lemma cloud_rmean mt f q s k n s' k' : 0 < rMean q -> attempts rnd f mt q s k = Returned n s' k' ->
  exists p sc new, prepare q = (Some p, sc) /\ how p = RDIST_RMEAN /\ mean p = rMean q /\ pack s' = pack s ++ new /\ grows rnd q p 0 (pack s) new /\
    ((0 <= num q)%Z -> (Z.of_nat (length new) <= num q)%Z) /\ (n = Z.of_nat (length (pack s ++ new)) \/ n = Z.of_nat (length new)).
Proof.
  intros L H. destruct (attempts_spec rnd mt f _ _ _ _ _ _ H) as (q' & p & sc & kept & new & Rq & Pq & Es & G & K & N).
  destruct K as [[-> ->]|(-> & I & P)].
  - destruct (prepare_rmean _ _ _ Pq L) as (A & B & _). exists p, sc, new. rewrite Es in N.
    split; [exact Pq|]. split; [exact A|]. split; [exact B|]. split; [exact Es|]. split; [exact G|]. split; [apply (grows_le q p new _ G)|]. destruct N as [[-> _]|[-> _]]; auto.
  - destruct P as (_ & p0 & sc0 & P0 & I0). destruct (prepare_rmean _ _ _ P0 L) as (A & _). unfold imposed in I0. rewrite A in I0. discriminate.
Qed.

Lemma cloud_rmean_radii mt f q s k n s' k' : in_unit rnd -> 0 < rMean q -> 0 <= rRelFuzz q -> (distributeMass q = true -> rRelFuzz q < 1) -> attempts rnd f mt q s k = Returned n s' k' ->
  exists new, pack s' = pack s ++ new /\ Forall (fun a => rMean q * (1 - rRelFuzz q) <= r a <= rMean q * (1 + rRelFuzz q)) new /\ ((0 < num q)%Z -> decreasing (map r new)).
Proof.
  intros U L F1 F2 H. destruct (cloud_rmean mt f _ _ _ _ _ _ L H) as (p & sc & new & P & A & B & E & G & _). exists new. split; [exact E|].
  assert (Gd : good q p) by (unfold good; rewrite A, B; auto). split.
  - pose proof (grows_range rnd U q p 0 _ new Gd G) as Q. unfold lowest, highest in Q. rewrite A, B in Q. exact Q.
  - intros Hn. exact (grows_decreasing rnd q p _ new Gd Hn G).
Qed.
Lemma cloud_num mt f q s k n s' k' : in_unit rnd -> rMean q <= 0 -> psdSizes q = [] -> (0 < num q)%Z -> 0 < volume q -> porosity q < 1 -> 0 <= rRelFuzz q -> (distributeMass q = true -> rRelFuzz q < 1) ->
  attempts rnd f mt q s k = Returned n s' k' ->
  exists kept new m e, pack s' = kept ++ new /\ (kept = pack s \/ kept = []) /\ Z.of_nat (length new) = num q /\
    poro q <= e < 1 /\ 0 < m /\ IZR (num q) * (4 / 3 * PI * m ^ 3 * (1 + rRelFuzz q ^ 2)) = volume q * (1 - e) /\
    Forall (fun a => m * (1 - rRelFuzz q) <= r a <= m * (1 + rRelFuzz q)) new /\ decreasing (map r new).
Proof.
  intros U L Es Hn Hv Hp F1 F2 H. destruct (attempts_spec rnd mt f _ _ _ _ _ _ H) as (q' & p & sc & kept & new & Rq & Pq & Ep & G & K & N).
  destruct (retried_same _ _ Rq) as (E1 & E2 & E3 & E4 & E5 & E6 & E7 & E8 & E9). destruct (retried_volume _ _ Rq) as (V1 & _ & _). pose proof (poro_retried _ _ Rq Hp) as Po.
  destruct (prepare_num _ _ _ Pq (retried_rmean _ _ Rq L) ltac:(congruence)) as [A B].
  assert (Hn' : (0 < num q')%Z) by congruence. pose proof (IZR_lt _ _ Hn) as HnR.
  assert (Hf : 0 < 1 + rRelFuzz q * rRelFuzz q) by (pose proof (Rle_0_sqr (rRelFuzz q)); unfold Rsqr in *; lra). pose proof PI_RGT_0 as Pi.
  unfold mean_radius in B. rewrite V1, E5, E9 in B. assert (Z : is_zero (volume q) = false) by (apply is_zero_false; lra). rewrite Z in B. cbn [negb] in B. injection B as B.
  assert (X : 0 < volume q * (1 - poro q') / (PI * (4 / 3) * (1 + rRelFuzz q * rRelFuzz q) * IZR (num q))).
  { apply Rdiv_lt_0_compat; [apply Rmult_lt_0_compat; lra|]. apply Rmult_lt_0_compat; [|exact HnR]. apply Rmult_lt_0_compat; lra. }
  assert (M : 0 < mean p) by (rewrite <- B; apply cbrt_pos; exact X).
  assert (Gd : good q' p) by (unfold good; rewrite A, E9, E8; auto).
  exists kept, new, (mean p), (poro q'). split; [exact Ep|]. split; [destruct K as [[_ ->]|[-> _]]; auto|]. split.
  { destruct N as [[_ N]|(_ & _ & [N|N])]; [|lia|unfold imposed in N; rewrite A in N; discriminate]. rewrite <- E5 in *. apply (grows_exact q' p new kept G Hn' N). }
  split; [exact Po|]. split; [exact M|]. split.
  { rewrite <- B, cbrt_cube by exact X. field. split; lra. }
  split.
  - pose proof (grows_range rnd U q' p 0 _ new Gd G) as Q. unfold lowest, highest in Q. rewrite A, E9 in Q. exact Q.
  - exact (grows_decreasing rnd q' p _ new Gd Hn' G).
Qed.
Lemma cloud_psd mt f q s k n s' k' : in_unit rnd -> psdSizes q <> [] -> psd_ok q -> attempts rnd f mt q s k = Returned n s' k' ->
  exists kept new t, pack s' = kept ++ new /\ (kept = pack s \/ kept = []) /\ 0 < t <= 1 /\
    Forall (fun a => t * hd 0 (psdSizes q) <= 2 * r a <= t * last (psdSizes q) 0) new /\
    ((0 < num q)%Z -> decreasing (map r new) /\ Z.of_nat (length new) = num q).
Proof.
  intros U Ne O H. destruct (attempts_spec rnd mt f _ _ _ _ _ _ H) as (q' & p & sc & kept & new & Rq & Pq & Ep & G & K & N).
  destruct (retried_same _ _ Rq) as (E1 & E2 & E3 & E4 & E5 & E6 & E7 & E8 & E9).
  destruct (psd_good q' p sc (psd_ok_retried _ _ Rq O) Pq ltac:(congruence)) as (Gd & Lo & Hi & Fa).
  exists kept, new, (factor q'). split; [exact Ep|]. split; [destruct K as [[_ ->]|[-> _]]; auto|]. split; [exact Fa|]. split.
  - pose proof (grows_range rnd U q' p 0 _ new Gd G) as Q. rewrite Lo, Hi, E6 in Q. refine (Forall_impl _ _ Q). intros a. cbv beta. lra.
  - intros Hn. rewrite <- E5 in Hn. split; [exact (grows_decreasing rnd q' p _ new Gd Hn G)|].
    destruct (prepare_psd _ _ _ Pq ltac:(congruence)) as (A & _).
    destruct N as [[_ N]|(_ & _ & [N|N])]; [|rewrite <- E5 in N; lia|unfold imposed in N; rewrite A in N; discriminate]. rewrite <- E5 in *. apply (grows_exact q' p new kept G Hn N).
Qed.
(** no access outside of the vectors *)
Lemma spheres_defined mt q p f : (forall k, 0 <= rnd k < 1) -> (forall x, 0 <= x < 1 -> radius q p x <> None) -> forall i l k, spheres rnd f mt q p i l k <> Outside.
Proof.
  intros U R. induction f as [|f IH]; intros i l k; cbn [spheres]; [discriminate|]. destruct (more (num q) i) eqn:M; [|discriminate].
  destruct (0 <? num q)%Z eqn:Hn.
  - apply Z.ltb_lt in Hn. unfold more in M. assert (Hi : (Z.of_nat i < num q)%Z) by (apply orb_prop in M as [M|M]; apply Z.ltb_lt in M; lia).
    pose proof (R _ (rank_range q i Hi)). destruct (radius q p (rank_rand q i)); [|congruence]. destruct (place rnd mt q p l r k) as [[x|] k2]; [apply IH|discriminate].
  - pose proof (R _ (U k)). destruct (radius q p (rnd k)); [|congruence]. destruct (place rnd mt q p l r (S k)) as [[x|] k2]; [apply IH|discriminate].
Qed.
Lemma cloud_defined mt f : forall q s k, (forall k, 0 <= rnd k < 1) -> (psdSizes q = [] \/ psd_ok q) -> attempts rnd f mt q s k <> Undefined.
Proof.
  induction f as [|f IH]; intros q s k U O; cbn [attempts]; [discriminate|]. destruct (prepare q) as [[p|] sc] eqn:P; [|discriminate].
  assert (R : forall x, 0 <= x < 1 -> radius q p x <> None).
  { destruct (psdSizes q) eqn:E.
    - intros x _. assert (W : how p <> RDIST_PSD).
      { destruct (Rle_lt_dec (rMean q) 0) as [L|L]; [destruct (prepare_num _ _ _ P L E) as [-> _]|destruct (prepare_rmean _ _ _ P L) as [-> _]]; discriminate. }
      unfold radius. destruct (how p); try discriminate. congruence.
    - rewrite <- E in *. destruct O as [O|O]; [congruence|]. intros x X. apply (psd_defined q p sc x O P); [congruence|exact X]. }
  match goal with |- context [spheres rnd f mt q p 0 ?l k] => pose proof (spheres_defined mt q p f U R 0 l k) as D; destruct (spheres rnd f mt q p 0 l k) end; try discriminate; try congruence.
  destruct ((0 <? num q)%Z && _); [|discriminate]. apply IH; [exact U|]. destruct O as [O|O]; [left; exact O|right]. apply (psd_ok_retried q); [exists 1%nat; reflexivity|exact O].
Qed.
(** the number returned *)
Lemma cloud_count mt f q s k n s' k' : pack s = [] -> attempts rnd f mt q s k = Returned n s' k' -> n = Z.of_nat (length (pack s')) /\ ((0 <= num q)%Z -> (n <= num q)%Z) /\ ((0 < num q)%Z -> rMean q <= 0 -> n = num q).
Proof.
  intros E H. destruct (attempts_spec rnd mt f _ _ _ _ _ _ H) as (q' & p & sc & kept & new & Rq & Pq & Ep & G & K & N).
  assert (Ek : kept = []) by (destruct K as [[_ ->]|[-> _]]; [exact E|reflexivity]). subst kept. cbn [app] in Ep. rewrite Ep in *.
  destruct (retried_same _ _ Rq) as (_ & _ & _ & _ & E5 & _).
  assert (En : n = Z.of_nat (length new)) by (destruct N as [[-> _]|[-> _]]; reflexivity). split; [exact En|]. split.
  - intros Hn. rewrite <- E5 in *. rewrite En. apply (grows_le q' p new [] G Hn).
  - intros Hn Hr. rewrite En. rewrite <- E5 in *. destruct N as [[_ N]|(_ & _ & [N|N])]; [apply (grows_exact q' p new [] G Hn N)|lia|].
    exfalso. pose proof (retried_rmean _ _ Rq Hr) as Hr'. unfold imposed in N. destruct (psdSizes q') eqn:Eq; [destruct (prepare_num _ _ _ Pq Hr' Eq) as [A _]|destruct (prepare_psd _ _ _ Pq ltac:(congruence)) as [A _]]; rewrite A in N; discriminate.
Qed.
End Cloud.
