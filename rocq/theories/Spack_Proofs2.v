(** Packings of spheres: bounding box and transformations. *)
From Coq Require Import Reals List ZArith Bool Lra Lia Psatz.
From Verif Require Import Vec_Model Vec_Proofs Cloud_Model Cloud_Spec Cloud_Proofs Spack_Model Spack_Spec Spack_Proofs.
Import ListNotations.
Local Open Scope R_scope.

Definition joined (b : vec * vec) (x : sph) : vec * vec := (cwiseMin (fst b) (low x), cwiseMax (snd b) (high x)).
Lemma joined_within b x : within b (joined b x).
Proof. unfold within, joined, cwiseMin, cwiseMax. cbn [fst snd vx vy vz]. repeat split; try apply Rmin_l; apply Rmax_l. Qed.
Lemma joined_contains b x : contains (joined b x) x.
Proof. unfold contains, joined, cwiseMin, cwiseMax, low, high. cbn [fst snd vx vy vz]. repeat split; try apply Rmin_r; apply Rmax_r. Qed.
Lemma within_trans a b d : within a b -> within b d -> within a d.
Proof. unfold within. intros. lra. Qed.
Lemma within_refl a : within a a. Proof. unfold within. lra. Qed.
Lemma contains_within b b' a : contains b a -> within b b' -> contains b' a.
Proof. unfold contains, within. intros. lra. Qed.
Lemma joined_least b x b' : within b b' -> contains b' x -> within (joined b x) b'.
Proof.
  unfold within, contains, joined, cwiseMin, cwiseMax, low, high. cbn [fst snd vx vy vz]. intros (A1 & A2 & A3 & A4 & A5 & A6) (B1 & B2 & B3 & B4 & B5 & B6).
  split; [apply Rmin_glb; assumption|]. split; [apply Rmin_glb; assumption|]. split; [apply Rmin_glb; assumption|]. split; [apply Rmax_lub; assumption|]. split; apply Rmax_lub; assumption.
Qed.
Lemma fold_box l : forall b, within b (fold_left joined l b) /\ Forall (contains (fold_left joined l b)) l /\ (forall b', within b b' -> Forall (contains b') l -> within (fold_left joined l b) b').
Proof.
  induction l as [|a l IH]; intros b; [split; [apply within_refl|split; [constructor|auto]]|]. cbn [fold_left]. destruct (IH (joined b a)) as (A & B & D). split; [|split].
  - apply (within_trans _ (joined b a)); [apply joined_within|exact A].
  - constructor; [|exact B]. apply (contains_within (joined b a)); [apply joined_contains|exact A].
  - intros b' W F. inversion_clear F. apply D; [apply joined_least; assumption|assumption].
Qed.
Lemma aabb_smallest l b : aabb l = Some b -> Forall (contains b) l /\ (forall b', Forall (contains b') l -> within b b').
Proof.
  destruct l as [|a l]; [discriminate|]. intros [= <-]. fold joined. destruct (fold_box l (low a, high a)) as (A & B & D). split.
  - constructor; [|exact B]. refine (contains_within _ _ a _ A). unfold contains, low, high. cbn [fst snd vx vy vz]. lra.
  - intros b' F. inversion_clear F as [|? ? Fa Fl]. apply D; [|exact Fl]. unfold within, low, high. unfold contains in Fa. cbn [fst snd vx vy vz]. lra.
Qed.

(** ** boxes of moved spheres *)
Definition affine (k : R) (m x : vec) : vec := vadd (smul k (vsub x m)) m.
Lemma affine_min k m a b : 0 <= k -> cwiseMin (affine k m a) (affine k m b) = affine k m (cwiseMin a b).
Proof.
  intros K. assert (H : forall x y z, Rmin (k * (x - z) + z) (k * (y - z) + z) = k * (Rmin x y - z) + z).
  { intros x y z. destruct (Rle_dec x y) as [L|L].
    - rewrite (Rmin_left x y) by exact L. apply Rmin_left. apply Rplus_le_compat_r. apply Rmult_le_compat_l; lra.
    - rewrite (Rmin_right x y) by lra. apply Rmin_right. apply Rplus_le_compat_r. apply Rmult_le_compat_l; lra. }
  unfold cwiseMin, affine, vadd, smul, vsub. cbn [vx vy vz]. rewrite !H. reflexivity.
Qed.
Lemma affine_max k m a b : 0 <= k -> cwiseMax (affine k m a) (affine k m b) = affine k m (cwiseMax a b).
Proof.
  intros K. assert (H : forall x y z, Rmax (k * (x - z) + z) (k * (y - z) + z) = k * (Rmax x y - z) + z).
  { intros x y z. destruct (Rle_dec x y) as [L|L].
    - rewrite (Rmax_right x y) by exact L. apply Rmax_right. apply Rplus_le_compat_r. apply Rmult_le_compat_l; lra.
    - rewrite (Rmax_left x y) by lra. apply Rmax_left. apply Rplus_le_compat_r. apply Rmult_le_compat_l; lra. }
  unfold cwiseMax, affine, vadd, smul, vsub. cbn [vx vy vz]. rewrite !H. reflexivity.
Qed.
Lemma affine_min_neg k m a b : k <= 0 -> cwiseMin (affine k m a) (affine k m b) = affine k m (cwiseMax a b).
Proof.
  intros K. assert (H : forall x y z, Rmin (k * (x - z) + z) (k * (y - z) + z) = k * (Rmax x y - z) + z).
  { intros x y z. destruct (Rle_dec x y) as [L|L].
    - rewrite (Rmax_right x y) by exact L. apply Rmin_right. apply Rplus_le_compat_r. apply Rmult_le_compat_neg_l; lra.
    - rewrite (Rmax_left x y) by lra. apply Rmin_left. apply Rplus_le_compat_r. apply Rmult_le_compat_neg_l; lra. }
  unfold cwiseMin, cwiseMax, affine, vadd, smul, vsub. cbn [vx vy vz]. rewrite !H. reflexivity.
Qed.
Lemma affine_max_neg k m a b : k <= 0 -> cwiseMax (affine k m a) (affine k m b) = affine k m (cwiseMin a b).
Proof.
  intros K. assert (H : forall x y z, Rmax (k * (x - z) + z) (k * (y - z) + z) = k * (Rmin x y - z) + z).
  { intros x y z. destruct (Rle_dec x y) as [L|L].
    - rewrite (Rmin_left x y) by exact L. apply Rmax_left. apply Rplus_le_compat_r. apply Rmult_le_compat_neg_l; lra.
    - rewrite (Rmin_right x y) by lra. apply Rmax_right. apply Rplus_le_compat_r. apply Rmult_le_compat_neg_l; lra. }
  unfold cwiseMin, cwiseMax, affine, vadd, smul, vsub. cbn [vx vy vz]. rewrite !H. reflexivity.
Qed.
Definition scaled (k : R) (m : vec) (a : sph) : sph := mkSph (affine k m (c a)) (r a * Rabs k) (clumpId a).
Lemma scaled_low k m a : 0 <= k -> low (scaled k m a) = affine k m (low a) /\ high (scaled k m a) = affine k m (high a).
Proof. intros K. unfold low, high, scaled, affine, vadd, smul, vsub. cbn [c r vx vy vz]. rewrite (Rabs_pos_eq k K). split; f_equal; ring. Qed.
Lemma scaled_low_neg k m a : k <= 0 -> low (scaled k m a) = affine k m (high a) /\ high (scaled k m a) = affine k m (low a).
Proof. intros K. unfold low, high, scaled, affine, vadd, smul, vsub. cbn [c r vx vy vz]. rewrite (Rabs_left1 k K). split; f_equal; ring. Qed.
Lemma fold_scaled k m l : 0 <= k -> forall b, fold_left joined (map (scaled k m) l) (affine k m (fst b), affine k m (snd b)) = (affine k m (fst (fold_left joined l b)), affine k m (snd (fold_left joined l b))).
Proof.
  intros K. induction l as [|a l IH]; intros b; [reflexivity|]. cbn [map fold_left]. rewrite <- IH. f_equal. unfold joined. cbn [fst snd]. destruct (scaled_low k m a K) as [-> ->]. rewrite affine_min, affine_max by exact K. reflexivity.
Qed.
Lemma fold_scaled_neg k m l : k <= 0 -> forall b, fold_left joined (map (scaled k m) l) (affine k m (snd b), affine k m (fst b)) = (affine k m (snd (fold_left joined l b)), affine k m (fst (fold_left joined l b))).
Proof.
  intros K. induction l as [|a l IH]; intros b; [reflexivity|]. cbn [map fold_left]. rewrite <- IH. f_equal. unfold joined. cbn [fst snd]. destruct (scaled_low_neg k m a K) as [-> ->]. rewrite affine_min_neg, affine_max_neg by exact K. reflexivity.
Qed.
Lemma scaled_box k m l b : aabb l = Some b -> aabb (map (scaled k m) l) = Some (if Rle_dec 0 k then (affine k m (fst b), affine k m (snd b)) else (affine k m (snd b), affine k m (fst b))).
Proof.
  destruct l as [|a l]; [discriminate|]. intros [= <-]. fold joined. cbn [map aabb]. fold joined. f_equal. destruct (Rle_dec 0 k) as [K|K].
  - destruct (scaled_low k m a K) as [-> ->]. apply (fold_scaled k m l K (low a, high a)).
  - destruct (scaled_low_neg k m a ltac:(lra)) as [-> ->]. apply (fold_scaled_neg k m l ltac:(lra) (low a, high a)).
Qed.
Lemma affine_mid k m a b : m = smul (1/2) (vadd a b) -> smul (1/2) (vadd (affine k m a) (affine k m b)) = m.
Proof. intros ->. unfold affine, vadd, smul, vsub. destruct a as [x y z], b as [x' y' z']. cbn [vx vy vz]. f_equal; field. Qed.
Lemma scale_mid k s : midPt (pack (scale k s)) = midPt (pack s).
Proof.
  unfold scale. cbn [pack]. fold (affine k (midPt (pack s))). change (map _ (pack s)) with (map (scaled k (midPt (pack s))) (pack s)). unfold midPt at 1. destruct (aabb (pack s)) as [b|] eqn:E.
  - rewrite (scaled_box k _ _ b E). assert (M : midPt (pack s) = smul (1/2) (vadd (fst b) (snd b))) by (unfold midPt; rewrite E; reflexivity). destruct (Rle_dec 0 k); cbn [fst snd].
    + apply affine_mid. exact M.
    + rewrite vadd_comm. apply affine_mid. exact M.
  - destruct (pack s) as [|a l]; [reflexivity|discriminate].
Qed.
Lemma scale_pack k s : pack (scale k s) = map (scaled k (midPt (pack s))) (pack s). Proof. reflexivity. Qed.
Lemma scale_back k s : k <> 0 -> scale (/ k) (scale k s) = s.
Proof.
  intros K. destruct s as [p cs ap pe]. assert (M := scale_mid k (mkPack p cs ap pe)). rewrite scale_pack in M. cbn [pack] in M.
  unfold scale at 1. rewrite scale_pack. cbn [pack]. rewrite M. unfold scale. cbn [pack cellSize appliedPsdScaling isPeriodic]. f_equal.
  - rewrite map_map. rewrite <- (map_id p) at 2. apply map_ext. intros [x rad cl]. unfold scaled, affine. cbn [c r clumpId]. generalize (midPt p). intros m. f_equal.
    + destruct x as [x y z], m as [a b d]. unfold vadd, smul, vsub. cbn [vx vy vz]. f_equal; field; exact K.
    + rewrite Rmult_assoc, <- Rabs_mult, Rinv_r, Rabs_R1 by exact K. ring.
  - destruct cs as [x y z]. unfold smul. cbn [vx vy vz]. f_equal; field; exact K.
Qed.
Lemma norm_smul k v : norm (smul k v) = Rabs k * norm v.
Proof. unfold norm. replace (norm2 (smul k v)) with (Rsqr k * norm2 v) by (unfold Rsqr; destruct v as [x y z]; unfold norm2, dot, smul; cbn [vx vy vz]; ring). rewrite sqrt_mult_alt by apply Rle_0_sqr. rewrite sqrt_Rsqr_abs. reflexivity. Qed.
Lemma similar_map k (f : sph -> sph) l : (forall a, r (f a) = k * r a /\ clumpId (f a) = clumpId a) ->
  (forall a b, norm (vsub (c (f a)) (c (f b))) = k * norm (vsub (c a) (c b))) -> similar k l (map f l).
Proof.
  intros H N. split; [symmetry; apply map_length|]. split.
  - intros i a E. exists (f a). split; [apply map_nth_error; exact E|apply H].
  - intros i j a b a' b' Ea Eb Ea' Eb'. rewrite (map_nth_error f _ _ Ea) in Ea'. rewrite (map_nth_error f _ _ Eb) in Eb'. injection Ea' as <-. injection Eb' as <-. apply N.
Qed.
Lemma scale_similar k s : similar (Rabs k) (pack s) (pack (scale k s)).
Proof.
  rewrite scale_pack. apply similar_map.
  - intros a. unfold scaled. cbn [r clumpId]. split; [ring|reflexivity].
  - intros a b. unfold scaled. cbn [c]. rewrite <- norm_smul. f_equal. unfold affine. generalize (midPt (pack s)) (c a) (c b). clear. intros. vring.
Qed.
Lemma translate_similar v s : similar 1 (pack s) (pack (translate v s)).
Proof.
  unfold translate. cbn [pack]. apply similar_map.
  - intros a. cbn [at_place r clumpId]. split; [ring|reflexivity].
  - intros a b. cbn [at_place c]. rewrite Rmult_1_l. f_equal. generalize (c a) (c b). clear. intros. vring.
Qed.
Lemma translate_back v s : translate (vopp v) (translate v s) = s.
Proof.
  destruct s as [p cs ap pe]. unfold translate. cbn [pack cellSize appliedPsdScaling isPeriodic]. f_equal. rewrite map_map. rewrite <- (map_id p) at 2. apply map_ext. intros [x rad cl]. unfold at_place. cbn [c r clumpId]. f_equal.
  generalize x v. clear. intros. vring.
Qed.
Lemma translate_box v s b : aabb (pack s) = Some b -> aabb (pack (translate v s)) = Some (vadd (fst b) v, vadd (snd b) v).
Proof.
  unfold translate. cbn [pack]. destruct (pack s) as [|a l]; [discriminate|]. intros [= <-]. fold joined. cbn [map aabb]. fold joined. f_equal.
  assert (L : forall x, low (at_place x (vadd (c x) v)) = vadd (low x) v /\ high (at_place x (vadd (c x) v)) = vadd (high x) v).
  { intros x. unfold low, high, at_place, vadd. cbn [c r vx vy vz]. split; f_equal; ring. }
  assert (H : forall l b, fold_left joined (map (fun a => at_place a (vadd (c a) v)) l) (vadd (fst b) v, vadd (snd b) v) = (vadd (fst (fold_left joined l b)) v, vadd (snd (fold_left joined l b)) v)).
  { clear a l. induction l as [|a l IH]; intros b; [reflexivity|]. cbn [map fold_left]. rewrite <- IH. f_equal. unfold joined. cbn [fst snd]. destruct (L a) as [-> ->]. unfold cwiseMin, cwiseMax, vadd. cbn [vx vy vz].
    assert (Mn : forall x y z, Rmin (x + z) (y + z) = Rmin x y + z) by (intros x y z; unfold Rmin; destruct (Rle_dec x y), (Rle_dec (x + z) (y + z)); lra).
    assert (Mx : forall x y z, Rmax (x + z) (y + z) = Rmax x y + z) by (intros x y z; unfold Rmax; destruct (Rle_dec x y), (Rle_dec (x + z) (y + z)); lra).
    rewrite !Mn, !Mx. reflexivity. }
  destruct (L a) as [-> ->]. apply (H l (low a, high a)).
Qed.
Lemma norm_qrot q v : qnorm2 q = 1 -> norm (qrot q v) = norm v. Proof. intros H. unfold norm. rewrite qrot_norm by exact H. reflexivity. Qed.
Lemma rotate_by_similar q s : qnorm2 q = 1 -> similar 1 (pack s) (pack (rotate_by q s)).
Proof.
  intros H. unfold rotate_by. cbn [pack]. apply similar_map.
  - intros a. cbn [at_place r clumpId]. split; [ring|reflexivity].
  - intros a b. cbn [at_place c]. rewrite Rmult_1_l, <- (norm_qrot q (vsub (c a) (c b)) H). f_equal. rewrite !qrot_sub. generalize (midPt (pack s)) (qrot q (c a)) (qrot q (c b)) (qrot q (midPt (pack s))). clear. intros. vring.
Qed.
Lemma rotate_similar axis angle s : norm axis = 1 -> similar 1 (pack s) (pack (rotate axis angle s)).
Proof. intros H. apply rotate_by_similar. apply angle_axis_unit. rewrite <- norm_sq, H. ring. Qed.
Lemma rotate_origin_similar q s : qnorm2 q = 1 -> similar 1 (pack s) (pack (rotateAroundOrigin q s)).
Proof.
  intros H. unfold rotateAroundOrigin. cbn [pack]. apply similar_map.
  - intros a. cbn [at_place r clumpId]. split; [ring|reflexivity].
  - intros a b. cbn [at_place c]. rewrite Rmult_1_l, <- (norm_qrot q (vsub (c a) (c b)) H). f_equal. rewrite qrot_sub. reflexivity.
Qed.
Lemma rotate_by_back q s : qnorm2 q = 1 -> midPt (pack (rotate_by q s)) = midPt (pack s) -> pack (rotate_by (qconj q) (rotate_by q s)) = pack s.
Proof.
  intros H M. unfold rotate_by at 1. cbn [pack]. rewrite M. unfold rotate_by. cbn [pack]. rewrite map_map. transitivity (map (fun x => x) (pack s)); [|apply map_id]. apply map_ext. intros [x rad cl]. unfold at_place. cbn [c r clumpId]. f_equal.
  generalize (midPt (pack s)). intros m. replace (vsub (vadd (qrot q (vsub x m)) m) m) with (qrot q (vsub x m)) by (generalize (qrot q (vsub x m)); clear; intros; vring). rewrite qrot_conj_l by exact H. generalize x m. clear. intros. vring.
Qed.
(** a similar packing overlaps where the other one does *)
Lemma similar_apart k l l' i j a b a' b' : 0 < k -> similar k l l' -> nth_error l i = Some a -> nth_error l j = Some b -> nth_error l' i = Some a' -> nth_error l' j = Some b' -> (apart a b <-> apart a' b').
Proof.
  intros K (_ & A & D) Ea Eb Ea' Eb'. destruct (A _ _ Ea) as (x & Ex & Rx & _). destruct (A _ _ Eb) as (y & Ey & Ry & _). rewrite Ea' in Ex. injection Ex as <-. rewrite Eb' in Ey. injection Ey as <-.
  unfold apart. rewrite (D i j a b a' b' Ea Eb Ea' Eb'), Rx, Ry, <- Rmult_plus_distr_l. split; intros H.
  - apply Rmult_lt_compat_l; assumption.
  - apply Rmult_lt_reg_l in H; assumption.
Qed.

(** ** density *)
Lemma vol_scaled k m l : fold_left (fun v a => v + r a ^ 3) (map (scaled k m) l) 0 = Rabs k ^ 3 * fold_left (fun v a => v + r a ^ 3) l 0.
Proof.
  assert (H : forall l x, fold_left (fun v a => v + r a ^ 3) (map (scaled k m) l) (Rabs k ^ 3 * x) = Rabs k ^ 3 * fold_left (fun v a => v + r a ^ 3) l x).
  { clear l. induction l as [|a l IH]; intros x; [reflexivity|]. cbn [map fold_left]. rewrite <- IH. f_equal. cbn [scaled r]. ring. }
  rewrite <- (H l 0). f_equal. ring.
Qed.
Lemma scale_density k s d : k <> 0 -> dim (pack s) = Some d -> vx d * vy d * vz d <> 0 -> relDensity (pack (scale k s)) = relDensity (pack s).
Proof.
  intros K D N. unfold relDensity. rewrite D. unfold dim in *. rewrite scale_pack. destruct (aabb (pack s)) as [b|] eqn:E; [|discriminate]. injection D as D. rewrite (scaled_box k _ _ b E). cbn [option_map]. f_equal.
  rewrite vol_scaled. set (m := midPt (pack s)). assert (B : vsub (snd (if Rle_dec 0 k then (affine k m (fst b), affine k m (snd b)) else (affine k m (snd b), affine k m (fst b)))) (fst (if Rle_dec 0 k then (affine k m (fst b), affine k m (snd b)) else (affine k m (snd b), affine k m (fst b)))) = smul (Rabs k) d).
  { rewrite <- D. destruct (Rle_dec 0 k) as [L|L]; cbn [fst snd]; [rewrite Rabs_pos_eq by exact L|rewrite Rabs_left1 by lra]; unfold affine, vadd, smul, vsub; cbn [vx vy vz]; f_equal; ring. }
  rewrite B. unfold smul. cbn [vx vy vz]. pose proof (Rabs_no_R0 k K). assert (vx d <> 0 /\ vy d <> 0 /\ vz d <> 0) as (N1 & N2 & N3) by (repeat split; intros Q; apply N; rewrite Q; ring). field. auto.
Qed.
