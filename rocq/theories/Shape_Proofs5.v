From Coq Require Import Reals List ZArith Bool Lra Lia.
From Verif Require Import Vec_Model Vec_Proofs Rigid_Model Law_Model Shape_Model Shape_Spec Shape_Proofs Shape_Proofs2 Shape_Proofs3 Shape_Proofs4.
Local Open Scope R_scope.

(** ** bounding boxes *)
Lemma min3 a b c s t w : 0 <= s -> 0 <= t -> 0 <= w -> s + t + w = 1 -> Rmin (Rmin a b) c <= s * a + t * b + w * c.
Proof.
  intros S0 T0 W0 E. pose proof (Rmin_l (Rmin a b) c). pose proof (Rmin_r (Rmin a b) c). pose proof (Rmin_l a b). pose proof (Rmin_r a b). remember (Rmin (Rmin a b) c) as m. assert (0 <= s * (a - m)) by (apply Rmult_le_pos; lra). assert (0 <= t * (b - m)) by (apply Rmult_le_pos; lra). assert (0 <= w * (c - m)) by (apply Rmult_le_pos; lra). replace m with ((s + t + w) * m) by (rewrite E; ring). lra.
Qed.
Lemma max3 a b c s t w : 0 <= s -> 0 <= t -> 0 <= w -> s + t + w = 1 -> s * a + t * b + w * c <= Rmax (Rmax a b) c.
Proof.
  intros S0 T0 W0 E. pose proof (Rmax_l (Rmax a b) c). pose proof (Rmax_r (Rmax a b) c). pose proof (Rmax_l a b). pose proof (Rmax_r a b). remember (Rmax (Rmax a b) c) as m. assert (0 <= s * (m - a)) by (apply Rmult_le_pos; lra). assert (0 <= t * (m - b)) by (apply Rmult_le_pos; lra). assert (0 <= w * (m - c)) by (apply Rmult_le_pos; lra). replace m with ((s + t + w) * m) by (rewrite E; ring). lra.
Qed.
Lemma id_affine M p q s t w a b c : s + t + w = 1 -> mulv M (vadd p (mulv q (vadd (vadd (smul s a) (smul t b)) (smul w c)))) = vadd (vadd (smul s (mulv M (vadd p (mulv q a)))) (smul t (mulv M (vadd p (mulv q b))))) (smul w (mulv M (vadd p (mulv q c)))).
Proof. intros E. replace s with (1 - t - w) by lra. vring. Qed.
Lemma min3_le a b c m : m <= a -> m <= b -> m <= c -> m <= Rmin (Rmin a b) c.
Proof. intros. repeat apply Rmin_glb; assumption. Qed.
Lemma max3_le a b c m : a <= m -> b <= m -> c <= m -> Rmax (Rmax a b) c <= m.
Proof. intros. repeat apply Rmax_lub; assumption. Qed.
Lemma facet_box T M f p q : (forall x, T x = mulv M x) -> smallest_aabb (facet_aabb T f p q) (fun x => exists y, moved p q (triangle (vert f)) y /\ x = T y).
Proof.
  intros HT. unfold facet_aabb. cbv zeta. split.
  - intros x (y & (z & [s [t [w [S0 [T0 [W0 [E ->]]]]]]] & ->) & ->). rewrite qrot_mat, !HT, (id_affine M p (qmat q) s t w _ _ _ E). generalize (mulv M (vadd p (mulv (qmat q) (vert f 0%nat)))), (mulv M (vadd p (mulv (qmat q) (vert f 1%nat)))), (mulv M (vadd p (mulv (qmat q) (vert f 2%nat)))). intros [a1 a2 a3] [b1 b2 b3] [c1 c2 c3]. unfold in_aabb, vmin2, vmax2, vadd, smul. cbn [fst snd vx vy vz].
    split; [split; [apply min3|apply max3]; assumption|]. split; (split; [apply min3|apply max3]; assumption).
  - intros [lo hi] H. assert (K : forall i, (i < 3)%nat -> in_aabb (lo, hi) (T (vadd p (mulv (qmat q) (vert f i))))). { intros i I. apply H. exists (vadd p (qrot q (vert f i))). split; [exists (vert f i); split; [apply corner_in, I|reflexivity]|rewrite qrot_mat; reflexivity]. }
    pose proof (K 0%nat ltac:(lia)) as K0. pose proof (K 1%nat ltac:(lia)) as K1. pose proof (K 2%nat ltac:(lia)) as K2. unfold in_aabb in K0, K1, K2. unfold vmin2, vmax2. cbn [fst snd vx vy vz] in *.
    split; [apply min3_le; lra|]. split; [apply min3_le; lra|]. split; [apply min3_le; lra|]. split; [apply max3_le; lra|]. split; apply max3_le; lra.
Qed.
Lemma abs_prod a x e : Rabs x <= e -> Rabs (a * x) <= Rabs (a * e).
Proof. intros H. rewrite !Rabs_mult. apply Rmult_le_compat_l; [apply Rabs_pos|]. eapply Rle_trans; [exact H|apply Rle_abs]. Qed.
Lemma row_bound row e x : in_cuboid e x -> Rabs (dot row x) <= Rabs (vx row * vx e) + Rabs (vy row * vy e) + Rabs (vz row * vz e).
Proof.
  intros (X & Y & Z). apply (abs_prod (vx row)) in X. apply (abs_prod (vy row)) in Y. apply (abs_prod (vz row)) in Z. unfold dot. eapply Rle_trans; [apply Rabs_triang|]. apply Rplus_le_compat; [|exact Z]. eapply Rle_trans; [apply Rabs_triang|]. apply Rplus_le_compat; assumption.
Qed.
Definition toward (row e : vec) : vec := V (if Rlt_dec (vx row) 0 then - vx e else vx e) (if Rlt_dec (vy row) 0 then - vy e else vy e) (if Rlt_dec (vz row) 0 then - vz e else vz e).
Lemma toward_one a e : 0 <= e -> a * (if Rlt_dec a 0 then - e else e) = Rabs (a * e).
Proof. intros E. rewrite Rabs_mult, (Rabs_right e) by lra. destruct (Rlt_dec a 0) as [X|X]; [rewrite (Rabs_left a X)|rewrite (Rabs_right a) by lra]; ring. Qed.
Lemma toward_in row e : 0 <= vx e -> 0 <= vy e -> 0 <= vz e -> in_cuboid e (toward row e).
Proof. intros X Y Z. unfold in_cuboid, toward. cbn [vx vy vz]. split; [|split]; (destruct (Rlt_dec _ 0); rewrite ?Rabs_Ropp, Rabs_right; lra). Qed.
Lemma toward_dot row e : 0 <= vx e -> 0 <= vy e -> 0 <= vz e -> dot row (toward row e) = Rabs (vx row * vx e) + Rabs (vy row * vy e) + Rabs (vz row * vz e).
Proof. intros X Y Z. unfold dot, toward. cbn [vx vy vz]. rewrite !toward_one by assumption. reflexivity. Qed.
Lemma cuboid_opp e x : in_cuboid e x -> in_cuboid e (vopp x).
Proof. unfold in_cuboid, vopp. cbn [vx vy vz]. rewrite !Rabs_Ropp. tauto. Qed.
Lemma dot_opp_r a b : dot a (vopp b) = - dot a b. Proof. vring. Qed.
Lemma box_box e p q b : 0 <= vx e -> 0 <= vy e -> 0 <= vz e -> box_aabb false e p q = Some b -> smallest_aabb b (moved p q (in_cuboid e)).
Proof.
  intros X Y Z E. unfold box_aabb in E. cbv beta zeta in E. remember (qmat q) as A eqn:EA. injection E as <-. split.
  - intros x (y & Hy & ->). rewrite qrot_mat, <- EA. pose proof (row_bound (r0 A) e y Hy) as B0. pose proof (row_bound (r1 A) e y Hy) as B1. pose proof (row_bound (r2 A) e y Hy) as B2. unfold in_aabb, vsub, vadd, mulv. cbn [fst snd vx vy vz].
    assert (KK : forall u m, Rabs u <= m -> - m <= u <= m) by (intros u m H; split; [apply Rge_le, Rle_ge; unfold Rabs in H; destruct (Rcase_abs u); lra|eapply Rle_trans; [apply Rle_abs|exact H]]). apply KK in B0. apply KK in B1. apply KK in B2. repeat split; lra.
  - intros [lo hi] H. unfold in_aabb in H. cbn [fst snd] in *. assert (K : forall y, in_cuboid e y -> vx lo <= vx p + dot (r0 A) y <= vx hi /\ vy lo <= vy p + dot (r1 A) y <= vy hi /\ vz lo <= vz p + dot (r2 A) y <= vz hi). { intros y Hy. specialize (H (vadd p (qrot q y)) (ex_intro _ y (conj Hy eq_refl))). rewrite qrot_mat, <- EA in H. unfold vadd, mulv in H. cbn [vx vy vz] in H. exact H. }
    assert (P : forall row, in_cuboid e (toward row e) /\ in_cuboid e (vopp (toward row e))) by (intros row; pose proof (toward_in row e X Y Z); split; [assumption|apply cuboid_opp; assumption]).
    destruct (P (r0 A)) as [P0 O0]. destruct (P (r1 A)) as [P1 O1]. destruct (P (r2 A)) as [P2 O2]. apply K in P0, P1, P2, O0, O1, O2. rewrite !dot_opp_r in O0. rewrite !dot_opp_r in O1. rewrite !dot_opp_r in O2. unfold vsub, vadd. cbn [vx vy vz].
    assert (D0 : dot (r0 A) (toward (r0 A) e) = Rabs (vx (r0 A) * vx e) + Rabs (vy (r0 A) * vy e) + Rabs (vz (r0 A) * vz e)) by (apply toward_dot; assumption). assert (D1 : dot (r1 A) (toward (r1 A) e) = Rabs (vx (r1 A) * vx e) + Rabs (vy (r1 A) * vy e) + Rabs (vz (r1 A) * vz e)) by (apply toward_dot; assumption). assert (D2 : dot (r2 A) (toward (r2 A) e) = Rabs (vx (r2 A) * vx e) + Rabs (vy (r2 A) * vy e) + Rabs (vz (r2 A) * vz e)) by (apply toward_dot; assumption).
    rewrite D0 in P0, O0. rewrite D1 in P1, O1. rewrite D2 in P2, O2. repeat split; lra.
Qed.
Lemma comp_le a b : Rabs (vx a - vx b) <= distance a b /\ Rabs (vy a - vy b) <= distance a b /\ Rabs (vz a - vz b) <= distance a b.
Proof.
  assert (H : forall x y, x * x <= y -> Rabs x <= sqrt y). { intros x y L. rewrite <- sqrt_Rsqr_abs. apply sqrt_le_1; [apply Rle_0_sqr| |exact L]. pose proof (Rle_0_sqr x) as P. unfold Rsqr in P. lra. }
  unfold distance, norm, norm2, dot, vsub. destruct a as [a1 a2 a3], b as [b1 b2 b3]. cbn [vx vy vz]. pose proof (Rle_0_sqr (a1 - b1)) as P1. pose proof (Rle_0_sqr (a2 - b2)) as P2. pose proof (Rle_0_sqr (a3 - b3)) as P3. unfold Rsqr in P1, P2, P3. split; [|split]; apply H; lra.
Qed.
Lemma sphere_box factor r c x : 0 <= r -> factor <= 0 \/ 1 <= factor -> distance c x <= r -> in_aabb (sphere_aabb factor r c) x.
Proof.
  intros R0 FA D. destruct (comp_le c x) as (X & Y & Z). unfold sphere_aabb. cbv zeta. remember ((if Rlt_dec 0 factor then factor else 1) * r) as h. assert (HH : r <= h). { rewrite Heqh. destruct (Rlt_dec 0 factor) as [P|P]; [|lra]. destruct FA as [FA|FA]; [lra|]. rewrite <- (Rmult_1_l r) at 1. apply Rmult_le_compat_r; assumption. }
  assert (KK : forall u, Rabs u <= distance c (x) -> - h <= u <= h) by (intros u U; unfold Rabs in U; destruct (Rcase_abs u); lra). apply KK in X. apply KK in Y. apply KK in Z. unfold in_aabb, vsub, vadd. cbn [fst snd vx vy vz]. repeat split; lra.
Qed.

(** ** box and sphere *)
Lemma clamp_in e x : 0 <= e -> Rabs (clamp e x) <= e.
Proof. intros E. unfold clamp. destruct (Rlt_dec x (- e)); destruct (Rlt_dec e _); unfold Rabs; destruct (Rcase_abs _); lra. Qed.
Lemma clamp_best e x y : 0 <= e -> Rabs y <= e -> (x - clamp e x) * (y - clamp e x) <= 0.
Proof.
  intros E Y. assert (B : - e <= y <= e) by (unfold Rabs in Y; destruct (Rcase_abs y); lra). unfold clamp. destruct (Rlt_dec x (- e)) as [A|A].
  - destruct (Rlt_dec e (- e)); [lra|]. replace ((x - - e) * (y - - e)) with (- ((- e - x) * (y + e))) by ring. assert (0 <= (- e - x) * (y + e)) by (apply Rmult_le_pos; lra). lra.
  - destruct (Rlt_dec e x) as [C|C]; [|rewrite Rminus_diag_eq by reflexivity; lra]. replace ((x - e) * (y - e)) with (- ((x - e) * (e - y))) by ring. assert (0 <= (x - e) * (e - y)) by (apply Rmult_le_pos; lra). lra.
Qed.
Lemma within_iff e x : within_extent e x = true <-> Rabs x <= e.
Proof. unfold within_extent, Rabs. destruct (Rlt_dec x (- e)); destruct (Rlt_dec e x); destruct (Rcase_abs x); split; intros H; try discriminate; try reflexivity; lra. Qed.
Definition clamped (e c : vec) : vec := V (clamp (vx e) (vx c)) (clamp (vy e) (vy c)) (clamp (vz e) (vz c)).
Lemma clamped_nearest e c : 0 <= vx e -> 0 <= vy e -> 0 <= vz e -> nearest (in_cuboid e) c (clamped e c).
Proof.
  intros X Y Z. split.
  - unfold in_cuboid, clamped. cbn [vx vy vz]. split; [|split]; apply clamp_in; assumption.
  - intros y (A & B & C). apply obtuse. unfold dot, vsub, clamped. cbn [vx vy vz]. pose proof (clamp_best _ (vx c) _ X A). pose proof (clamp_best _ (vy c) _ Y B). pose proof (clamp_best _ (vz c) _ Z C). lra.
Qed.
Lemma id_outer o rel p c s : rel = vsub c p -> vadd o p = vsub c (vsub rel o) /\ vsub rel o = vopp (vsub o rel) /\ smul (- s) (vsub o rel) = smul s (vsub rel o).
Proof. intros ->. split; [|split]; vring. Qed.
Lemma norm_opp a : norm (vopp a) = norm a.
Proof. unfold norm. f_equal. vring. Qed.
Lemma id_mid c d k r w : d * k = 1 -> smul (1/2) (vadd (vsub c w) (vadd c (smul r (smul k (vopp w))))) = vsub c (smul (r - 1/2 * (r - d)) (smul k w)).
Proof. intros E. destruct c as [c1 c2 c3], w as [w1 w2 w3]. unfold smul, vadd, vsub, vopp. cbn [vx vy vz].
  f_equal; [replace w1 with (d * k * w1) at 1 by (rewrite E; ring)|replace w2 with (d * k * w2) at 1 by (rewrite E; ring)|replace w3 with (d * k * w3) at 1 by (rewrite E; ring)]; field. Qed.
Lemma id_opps k w : vopp (smul k (vopp w)) = smul k w. Proof. vring. Qed.
Theorem box_outside dt e r s1 s2 shift2 shiftVel force isReal old : 0 <= vx e -> 0 <= vy e -> 0 <= vz e -> qnorm2 (ori s1) = 1 -> 0 < r ->
  let c := vadd (pos s2) shift2 in ~ moved (pos s1) (ori s1) (in_cuboid e) c ->
  exists x, nearest (moved (pos s1) (ori s1) (in_cuboid e)) c x /\
  match box_sphere dt e r s1 s2 shift2 shiftVel force isReal old with
  | NoContact => isReal = false /\ force = false /\ r < distance c x
  | Contact g => describes c x r g /\ (isReal = true \/ force = true \/ distance c x <= r)
  | ZeroDistance => False
  end.
Proof.
  intros X Y Z Q R0 c OUT. set (cl := mulv (transpose (qmat (ori s1))) (vsub c (pos s1))). pose proof (clamped_nearest e cl X Y Z) as NR. exists (vadd (pos s1) (qrot (ori s1) (clamped e cl))). split; [apply world_nearest; assumption|]. pose proof (world_distance (ori s1) (pos s1) c (clamped e cl) Q) as WD. fold cl in WD. pose proof (world_diff (ori s1) (pos s1) c (clamped e cl) Q) as WF. fold cl in WF. rewrite WD.
  assert (DP : distance cl (clamped e cl) <> 0). { intros D0. apply norm_zero in D0. apply OUT. exists cl. split; [|unfold cl; rewrite <- local_back by exact Q; apply id_end]. replace cl with (clamped e cl); [apply NR|]. clearbody cl. destruct cl as [a1 a2 a3], (clamped e (V a1 a2 a3)) as [b1 b2 b3]. unfold vsub, vzero in D0. cbn [vx vy vz] in D0. injection D0. intros. f_equal; lra. }
  unfold box_sphere. cbv zeta. fold c. fold cl. destruct (within_extent (vx e) (vx cl) && within_extent (vy e) (vy cl) && within_extent (vz e) (vz cl))%bool eqn:W.
  { exfalso. apply andb_prop in W as [W W3]. apply andb_prop in W as [W1 W2]. apply within_iff in W1, W2, W3. apply OUT. exists cl. split; [split; [exact W1|split; [exact W2|exact W3]]|]. unfold cl. rewrite <- local_back by exact Q. apply id_end. }
  fold (clamped e cl). rewrite <- qrot_mat. set (o := qrot (ori s1) (clamped e cl)) in *. set (w := vsub c (vadd (pos s1) o)) in *. assert (E1 : vsub o (vsub c (pos s1)) = vopp w) by (unfold w; clear; clearbody o c; destruct o as [o1 o2 o3], c as [c1 c2 c3], (pos s1) as [p1 p2 p3]; unfold vopp, vsub, vadd; cbn [vx vy vz]; f_equal; ring). rewrite E1, norm_opp.
  assert (E2 : vadd o (pos s1) = vsub c w) by (unfold w; clear; clearbody o c; destruct o as [o1 o2 o3], c as [c1 c2 c3], (pos s1) as [p1 p2 p3]; unfold vsub, vadd; cbn [vx vy vz]; f_equal; ring). rewrite E2. assert (NW : norm w = distance cl (clamped e cl)) by exact WD. rewrite <- NW in *. 
  destruct ((if Rlt_dec (r - norm w) 0 then true else false) && negb isReal && negb force)%bool eqn:EX.
  - apply andb_prop in EX as [EX EF]. apply andb_prop in EX as [EX ER]. destruct isReal; [discriminate|]. destruct force; [discriminate|]. split; [reflexivity|]. split; [reflexivity|]. destruct (Rlt_dec (r - norm w) 0); [lra|discriminate].
  - split.
    + destruct (unit_dir w DP) as [U1 U2]. destruct (precompute_fields dt (mkG (normal (old_or_new old)) (smul (1/2) (vadd (vsub c w) (vadd c (smul r (smul (/ norm w) (vopp w)))))) (r - norm w) r r (twist_axis (old_or_new old)) (orthonormal_axis (old_or_new old)) (shearInc (old_or_new old))) s1 s2 (vopp (smul (/ norm w) (vopp w))) (is_new old) shift2 shiftVel false) as (P1 & P2 & P3 & _). cbv zeta in P1, P2, P3. unfold describes. rewrite P1, P2, P3. cbn [contactPoint penetrationDepth]. fold o. fold w. unfold distance. fold w. rewrite id_opps.
      split; [reflexivity|]. split; [exact U1|]. split; [exact U2|]. apply id_mid. field. exact DP.
    + destruct isReal; [left; reflexivity|]. destruct force; [right; left; reflexivity|]. right; right. destruct (Rlt_dec (r - norm w) 0); [discriminate|lra].
Qed.
(** inside *)
Lemma nearest_axis_lt e c : (nearest_axis e c < 3)%nat.
Proof. unfold nearest_axis. cbv zeta. destruct (Rlt_dec _ _); destruct (Rlt_dec _ _); lia. Qed.
Lemma nearest_axis_min e c i : (i < 3)%nat -> comp (nearest_axis e c) e - Rabs (comp (nearest_axis e c) c) <= comp i e - Rabs (comp i c).
Proof. intros I. unfold nearest_axis. cbv zeta. destruct (Rlt_dec (comp 1 e - _) _); destruct (Rlt_dec (comp 2 e - _) _); destruct i as [|[|[|i]]]; try lia; lra. Qed.
Lemma axis_norm2 i k : norm2 (with_comp i vzero k) = k * k.
Proof. destruct i as [|[|i]]; unfold norm2, dot, with_comp, vzero; cbn [vx vy vz]; ring. Qed.
Lemma id_w p t r n : vsub (vadd p (smul t n)) (vsub p (smul r n)) = smul (t + r) n. Proof. vring. Qed.
Theorem box_inside dt e r s1 s2 shift2 shiftVel force isReal old : qnorm2 (ori s1) = 1 -> 0 < r ->
  let c := vadd (pos s2) shift2 in moved (pos s1) (ori s1) (in_cuboid e) c ->
  exists x g, nearest (moved (pos s1) (ori s1) (not_inside e)) c x /\ moved (pos s1) (ori s1) (in_cuboid e) x /\ box_sphere dt e r s1 s2 shift2 shiftVel force isReal old = Contact g /\
  penetrationDepth g = r + distance c x /\ norm2 (normal g) = 1 /\ vsub x c = smul (distance c x) (normal g) /\ vadd (contactPoint g) shift2 = smul (1/2) (vadd x (vsub c (smul r (normal g)))).
Proof.
  intros Q R0 c (cl0 & IN & CE). set (cl := mulv (transpose (qmat (ori s1))) (vsub c (pos s1))). assert (cl0 = cl) as ->. { unfold cl. rewrite CE. rewrite <- qmat_conj, <- qrot_mat. replace (vsub (vadd (pos s1) (qrot (ori s1) cl0)) (pos s1)) with (qrot (ori s1) cl0) by (generalize (qrot (ori s1) cl0), (pos s1); clear; intros [a1 a2 a3] [b1 b2 b3]; unfold vsub, vadd; cbn [vx vy vz]; f_equal; ring). rewrite qrot_conj_l by exact Q. reflexivity. }
  pose proof (nearest_axis_lt e cl) as AL. pose proof (fun i I => nearest_axis_min e cl i I) as AM. unfold box_sphere. cbv zeta. fold c. fold cl. assert (W : (within_extent (vx e) (vx cl) && within_extent (vy e) (vy cl) && within_extent (vz e) (vz cl))%bool = true). { destruct IN as (I1 & I2 & I3). apply within_iff in I1, I2, I3. rewrite I1, I2, I3. reflexivity. } rewrite W. clear W.
  remember (nearest_axis e cl) as i. remember (comp i e - Rabs (comp i cl)) as t. set (sg := if Rlt_dec 0 (comp i cl) then 1 else -1). assert (SS : sg * sg = 1) by (unfold sg; destruct (Rlt_dec _ _); lra).
  assert (IC : Rabs (comp i cl) <= comp i e). { destruct IN as (I1 & I2 & I3). destruct i as [|[|i]]; cbn [comp]; assumption. } assert (T0 : 0 <= t) by lra.
  set (u := with_comp i vzero sg). assert (UU : norm2 u = 1) by (unfold u; rewrite axis_norm2; exact SS). rewrite <- qrot_mat. assert (UN : norm2 (qrot (ori s1) u) = 1) by (rewrite qrot_norm by exact Q; exact UU). rewrite (norm_unit _ UN), Rinv_1, smul_1. set (n := qrot (ori s1) u) in *. rewrite id_w, norm_smul, (norm_unit _ UN), Rmult_1_r by lra. destruct (Req_EM_T (t + r) 0) as [Z|_]; [lra|].
  set (y := vadd cl (smul t u)). assert (CW : c = vadd (pos s1) (qrot (ori s1) cl)) by exact CE. assert (XW : vadd (pos s1) (qrot (ori s1) y) = vadd c (smul t n)). { rewrite CW. unfold y, n. rewrite qrot_lin, qrot_smul. generalize (pos s1), (qrot (ori s1) cl), (smul t (qrot (ori s1) u)). clear. intros [a1 a2 a3] [b1 b2 b3] [d1 d2 d3]. unfold vadd. cbn [vx vy vz]. f_equal; ring. }
  assert (DL : distance cl y = t). { unfold distance, y. replace (vsub cl (vadd cl (smul t u))) with (smul t (vopp u)) by (clearbody cl u; clear; destruct cl as [a1 a2 a3], u as [u1 u2 u3]; unfold vsub, vadd, smul, vopp; cbn [vx vy vz]; f_equal; ring). rewrite norm_smul, norm_opp, (norm_unit _ UU) by exact T0. ring. }
  assert (YI : comp i y = sg * comp i e). { unfold y, u. assert (comp i (vadd cl (smul t (with_comp i vzero sg))) = comp i cl + t * sg) as -> by (destruct i as [|[|i]]; unfold vadd, smul, with_comp; cbn [comp vx vy vz]; reflexivity). rewrite Heqt. unfold sg. destruct (Rlt_dec 0 (comp i cl)); [rewrite Rabs_right by lra; ring|]. rewrite Rabs_left1 by lra. ring. }
  assert (YJ : forall j, (j < 3)%nat -> j <> i -> comp j y = comp j cl). { intros j J N. unfold y, u. destruct i as [|[|[|i]]]; destruct j as [|[|[|j]]]; try lia; unfold vadd, smul, with_comp, vzero; cbn [comp vx vy vz]; ring. }
  assert (EP : 0 <= comp i e) by (pose proof (Rabs_pos (comp i cl)); lra). assert (YA : Rabs (comp i y) = comp i e). { rewrite YI, Rabs_mult, (Rabs_right (comp i e)) by lra. assert (Rabs sg = 1) as -> by (unfold sg; destruct (Rlt_dec _ _); unfold Rabs; destruct (Rcase_abs _); lra). ring. }
  assert (YC : forall j, (j < 3)%nat -> Rabs (comp j y) <= comp j e). { intros j J. destruct (Nat.eq_dec j i) as [E|E]; [rewrite E, YA; lra|]. rewrite (YJ j J E). destruct IN as (I1 & I2 & I3). destruct j as [|[|j]]; cbn [comp]; assumption. }
  assert (WD : distance c (vadd (pos s1) (qrot (ori s1) y)) = t) by (rewrite world_distance by exact Q; exact DL).
  eexists (vadd (pos s1) (qrot (ori s1) y)), _. split; [|split; [|split; [reflexivity|]]].
  - apply world_nearest; [exact Q|]. fold cl. split.
    + unfold not_inside. destruct i as [|[|i]]; cbn [comp] in YA; [left|right; left|right; right]; rewrite YA; lra.
    + intros z NZ. rewrite DL. destruct (comp_le cl z) as (C1 & C2 & C3). assert (K : forall a b f, f <= Rabs b -> f - Rabs a <= Rabs (a - b)). { intros a b f H. pose proof (Rabs_triang_inv b a) as TI. rewrite (Rabs_minus_sym a b). lra. }
      destruct NZ as [H|[H|H]]; [apply (K (vx cl)) in H; pose proof (AM 0%nat ltac:(lia)) as M|apply (K (vy cl)) in H; pose proof (AM 1%nat ltac:(lia)) as M|apply (K (vz cl)) in H; pose proof (AM 2%nat ltac:(lia)) as M]; cbn [comp] in M; lra.
  - exists y. split; [|reflexivity]. split; [apply (YC 0%nat); lia|]. split; [apply (YC 1%nat); lia|apply (YC 2%nat); lia].
  - rewrite WD. match goal with |- context [precompute ?a ?b ?c ?d ?e ?f ?g ?h ?k] => destruct (precompute_fields a b c d e f g h k) as (P1 & P2 & P3 & _) end. cbv zeta in P1, P2, P3. rewrite P1, P2, P3. cbn [contactPoint penetrationDepth]. assert (NN : smul (/ (t + r)) (smul (t + r) n) = n) by (clearbody n; destruct n as [n1 n2 n3]; unfold smul; cbn [vx vy vz]; f_equal; field; lra). rewrite NN, XW. split; [ring|]. split; [exact UN|]. split.
    + clearbody n c. clear. destruct c as [c1 c2 c3], n as [n1 n2 n3]. unfold vsub, vadd, smul. cbn [vx vy vz]. f_equal; ring.
    + unfold c. clearbody n. clear. destruct (pos s2) as [p1 p2 p3], shift2 as [h1 h2 h3], n as [n1 n2 n3]. unfold vsub, vadd, smul. cbn [vx vy vz]. f_equal; field.
Qed.
