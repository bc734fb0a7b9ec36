(** Proofs about predicates of volumes: other solids, bounding boxes. *)
From Coq Require Import List Bool Reals Lra.
From Verif Require Import Vec_Model Vec_Proofs Pred_Model Pred_Spec Pred_Proofs.
Import ListNotations.
Local Open Scope R_scope.

(** ** hyperboloids *)
Definition skirt2 (r a t : R) : R := a * a + (r * r - a * a) * ((2 * t - 1) * (2 * t - 1)).
Lemma skirt2_pos r a t : 0 < a < r -> 0 < skirt2 r a t.
Proof. intros H. unfold skirt2. pose proof (sqr_pos (2 * t - 1)). assert (0 < a * a) by (apply Rmult_lt_0_compat; lra). assert (a * a < r * r) by (apply Rmult_le_0_lt_compat; lra). assert (0 <= (r * r - a * a) * ((2 * t - 1) * (2 * t - 1))) by (apply Rmult_le_pos; lra). lra. Qed.
Lemma skirt r a ht t : 0 < a < r -> 0 < ht -> a * sqrt (1 + (t - 1 / 2) * ht / (ht / (2 * sqrt ((r / a) ^ 2 - 1))) * ((t - 1 / 2) * ht / (ht / (2 * sqrt ((r / a) ^ 2 - 1))))) = sqrt (skirt2 r a t).
Proof.
  intros H Ht. assert (M : 0 < (r / a) ^ 2 - 1). { assert (1 < r / a) by (apply (Rmult_lt_reg_r a); [lra|]; replace (r / a * a) with r by (field; lra); lra). replace ((r / a) ^ 2 - 1) with ((r / a - 1) * (r / a + 1)) by ring. apply Rmult_lt_0_compat; lra. }
  pose proof (sqrt_lt_R0 _ M) as S0. pose proof (sqrt_sqrt _ (Rlt_le _ _ M)) as SS. set (m := sqrt ((r / a) ^ 2 - 1)) in *. replace ((t - 1 / 2) * ht / (ht / (2 * m))) with ((2 * t - 1) * m) by (field; lra).
  replace ((2 * t - 1) * m * ((2 * t - 1) * m)) with ((2 * t - 1) * (2 * t - 1) * (m * m)) by ring. rewrite SS. rewrite <- (sqrt_square a) at 1 by lra. rewrite <- sqrt_mult; [f_equal; unfold skirt2; field; lra|apply sqr_pos|]. pose proof (sqr_pos (2 * t - 1)). assert (0 <= (2 * t - 1) * (2 * t - 1) * ((r / a) ^ 2 - 1)) by (apply Rmult_le_pos; lra). lra.
Qed.
Lemma inside_hyp c1 c2 r a p pad : c1 <> c2 -> 0 < a < r -> let s := dot (vsub p c1) (axis c1 c2) in let ht := norm (vsub c2 c1) in
  inside (Hyp c1 c2 r a) p pad = true <-> pad <= s /\ s <= ht - pad /\ norm (cross (vsub p c1) (axis c1 c2)) <= sqrt (skirt2 r a (s / ht)) - pad.
Proof.
  intros P H s ht. pose proof (norm_nz _ (vsub_nz _ _ P)) as N. fold ht in N. cbn [inside]. rewrite (no_axis_false _ _ P), (axis_cross _ _ _ P). fold ht. assert (E : along c1 c2 p = s / ht) by (unfold s; rewrite <- (along_axis c1 c2 p P); fold ht; field; lra). rewrite E. replace (s / ht * ht) with s by (field; lra). rewrite (skirt r a ht (s / ht) H N).
  destruct (lt s (0 + pad)) eqn:L1; cbn [orb]; [apply lt_true in L1; split; [discriminate|intros; lra]|apply lt_false in L1]. destruct (lt (ht - pad) s) eqn:L2; [apply lt_true in L2; split; [discriminate|intros; lra]|apply lt_false in L2].
  destruct (lt _ (norm _)) eqn:L3; [apply lt_true in L3; split; [discriminate|intros; lra]|apply lt_false in L3]. split; [intros _; repeat split; lra|reflexivity].
Qed.
Lemma norm_sqrt v x : 0 <= x -> norm v <= sqrt x <-> norm2 v <= x.
Proof. intros X. unfold norm. split; intros H; [apply sqrt_le_0 in H; [exact H|apply norm2_pos|exact X]|apply sqrt_le_1_alt; exact H]. Qed.
Lemma holds_hyp c1 c2 r a p : c1 <> c2 -> 0 < a < r -> holds (Hyp c1 c2 r a) p <-> inside (Hyp c1 c2 r a) p 0 = true.
Proof.
  intros P H. rewrite (inside_hyp c1 c2 r a p 0 P H). cbn [holds]. pose proof (beside_parts c1 c2 p P) as Bp. cbn zeta in Bp. pose proof (norm_nz _ (vsub_nz _ _ P)) as N. pose proof (beside_norm c1 c2 p P) as Bn. set (s := dot (vsub p c1) (axis c1 c2)) in *. set (ht := norm (vsub c2 c1)) in *. pose proof (fraction s ht N) as C. fold (skirt2 r a (s / ht)) in *. pose proof (skirt2_pos r a (s / ht) H) as K. split.
  - intros (t & w & Ht & Hb & Hw). apply Bp in Hb. destruct Hb as (-> & ->). apply C in Ht. fold (skirt2 r a (s / ht)) in Hw. apply norm_sqrt in Hw; [|lra]. rewrite Bn in Hw. repeat split; lra.
  - intros (H1 & H2 & H3). exists (s / ht), (vsub (vsub p c1) (smul s (axis c1 c2))). split; [apply C; lra|]. split; [apply Bp; auto|]. fold (skirt2 r a (s / ht)). apply norm_sqrt; [lra|]. rewrite Bn. lra.
Qed.
(** ** ellipsoids *)
Lemma inside_ell c abc p pad : vx abc - pad <> 0 -> vy abc - pad <> 0 -> vz abc - pad <> 0 ->
  inside (Ell c abc) p pad = true <-> sq ((vx p - vx c) / (vx abc - pad)) + sq ((vy p - vy c) / (vy abc - pad)) + sq ((vz p - vz c) / (vz abc - pad)) <= 1.
Proof.
  intros A B D. cbn [inside]. set (a := vx abc - pad) in *. set (b := vy abc - pad) in *. set (d := vz abc - pad) in *. destruct (Req_EM_T b 0); [contradiction|]. destruct (Req_EM_T d 0); [contradiction|].
  set (x := vx p - vx c). set (y := vy p - vy c). set (z := vz p - vz c). assert (A2 : 0 < a * a) by (destruct (sqr_pos a) as [L|E]; [exact L|exfalso; symmetry in E; apply Rmult_integral in E; lra]).
  replace (1 - y ^ 2 / (b * b) - z ^ 2 / (d * d)) with (1 - sq (y / b) - sq (z / d)) by (unfold sq; field; split; assumption). set (e := 1 - sq (y / b) - sq (z / d)). assert (X : sq (x / a) * (a * a) = x * x) by (unfold sq; field; exact A).
  assert (S0 : 0 <= sq (x / a)) by apply sqr_pos. destruct (lt (e * (a * a)) 0) eqn:L.
  - apply lt_true in L. split; [discriminate|]. intros H. exfalso. assert (0 <= e) by (unfold e; lra). assert (0 <= e * (a * a)) by (apply Rmult_le_pos; lra). lra.
  - apply lt_false in L. rewrite le_true. set (q := sqrt (e * (a * a))). assert (Q : q * q = e * (a * a)) by (apply sqrt_sqrt; exact L).
    assert (N1 : norm2 (vsub p c) = x * x + y * y + z * z) by reflexivity. assert (N2 : norm2 (vsub (V (q + vx c) (vy p) (vz p)) c) = e * (a * a) + y * y + z * z). { unfold norm2, dot, vsub. cbn [vx vy vz]. fold y z. rewrite <- Q. ring. }
    unfold norm. rewrite N1, N2. pose proof (sqr_pos y). pose proof (sqr_pos z). pose proof (sqr_pos x). split; intros K.
    + apply sqrt_le_0 in K; [|lra|lra]. assert (J : sq (x / a) * (a * a) <= e * (a * a)) by lra. apply Rmult_le_reg_r in J; [|exact A2]. unfold e in J. lra.
    + apply sqrt_le_1_alt. assert (J : sq (x / a) * (a * a) <= e * (a * a)) by (apply Rmult_le_compat_r; [lra|unfold e; lra]). lra.
Qed.
Lemma holds_ell c abc p : proper (Ell c abc) -> holds (Ell c abc) p <-> inside (Ell c abc) p 0 = true.
Proof. cbn [proper]. intros (A & B & D). rewrite inside_ell by lra. cbn [holds]. rewrite !Rminus_0_r. tauto. Qed.
Lemma holds_notch c e n ap p : holds (Notch c e n ap) p <-> inside (Notch c e n ap) p 0 = true.
Proof.
  cbn [holds inside]. set (edge := normalized e). set (nm := normalized (vsub n (smul (dot edge n) edge))). set (s := dot nm (vsub p c)). set (i := dot (cross edge nm) (vsub p c)).
  unfold le at 1 2 3. destruct (Rle_dec 0 (- i)); [split; [reflexivity|intros _; lra]|]. destruct (Rle_dec 0 (s - ap / 2)); [split; [reflexivity|intros _; lra]|]. destruct (Rle_dec 0 (- s - ap / 2)); [split; [reflexivity|intros _; lra]|].
  destruct (lt (- i) 0) eqn:L; [|apply lt_false in L; lra]. split; [|discriminate]. intros H. exfalso. apply H. lra.
Qed.
(** ** C118 *)
Lemma holds_inside s : proper s -> forall p, holds s p <-> inside s p 0 = true.
Proof.
  induction s as [c r|mn mx|o a b c|c1 c2 r|c1 c2 r a|c abc|c e n ap|A IHA B IHB|A IHA B IHB|A IHA B IHB|A IHA B IHB]; intros P p; try (apply holds_primitive; [exact I|exact P]).
  - destruct P as (P1 & P2). apply holds_hyp; assumption.
  - apply holds_ell, P.
  - apply holds_notch.
  - destruct P as (PA & PB). cbn [holds inside]. rewrite (IHA PA), (IHB PB), orb_true_iff. tauto.
  - destruct P as (PA & PB). cbn [holds inside]. rewrite (IHA PA), (IHB PB), andb_true_iff. tauto.
  - destruct P as (PA & PB). cbn [holds inside]. rewrite Ropp_0, (IHA PA), (IHB PB). destruct (inside A p 0), (inside B p 0); cbn; split; intuition congruence.
  - destruct P as (PA & PB). cbn [holds inside]. rewrite (IHA PA), (IHB PB). destruct (inside A p 0), (inside B p 0); cbn; split; intuition congruence.
Qed.

(** ** bounding boxes *)
Lemma abs_le_inv x y : Rabs x <= y -> - y <= x <= y.
Proof. intros H. pose proof (Rle_abs x). pose proof (Rle_abs (- x)) as K. rewrite Rabs_Ropp in K. lra. Qed.
Definition within (mn mx p : vec) : Prop := between (vx mn) (vx p) (vx mx) /\ between (vy mn) (vy p) (vy mx) /\ between (vz mn) (vz p) (vz mx).
Lemma sphere_box c r p : distance p c <= r -> within (vsub c (V r r r)) (vadd c (V r r r)) p.
Proof.
  unfold distance. intros H. destruct (coord_le (vsub p c)) as (A & B & C). unfold vsub in A, B, C. cbn [vx vy vz] in A, B, C. unfold within, between. cbn [vsub vadd vx vy vz].
  assert (G : forall x y, Rabs (x - y) <= norm (vsub p c) -> y - r <= x <= y + r) by (intros x y K; assert (K' : Rabs (x - y) <= r) by lra; apply abs_le_inv in K'; lra). repeat split; apply G; assumption.
Qed.
Lemma fold_vmin_le l : forall v u, (u = v \/ In u l) -> vx (fold_left vmin l v) <= vx u /\ vy (fold_left vmin l v) <= vy u /\ vz (fold_left vmin l v) <= vz u.
Proof.
  induction l as [|w l IH]; intros v u H; cbn [fold_left].
  - destruct H as [->|[]]. lra.
  - assert (K : vx (fold_left vmin l (vmin v w)) <= vx (vmin v w) /\ vy (fold_left vmin l (vmin v w)) <= vy (vmin v w) /\ vz (fold_left vmin l (vmin v w)) <= vz (vmin v w)) by (apply IH; auto). cbn [vmin vx vy vz] in K.
    destruct H as [->|[->|H]]; [| |apply IH; auto]; [pose proof (Rmin_l (vx v) (vx w)); pose proof (Rmin_l (vy v) (vy w)); pose proof (Rmin_l (vz v) (vz w)); lra|pose proof (Rmin_r (vx v) (vx u)); pose proof (Rmin_r (vy v) (vy u)); pose proof (Rmin_r (vz v) (vz u)); lra].
Qed.
Lemma fold_vmax_le l : forall v u, (u = v \/ In u l) -> vx u <= vx (fold_left vmax l v) /\ vy u <= vy (fold_left vmax l v) /\ vz u <= vz (fold_left vmax l v).
Proof.
  induction l as [|w l IH]; intros v u H; cbn [fold_left].
  - destruct H as [->|[]]. lra.
  - assert (K : vx (vmax v w) <= vx (fold_left vmax l (vmax v w)) /\ vy (vmax v w) <= vy (fold_left vmax l (vmax v w)) /\ vz (vmax v w) <= vz (fold_left vmax l (vmax v w))) by (apply IH; auto). cbn [vmax vx vy vz] in K.
    destruct H as [->|[->|H]]; [| |apply IH; auto]; [pose proof (Rmax_l (vx v) (vx w)); pose proof (Rmax_l (vy v) (vy w)); pose proof (Rmax_l (vz v) (vz w)); lra|pose proof (Rmax_r (vx v) (vx u)); pose proof (Rmax_r (vy v) (vy u)); pose proof (Rmax_r (vz v) (vz u)); lra].
Qed.
Lemma part i X : between 0 i 1 -> (0 <= X -> 0 <= i * X <= X) /\ (X <= 0 -> X <= i * X <= 0).
Proof. unfold between. intros H. split; intros K; [assert (0 <= i * X) by (apply Rmult_le_pos; lra); assert (0 <= (1 - i) * X) by (apply Rmult_le_pos; lra); lra|assert (0 <= i * (- X)) by (apply Rmult_le_pos; lra); assert (0 <= (1 - i) * (- X)) by (apply Rmult_le_pos; lra); lra]. Qed.
Lemma cube_low m o X Y Z i j k : between 0 i 1 -> between 0 j 1 -> between 0 k 1 -> m <= o -> m <= o + X -> m <= o + Y -> m <= o + Z -> m <= o + X + Y -> m <= o + X + Z -> m <= o + Y + Z -> m <= o + X + Y + Z -> m <= o + (i * X + (j * Y + k * Z)).
Proof.
  intros I J K. destruct (part i X I) as (I1 & I2), (part j Y J) as (J1 & J2), (part k Z K) as (K1 & K2). intros. destruct (Rle_lt_dec 0 X) as [LX|LX], (Rle_lt_dec 0 Y) as [LY|LY], (Rle_lt_dec 0 Z) as [LZ|LZ]; try specialize (I1 LX); try specialize (J1 LY); try specialize (K1 LZ); try specialize (I2 (Rlt_le _ _ LX)); try specialize (J2 (Rlt_le _ _ LY)); try specialize (K2 (Rlt_le _ _ LZ)); lra.
Qed.
Lemma para_box o a b c p : holds (Para o a b c) p -> in_box (aabb (Para o a b c)) p.
Proof.
  cbn [holds]. intros (i & j & k & I & J & K & ->). cbn [aabb in_box hull].
  set (l := [a; _; _; _; _; _; _]). pose proof (fun u H => fold_vmin_le l o u H) as L. pose proof (fun u H => fold_vmax_le l o u H) as U. set (mn := fold_left vmin l o) in *. set (mx := fold_left vmax l o) in *.
  assert (Q0 := L o (or_introl eq_refl)). assert (Q1 := L a ltac:(right; cbn; auto)). assert (Q2 := L b ltac:(right; cbn; auto 10)). assert (Q3 := L c ltac:(right; cbn; auto 10)). assert (Q4 := L (vadd a (vsub b o)) ltac:(right; cbn; auto 10)). assert (Q5 := L (vadd c (vsub a o)) ltac:(right; cbn; auto 10)). assert (Q6 := L (vadd c (vsub b o)) ltac:(right; cbn; auto 10)). assert (Q7 := L (vadd (vadd c (vsub a o)) (vsub b o)) ltac:(right; cbn; auto 10)).
  assert (W0 := U o (or_introl eq_refl)). assert (W1 := U a ltac:(right; cbn; auto)). assert (W2 := U b ltac:(right; cbn; auto 10)). assert (W3 := U c ltac:(right; cbn; auto 10)). assert (W4 := U (vadd a (vsub b o)) ltac:(right; cbn; auto 10)). assert (W5 := U (vadd c (vsub a o)) ltac:(right; cbn; auto 10)). assert (W6 := U (vadd c (vsub b o)) ltac:(right; cbn; auto 10)). assert (W7 := U (vadd (vadd c (vsub a o)) (vsub b o)) ltac:(right; cbn; auto 10)).
  clearbody mn mx. clear L U l. cbn [vadd vsub smul vx vy vz] in *. unfold between.
  assert (G : forall m M o' a' b' c', (m <= o' /\ m <= a' /\ m <= b' /\ m <= c' /\ m <= a' + (b' - o') /\ m <= c' + (a' - o') /\ m <= c' + (b' - o') /\ m <= c' + (a' - o') + (b' - o')) -> (o' <= M /\ a' <= M /\ b' <= M /\ c' <= M /\ a' + (b' - o') <= M /\ c' + (a' - o') <= M /\ c' + (b' - o') <= M /\ c' + (a' - o') + (b' - o') <= M) -> m <= o' + (i * (a' - o') + (j * (b' - o') + k * (c' - o'))) <= M).
  { intros m M o' a' b' c' H1 H2. split; [apply cube_low; try assumption; lra|]. assert (E : - M <= - o' + (i * - (a' - o') + (j * - (b' - o') + k * - (c' - o')))) by (apply cube_low; try assumption; lra). lra. }
  split; [|split]; apply G; tauto.
Qed.
Lemma mid_between t a b : between 0 t 1 -> Rmin a b <= a + t * (b - a) <= Rmax a b.
Proof. intros T. destruct (part t (b - a) T) as (P1 & P2). pose proof (Rmin_l a b). pose proof (Rmin_r a b). pose proof (Rmax_l a b). pose proof (Rmax_r a b). destruct (Rle_lt_dec 0 (b - a)) as [L|L]; [specialize (P1 L)|specialize (P2 (Rlt_le _ _ L))]; lra. Qed.
(** part of a sideways vector along a coordinate; [h2] is the square of the length of the axis, [m2] of what is perpendicular to the coordinate *)
Lemma side_part wx wy wz dx dy dz r : 0 <= r -> wx * dx + wy * dy + wz * dz = 0 -> wx * wx + wy * wy + wz * wz <= r * r -> 0 < dx * dx + dy * dy + dz * dz -> Rabs wx <= r * (sqrt (dy * dy + dz * dz) / sqrt (dx * dx + dy * dy + dz * dz)).
Proof.
  intros R0 O W H. set (h2 := dx * dx + dy * dy + dz * dz) in *. set (m2 := dy * dy + dz * dz). assert (M0 : 0 <= m2) by (unfold m2; pose proof (sqr_pos dy); pose proof (sqr_pos dz); lra). pose proof (sqrt_lt_R0 h2 H) as S0. pose proof (sqrt_sqrt h2 (Rlt_le _ _ H)) as SS. pose proof (sqrt_sqrt m2 M0) as MM. pose proof (sqrt_pos m2) as M1. set (h := sqrt h2) in *. set (m := sqrt m2) in *.
  apply sq_le; [apply Rmult_le_pos; [exact R0|]; apply Rmult_le_pos; [exact M1|apply Rlt_le, Rinv_0_lt_compat, S0]|]. replace (Rabs wx * Rabs wx) with (wx * wx) by (change (Rsqr wx = Rsqr (Rabs wx)); apply Rsqr_abs).
  replace (r * (m / h) * (r * (m / h))) with (r * r * (m * m) / (h * h)) by (field; lra). rewrite MM, SS. apply (Rmult_le_reg_r h2); [exact H|]. replace (r * r * m2 / h2 * h2) with (r * r * m2) by (field; lra).
  (* wx^2 dx^2 = (wy dy + wz dz)^2 <= (wy^2 + wz^2) m2 *)
  assert (Cs : wx * dx * (wx * dx) <= (wy * wy + wz * wz) * m2). { replace (wx * dx) with (- (wy * dy + wz * dz)) by lra. unfold m2. pose proof (sqr_pos (wy * dz - wz * dy)). lra. }
  assert (wx * wx * m2 + (wy * wy + wz * wz) * m2 <= r * r * m2) by (replace (wx * wx * m2 + (wy * wy + wz * wz) * m2) with ((wx * wx + wy * wy + wz * wz) * m2) by ring; apply Rmult_le_compat_r; assumption). unfold h2, m2 in *. lra.
Qed.
Lemma cyl_box_holds c1 c2 r p : c1 <> c2 -> holds (Cyl c1 c2 r) p -> in_box (aabb (Cyl c1 c2 r)) p.
Proof.
  cbn [holds]. intros P (t & w & T & (-> & O) & W). assert (R0 : 0 <= r) by (pose proof (norm_pos w); lra). assert (W2 : norm2 w <= r * r) by (rewrite <- norm_sq; apply le_sq; [apply norm_pos|exact W]). pose proof (norm2_nz _ (vsub_nz _ _ P)) as N. cbn [aabb in_box cyl_box].
  assert (Nh : norm (vsub c2 c1) = sqrt (norm2 (vsub c2 c1))) by reflexivity. rewrite Nh. clear Nh. unfold norm2, dot in *. destruct c1 as [x1 y1 z1], c2 as [x2 y2 z2], w as [wx wy wz]. cbn [vmin vmax vadd vsub smul vx vy vz] in *. unfold between.
  pose proof (side_part wx wy wz (x2 - x1) (y2 - y1) (z2 - z1) r R0 O W2 N) as Sx. pose proof (side_part wy wx wz (y2 - y1) (x2 - x1) (z2 - z1) r R0 ltac:(lra) ltac:(lra) ltac:(lra)) as Sy. pose proof (side_part wz wx wy (z2 - z1) (x2 - x1) (y2 - y1) r R0 ltac:(lra) ltac:(lra) ltac:(lra)) as Sz.
  replace ((y2 - y1) * (y2 - y1) + (x2 - x1) * (x2 - x1) + (z2 - z1) * (z2 - z1)) with ((x2 - x1) * (x2 - x1) + (y2 - y1) * (y2 - y1) + (z2 - z1) * (z2 - z1)) in Sy by ring. replace ((z2 - z1) * (z2 - z1) + (x2 - x1) * (x2 - x1) + (y2 - y1) * (y2 - y1)) with ((x2 - x1) * (x2 - x1) + (y2 - y1) * (y2 - y1) + (z2 - z1) * (z2 - z1)) in Sz by ring.
  replace ((y1 - y2) ^ 2 + (z1 - z2) ^ 2) with ((y2 - y1) * (y2 - y1) + (z2 - z1) * (z2 - z1)) by ring. replace ((x1 - x2) ^ 2 + (z1 - z2) ^ 2) with ((x2 - x1) * (x2 - x1) + (z2 - z1) * (z2 - z1)) by ring. replace ((x1 - x2) ^ 2 + (y1 - y2) ^ 2) with ((x2 - x1) * (x2 - x1) + (y2 - y1) * (y2 - y1)) by ring.
  apply abs_le_inv in Sx, Sy, Sz. pose proof (mid_between t x1 x2 T). pose proof (mid_between t y1 y2 T). pose proof (mid_between t z1 z2 T). repeat split; lra.
Qed.
Lemma ell_coord x a S : 0 < a -> sq (x / a) + S <= 1 -> 0 <= S -> - a <= x <= a.
Proof. intros A H S0. assert (K : Rabs x <= a). { apply sq_le; [lra|]. replace (Rabs x * Rabs x) with (x * x) by (change (Rsqr x = Rsqr (Rabs x)); apply Rsqr_abs). replace (x * x) with (sq (x / a) * (a * a)) by (unfold sq; field; lra). replace (a * a) with (1 * (a * a)) at 2 by ring. apply Rmult_le_compat_r; [apply sqr_pos|lra]. } apply abs_le_inv in K. exact K. Qed.
Lemma vmin_in a b p q : in_box (Some (a, b)) p -> in_box (join (Some (a, b)) q) p.
Proof.
  destruct q as [[c d]|]; [|intros _; exact I]. cbn [in_box join vmin vmax vx vy vz]. unfold between. intros (H1 & H2 & H3). pose proof (Rmin_l (vx a) (vx c)). pose proof (Rmin_l (vy a) (vy c)). pose proof (Rmin_l (vz a) (vz c)). pose proof (Rmax_l (vx b) (vx d)). pose proof (Rmax_l (vy b) (vy d)). pose proof (Rmax_l (vz b) (vz d)). lra.
Qed.
Lemma join_l x y p : in_box x p -> in_box (join x y) p. Proof. destruct x as [[a b]|]; [apply vmin_in|intros _; exact I]. Qed.
Lemma join_r x y p : in_box y p -> in_box (join x y) p.
Proof.
  destruct x as [[a b]|]; [|intros _; exact I]. destruct y as [[c d]|]; [|intros _; exact I]. cbn [in_box join vmin vmax vx vy vz]. unfold between. intros (H1 & H2 & H3). pose proof (Rmin_r (vx a) (vx c)). pose proof (Rmin_r (vy a) (vy c)). pose proof (Rmin_r (vz a) (vz c)). pose proof (Rmax_r (vx b) (vx d)). pose proof (Rmax_r (vy b) (vy d)). pose proof (Rmax_r (vz b) (vz d)). lra.
Qed.
Lemma meet_in x y p : in_box x p -> in_box y p -> in_box (meet x y) p.
Proof.
  destruct x as [[a b]|]; [|intros _ H; exact H]. destruct y as [[c d]|]; [|intros H _; exact H]. cbn [in_box meet vmin vmax vx vy vz]. unfold between. intros (H1 & H2 & H3) (K1 & K2 & K3). repeat split; try (apply Rmax_lub; lra); apply Rmin_glb; lra.
Qed.
Lemma self_dist p : distance p p = 0. Proof. unfold distance. rewrite vsub_self. unfold norm. replace (norm2 vzero) with 0 by vring. apply sqrt_0. Qed.
Lemma aabb_holds s : proper s -> forall p pad, 0 <= pad -> fits s pad -> inside s p pad = true -> in_box (aabb s) p.
Proof.
  induction s as [c r|mn mx|o a b c|c1 c2 r|c1 c2 r a|c abc|c e n ap|A IHA B IHB|A IHA B IHB|A IHA B IHB|A IHA B IHB]; intros P p pad Pd Fi H.
  - apply sphere_box. apply (prim_in (Sphere c r) p pad p I P H). rewrite self_dist. exact Pd.
  - exact (prim_in (Box mn mx) p pad p I P H ltac:(rewrite self_dist; exact Pd)).
  - apply para_box. apply (prim_in (Para o a b c) p pad p I P H). rewrite self_dist. exact Pd.
  - apply cyl_box_holds; [exact P|]. apply (prim_in (Cyl c1 c2 r) p pad p I P H). rewrite self_dist. exact Pd.
  - destruct P as (P1 & P2). apply inside_hyp in H; [|assumption..]. destruct H as (H1 & H2 & H3). change (in_box (aabb (Cyl c1 c2 r)) p). apply cyl_box_holds; [exact P1|]. apply holds_cyl; [exact P1|]. apply (inside_constraints (Cyl c1 c2 r) p 0 I P1). cbn [constraints]. pose proof (norm_nz _ (vsub_nz _ _ P1)) as N. set (s := dot (vsub p c1) (axis c1 c2)) in *. set (ht := norm (vsub c2 c1)) in *.
    assert (T : between 0 (s / ht) 1) by (apply (fraction s ht N); lra). assert (K : sqrt (skirt2 r a (s / ht)) <= r). { apply Rle_trans with (sqrt (r * r)); [|rewrite sqrt_square; lra]. apply sqrt_le_1_alt. unfold skirt2. assert (a * a < r * r) by (apply Rmult_le_0_lt_compat; lra). assert (Z : (2 * (s / ht) - 1) * (2 * (s / ht) - 1) <= 1). { unfold between in T. replace ((2 * (s / ht) - 1) * (2 * (s / ht) - 1)) with (1 - 4 * (s / ht * (1 - s / ht))) by ring. assert (0 <= s / ht * (1 - s / ht)) by (apply Rmult_le_pos; lra). lra. } assert ((r * r - a * a) * ((2 * (s / ht) - 1) * (2 * (s / ht) - 1)) <= (r * r - a * a) * 1) by (apply Rmult_le_compat_l; lra). lra. }
    apply Forall_cons; [|apply Forall_cons; [|apply Forall_cons; [|apply Forall_nil]]]; cbv beta; fold s; fold ht; [|lra|lra]. replace (dot (vsub p c1) (vopp (axis c1 c2))) with (- s) by (unfold s; generalize (axis c1 c2); clear; intros; vring). lra.
  - destruct P as (P1 & P2 & P3). destruct Fi as (F1 & F2 & F3). apply inside_ell in H; [|lra..]. cbn [aabb in_box vsub vadd vx vy vz]. unfold between. set (X := sq ((vx p - vx c) / (vx abc - pad))) in *. set (Y := sq ((vy p - vy c) / (vy abc - pad))) in *. set (Z := sq ((vz p - vz c) / (vz abc - pad))) in *. assert (0 <= X) by apply sqr_pos. assert (0 <= Y) by apply sqr_pos. assert (0 <= Z) by apply sqr_pos.
    pose proof (ell_coord (vx p - vx c) (vx abc - pad) (Y + Z) ltac:(lra) ltac:(fold X; lra) ltac:(lra)). pose proof (ell_coord (vy p - vy c) (vy abc - pad) (X + Z) ltac:(lra) ltac:(fold Y; lra) ltac:(lra)). pose proof (ell_coord (vz p - vz c) (vz abc - pad) (X + Y) ltac:(lra) ltac:(fold Z; lra) ltac:(lra)). lra.
  - exact I.
  - destruct P as (PA & PB), Fi as (FA & FB). cbn [inside] in H. apply orb_true_iff in H. destruct H as [H|H]; [apply join_l|apply join_r]; [apply (IHA PA p pad)|apply (IHB PB p pad)]; assumption.
  - destruct P as (PA & PB), Fi as (FA & FB). cbn [inside] in H. apply andb_true_iff in H. destruct H as (H1 & H2). apply meet_in; [apply (IHA PA p pad)|apply (IHB PB p pad)]; assumption.
  - destruct P as (PA & PB). cbn [inside] in H. apply andb_true_iff in H. destruct H as (H1 & _). apply (IHA PA p pad); assumption.
  - destruct P as (PA & PB), Fi as (FA & FB). cbn [inside] in H. destruct (inside A p pad) eqn:EA; [apply join_l; apply (IHA PA p pad); assumption|]. destruct (inside B p pad) eqn:EB; [|discriminate H]. apply join_r. apply (IHB PB p pad); assumption.
Qed.
