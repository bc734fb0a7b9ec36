From Coq Require Import Reals List ZArith Lia Lra Psatz Bool.
From Verif Require Import Vec_Model Vec_Proofs Cell_Model Cell_Spec.
Import ListNotations.
Local Open Scope R_scope.

(** ** integer part *)
Lemma int_part_spec x z : IZR z <= x < IZR z + 1 -> Int_part x = z.
Proof.
  intros [H1 H2]. destruct (base_Int_part x) as [A B].
  assert (IZR (Int_part x) < IZR (z + 1)) as C by (rewrite plus_IZR; lra). apply lt_IZR in C.
  assert (IZR z < IZR (Int_part x + 1)) as D by (rewrite plus_IZR; lra). apply lt_IZR in D. lia.
Qed.
Lemma int_part_bounds x : IZR (Int_part x) <= x < IZR (Int_part x) + 1.
Proof. destruct (base_Int_part x). lra. Qed.
Lemma int_part_shift x k : Int_part (x + IZR k) = (Int_part x + k)%Z.
Proof. apply int_part_spec. rewrite plus_IZR. pose proof (int_part_bounds x). lra. Qed.

Lemma wrapNum_range x sz : 0 < sz -> 0 <= wrapNum x sz < sz.
Proof. intros H. unfold wrapNum. pose proof (int_part_bounds (x / sz)). split; [apply Rmult_le_pos; lra|]. apply Rlt_le_trans with (1 * sz); [apply Rmult_lt_compat_r|]; lra. Qed.
Lemma wrapNum_period x sz : 0 < sz -> x = wrapNum x sz + IZR (Int_part (x / sz)) * sz.
Proof. intros H. unfold wrapNum. field. lra. Qed.
Lemma wrapNum_shift x sz k : 0 < sz -> wrapNum (x + IZR k * sz) sz = wrapNum x sz.
Proof.
  intros H. unfold wrapNum. replace ((x + IZR k * sz) / sz) with (x / sz + IZR k) by (field; lra).
  rewrite int_part_shift, plus_IZR. ring.
Qed.
Lemma wrapNum_id x sz : 0 <= x < sz -> wrapNum x sz = x.
Proof.
  intros H. unfold wrapNum. rewrite (int_part_spec (x / sz) 0); [field; lra|]. split.
  - apply Rmult_le_pos; [lra|]. left. apply Rinv_0_lt_compat. lra.
  - apply Rmult_lt_reg_r with sz; [lra|]. unfold Rdiv. rewrite Rmult_assoc, Rinv_l; lra.
Qed.
Lemma wrapNumPeriod_some x sz r p : wrapNumPeriod x sz = Some (r, p) -> r = wrapNum x sz /\ p = Int_part (x / sz).
Proof. unfold wrapNumPeriod, wrapNum, to_int. destruct (_ && _)%bool; [|discriminate]. intros [= <- <-]. auto. Qed.
Lemma wrapNumPeriod_none x sz : wrapNumPeriod x sz = None <-> (Int_part (x / sz) < - 2 ^ 31 \/ 2 ^ 31 <= Int_part (x / sz))%Z.
Proof.
  unfold wrapNumPeriod, to_int. destruct (- 2 ^ 31 <=? Int_part (x / sz))%Z eqn:A; destruct (Int_part (x / sz) <? 2 ^ 31)%Z eqn:B; cbn [andb];
    apply Z.leb_le in A || apply Z.leb_gt in A; apply Z.ltb_lt in B || apply Z.ltb_ge in B; split; try discriminate; try reflexivity; lia.
Qed.

(** ** the caches *)
Definition caches (c : cell) : Prop :=
  det (hSize c) <> 0 /\ size c = V (norm (col0 (hSize c))) (norm (col1 (hSize c))) (norm (col2 (hSize c))) /\
  shearTrsf c = Hnorm (hSize c) /\ unshearTrsf c = minv (Hnorm (hSize c)) /\
  skew c = (let H := Hnorm (hSize c) in V (norm2 (cross (col1 H) (col2 H))) (norm2 (cross (col2 H) (col0 H))) (norm2 (cross (col0 H) (col1 H)))) /\
  invTrsf c = minv (trsf c) /\
  hasShear c = (let h := hSize c in nonzero (vy (r0 h)) || nonzero (vz (r0 h)) || nonzero (vx (r1 h)) || nonzero (vz (r1 h)) || nonzero (vx (r2 h)) || nonzero (vy (r2 h))).
Lemma integrate_caches dt c c' : integrateAndUpdate dt c = Updated c' -> caches c'.
Proof.
  unfold integrateAndUpdate, caches. cbv zeta. destruct (Req_EM_T _ _) as [E | E]; [discriminate|]. intros [= <-].
  cbn [hSize size shearTrsf unshearTrsf skew invTrsf trsf hasShear]. split; [exact E|]. repeat (split; [reflexivity|]). reflexivity.
Qed.
Lemma exec1_caches o c c' : caches c -> exec1 o c = Updated c' -> caches c'.
Proof.
  intros H. destruct o; cbn [exec1].
  - apply integrate_caches.
  - intros [= <-]. unfold applyVelGrad. destruct (_ || _); [|exact H]. exact H.
  - intros [= <-]. exact H.
  - apply integrate_caches.
  - apply integrate_caches.
  - unfold setBox, and_then. destruct (setHSize _ _); [|discriminate]. apply integrate_caches.
  - apply integrate_caches.
Qed.
Lemma exec_caches os : forall c c', caches c -> exec os c = Updated c' -> caches c'.
Proof.
  induction os as [|o os IH]; cbn [exec]; intros c c' H E; [injection E as <-; exact H|].
  destruct (exec1 o c) eqn:E1; cbn [and_then] in E; [|discriminate]. exact (IH _ _ (exec1_caches _ _ _ H E1) E).
Qed.
Lemma reachable_caches c : reachable c -> caches c.
Proof. intros (c0 & os & F & E). exact (exec_caches _ _ _ (integrate_caches _ _ _ F) E). Qed.

(** ** deformation *)
Lemma madd_mmul_l A B C : mmul (madd A B) C = madd (mmul A C) (mmul B C). Proof. vring. Qed.
Lemma integrate_h dt c c' : integrateAndUpdate dt c = Updated c' ->
  hSize c' = mmul (madd mid (mscale dt (velGrad c))) (hSize c) /\ trsf c' = mmul (madd mid (mscale dt (velGrad c))) (trsf c) /\
  velGrad c' = velGrad c /\ nextVelGrad c' = nextVelGrad c /\ velGradChanged c' = velGradChanged c /\ vGradTimesPrevH c' = mmul (velGrad c) (hSize c) /\ prevHSize c' = hSize c /\ refHSize c' = refHSize c.
Proof.
  unfold integrateAndUpdate. cbv zeta. destruct (Req_EM_T _ _) as [E | E]; [discriminate|]. intros [= <-].
  cbn [hSize trsf velGrad nextVelGrad velGradChanged vGradTimesPrevH prevHSize refHSize]. rewrite !madd_mmul_l, !mmul_id_l. repeat split.
Qed.
Lemma deforming_h o c c' h0 : deforming o -> exec1 o c = Updated c' -> hSize c = mmul (trsf c) h0 -> hSize c' = mmul (trsf c') h0.
Proof.
  intros D E H. destruct o; cbn [deforming] in D; try contradiction; cbn [exec1] in E.
  - apply integrate_h in E. destruct E as (-> & -> & _). rewrite <- mmul_assoc, <- H. reflexivity.
  - injection E as <-. unfold applyVelGrad. destruct (_ || _); exact H.
  - injection E as <-. exact H.
Qed.
Lemma deform_history os : forall c c' h0, Forall deforming os -> exec os c = Updated c' -> hSize c = mmul (trsf c) h0 -> hSize c' = mmul (trsf c') h0.
Proof.
  induction os as [|o os IH]; cbn [exec]; intros c c' h0 D E H; [injection E as <-; exact H|].
  inversion D; subst. destruct (exec1 o c) as [c1|] eqn:E1; cbn [and_then] in E; [|discriminate].
  apply (IH c1 c' h0); auto. exact (deforming_h o c c1 h0 H2 E1 H).
Qed.
Lemma hSize0_spec c : caches c -> det (trsf c) <> 0 -> hSize c = mmul (trsf c) (getHSize0 c).
Proof. intros (_ & _ & _ & _ & _ & I & _) D. unfold getHSize0. rewrite I, mmul_assoc, minv_r by exact D. symmetry. apply mmul_id_l. Qed.
Lemma deform_all os c c' : reachable c -> det (trsf c) <> 0 -> Forall deforming os -> exec os c = Updated c' ->
  det (trsf c') <> 0 /\ getHSize0 c' = getHSize0 c /\ hSize c' = mmul (trsf c') (getHSize0 c) /\ getVolume c' = det (trsf c') * det (getHSize0 c).
Proof.
  intros R D F E. pose proof (reachable_caches c R) as C. pose proof (exec_caches os c c' C E) as C'.
  pose proof (deform_history os c c' _ F E (hSize0_spec c C D)) as H.
  assert (det (trsf c') <> 0) as D'. { destruct C' as (N & _). rewrite H, det_mmul in N. intros Z. apply N. rewrite Z. ring. }
  split; [exact D'|]. split; [|split; [exact H|]].
  - unfold getHSize0 at 1. rewrite H. destruct C' as (_ & _ & _ & _ & _ & I & _). rewrite I, mmul_assoc, minv_l by exact D'. apply mmul_id_l.
  - unfold getVolume. rewrite H, det_mmul. reflexivity.
Qed.

(** ** velocity gradient *)
Lemma nonzero_false x : nonzero x = false <-> x = 0.
Proof. unfold nonzero. destruct (Req_EM_T x 0); split; congruence. Qed.
Lemma vec_is_zero_iff v : vec_is_zero v = true <-> v = vzero.
Proof.
  destruct v as [x y z]. unfold vec_is_zero. cbn [vx vy vz]. rewrite !andb_true_iff, !negb_true_iff, !nonzero_false. unfold vzero.
  split; [intros [[-> ->] ->]; reflexivity | intros [= -> -> ->]; auto].
Qed.
Lemma mat_is_zero_iff A : mat_is_zero A = true <-> A = mzero.
Proof.
  destruct A as [a b c]. unfold mat_is_zero. cbn [r0 r1 r2]. rewrite !andb_true_iff, !vec_is_zero_iff. unfold mzero.
  split; [intros [[-> ->] ->]; reflexivity | intros [= -> -> ->]; auto].
Qed.
Lemma apply_assigned m c : let c' := applyVelGrad (setVelGrad m c) in velGrad c' = m /\ nextVelGrad c' = mzero /\ velGradChanged c' = false.
Proof. cbv zeta. unfold applyVelGrad, setVelGrad. cbn [with_vg velGradChanged orb velGrad nextVelGrad]. auto. Qed.

(** ** images *)
Lemma mulv_smul A k v : mulv A (smul k v) = smul k (mulv A v). Proof. vring. Qed.
Lemma mulv_mscale k A v : mulv (mscale k A) v = smul k (mulv A v). Proof. vring. Qed.
Lemma mulv_madd A B v : mulv (madd A B) v = vadd (mulv A v) (mulv B v). Proof. vring. Qed.
Lemma shift_moves dt c c' k : integrateAndUpdate dt c = Updated c' -> intrShiftPos c' k = vadd (intrShiftPos c k) (smul dt (intrShiftVel c' k)).
Proof.
  intros E. apply integrate_h in E. destruct E as (H & _ & _ & _ & _ & G & _). unfold intrShiftPos, intrShiftVel. rewrite H, G, !mulv_mmul, mulv_madd, mulv_mscale, mulv_id. reflexivity.
Qed.

(** ** wrapping in a sheared cell *)
Lemma norm_ne a : a <> vzero -> 0 < norm a.
Proof. intros H. apply sqrt_lt_R0. destruct (norm2_pos a) as [|E]; [assumption|]. exfalso. apply H. apply norm2_zero. symmetry. exact E. Qed.
Lemma det_cols h : det h = dot (col0 h) (cross (col1 h) (col2 h)). Proof. vring. Qed.
Lemma cols_ne h : det h <> 0 -> col0 h <> vzero /\ col1 h <> vzero /\ col2 h <> vzero.
Proof. rewrite det_cols. intros D. split; [|split]; intros E; apply D; rewrite E; vring. Qed.
Lemma sizes_pos c : caches c -> 0 < vx (size c) /\ 0 < vy (size c) /\ 0 < vz (size c).
Proof. intros (D & S & _). rewrite S. cbn [vx vy vz]. destruct (cols_ne _ D) as (A & B & C). auto using norm_ne. Qed.
Lemma unit_col_scale v : v <> vzero -> smul (norm v) (unit_col v) = v.
Proof. intros H. pose proof (norm_ne v H). unfold unit_col. destruct v as [x y z]. set (n := norm (V x y z)) in *. vgoal. f_equal; field; lra. Qed.
Lemma col_columns a b c : col0 (columns a b c) = a /\ col1 (columns a b c) = b /\ col2 (columns a b c) = c.
Proof. destruct a, b, c. repeat split. Qed.
Lemma mulv_columns a b c v : mulv (columns a b c) v = vadd (smul (vx v) a) (vadd (smul (vy v) b) (smul (vz v) c)). Proof. vring. Qed.
Lemma mulv_cols h v : mulv h v = vadd (smul (vx v) (col0 h)) (vadd (smul (vy v) (col1 h)) (smul (vz v) (col2 h))). Proof. vring. Qed.
Lemma smul_smul a b v : smul a (smul b v) = smul (a * b) v. Proof. vring. Qed.
Lemma shear_scaled h v : det h <> 0 ->
  mulv (Hnorm h) (V (vx v * norm (col0 h)) (vy v * norm (col1 h)) (vz v * norm (col2 h))) = mulv h v.
Proof.
  intros D. destruct (cols_ne h D) as (A & B & C). unfold Hnorm. rewrite mulv_columns, (mulv_cols h). cbn [vx vy vz].
  rewrite <- !smul_smul, !unit_col_scale by assumption. reflexivity.
Qed.
Lemma hnorm_det h : det h <> 0 -> det (Hnorm h) * (norm (col0 h) * norm (col1 h) * norm (col2 h)) = det h.
Proof.
  intros D. destruct (cols_ne h D) as (A & B & C).
  unfold Hnorm. rewrite !det_cols. destruct (col_columns (unit_col (col0 h)) (unit_col (col1 h)) (unit_col (col2 h))) as (-> & -> & ->).
  transitivity (dot (smul (norm (col0 h)) (unit_col (col0 h))) (cross (smul (norm (col1 h)) (unit_col (col1 h))) (smul (norm (col2 h)) (unit_col (col2 h))))).
  - generalize (unit_col (col0 h)) (unit_col (col1 h)) (unit_col (col2 h)) (norm (col0 h)) (norm (col1 h)) (norm (col2 h)). clear. vring.
  - rewrite !unit_col_scale by assumption. reflexivity.
Qed.
Lemma hnorm_det_ne h : det h <> 0 -> det (Hnorm h) <> 0.
Proof. intros D Z. pose proof (hnorm_det h D) as E. rewrite Z in E. apply D. rewrite <- E. ring. Qed.
Lemma shear_unshear c p : caches c -> shearPt c (unshearPt c p) = p.
Proof. intros (D & _ & S & U & _). unfold shearPt, unshearPt. rewrite S, U, <- mulv_mmul, minv_r by (apply hnorm_det_ne, D). apply mulv_id. Qed.
Lemma unshear_shear c p : caches c -> unshearPt c (shearPt c p) = p.
Proof. intros (D & _ & S & U & _). unfold shearPt, unshearPt. rewrite S, U, <- mulv_mmul, minv_l by (apply hnorm_det_ne, D). apply mulv_id. Qed.
Lemma unshear_lattice c v : caches c -> unshearPt c (mulv (hSize c) v) = V (vx v * vx (size c)) (vy v * vy (size c)) (vz v * vz (size c)).
Proof.
  intros H. transitivity (unshearPt c (shearPt c (V (vx v * vx (size c)) (vy v * vy (size c)) (vz v * vz (size c))))); [|apply unshear_shear, H].
  f_equal. destruct H as (D & S & T & _). unfold shearPt. rewrite T, S. cbn [vx vy vz]. symmetry. apply shear_scaled, D.
Qed.
Lemma shear_lattice c v : caches c -> shearPt c (V (vx v * vx (size c)) (vy v * vy (size c)) (vz v * vz (size c))) = mulv (hSize c) v.
Proof. intros (D & S & T & _). unfold shearPt. rewrite T, S. cbn [vx vy vz]. apply shear_scaled, D. Qed.
Definition periods (c : cell) (p : vec) : Z * Z * Z :=
  let u := unshearPt c p in (Int_part (vx u / vx (size c)), Int_part (vy u / vy (size c)), Int_part (vz u / vz (size c))).
Lemma wrap_image c p : caches c -> image_by c (periods c p) p (wrapShearedPt c p).
Proof.
  intros H. destruct (sizes_pos c H) as (A & B & C). unfold image_by, wrapShearedPt.
  rewrite <- (shear_lattice c _ H). unfold shearPt. rewrite <- mulv_add. fold (shearPt c).
  transitivity (shearPt c (unshearPt c p)); [symmetry; apply shear_unshear, H|]. unfold shearPt. f_equal.
  unfold wrapPt, periods, cast, vadd. cbn [vx vy vz]. rewrite <- !wrapNum_period by assumption. destruct (unshearPt c p). reflexivity.
Qed.
Lemma wrap_inside c p : caches c -> inside c (wrapShearedPt c p).
Proof.
  intros H. destruct (sizes_pos c H) as (A & B & C).
  set (u := unshearPt c p).
  exists (V (wrapNum (vx u) (vx (size c)) / vx (size c)) (wrapNum (vy u) (vy (size c)) / vy (size c)) (wrapNum (vz u) (vz (size c)) / vz (size c))).
  split.
  - assert (forall x sz, 0 < sz -> 0 <= wrapNum x sz / sz < 1) as G.
    { intros x sz S. pose proof (wrapNum_range x sz S) as [L U]. split.
      - apply Rmult_le_pos; [exact L|]. left. apply Rinv_0_lt_compat, S.
      - apply Rmult_lt_reg_r with sz; [exact S|]. unfold Rdiv. rewrite Rmult_assoc, Rinv_l; lra. }
    unfold unit3. cbn [vx vy vz]. auto.
  - rewrite <- (shear_lattice c _ H). unfold wrapShearedPt, wrapPt. cbn [vx vy vz]. fold u. f_equal. f_equal; field; lra.
Qed.
Lemma wrap_shift c p k : caches c -> wrapShearedPt c (vadd p (mulv (hSize c) (cast k))) = wrapShearedPt c p.
Proof.
  intros H. destruct (sizes_pos c H) as (A & B & C). unfold wrapShearedPt. f_equal.
  assert (unshearPt c (vadd p (mulv (hSize c) (cast k))) = vadd (unshearPt c p) (unshearPt c (mulv (hSize c) (cast k)))) as -> by (unfold unshearPt; apply mulv_add).
  rewrite unshear_lattice by exact H. destruct k as [[i j] l]. unfold wrapPt, cast, vadd. cbn [vx vy vz]. rewrite !wrapNum_shift by assumption. reflexivity.
Qed.
Lemma wrap_fixed c p : caches c -> inside c p -> wrapShearedPt c p = p.
Proof.
  intros H (s & (X & Y & Z) & ->). destruct (sizes_pos c H) as (A & B & C). unfold wrapShearedPt. rewrite unshear_lattice by exact H.
  transitivity (shearPt c (V (vx s * vx (size c)) (vy s * vy (size c)) (vz s * vz (size c)))); [|apply shear_lattice, H].
  f_equal. unfold wrapPt. cbn [vx vy vz].
  assert (forall a sz, 0 <= a < 1 -> 0 < sz -> 0 <= a * sz < sz) as G.
  { intros a sz [L U] S. split; [apply Rmult_le_pos; lra|]. apply Rlt_le_trans with (1 * sz); [apply Rmult_lt_compat_r|]; lra. }
  rewrite !wrapNum_id by auto. reflexivity.
Qed.
Lemma wrap_period c p q k : caches c -> wrapShearedPtPeriod c p = Some (q, k) -> q = wrapShearedPt c p /\ k = periods c p.
Proof.
  intros H. unfold wrapShearedPtPeriod, wrapPtPeriod, wrapShearedPt, wrapPt, periods.
  destruct (wrapNumPeriod (vx (unshearPt c p)) _) as [[x i]|] eqn:E1; [|discriminate].
  destruct (wrapNumPeriod (vy (unshearPt c p)) _) as [[y j]|] eqn:E2; [|discriminate].
  destruct (wrapNumPeriod (vz (unshearPt c p)) _) as [[z l]|] eqn:E3; [|discriminate].
  intros [= <- <-]. apply wrapNumPeriod_some in E1, E2, E3. destruct E1 as [-> ->], E2 as [-> ->], E3 as [-> ->]. auto.
Qed.

(** ** boxes around spheres *)
Lemma cauchy a b : dot a b * dot a b <= norm2 a * norm2 b.
Proof. pose proof (lagrange a b). pose proof (norm2_pos (cross a b)). lra. Qed.
Lemma unit_col_norm v : v <> vzero -> norm2 (unit_col v) = 1.
Proof.
  intros H. pose proof (norm_ne v H) as P. unfold unit_col. transitivity (/ norm v * / norm v * norm2 v).
  - generalize (/ norm v). vring.
  - rewrite <- norm_sq. field. lra.
Qed.
Lemma gram a b c : norm2 a = 1 -> norm2 b = 1 -> norm2 c = 1 ->
  dot a (cross b c) * dot a (cross b c) = 1 + 2 * dot a b * dot b c * dot a c - dot a b * dot a b - dot b c * dot b c - dot a c * dot a c.
Proof.
  intros A B C.
  transitivity (norm2 a * norm2 b * norm2 c + 2 * dot a b * dot b c * dot a c - norm2 c * (dot a b * dot a b) - norm2 a * (dot b c * dot b c) - norm2 b * (dot a c * dot a c)).
  - clear. vring.
  - rewrite A, B, C. ring.
Qed.
Lemma am_gm t : 0 < t -> 1 <= t * ((1/2 * (1 + 1 / t)) * (1/2 * (1 + 1 / t))).
Proof.
  intros T. replace (t * (1 / 2 * (1 + 1 / t) * (1 / 2 * (1 + 1 / t)))) with (1 + (t - 1) * (t - 1) / (4 * t)) by (field; lra).
  assert (0 <= (t - 1) * (t - 1) / (4 * t)); [|lra]. apply Rmult_le_pos; [apply Rle_0_sqr|]. left. apply Rinv_0_lt_compat. lra.
Qed.
(** a unit base vector [a], two others; what is needed along the coordinate of [a] *)
Lemma extent a b c : norm2 a = 1 -> norm2 b = 1 -> norm2 c = 1 -> dot a (cross b c) <> 0 ->
  (dot a b = 0 /\ dot a c = 0) \/ (dot a b = 0 /\ dot b c = 0) \/ (dot a c = 0 /\ dot b c = 0) ->
  let K := 1/2 * (1 / norm2 (cross c a) + 1 / norm2 (cross a b)) in
  norm2 (cross b c) <= dot a (cross b c) * dot a (cross b c) * (K * K) /\ 1 <= K.
Proof.
  intros A B C D P. cbv zeta. pose proof (gram a b c A B C) as G.
  assert (0 < dot a (cross b c) * dot a (cross b c)) as D2 by (apply Rsqr_pos_lt in D; exact D).
  assert (dot c a = dot a c) as CA by (clear; vring).
  rewrite (lagrange b c), (lagrange c a), (lagrange a b), A, B, C, CA.
  destruct P as [[X Y] | [[X Y] | [X Y]]]; rewrite ?X, ?Y in *.
  - rewrite G. rewrite G in D2. split; [|lra]. replace (1 / 2 * (1 / (1 * 1 - 0 * 0) + 1 / (1 * 1 - 0 * 0))) with 1 by field. lra.
  - rewrite G. rewrite G in D2. set (t := 1 - dot a c * dot a c) in *.
    assert (0 < t) as T by (unfold t; lra). replace (1 * 1 - dot a c * dot a c) with t by (unfold t; ring).
    pose proof (am_gm t T). replace (1 / 2 * (1 / t + 1 / (1 * 1 - 0 * 0))) with (1/2 * (1 + 1 / t)) by (field; lra).
    replace (1 + 2 * 0 * 0 * dot a c - 0 * 0 - 0 * 0 - dot a c * dot a c) with t by (unfold t; ring).
    split; [lra|]. assert (t <= 1) by (unfold t; pose proof (Rle_0_sqr (dot a c)); unfold Rsqr in *; lra).
    assert (1 <= 1 / t). { apply Rmult_le_reg_r with t; [exact T|]. unfold Rdiv. rewrite Rmult_assoc, Rinv_l; lra. } lra.
  - rewrite G. rewrite G in D2. set (t := 1 - dot a b * dot a b) in *.
    assert (0 < t) as T by (unfold t; lra). replace (1 * 1 - dot a b * dot a b) with t by (unfold t; ring).
    pose proof (am_gm t T). replace (1 / 2 * (1 / (1 * 1 - 0 * 0) + 1 / t)) with (1/2 * (1 + 1 / t)) by (field; lra).
    replace (1 + 2 * dot a b * 0 * 0 - dot a b * dot a b - 0 * 0 - 0 * 0) with t by (unfold t; ring).
    split; [lra|]. assert (t <= 1) by (unfold t; pose proof (Rle_0_sqr (dot a b)); unfold Rsqr in *; lra).
    assert (1 <= 1 / t). { apply Rmult_le_reg_r with t; [exact T|]. unfold Rdiv. rewrite Rmult_assoc, Rinv_l; lra. } lra.
Qed.
Lemma coordinate a b c d h r : 0 <= r -> r <= h -> norm2 a = 1 -> norm2 b = 1 -> norm2 c = 1 -> dot a (cross b c) <> 0 ->
  (dot a b = 0 /\ dot a c = 0) \/ (dot a b = 0 /\ dot b c = 0) \/ (dot a c = 0 /\ dot b c = 0) ->
  norm2 d <= r * r ->
  let K := 1/2 * (1 / norm2 (cross c a) + 1 / norm2 (cross a b)) in
  - (h * K) <= dot (cross b c) d / dot a (cross b c) <= h * K.
Proof.
  intros R RH A B C D P N. cbv zeta. destruct (extent a b c A B C D P) as [E K1]. set (K := 1/2 * _) in *.
  set (x := dot (cross b c) d / dot a (cross b c)).
  assert (x * x <= h * K * (h * K)) as X.
  { unfold x. pose proof (cauchy (cross b c) d) as CS.
    assert (0 < dot a (cross b c) * dot a (cross b c)) as D2 by (apply Rsqr_pos_lt in D; exact D).
    apply Rmult_le_reg_r with (dot a (cross b c) * dot a (cross b c)); [exact D2|].
    replace (dot (cross b c) d / dot a (cross b c) * (dot (cross b c) d / dot a (cross b c)) * (dot a (cross b c) * dot a (cross b c))) with (dot (cross b c) d * dot (cross b c) d) by (field; exact D).
    apply Rle_trans with (norm2 (cross b c) * norm2 d); [exact CS|].
    apply Rle_trans with (dot a (cross b c) * dot a (cross b c) * (K * K) * (r * r)).
    - apply Rmult_le_compat; auto using norm2_pos.
    - assert (r * r <= h * h) by (apply Rmult_le_compat; lra).
      replace (h * K * (h * K) * (dot a (cross b c) * dot a (cross b c))) with (dot a (cross b c) * dot a (cross b c) * (K * K) * (h * h)) by ring.
      apply Rmult_le_compat_l; [|assumption]. apply Rmult_le_pos; [lra|]. apply Rle_0_sqr. }
  assert (0 <= h * K) as HK by (apply Rmult_le_pos; lra).
  split; destruct (Rle_or_lt x (h * K)); destruct (Rle_or_lt (- (h * K)) x); try assumption; exfalso; nra.
Qed.
Lemma minv_coords a b c d : mulv (minv (columns a b c)) d =
  let D := dot a (cross b c) in V (dot (cross b c) d / D) (dot (cross c a) d / D) (dot (cross a b) d / D).
Proof.
  cbv zeta. unfold minv. assert (det (columns a b c) = dot a (cross b c)) as -> by (clear; vring).
  rewrite mulv_mscale. unfold Rdiv. generalize (dot a (cross b c)). intros D. destruct a, b, c, d. vgoal. f_equal; ring.
Qed.
Lemma unit_dot a b : dot a b = 0 -> dot (unit_col a) (unit_col b) = 0.
Proof. intros H. unfold unit_col. transitivity (/ norm a * / norm b * dot a b); [generalize (/ norm a) (/ norm b); clear; vring | rewrite H; ring]. Qed.
Lemma dot_comm a b : dot a b = dot b a. Proof. vring. Qed.
Lemma cyc a b c : dot b (cross c a) = dot a (cross b c). Proof. vring. Qed.
Lemma cyc' a b c : dot c (cross a b) = dot a (cross b c). Proof. vring. Qed.
Definition factor (e : R) : R := if Rlt_dec 0 e then e else 1.
Lemma half_formula e r c : caches c ->
  let a := unit_col (col0 (hSize c)) in let b := unit_col (col1 (hSize c)) in let d := unit_col (col2 (hSize c)) in
  let h := factor e * r in
  sphere_half e r c = V (h * (1/2 * (1 / norm2 (cross d a) + 1 / norm2 (cross a b))))
                        (h * (1/2 * (1 / norm2 (cross a b) + 1 / norm2 (cross b d))))
                        (h * (1/2 * (1 / norm2 (cross b d) + 1 / norm2 (cross d a)))).
Proof.
  intros (D & _ & _ & _ & S & _ & HS). cbv zeta in S |- *. unfold sphere_half, factor. cbv zeta.
  unfold Hnorm in S. destruct (col_columns (unit_col (col0 (hSize c))) (unit_col (col1 (hSize c))) (unit_col (col2 (hSize c)))) as (C0 & C1 & C2).
  rewrite C0, C1, C2 in S. destruct (hasShear c) eqn:E.
  - rewrite S. cbn [vx vy vz]. unfold Rdiv. f_equal; set (f := if Rlt_dec 0 e then e else 1); generalize (/ norm2 (cross (unit_col (col1 (hSize c))) (unit_col (col2 (hSize c))))) (/ norm2 (cross (unit_col (col2 (hSize c))) (unit_col (col0 (hSize c))))) (/ norm2 (cross (unit_col (col0 (hSize c))) (unit_col (col1 (hSize c))))); intros; field.
  - symmetry in HS. cbv zeta in HS. rewrite !orb_false_iff, !nonzero_false in HS. destruct HS as (((((X1 & X2) & X3) & X4) & X5) & X6).
    destruct (cols_ne _ D) as (N0 & N1 & N2).
    assert (dot (col0 (hSize c)) (col1 (hSize c)) = 0 /\ dot (col1 (hSize c)) (col2 (hSize c)) = 0 /\ dot (col2 (hSize c)) (col0 (hSize c)) = 0) as (P0 & P1 & P2).
    { unfold dot, col0, col1, col2. cbn [vx vy vz]. rewrite X1, X2, X3, X4, X5, X6. repeat split; ring. }
    rewrite !lagrange, !unit_col_norm by assumption. rewrite (unit_dot _ _ P0), (unit_dot _ _ P1), (unit_dot _ _ P2).
    f_equal; field.
Qed.
Lemma sphere_covers e r c p : caches c -> one_perpendicular (hSize c) -> 0 <= r -> (e <= 0 \/ 1 <= e) -> covers c (sphere_aabb e r true c p) p r.
Proof.
  intros C P R E q Q. cbn [sphere_aabb]. cbv zeta. cbn [fst snd]. rewrite (half_formula e r c C). cbv zeta.
  assert (1 <= factor e) as F. { unfold factor. destruct (Rlt_dec 0 e); lra. }
  assert (r <= factor e * r) as FR. { apply Rle_trans with (1 * r); [lra|]. apply Rmult_le_compat_r; assumption. }
  assert (unshearPt c q = vadd (unshearPt c p) (unshearPt c (vsub q p))) as -> by (unfold unshearPt; rewrite <- mulv_add, vadd_sub; reflexivity).
  pose proof C as (D & _ & _ & U & _).
  assert (unshearPt c (vsub q p) = mulv (minv (Hnorm (hSize c))) (vsub q p)) as -> by (unfold unshearPt; rewrite U; reflexivity).
  unfold Hnorm. rewrite minv_coords. cbv zeta.
  destruct (cols_ne _ D) as (N0 & N1 & N2).
  pose proof (unit_col_norm _ N0) as U0. pose proof (unit_col_norm _ N1) as U1. pose proof (unit_col_norm _ N2) as U2.
  pose proof (hnorm_det_ne _ D) as DN. rewrite det_cols in DN. unfold Hnorm in DN.
  destruct (col_columns (unit_col (col0 (hSize c))) (unit_col (col1 (hSize c))) (unit_col (col2 (hSize c)))) as (C0 & C1 & C2). rewrite C0, C1, C2 in DN.
  assert (let a := unit_col (col0 (hSize c)) in let b := unit_col (col1 (hSize c)) in let d := unit_col (col2 (hSize c)) in
          (dot a b = 0 /\ dot a d = 0) \/ (dot a b = 0 /\ dot b d = 0) \/ (dot a d = 0 /\ dot b d = 0)) as PP.
  { cbv zeta. destruct P as [[X Y] | [[X Y] | [X Y]]].
    - left. split; apply unit_dot; assumption.
    - right. left. split; apply unit_dot; [rewrite dot_comm|]; assumption.
    - right. right. split; apply unit_dot; rewrite dot_comm; assumption. }
  cbv zeta in PP. revert U0 U1 U2 DN PP.
  generalize (unit_col (col0 (hSize c))) (unit_col (col1 (hSize c))) (unit_col (col2 (hSize c))). intros a b d U0 U1 U2 DN PP.
  assert ((dot b d = 0 /\ dot b a = 0) \/ (dot b d = 0 /\ dot d a = 0) \/ (dot b a = 0 /\ dot d a = 0)) as P1 by (rewrite (dot_comm b a), (dot_comm d a); tauto).
  assert ((dot d a = 0 /\ dot d b = 0) \/ (dot d a = 0 /\ dot a b = 0) \/ (dot d b = 0 /\ dot a b = 0)) as P2 by (rewrite (dot_comm d b), (dot_comm d a); tauto).
  pose proof (coordinate a b d (vsub q p) _ r R FR U0 U1 U2 DN PP Q) as K0.
  assert (dot b (cross d a) <> 0) as DN1 by (rewrite cyc; exact DN).
  pose proof (coordinate b d a (vsub q p) _ r R FR U1 U2 U0 DN1 P1 Q) as K1.
  assert (dot d (cross a b) <> 0) as DN2 by (rewrite cyc'; exact DN).
  pose proof (coordinate d a b (vsub q p) _ r R FR U2 U0 U1 DN2 P2 Q) as K2.
  cbv zeta in K0, K1, K2. rewrite cyc in K1. rewrite cyc' in K2.
  unfold vle, vsub at 1 3 5, vadd. cbn [vx vy vz]. unfold vsub. cbn [vx vy vz]. fold (vsub q p). lra.
Qed.

(** ** deferred assignment of the velocity gradient *)
Definition pending (c : cell) (m : option mat) : Prop :=
  match m with Some x => velGradChanged c = true /\ nextVelGrad c = x | None => velGradChanged c = false /\ nextVelGrad c = mzero end.
Lemma waiting_run os : forall c c1 m, Forall waiting os -> pending c m -> exec os c = Updated c1 -> velGrad c1 = velGrad c /\ pending c1 (last_assigned os m).
Proof.
  induction os as [|o os IH]; cbn [exec last_assigned]; intros c c1 m W P E; [injection E as <-; auto|].
  inversion W; subst. destruct (exec1 o c) as [c2|] eqn:E1; cbn [and_then] in E; [|discriminate].
  destruct o; cbn [waiting] in H1; try contradiction; cbn [exec1] in E1.
  - apply integrate_h in E1. destruct E1 as (_ & _ & V & N & C & _). rewrite <- V. apply (IH c2 c1 m); auto. unfold pending in *. rewrite N, C. exact P.
  - injection E1 as <-. destruct (IH (setVelGrad m0 c) c1 (Some m0) H2) as [V Q]; auto. unfold pending, setVelGrad. cbn [with_vg velGradChanged nextVelGrad]. auto.
Qed.
Lemma apply_pending c m : pending c m -> velGrad (applyVelGrad c) = match m with Some x => x | None => velGrad c end /\ pending (applyVelGrad c) None.
Proof.
  unfold pending, applyVelGrad. destruct m as [x|]; intros [A H].
  - rewrite A. cbn [orb with_vg velGrad velGradChanged nextVelGrad]. auto.
  - rewrite A, H. assert (mat_is_zero mzero = true) as -> by (apply mat_is_zero_iff; reflexivity). cbn [orb negb]. auto.
Qed.

(** ** assigning the shape *)
Lemma madd_zero_mmul A B : madd A (mmul (mscale 0 B) A) = A. Proof. vring. Qed.
Lemma integrate_zero c : det (hSize c) <> 0 -> exists c', integrateAndUpdate 0 c = Updated c' /\ hSize c' = hSize c /\ trsf c' = trsf c /\ velGrad c' = velGrad c.
Proof.
  intros D. unfold integrateAndUpdate. cbv zeta. rewrite !madd_zero_mmul. destruct (Req_EM_T (det (hSize c)) 0); [contradiction|].
  eexists. split; [reflexivity|]. cbn [hSize trsf velGrad]. auto.
Qed.
Lemma integrate_zero_inv c c' : integrateAndUpdate 0 c = Updated c' -> hSize c' = hSize c /\ trsf c' = trsf c /\ invTrsf c' = minv (trsf c).
Proof.
  unfold integrateAndUpdate. cbv zeta. rewrite !madd_zero_mmul. destruct (Req_EM_T (det (hSize c)) 0); [discriminate|]. intros [= <-]. auto.
Qed.
Lemma minv_id : minv mid = mid.
Proof. rewrite <- (mmul_id_l (minv mid)). apply minv_r. vunfold. lra. Qed.
Lemma fresh_ok : exists c, fresh = Updated c /\ hSize c = mid /\ trsf c = mid /\ velGrad c = mzero.
Proof. unfold fresh. apply (integrate_zero (mkCell mid mid mid mid mid mzero mzero false mzero vzero vzero mid mid false)). cbn [hSize]. vunfold. lra. Qed.
(** every shape of non-zero volume is reachable *)
Lemma reach_shape h : det h <> 0 -> exists c, reachable c /\ hSize c = h /\ trsf c = mid /\ velGrad c = mzero.
Proof.
  intros D. destruct fresh_ok as (c0 & F & H & T & G).
  destruct (integrate_zero (with_h c0 (trsf c0) h h)) as (c & E & Hc & Tc & Gc); [exact D|].
  exists c. split; [|rewrite Hc, Tc, Gc; cbn [with_h hSize trsf velGrad]; auto].
  exists c0, [AssignHSize h]. split; [exact F|]. cbn [exec exec1]. unfold setHSize, postLoad. rewrite E. reflexivity.
Qed.
Lemma reachable_step c o c' : reachable c -> exec1 o c = Updated c' -> reachable c'.
Proof.
  intros (c0 & os & F & E) S. exists c0, (os ++ [o]). split; [exact F|]. revert E. generalize c0. clear c0 F. induction os as [|x os IH]; cbn [exec app].
  - intros c0 [= ->]. rewrite S. reflexivity.
  - intros c0. destruct (exec1 x c0); cbn [and_then]; [apply IH|discriminate].
Qed.
