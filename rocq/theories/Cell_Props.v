(** Properties of the periodic cell. *)
From Coq Require Import Reals List ZArith Lia Lra Psatz Bool Floats.SpecFloat.
From Verif Require Import Vec_Model Vec_Proofs Rigid_Model Attr_Model Newton_Model Cell_Model Cell_Spec Cell_Proofs Cell_Flow Cell_FlowSpec Cell_FlowProofs Cell_Example.
Import ListNotations.
Local Open Scope R_scope.

(** C41: a coordinate is wrapped into [0,size), by a whole number of periods; all its
    images are wrapped to the same number *)
Theorem C41_wrap_partial : forall x sz, 0 < sz ->
  0 <= wrapNum x sz < sz /\ (exists k, x = wrapNum x sz + IZR k * sz) /\
  (forall k, wrapNum (x + IZR k * sz) sz = wrapNum x sz) /\ (0 <= x < sz -> wrapNum x sz = x).
Proof. intros x sz H. split; [exact (wrapNum_range x sz H)|]. split; [exists (Int_part (x / sz)); exact (wrapNum_period x sz H)|]. split; [intros k; exact (wrapNum_shift x sz k H) | exact (wrapNum_id x sz)]. Qed.
Print Assumptions C41_wrap_partial.
Example C41_wrap_ex : wrapNum (-1/2) 2 = 3/2.
Proof. replace (-1/2) with (3/2 + IZR (-1) * 2) by lra. destruct (C41_wrap_partial (3/2) 2 ltac:(lra)) as (_ & _ & S & I). rewrite S. apply I. lra. Qed.
(** C41: and the number of periods reported is the one by which it was wrapped, unless it
    does not fit an int *)
Theorem C41_period_partial : forall x sz, 0 < sz -> (exists r k, wrapNumPeriod x sz = Some (r, k) /\ r = wrapNum x sz /\ x = r + IZR k * sz) \/
  (wrapNumPeriod x sz = None /\ (x < IZR (- 2 ^ 31) * sz \/ IZR (2 ^ 31) * sz <= x)).
Proof.
  intros x sz H. destruct (wrapNumPeriod x sz) as [[r k]|] eqn:E.
  - left. exists r, k. split; [reflexivity|]. apply wrapNumPeriod_some in E. destruct E as [-> ->]. split; [reflexivity | exact (wrapNum_period x sz H)].
  - right. split; [reflexivity|]. apply wrapNumPeriod_none in E. pose proof (int_part_bounds (x / sz)) as B.
    assert (x = x / sz * sz) as X by (field; lra). destruct E as [E | E].
    + left. rewrite X. apply Rmult_lt_compat_r; [exact H|]. apply Z.le_succ_l, IZR_le in E. rewrite succ_IZR in E. lra.
    + right. rewrite X. apply Rmult_le_compat_r; [lra|]. apply IZR_le in E. lra.
Qed.
Print Assumptions C41_period_partial.
Example C41_period_ex : wrapNumPeriod 5 2 = Some (1, 2%Z).
Proof. unfold wrapNumPeriod. rewrite (int_part_spec (5 / 2) 2); [|lra]. change (to_int 2) with (Some 2%Z). cbv iota. repeat f_equal. lra. Qed.
(** C41 refuted: with an int for the number of periods, coordinates far away are undefined *)
Theorem C41_far_refuted : exists x sz, 0 < sz /\ wrapNumPeriod x sz = None.
Proof.
  exists (IZR (2 ^ 31)), 1. split; [lra|]. apply wrapNumPeriod_none. right. rewrite (int_part_spec _ (2 ^ 31)); [lia|].
  unfold Rdiv. rewrite Rinv_1, Rmult_1_r. lra.
Qed.
Print Assumptions C41_far_refuted.
(** C41 refuted: in double precision a coordinate just below zero is wrapped to the size
    itself, which is not inside the cell and which is wrapped to zero the next time *)
Theorem C41_double_refuted : exists x sz, valid_binary prec emax x = true /\ valid_binary prec emax sz = true /\ SFltb x (S754_zero false) = true /\ SFltb (S754_zero false) sz = true /\
  SFltb (wrapNum_double x sz) sz = false /\ wrapNum_double (wrapNum_double x sz) sz <> wrapNum_double x sz.
Proof. exists tiny, one. vm_compute. repeat split. discriminate. Qed.
Print Assumptions C41_double_refuted.

(** C77: the deformation accumulates: as long as the shape is not assigned, shape and
    transformation describe the same deformation of one reference shape *)
Theorem C77_deformation : forall os c c', reachable c -> det (trsf c) <> 0 -> Forall deforming os -> exec os c = Updated c' ->
  det (trsf c') <> 0 /\ getHSize0 c' = getHSize0 c /\ hSize c' = mmul (trsf c') (getHSize0 c) /\ getVolume c' = det (trsf c') * det (getHSize0 c).
Proof. exact deform_all. Qed.
Print Assumptions C77_deformation.
Example C77_deformation_ex : exists c, reachable c /\ det (trsf c) <> 0 /\ Forall deforming [Begin 1; AssignVelGrad stretch; Newton; Begin 1].
Proof. destruct (reach_shape sheared sheared_det) as (c & R & _ & T & _). exists c. split; [exact R|]. split; [rewrite T; vunfold; lra|]. repeat constructor. Qed.
(** C77: an increment of the deformation is that of the velocity gradient *)
Theorem C77_increment : forall dt c c', integrateAndUpdate dt c = Updated c' ->
  hSize c' = madd (hSize c) (mscale dt (mmul (velGrad c) (hSize c))) /\ trsf c' = madd (trsf c) (mscale dt (mmul (velGrad c) (trsf c))) /\
  prevHSize c' = hSize c /\ velGrad c' = velGrad c /\ refHSize c' = refHSize c.
Proof.
  intros dt c c' E. apply integrate_h in E. destruct E as (-> & -> & V & _ & _ & _ & P & Q). split; [vring|]. split; [vring|]. auto.
Qed.
Print Assumptions C77_increment.
Example C77_increment_ex : exists c c', reachable c /\ integrateAndUpdate 0 c = Updated c' /\ hSize c = sheared.
Proof. destruct (reach_shape sheared sheared_det) as (c & R & H & _). destruct (integrate_zero c) as (c' & E & _); [rewrite H; exact sheared_det|]. eauto. Qed.
(** C77: an assigned velocity gradient is used from the next integration of motion on; the
    last of several assignments counts *)
Theorem C77_velGrad : forall os c c1, Forall waiting os -> velGradChanged c = false -> nextVelGrad c = mzero -> exec os c = Updated c1 ->
  velGrad c1 = velGrad c /\
  velGrad (applyVelGrad c1) = match last_assigned os None with Some m => m | None => velGrad c end /\
  velGradChanged (applyVelGrad c1) = false /\ nextVelGrad (applyVelGrad c1) = mzero /\ hSize (applyVelGrad c1) = hSize c1 /\ trsf (applyVelGrad c1) = trsf c1.
Proof.
  intros os c c1 W C N E. destruct (waiting_run os c c1 None W (conj C N) E) as [V P]. destruct (apply_pending c1 _ P) as [A [B D]].
  split; [exact V|]. split; [rewrite A, V; reflexivity|]. split; [exact B|]. split; [exact D|]. unfold applyVelGrad. destruct (_ || _); split; reflexivity.
Qed.
Print Assumptions C77_velGrad.
Example C77_velGrad_ex : Forall waiting [AssignVelGrad stretch; Begin 1; AssignVelGrad mzero] /\ last_assigned [AssignVelGrad stretch; Begin 1; AssignVelGrad mzero] None = Some mzero.
Proof. split; [repeat constructor | reflexivity]. Qed.

(** C78: wrapping a point of a sheared cell *)
Theorem C78_wrap : forall c p, reachable c ->
  inside c (wrapShearedPt c p) /\ image c p (wrapShearedPt c p) /\
  (forall q, image c q p -> wrapShearedPt c q = wrapShearedPt c p) /\ (inside c p -> wrapShearedPt c p = p).
Proof.
  intros c p R. apply reachable_caches in R. split; [exact (wrap_inside c p R)|]. split; [exists (periods c p); exact (wrap_image c p R)|].
  split; [intros q [k ->]; exact (wrap_shift c p k R) | exact (wrap_fixed c p R)].
Qed.
Print Assumptions C78_wrap.
(** C78: two points in the cell that are images of each other are the same point *)
Theorem C78_unique : forall c p q, reachable c -> inside c p -> inside c q -> image c p q -> p = q.
Proof. intros c p q R P Q I. destruct (C78_wrap c q R) as (_ & _ & S & F). destruct (C78_wrap c p R) as (_ & _ & _ & F'). rewrite <- (F' P), <- (F Q). apply S, I. Qed.
Print Assumptions C78_unique.
(** C78: the cell coordinates reported with the point *)
Theorem C78_period : forall c p q k, reachable c -> wrapShearedPtPeriod c p = Some (q, k) -> q = wrapShearedPt c p /\ image_by c k p q.
Proof. intros c p q k R E. apply reachable_caches in R. apply wrap_period in E; [|exact R]. destruct E as [-> ->]. split; [reflexivity | exact (wrap_image c p R)]. Qed.
Print Assumptions C78_period.
Example C78_wrap_ex : exists c, reachable c /\ hSize c = sheared /\ inside c (V 1 0 0) /\ image c (V 4 2 3) (V 1 0 0).
Proof.
  destruct (reach_shape sheared sheared_det) as (c & R & H & _). exists c. split; [exact R|]. split; [exact H|]. split.
  - exists (V (1/2) 0 0). rewrite H. unfold unit3, sheared. cbn [vx vy vz]. split; [lra|]. vgoal. f_equal; lra.
  - exists (1%Z, 1%Z, 1%Z). unfold image_by. rewrite H. unfold sheared, cast. vgoal. f_equal; lra.
Qed.
(** C78: removing the shear and applying it again are inverse to each other *)
Theorem C78_shear : forall c p, reachable c -> shearPt c (unshearPt c p) = p /\ unshearPt c (shearPt c p) = p.
Proof. intros c p R. apply reachable_caches in R. split; [exact (shear_unshear c p R) | exact (unshear_shear c p R)]. Qed.
Print Assumptions C78_shear.
(** C78: along the base vectors, the unsheared cell is a box of the reported size *)
Theorem C78_box : forall c s, reachable c -> unshearPt c (mulv (hSize c) s) = V (vx s * vx (size c)) (vy s * vy (size c)) (vz s * vz (size c)) /\
  size c = V (norm (col0 (hSize c))) (norm (col1 (hSize c))) (norm (col2 (hSize c))).
Proof. intros c s R. apply reachable_caches in R. split; [exact (unshear_lattice c s R)|]. destruct R as (_ & S & _). exact S. Qed.
Print Assumptions C78_box.

(** C79: images move with the velocity that contacts across the boundary are given *)
Theorem C79_shift_velocity : forall dt c c' k, integrateAndUpdate dt c = Updated c' ->
  intrShiftPos c' k = vadd (intrShiftPos c k) (smul dt (intrShiftVel c' k)) /\ intrShiftVel c' k = mulv (velGrad c) (intrShiftPos c k).
Proof.
  intros dt c c' k E. split; [exact (shift_moves dt c c' k E)|]. apply integrate_h in E. destruct E as (_ & _ & _ & _ & _ & G & _). unfold intrShiftVel, intrShiftPos. rewrite G. apply mulv_mmul.
Qed.
Print Assumptions C79_shift_velocity.
Example C79_shift_velocity_ex : exists c c', reachable c /\ integrateAndUpdate 0 c = Updated c' /\ intrShiftPos c (1, 0, 0)%Z = V 2 0 0.
Proof.
  destruct (reach_shape sheared sheared_det) as (c & R & H & _). destruct (integrate_zero c) as (c' & E & _); [rewrite H; exact sheared_det|].
  exists c, c'. split; [exact R|]. split; [exact E|]. unfold intrShiftPos. rewrite H. unfold sheared, cast. vgoal. f_equal; lra.
Qed.

(** C80: a body on which no force has an effect moves with the cell: when the cell is
    updated at the beginning of a step, the body has the reduced coordinates it began with,
    whatever the history of velocity gradients, if dt is constant *)
Theorem C80_homogeneous_partial : forall cf i d ss w w' c s, plain cf -> Forall (fun x => sdt x = d) ss ->
  blockedDOFs (st (fbody w)) = DOF_ALL \/ Forall (fun x => sf x = vzero) ss ->
  at_rest w -> pos (rs (st (fbody w))) = mulv (hSize (fcell w)) s ->
  flow_run cf i ss w = Some w' -> integrateAndUpdate d (fcell w') = Updated c ->
  pos (rs (st (fbody w'))) = mulv (hSize c) s /\ vel (rs (st (fbody w'))) = mulv (Cell_Model.velGrad (fcell w')) (mulv (hSize (fcell w')) s).
Proof.
  intros cf i d ss w w' c s PL SD FF (G & PV & VV) P E U.
  assert (in_flow d s w) as I.
  { unfold in_flow. rewrite G, PV, VV, P. split; [reflexivity|]. split; [clear; vring|]. generalize (mulv (hSize (fcell w)) s). clear. vring. }
  pose proof (flow_many cf i d s ss w w' PL SD FF I E) as I'. split; [exact (in_flow_next d s w' c I' U)|]. destruct I' as (V & W & _). rewrite V. exact W.
Qed.
Print Assumptions C80_homogeneous_partial.
Example C80_homogeneous_ex : exists c w', reachable c /\ plain periodic_conf /\ at_rest (mkF c mzero (particle (V (1/2) (1/2) (1/2)) 0)) /\
  flow_run periodic_conf 0 [mkStep 1 (Some stretch) vzero vzero] (mkF c mzero (particle (V (1/2) (1/2) (1/2)) 0)) = Some w' /\ Cell_Model.velGrad (fcell w') = stretch.
Proof.
  destruct (reach_shape mid) as (c & R & H & _ & G); [vunfold; lra|]. destruct (stretch_step c 1 0 H G) as (c1 & E & H1 & G1).
  eexists c, _. split; [exact R|]. split; [exact periodic_plain|]. split; [split; [exact G | split; reflexivity]|]. split; [cbn [flow_run]; rewrite E; reflexivity | exact G1].
Qed.
(** C80 refuted: when dt changes, bodies and cell are not moved by the same amount *)
Theorem C80_changing_dt_refuted : exists c w w' c'' s, reachable c /\ plain periodic_conf /\ w = mkF c mzero (particle s 0) /\ at_rest w /\
  flow_run periodic_conf 0 [mkStep 1 (Some stretch) vzero vzero] w = Some w' /\ integrateAndUpdate 2 (fcell w') = Updated c'' /\
  pos (rs (st (fbody w))) = mulv (hSize c) s /\ pos (rs (st (fbody w'))) <> mulv (hSize c'') s.
Proof. destruct changed_dt as (c & w & w' & c'' & R & W & A & E & U & P & Q). exists c, w, w', c'', (V (1/2) (1/2) (1/2)). auto 10 using periodic_plain. Qed.
Print Assumptions C80_changing_dt_refuted.

(** C81: the box of a sphere contains the sphere, if one of the base vectors is
    perpendicular to the two others *)
Theorem C81_sphere_box_partial : forall c p r enlarge, reachable c -> one_perpendicular (hSize c) -> 0 <= r -> enlarge <= 0 \/ 1 <= enlarge ->
  covers c (sphere_aabb enlarge r true c p) p r.
Proof. intros c p r e R. apply reachable_caches in R. exact (sphere_covers e r c p R). Qed.
Print Assumptions C81_sphere_box_partial.
Example C81_sphere_box_ex : exists c, reachable c /\ one_perpendicular (hSize c) /\ hSize c = sheared.
Proof. destruct (reach_shape sheared sheared_det) as (c & R & H & _). exists c. rewrite H. auto using sheared_perp. Qed.
(** C81 refuted: with other shapes of the cell the sphere sticks out of its box *)
Theorem C81_sphere_box_refuted : exists c p r enlarge, reachable c /\ 0 <= r /\ enlarge <= 0 /\ ~ covers c (sphere_aabb enlarge r true c p) p r.
Proof.
  destruct (reach_shape slanted slanted_det) as (c & R & H & _). exists c, vzero, 1, (-1). split; [exact R|]. split; [lra|]. split; [lra|].
  exact (slanted_not_covered c (reachable_caches c R) H).
Qed.
Print Assumptions C81_sphere_box_refuted.

(** C82: after setBox, and after assigning hSize in a cell without deformation, the shape
    assigned is the reference of further deformation *)
Theorem C82_new_reference_partial : forall c c', 
  (forall s, exec1 (AssignBox s) c = Updated c' -> trsf c' = mid /\ hSize c' = diag s /\ getHSize0 c' = diag s) /\
  (forall h, trsf c = mid -> exec1 (AssignHSize h) c = Updated c' -> trsf c' = mid /\ hSize c' = h /\ getHSize0 c' = h).
Proof.
  intros c c'. split.
  - intros s. cbn [exec1]. unfold setBox, setHSize, postLoad, and_then. destruct (integrateAndUpdate 0 _) as [c1|] eqn:E1; [|discriminate]. intros E2.
    apply integrate_zero_inv in E1, E2. destruct E1 as (H1 & _). destruct E2 as (H2 & T2 & I2). cbn [with_h hSize trsf] in *.
    unfold getHSize0. rewrite T2, I2, H2, H1, minv_id, mmul_id_l. auto.
  - intros h T. cbn [exec1]. unfold setHSize, postLoad. intros E. apply integrate_zero_inv in E. destruct E as (H2 & T2 & I2). cbn [with_h hSize trsf] in *.
    unfold getHSize0. rewrite T2, I2, H2, T, minv_id, mmul_id_l. auto.
Qed.
Print Assumptions C82_new_reference_partial.
Example C82_new_reference_ex : exists c c', reachable c /\ trsf c = mid /\ exec1 (AssignHSize sheared) c = Updated c'.
Proof.
  destruct (reach_shape mid) as (c & R & H & T & _); [vunfold; lra|]. destruct (integrate_zero (with_h c (trsf c) sheared sheared)) as (c' & E & _); [exact sheared_det|].
  exists c, c'. auto.
Qed.
(** C82 refuted: assigning hSize does not reset the transformation *)
Theorem C82_new_reference_refuted : exists c c' h, reachable c /\ exec1 (AssignHSize h) c = Updated c' /\ trsf c' <> mid /\ getHSize0 c' <> h.
Proof.
  destruct deformed_then_set as (c & c' & R & E & T & G). exists c, c', (diag (V 2 2 2)). split; [exact R|]. split; [exact E|]. split; [|exact G].
  rewrite T. intros Z. apply (f_equal (fun A => vx (r0 A))) in Z. vunfold. lra.
Qed.
Print Assumptions C82_new_reference_refuted.
