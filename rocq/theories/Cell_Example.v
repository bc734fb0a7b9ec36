From Coq Require Import Reals List ZArith Lia Lra Psatz Bool Floats.SpecFloat.
From Verif Require Import Vec_Model Vec_Proofs Rigid_Model Attr_Model Newton_Model Newton_Example Cell_Model Cell_Spec Cell_Proofs Cell_Flow Cell_FlowSpec Cell_FlowProofs.
Import ListNotations.
Local Open Scope R_scope.

(** a cell sheared in the plane of the first two base vectors *)
Definition sheared : mat := M (V 2 1 0) (V 0 2 0) (V 0 0 3).
Lemma sheared_det : det sheared <> 0. Proof. unfold sheared. vunfold. lra. Qed.
Lemma sheared_perp : one_perpendicular sheared. Proof. right. right. unfold sheared. vgoal. lra. Qed.
(** base vectors of length 15, none perpendicular to two others *)
Definition slanted : mat := columns (V 15 0 0) (V (-9) 12 0) (V (-10) (-10) 5).
Lemma slanted_det : det slanted <> 0. Proof. unfold slanted. vunfold. lra. Qed.
Lemma unit15 x y z : x * x + y * y + z * z = 225 -> unit_col (V x y z) = V (x / 15) (y / 15) (z / 15).
Proof.
  intros H. unfold unit_col. assert (norm (V x y z) = 15) as ->.
  { unfold norm, norm2, dot. cbn [vx vy vz]. rewrite H. replace 225 with (15 * 15) by ring. apply sqrt_square. lra. }
  vgoal. f_equal; field.
Qed.
Lemma slanted_not_covered c : caches c -> hSize c = slanted -> ~ covers c (sphere_aabb (-1) 1 true c vzero) vzero 1.
Proof.
  intros C H K. specialize (K (V 0 0 1)). cbn [sphere_aabb] in K. cbv zeta in K. cbn [fst snd] in K. rewrite (half_formula _ _ c C) in K. cbv zeta in K.
  assert (forall q, unshearPt c q = mulv (minv (Hnorm slanted)) q) as U. { intros q. unfold unshearPt. destruct C as (_ & _ & _ & -> & _). rewrite H. reflexivity. }
  rewrite !U, H in K. unfold Hnorm in K. rewrite !minv_coords in K. cbv zeta in K.
  destruct (col_columns (V 15 0 0) (V (-9) 12 0) (V (-10) (-10) 5)) as (C0 & C1 & C2). unfold slanted in K. rewrite C0, C1, C2, !unit15 in K by lra.
  destruct K as [_ K]; [vgoal; lra|]. destruct K as (_ & _ & K). unfold factor in K. destruct (Rlt_dec 0 (-1)); [lra|].
  cbn [vadd vz] in K. unfold vzero in K. vunfold. revert K. clear. 
  intros K. apply (Rlt_not_le 3 (1/2 * (225/221 + 9/5))); [lra|].
  match type of K with ?l <= ?r => assert (l = 3) as EL by field; assert (r = 1/2 * (225/221 + 9/5)) as ER by field; lra end.
Qed.

(** assigning the shape of a deformed cell *)
Lemma deformed_then_set : exists c c', reachable c /\ exec1 (AssignHSize (diag (V 2 2 2))) c = Updated c' /\ trsf c' = diag (V 3 3 3) /\ getHSize0 c' <> diag (V 2 2 2).
Proof.
  destruct (reach_shape mid) as (c & R & H & T & G); [vunfold; lra|].
  destruct (integrate_zero (with_h c (diag (V 3 3 3)) (hSize c) (refHSize c))) as (c1 & E1 & H1 & T1 & _); [cbn [with_h hSize]; rewrite H; vunfold; lra|].
  assert (exec1 (AssignTrsf (diag (V 3 3 3))) c = Updated c1) as X1 by exact E1.
  destruct (integrate_zero (with_h c1 (trsf c1) (diag (V 2 2 2)) (diag (V 2 2 2)))) as (c2 & E2 & H2 & T2 & _); [cbn [with_h hSize]; vunfold; lra|].
  cbn [with_h hSize trsf] in *.
  exists c1, c2. split; [exact (reachable_step _ _ _ R X1)|]. split; [exact E2|]. split; [rewrite T2; exact T1|].
  apply integrate_zero_inv in E2. destruct E2 as (_ & _ & I2). unfold getHSize0. rewrite I2, H2. cbn [with_h trsf]. rewrite T1.
  intros Z. apply (f_equal (fun A => mmul (diag (V 3 3 3)) A)) in Z. rewrite mmul_assoc, minv_r, mmul_id_l in Z by (vunfold; lra).
  apply (f_equal (fun A => vx (r0 A))) in Z. vunfold. lra.
Qed.

(** a body and a cell at rest; then the cell is stretched along the first axis *)
Definition stretch : mat := diag (V 1 0 0).
Definition particle (p : vec) (bl : N) : nbody := mkB (mkS (mkR p qid vzero vzero 1 (V 1 1 1)) vzero bl true 1) false 1%N None [] 0%nat false.
Definition periodic_conf : conf := mkC 1 (1/5) vzero 0 false true true 2 mzero mzero false (fun _ => vzero) (fun _ => vzero) 0.
Lemma periodic_plain : plain periodic_conf. Proof. unfold plain, periodic_conf. cbn [isPeriodic homoDeform gravity moveRotUsed mask]. repeat split; lia. Qed.
Definition two_steps : list fstep := [mkStep 1 (Some stretch) vzero vzero; mkStep 1 None vzero vzero].
Lemma integrate_ok d c : det (madd (hSize c) (mmul (mscale d (Cell_Model.velGrad c)) (hSize c))) <> 0 -> exists c', integrateAndUpdate d c = Updated c'.
Proof. intros D. unfold integrateAndUpdate. cbv zeta. destruct (Req_EM_T _ _); [contradiction|]. eauto. Qed.
Lemma stretch_step c d bl : hSize c = mid -> Cell_Model.velGrad c = mzero -> exists c',
  flow_step periodic_conf 0 (mkStep d (Some stretch) vzero vzero) (mkF c mzero (particle (V (1/2) (1/2) (1/2)) bl)) =
    Some (mkF c' stretch (with_st (particle (V (1/2) (1/2) (1/2)) bl) (advance (conf_at periodic_conf d stretch mzero) 0 (particle (V (1/2) (1/2) (1/2)) bl) vzero vzero))) /\
  hSize c' = mid /\ Cell_Model.velGrad c' = stretch.
Proof.
  intros H G. destruct (integrate_ok d (setVelGrad stretch c)) as (c1 & E1).
  { unfold setVelGrad. cbn [with_vg hSize Cell_Model.velGrad]. rewrite H, G. vunfold. lra. }
  pose proof (integrate_h _ _ _ E1) as (H1 & _ & V1 & N1 & C1 & _). unfold setVelGrad in H1, V1, N1, C1. cbn [with_vg hSize Cell_Model.velGrad nextVelGrad velGradChanged] in *.
  exists (applyVelGrad c1). unfold flow_step. cbn [assign sdt sf sm fcell fbody fprev]. cbv zeta. rewrite E1.
  assert (Cell_Model.velGrad (applyVelGrad c1) = stretch) as A by (unfold applyVelGrad; rewrite C1; cbn [orb with_vg Cell_Model.velGrad]; exact N1).
  assert (hSize (applyVelGrad c1) = hSize c1) as B by (unfold applyVelGrad; destruct (_ || _); reflexivity).
  rewrite A. split; [reflexivity|]. split; [|reflexivity]. rewrite B, H1, H, G. clear. vring.
Qed.
(** the step that follows begins with another dt *)
Lemma changed_dt : exists c w w' c'', reachable c /\ w = mkF c mzero (particle (V (1/2) (1/2) (1/2)) 0) /\ at_rest w /\
  flow_run periodic_conf 0 [mkStep 1 (Some stretch) vzero vzero] w = Some w' /\ integrateAndUpdate 2 (fcell w') = Updated c'' /\
  pos (rs (st (fbody w))) = mulv (hSize c) (V (1/2) (1/2) (1/2)) /\ pos (rs (st (fbody w'))) <> mulv (hSize c'') (V (1/2) (1/2) (1/2)).
Proof.
  destruct (reach_shape mid) as (c & R & H & _ & G); [vunfold; lra|].
  destruct (stretch_step c 1 0 H G) as (c1 & E & H1 & G1).
  destruct (integrate_ok 2 c1) as (c2 & E2); [rewrite H1, G1; unfold stretch; vunfold; lra|].
  pose proof (integrate_h _ _ _ E2) as (H2 & _).
  set (b := particle (V (1/2) (1/2) (1/2)) 0) in *.
  eexists c, _, _, c2. split; [exact R|]. split; [reflexivity|].
  split. { split; [exact G|]. split; reflexivity. }
  split. { cbn [flow_run]. rewrite E. reflexivity. }
  split; [exact E2|]. cbn [fcell fbody]. split. { rewrite H. vunfold. unfold b, particle. cbn [st rs pos]. f_equal; lra. }
  intros Z. destruct (advance_flow periodic_conf 1 stretch mzero 0 b vzero vzero periodic_plain (or_intror eq_refl)) as [V P]. cbv zeta in V, P.
  cbn [with_st st] in Z. rewrite Z, H2, G1, H1, V in P. unfold b, particle, stretch in P. cbn [st rs vel pos] in P.
  apply (f_equal vx) in P. vunfold. lra.
Qed.

(** -2^-68, and 1 *)
Definition tiny : spec_float := S754_finite true 4503599627370496 (-120).
Definition one : spec_float := S754_finite false 4503599627370496 (-52).
