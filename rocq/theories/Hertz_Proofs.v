From Coq Require Import Reals List ZArith Bool Lra Lia.
From Verif Require Import Vec_Model Vec_Proofs Rigid_Model Law_Model Law_Spec Law_Proofs Law_Proofs2 Coh_Model Coh_Spec Coh_Proofs Hertz_Model Hertz_Spec.
Import ListNotations.
Local Open Scope R_scope.

(** ** Stiffness *)
Lemma eff_pos g : two_spheres g -> eff_radius1 g = radius1 g.
Proof. intros (A & _). unfold eff_radius1. apply ltR_true in A. rewrite A. reflexivity. Qed.
Lemma denom_pos m1 m2 : elastic m1 -> elastic m2 -> 0 < (1 - poisson m1 * poisson m1) * young m2 + (1 - poisson m2 * poisson m2) * young m1.
Proof.
  intros (A & B) (C & D). assert (0 < 1 - poisson m1 * poisson m1) by nra. assert (0 < 1 - poisson m2 * poisson m2) by nra.
  pose proof (Rmult_lt_0_compat _ _ H C). pose proof (Rmult_lt_0_compat _ _ H0 A). lra.
Qed.
Lemma req_pos a b : 0 < a -> 0 < b -> 0 < radius_eq a b.
Proof. intros A B. unfold radius_eq, Rdiv. apply Rmult_lt_0_compat; [apply Rmult_lt_0_compat; assumption | apply Rinv_0_lt_compat; lra]. Qed.
Lemma req_series a b : 0 < a -> 0 < b -> / radius_eq a b = / a + / b.
Proof. intros A B. unfold radius_eq. field. repeat split; lra. Qed.
Lemma eeq_pos m1 m2 : elastic m1 -> elastic m2 -> 0 < young_eq m1 m2.
Proof.
  intros A B. pose proof (denom_pos _ _ A B) as D. destruct A as (A & _), B as (B & _). unfold young_eq, Rdiv.
  apply Rmult_lt_0_compat; [apply Rmult_lt_0_compat; assumption | apply Rinv_0_lt_compat; assumption].
Qed.
Lemma eeq_series m1 m2 : elastic m1 -> elastic m2 -> / young_eq m1 m2 = (1 - poisson m1 ^ 2) / young m1 + (1 - poisson m2 ^ 2) / young m2.
Proof. intros A B. pose proof (denom_pos _ _ A B) as D. destruct A as (A & _), B as (B & _). unfold young_eq. field. repeat split; lra. Qed.
Lemma denominators_fine m1 m2 a b : elastic m1 -> elastic m2 -> 0 < a -> 0 < b -> denominators_ok m1 m2 a b = true.
Proof.
  intros M1 M2 A B. unfold denominators_ok. pose proof (denom_pos _ _ M1 M2) as D. pose proof (req_pos _ _ A B) as Q. unfold radius_eq in Q.
  destruct M1 as (E1 & P1), M2 as (E2 & P2).
  repeat (apply andb_true_intro; split); try (apply negb_true_iff, is0_false; lra). apply leR_true. lra.
Qed.
Lemma hip2_ok c m1 m2 g : elastic m1 -> elastic m2 -> two_spheres g -> undamped_conf c ->
  hip2 c m1 m2 g None = Built (elastic_params c m1 m2 g (Rmin (frictionAngle m1) (frictionAngle m2)) 0 0 0).
Proof.
  intros M1 M2 G (N1 & N2 & N3 & N4 & N5). unfold hip2. rewrite (eff_pos g G). rewrite denominators_fine by (try assumption; apply G). cbn [negb].
  unfold friction_angle. rewrite N5, N1, N2, N3, N4. reflexivity.
Qed.
(** the elastic part of what is built does not depend on damping *)
Lemma hip2_left c m1 m2 g p : left_behind (hip2 c m1 m2 g None) = Some p -> exists phi bn bs al, friction_angle c m1 m2 = Some phi /\ p = elastic_params c m1 m2 g phi bn bs al.
Proof.
  unfold hip2. destruct (negb (denominators_ok _ _ _ _)); [discriminate|]. destruct (friction_angle c m1 m2) as [phi|] eqn:F; [|discriminate].
  cbv zeta. intros H. exists phi.
  destruct (given (c_en c) && given (c_betan c)); [injection H as <-; eexists _, _, _; split; reflexivity|].
  destruct (given (c_es c) && given (c_betas c)); [injection H as <-; eexists _, _, _; split; reflexivity|].
  destruct (given (c_en c) || given (c_es c)).
  - destruct (c_en c) as [mm|]; [|injection H as <-; eexists _, _, _; split; reflexivity].
    destruct (mm_call mm _ _ None None) as [e|]; [|injection H as <-; eexists _, _, _; split; reflexivity].
    destruct (leR e 0 || _); [discriminate|]. injection H as <-; eexists _, _, _; split; reflexivity.
  - destruct (match c_betan c with None => _ | Some _ => _ end); [|injection H as <-; eexists _, _, _; split; reflexivity].
    destruct (match c_betas c with None => _ | Some _ => _ end); injection H as <-; eexists _, _, _; split; reflexivity.
Qed.
Lemma hertz_built c m1 m2 g p : elastic m1 -> elastic m2 -> two_spheres g -> left_behind (hip2 c m1 m2 g None) = Some p ->
  hertz_coefficient m1 m2 (radius1 g) (radius2 g) (kno p) /\ (m1 = m2 -> mindlin_coefficient m1 (radius1 g) (radius2 g) (kso p)) /\ 0 < kno p /\ 0 < kso p /\
  (forall Req, / Req = / radius1 g + / radius2 g -> hadh p = 4 * PI * gamma c * Req) /\ maxBendPl p = eta c * ((radius1 g + radius2 g) / 2) /\ hkr p = krot c /\ hktw p = ktwist c.
Proof.
  intros M1 M2 G H. destruct (hip2_left _ _ _ _ _ H) as (phi & bn & bs & al & _ & ->). unfold elastic_params. rewrite (eff_pos g G). cbv zeta. cbn [kno kso hadh maxBendPl hkr hktw].
  destruct G as (A & B). pose proof (req_pos _ _ A B) as Q. pose proof (eeq_pos _ _ M1 M2) as E. pose proof (req_series _ _ A B) as S1. pose proof (sqrt_lt_R0 _ Q) as SQ.
  assert (KS : shear_coef m1 m2 (radius_eq (radius1 g) (radius2 g)) = 4 * sqrt (radius_eq (radius1 g) (radius2 g)) * ((young m1 / (2 * (1 + poisson m1)) + young m2 / (2 * (1 + poisson m2))) / 2) / (2 - (poisson m1 + poisson m2) / 2)).
  { unfold shear_coef. replace (sqrt (4 * radius_eq (radius1 g) (radius2 g))) with (2 * sqrt (radius_eq (radius1 g) (radius2 g))).
    - unfold Rdiv. ring.
    - rewrite sqrt_mult by lra. replace (sqrt 4) with 2; [reflexivity|]. replace 4 with (2 * 2) by ring. rewrite sqrt_square by lra. reflexivity. }
  split; [|split; [|split; [|split; [|split; [|split; [|split]]]]]]; try reflexivity.
  - exists (young_eq m1 m2), (radius_eq (radius1 g) (radius2 g)). split; [assumption|]. split; [assumption|]. split; [apply eeq_series; assumption|]. split; [assumption|reflexivity].
  - intros <-. destruct M1 as (Y & P). exists (young m1 / (2 * (1 + poisson m1))), (young m1 / (2 * (1 + poisson m1)) / (2 * (2 - poisson m1))), (radius_eq (radius1 g) (radius2 g)).
    split; [reflexivity|]. split; [field; repeat split; lra|]. split; [assumption|]. rewrite KS. field. lra.
  - apply Rmult_lt_0_compat; [lra|assumption].
  - rewrite KS. destruct M1 as (Y1 & P1), M2 as (Y2 & P2).
    assert (0 < young m1 / (2 * (1 + poisson m1))) by (unfold Rdiv; apply Rmult_lt_0_compat; [assumption|apply Rinv_0_lt_compat; lra]).
    assert (0 < young m2 / (2 * (1 + poisson m2))) by (unfold Rdiv; apply Rmult_lt_0_compat; [assumption|apply Rinv_0_lt_compat; lra]).
    apply Rmult_lt_0_compat; [|apply Rinv_0_lt_compat; lra]. apply Rmult_lt_0_compat; lra.
  - intros Req E1. rewrite <- S1 in E1. assert (Req = radius_eq (radius1 g) (radius2 g)) as ->; [|ring]. rewrite <- (Rinv_inv Req), E1, Rinv_inv. reflexivity.
Qed.
Lemma hip2_defined c m1 m2 g : elastic m1 -> elastic m2 -> two_spheres g -> undamped_conf c -> exists p, hip2 c m1 m2 g None = Built p /\ htan p = tan (Rmin (frictionAngle m1) (frictionAngle m2)) /\ no_damping p.
Proof. intros. eexists. split; [apply hip2_ok; assumption|]. split; [reflexivity|]. split; [|split]; reflexivity. Qed.
Lemma hip2_once c m1 m2 g p : hip2 c m1 m2 g (Some p) = Built p. Proof. reflexivity. Qed.

Lemma young_eq_comm m1 m2 : young_eq m1 m2 = young_eq m2 m1. Proof. unfold young_eq. rewrite (Rplus_comm (_ * young m2)). rewrite (Rmult_comm (young m1)). reflexivity. Qed.
Lemma radius_eq_comm a b : radius_eq a b = radius_eq b a. Proof. unfold radius_eq. rewrite (Rplus_comm a), (Rmult_comm a). reflexivity. Qed.
Lemma shear_coef_comm m1 m2 r : shear_coef m1 m2 r = shear_coef m2 m1 r.
Proof. unfold shear_coef. rewrite (Rplus_comm (young m1 / _)), (Rplus_comm (poisson m1) (poisson m2)). reflexivity. Qed.
Lemma andb_swap4 a b c d e f : a && b && c && d && e && f = b && a && c && d && e && f. Proof. destruct a, b; reflexivity. Qed.
Lemma denominators_comm m1 m2 a b : denominators_ok m1 m2 a b = denominators_ok m2 m1 b a.
Proof.
  unfold denominators_ok. rewrite andb_swap4. rewrite (Rplus_comm (_ * young m2)), (Rplus_comm a b), (Rmult_comm a b), (Rplus_comm (poisson m1) (poisson m2)). reflexivity.
Qed.
Lemma friction_angle_comm c m1 m2 : friction_angle c m1 m2 = friction_angle c m2 m1.
Proof. unfold friction_angle. destruct (c_frict c) as [mm|]; [apply mm_symmetric|]. rewrite Rmin_comm. reflexivity. Qed.
Lemma hip2_symmetric c m1 m2 g old : two_spheres g -> hip2 c m2 m1 (other_side g) old = hip2 c m1 m2 g old.
Proof.
  intros G. destruct old as [p|]; [reflexivity|]. assert (G' : two_spheres (other_side g)) by (destruct G; split; assumption).
  assert (EP : forall phi x y z, elastic_params c m2 m1 (other_side g) phi x y z = elastic_params c m1 m2 g phi x y z).
  { intros phi x y z. unfold elastic_params. rewrite (eff_pos _ G), (eff_pos _ G'). unfold other_side, mirror_geom. cbn [radius1 radius2]. cbv zeta.
    rewrite (radius_eq_comm (radius2 g)), (young_eq_comm m2), (shear_coef_comm m2), (Rplus_comm (radius2 g)). reflexivity. }
  unfold hip2. rewrite (eff_pos _ G), (eff_pos _ G'). change (radius1 (other_side g)) with (radius2 g). change (radius2 (other_side g)) with (radius1 g).
  rewrite (denominators_comm m2 m1), (friction_angle_comm c m2 m1), (young_eq_comm m2), (radius_eq_comm (radius2 g)).
  destruct (negb _); [reflexivity|]. destruct (friction_angle c m1 m2) as [phi|]; [|reflexivity]. cbv zeta. rewrite !EP.
  destruct (given (c_en c) && _); [reflexivity|]. destruct (given (c_es c) && _); [reflexivity|]. destruct (given (c_en c) || _).
  - destruct (c_en c) as [mm|]; [|reflexivity]. rewrite (mm_symmetric mm (m_id m2)). destruct (mm_call mm _ _ None None); [|reflexivity]. rewrite EP. reflexivity.
  - destruct (c_betan c) as [mm|].
    + rewrite (mm_symmetric mm (m_id m2)). destruct (mm_call mm _ _ None None); [|reflexivity].
      destruct (c_betas c) as [mm'|]; [rewrite (mm_symmetric mm' (m_id m2)); destruct (mm_call mm' _ _ None None)|]; rewrite EP; reflexivity.
    + destruct (c_betas c) as [mm'|]; [rewrite (mm_symmetric mm' (m_id m2)); destruct (mm_call mm' _ _ None None)|]; rewrite EP; reflexivity.
Qed.
Lemma ltR_01 : ltR 0 1 = true. Proof. apply ltR_true. lra. Qed.
Lemma steel_ok : elastic steel. Proof. unfold elastic, steel. cbn [young poisson]. lra. Qed.
(** a flat side given by radius 0 is replaced by the other radius only if it comes first *)
Lemma flat_refuted : exists p q, hip2 plain_conf steel steel (half_sphere 0 1) None = Built p /\ hip2 plain_conf steel steel (other_side (half_sphere 0 1)) None = Built q /\ 0 < kno p /\ kno q = 0 /\ kso q = 0.
Proof.
  assert (F0 : ltR 0 0 = false) by (apply ltR_false; lra).
  assert (O : forall a b, 0 <= a * b / (a + b) -> a + b <> 0 -> denominators_ok steel steel a b = true).
  { intros a b H N. unfold denominators_ok, steel. cbn [young poisson]. repeat (apply andb_true_intro; split); try (apply negb_true_iff, is0_false; lra). apply leR_true. assumption. }
  eexists _, _. split; [|split; [|split; [|split]]].
  - unfold hip2, half_sphere, eff_radius1. cbn [radius1 radius2]. rewrite F0. rewrite O; [reflexivity|lra|lra].
  - unfold hip2, other_side, mirror_geom, half_sphere, eff_radius1. cbn [radius1 radius2]. rewrite ltR_01. rewrite O; [reflexivity|unfold Rdiv; rewrite !Rmult_0_r, Rmult_0_l; lra|lra].
  - unfold elastic_params, half_sphere, eff_radius1. cbn [radius1 radius2 kno]. cbv zeta. rewrite F0. apply Rmult_lt_0_compat.
    + apply Rmult_lt_0_compat; [lra|]. apply eeq_pos; apply steel_ok.
    + apply sqrt_lt_R0, req_pos; lra.
  - unfold elastic_params, other_side, mirror_geom, half_sphere, eff_radius1. cbn [radius1 radius2 kno]. cbv zeta. rewrite ltR_01. replace (radius_eq 1 0) with 0; [rewrite sqrt_0; ring|]. unfold radius_eq. field.
  - unfold elastic_params, other_side, mirror_geom, half_sphere, eff_radius1. cbn [radius1 radius2 kso]. cbv zeta. rewrite ltR_01. replace (radius_eq 1 0) with 0; [|unfold radius_eq; field].
    unfold shear_coef. rewrite Rmult_0_r, sqrt_0. unfold Rdiv. ring.
Qed.

(** ** Damping *)
Lemma conflict_throws c m1 m2 g : elastic m1 -> elastic m2 -> two_spheres g -> c_frict c = None ->
  (c_en c <> None /\ c_betan c <> None) \/ (c_es c <> None /\ c_betas c <> None) -> exists p, hip2 c m1 m2 g None = Threw p /\ no_damping p.
Proof.
  intros M1 M2 G N H. unfold hip2. rewrite (eff_pos g G). rewrite denominators_fine by (try assumption; apply G). cbn [negb]. unfold friction_angle. rewrite N. cbv zeta.
  exists (elastic_params c m1 m2 g (Rmin (frictionAngle m1) (frictionAngle m2)) 0 0 0).
  split; [|split; [|split]; reflexivity].
  destruct H as [(A & B) | (A & B)].
  - destruct (c_en c); [|contradiction]. destruct (c_betan c); [|contradiction]. reflexivity.
  - destruct (c_es c); [|contradiction]. destruct (c_betas c); [|contradiction]. cbn [given andb]. destruct (given (c_en c) && given (c_betan c)); reflexivity.
Qed.
(** the next step goes on with the contact, without damping *)
Lemma error_forgotten c m1 m2 g : elastic m1 -> elastic m2 -> two_spheres g -> c_frict c = None -> c_en c <> None -> c_betan c <> None ->
  exists p, hip2 c m1 m2 g None = Threw p /\ hip2 c m1 m2 g (left_behind (hip2 c m1 m2 g None)) = Built p /\ no_damping p.
Proof.
  intros M1 M2 G N A B. destruct (conflict_throws c m1 m2 g M1 M2 G N (or_introl (conj A B))) as (p & H & D). exists p. split; [assumption|]. split; [|assumption]. rewrite H. reflexivity.
Qed.
Lemma es_crash c m1 m2 g : elastic m1 -> elastic m2 -> two_spheres g -> c_frict c = None -> c_en c = None -> c_es c <> None -> c_betas c = None -> exists p, hip2 c m1 m2 g None = Crash p.
Proof.
  intros M1 M2 G N A B C. unfold hip2. rewrite (eff_pos g G). rewrite denominators_fine by (try assumption; apply G). cbn [negb]. unfold friction_angle. rewrite N, A, C. cbv zeta.
  cbn [given andb]. rewrite andb_false_r. destruct (c_es c); [|contradiction]. eexists. reflexivity.
Qed.
Lemma es_unused c m1 m2 g es es' : c_en c <> None -> c_betas c = None -> hip2 (with_es c es) m1 m2 g None = hip2 (with_es c es') m1 m2 g None.
Proof.
  intros A B. unfold hip2, with_es. cbn [c_en c_es c_betan c_betas]. rewrite B.
  unfold friction_angle. cbn [c_frict]. destruct (negb _); [reflexivity|]. destruct (match c_frict c with None => _ | Some _ => _ end); [|reflexivity].
  cbv zeta. destruct (c_en c) as [mm|]; [|contradiction]. cbn [given andb orb]. rewrite !andb_false_r. unfold elastic_params. cbn [gamma eta krot ktwist]. reflexivity.
Qed.
Lemma hip2_en c m1 m2 g e : elastic m1 -> elastic m2 -> two_spheres g -> c_frict c = None -> c_betan c = None -> c_betas c = None -> 0 < e ->
  exists p, hip2 (with_en c e) m1 m2 g None = Built p /\ halpha p = tsuji e (young_eq m1 m2) (radius_eq (radius1 g) (radius2 g)) /\ hbetan p = 0 /\ hbetas p = 0.
Proof.
  intros M1 M2 G N A B E. unfold hip2. rewrite (eff_pos g G). rewrite denominators_fine by (try assumption; apply G). cbn [negb]. unfold friction_angle, with_en. cbn [c_frict c_en c_es c_betan c_betas]. rewrite N, A, B.
  cbv zeta. cbn [given andb orb]. rewrite andb_false_r. change (mm_call (mkMM Aval e []) (m_id m1) (m_id m2) None None) with (Some e). cbv iota.
  assert (leR e 0 = false) as -> by (apply leR_false; assumption).
  assert (ltR (2 * young_eq m1 m2 * sqrt (radius_eq (radius1 g) (radius2 g))) 0 = false) as ->.
  { apply ltR_false. pose proof (eeq_pos _ _ M1 M2). pose proof (sqrt_pos (radius_eq (radius1 g) (radius2 g))). apply Rmult_le_pos; lra. }
  cbn [orb]. eexists. split; [reflexivity|]. split; [|split]; reflexivity.
Qed.
Lemma tsuji_scale m1 m2 g : elastic m1 -> elastic m2 -> two_spheres g -> 0 < sqrt (2 * young_eq m1 m2 * sqrt (radius_eq (radius1 g) (radius2 g))).
Proof.
  intros M1 M2 (A & B). apply sqrt_lt_R0. pose proof (eeq_pos _ _ M1 M2). pose proof (sqrt_lt_R0 _ (req_pos _ _ A B)). apply Rmult_lt_0_compat; lra.
Qed.
(** x / sqrt(x^2+pi^2) increases with x *)
Lemma quotient_increasing x y : x < y -> x / sqrt (x * x + PI * PI) < y / sqrt (y * y + PI * PI).
Proof.
  intros H. pose proof PI_RGT_0 as P. pose proof (Rle_0_sqr x) as X. pose proof (Rle_0_sqr y) as Y. unfold Rsqr in X, Y. pose proof (Rmult_lt_0_compat _ _ P P) as PP.
  assert (SX : 0 < sqrt (x * x + PI * PI)) by (apply sqrt_lt_R0; lra). assert (SY : 0 < sqrt (y * y + PI * PI)) by (apply sqrt_lt_R0; lra).
  pose proof (sqrt_sqrt (x * x + PI * PI) ltac:(lra)) as QX. pose proof (sqrt_sqrt (y * y + PI * PI) ltac:(lra)) as QY.
  set (a := sqrt (x * x + PI * PI)) in *. set (b := sqrt (y * y + PI * PI)) in *. clearbody a b.
  assert (x * b < y * a).
  { destruct (Rle_or_lt 0 x) as [X0|X0].
    - apply Rsqr_incrst_0; [|apply Rmult_le_pos; lra|apply Rmult_le_pos; lra]. unfold Rsqr. replace (x * b * (x * b)) with (x * x * (b * b)) by ring. replace (y * a * (y * a)) with (y * y * (a * a)) by ring. rewrite QX, QY.
      assert (x * x < y * y) by (apply Rmult_le_0_lt_compat; lra). pose proof (Rmult_lt_compat_r _ _ _ PP H0). lra.
    - destruct (Rle_or_lt 0 y) as [Y0|Y0].
      + pose proof (Rmult_le_pos _ _ Y0 (Rlt_le _ _ SX)). pose proof (Rmult_lt_0_compat (- x) b ltac:(lra) SY). lra.
      + assert (Z : - y * a < - x * b); [|lra]. apply Rsqr_incrst_0; [|apply Rmult_le_pos; lra|apply Rmult_le_pos; lra]. unfold Rsqr. replace (- x * b * (- x * b)) with (x * x * (b * b)) by ring. replace (- y * a * (- y * a)) with (y * y * (a * a)) by ring. rewrite QX, QY.
        assert (y * y < x * x). { replace (y * y) with (- y * - y) by ring. replace (x * x) with (- x * - x) by ring. apply Rmult_le_0_lt_compat; lra. }
        pose proof (Rmult_lt_compat_r _ _ _ PP H0). lra. }
  apply (Rmult_lt_reg_r (a * b)); [apply Rmult_lt_0_compat; assumption|]. replace (x / a * (a * b)) with (x * b) by (field; lra). replace (y / b * (a * b)) with (y * a) by (field; lra). assumption.
Qed.
Lemma tsuji_decreasing e1 e2 E Req : 0 < e1 -> e1 < e2 -> 0 < sqrt (2 * E * sqrt Req) -> tsuji e2 E Req < tsuji e1 E Req.
Proof.
  intros A B S. unfold tsuji. pose proof (quotient_increasing _ _ (ln_increasing _ _ A B)) as Q.
  assert (F : 0 < sqrt (5/6)) by (apply sqrt_lt_R0; lra).
  apply Rmult_lt_compat_r; [assumption|]. unfold Rdiv in *.
  replace (- sqrt (5 * / 6) * 2 * ln e2 * / sqrt (ln e2 * ln e2 + PI * PI)) with (- (2 * sqrt (5 * / 6)) * (ln e2 * / sqrt (ln e2 * ln e2 + PI * PI))) by ring.
  replace (- sqrt (5 * / 6) * 2 * ln e1 * / sqrt (ln e1 * ln e1 + PI * PI)) with (- (2 * sqrt (5 * / 6)) * (ln e1 * / sqrt (ln e1 * ln e1 + PI * PI))) by ring.
  pose proof (Rmult_lt_compat_l (2 * sqrt (5 * / 6)) _ _ ltac:(lra) Q). lra.
Qed.
Lemma tsuji_one E Req : tsuji 1 E Req = 0. Proof. unfold tsuji. rewrite ln_1. unfold Rdiv. ring. Qed.
Lemma restitution c m1 m2 g : elastic m1 -> elastic m2 -> two_spheres g -> c_frict c = None -> c_betan c = None -> c_betas c = None -> exists alpha : R -> R,
  (forall e, 0 < e -> exists p, hip2 (with_en c e) m1 m2 g None = Built p /\ halpha p = alpha e /\ hbetan p = 0 /\ hbetas p = 0) /\
  alpha 1 = 0 /\ (forall e1 e2, 0 < e1 < e2 -> alpha e2 < alpha e1).
Proof.
  intros M1 M2 G N A B. exists (fun e => tsuji e (young_eq m1 m2) (radius_eq (radius1 g) (radius2 g))). split; [|split].
  - intros e E. apply hip2_en; assumption.
  - apply tsuji_one.
  - intros e1 e2 (E1 & E2). apply tsuji_decreasing; try assumption. apply tsuji_scale; assumption.
Qed.
(** ratios given directly *)
Lemma ratios c m1 m2 g bn bs : elastic m1 -> elastic m2 -> two_spheres g -> c_frict c = None -> c_en c = None -> c_es c = None -> c_betan c = Some (constant bn) -> (c_betas c = None /\ bs = bn \/ c_betas c = Some (constant bs)) ->
  exists p, hip2 c m1 m2 g None = Built p /\ hbetan p = bn /\ hbetas p = bs /\ halpha p = 0.
Proof.
  intros M1 M2 G N A B C D. unfold hip2. rewrite (eff_pos g G). rewrite denominators_fine by (try assumption; apply G). cbn [negb]. unfold friction_angle. rewrite N, A, B, C. cbv zeta.
  destruct D as [(D & ->) | D]; rewrite D; eexists; (split; [reflexivity|]); (split; [|split]; reflexivity).
Qed.
