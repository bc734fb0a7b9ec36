(** Properties C198-C210: contacts of Hertz and Mindlin *)
From Coq Require Import Reals List ZArith Bool Arith Lra Lia.
From Verif Require Import Vec_Model Vec_Proofs Rigid_Model Rigid_Spec Law_Model Law_Spec Law_Proofs Law_Proofs2 Coh_Model Coh_Spec Coh_Proofs Hertz_Model Hertz_Spec Hertz_Proofs Hertz_Proofs2 Hertz_Proofs3 Hertz_Proofs4 Hertz_Proofs5 Hertz_Proofs6.
Import ListNotations.
Local Open Scope R_scope.

(** C198. Of two spheres of elastic materials the normal stiffness is that of Hertz, the tangential one that of Mindlin if the materials are the same; adhesion is 4 pi gamma R, the limit of the bending moment eta times the mean radius, whatever else is configured. *)
Theorem C198_stiffness_partial c m1 m2 g p : elastic m1 -> elastic m2 -> two_spheres g -> left_behind (hip2 c m1 m2 g None) = Some p ->
  hertz_coefficient m1 m2 (radius1 g) (radius2 g) (kno p) /\ (m1 = m2 -> mindlin_coefficient m1 (radius1 g) (radius2 g) (kso p)) /\ 0 < kno p /\ 0 < kso p /\
  (forall Req, / Req = / radius1 g + / radius2 g -> hadh p = 4 * PI * gamma c * Req) /\ maxBendPl p = eta c * ((radius1 g + radius2 g) / 2) /\ hkr p = krot c /\ hktw p = ktwist c.
Proof. exact (hertz_built c m1 m2 g p). Qed.
Print Assumptions C198_stiffness_partial.
Example C198_stiffness_case : elastic steel /\ two_spheres (half_sphere 2 1) /\ undamped_conf plain_conf /\ exists p, hip2 plain_conf steel steel (half_sphere 2 1) None = Built p.
Proof.
  assert (T : two_spheres (half_sphere 2 1)) by (unfold two_spheres, half_sphere; cbn [radius1 radius2]; lra). assert (U : undamped_conf plain_conf) by (repeat split).
  split; [exact steel_ok|]. split; [exact T|]. split; [exact U|]. destruct (hip2_defined plain_conf steel steel _ steel_ok steel_ok T U) as (p & H & _). exists p. exact H.
Qed.
(** C198. They are computed whenever no damping is configured; the friction angle is the smaller one. *)
Theorem C198_defined_partial c m1 m2 g : elastic m1 -> elastic m2 -> two_spheres g -> undamped_conf c -> exists p, hip2 c m1 m2 g None = Built p /\ htan p = tan (Rmin (frictionAngle m1) (frictionAngle m2)) /\ no_damping p.
Proof. exact (hip2_defined c m1 m2 g). Qed.
Print Assumptions C198_defined_partial.
Example C198_defined_case : elastic steel /\ two_spheres (half_sphere 2 1) /\ undamped_conf plain_conf /\ exists p, hip2 plain_conf steel steel (half_sphere 2 1) None = Built p.
Proof.
  assert (T : two_spheres (half_sphere 2 1)) by (unfold two_spheres, half_sphere; cbn [radius1 radius2]; lra). assert (U : undamped_conf plain_conf) by (repeat split).
  split; [exact steel_ok|]. split; [exact T|]. split; [exact U|]. destruct (hip2_defined plain_conf steel steel _ steel_ok steel_ok T U) as (p & H & _). exists p. exact H.
Qed.
(** C198. The order of two spheres does not matter, *)
Theorem C198_symmetric_partial c m1 m2 g old : two_spheres g -> hip2 c m2 m1 (other_side g) old = hip2 c m1 m2 g old.
Proof. exact (hip2_symmetric c m1 m2 g old). Qed.
Print Assumptions C198_symmetric_partial.
Example C198_symmetric_case : elastic steel /\ two_spheres (half_sphere 2 1) /\ undamped_conf plain_conf /\ exists p, hip2 plain_conf steel steel (half_sphere 2 1) None = Built p.
Proof.
  assert (T : two_spheres (half_sphere 2 1)) by (unfold two_spheres, half_sphere; cbn [radius1 radius2]; lra). assert (U : undamped_conf plain_conf) by (repeat split).
  split; [exact steel_ok|]. split; [exact T|]. split; [exact U|]. destruct (hip2_defined plain_conf steel steel _ steel_ok steel_ok T U) as (p & H & _). exists p. exact H.
Qed.
(** C198. and a contact keeps what was computed first. *)
Theorem C198_once c m1 m2 g p : hip2 c m1 m2 g (Some p) = Built p.
Proof. exact (hip2_once c m1 m2 g p). Qed.
Print Assumptions C198_once.

(** C198 is refuted if one body is flat, which is a radius of zero: with the flat one second, the contact has no stiffness at all, with the flat one first, it has. *)
Theorem C198_flat_refuted : exists p q, hip2 plain_conf steel steel (half_sphere 0 1) None = Built p /\ hip2 plain_conf steel steel (other_side (half_sphere 0 1)) None = Built q /\ 0 < kno p /\ kno q = 0 /\ kso q = 0.
Proof. exact (flat_refuted). Qed.
Print Assumptions C198_flat_refuted.

(** C199. To give both a coefficient of restitution and a damping ratio is an error. *)
Theorem C199_conflict_partial c m1 m2 g : elastic m1 -> elastic m2 -> two_spheres g -> c_frict c = None ->
  (c_en c <> None /\ c_betan c <> None) \/ (c_es c <> None /\ c_betas c <> None) -> exists p, hip2 c m1 m2 g None = Threw p /\ no_damping p.
Proof. exact (conflict_throws c m1 m2 g). Qed.
Print Assumptions C199_conflict_partial.
Example C199_conflict_case : elastic steel /\ two_spheres (half_sphere 2 1).
Proof. split; [exact steel_ok|]. unfold two_spheres, half_sphere. cbn [radius1 radius2]. lra. Qed.
(** C199 is refuted in that the error is raised for the first time only: when repeated it gives a contact without damping. *)
Theorem C199_forgotten_refuted c m1 m2 g : elastic m1 -> elastic m2 -> two_spheres g -> c_frict c = None -> c_en c <> None -> c_betan c <> None ->
  exists p, hip2 c m1 m2 g None = Threw p /\ hip2 c m1 m2 g (left_behind (hip2 c m1 m2 g None)) = Built p /\ no_damping p.
Proof. exact (error_forgotten c m1 m2 g). Qed.
Print Assumptions C199_forgotten_refuted.
Example C199_forgotten_case : elastic steel /\ two_spheres (half_sphere 2 1).
Proof. split; [exact steel_ok|]. unfold two_spheres, half_sphere. cbn [radius1 radius2]. lra. Qed.
(** C199. Of a coefficient of restitution en alone there is damping that decreases with en, and none for en = 1. *)
Theorem C199_restitution_partial c m1 m2 g : elastic m1 -> elastic m2 -> two_spheres g -> c_frict c = None -> c_betan c = None -> c_betas c = None -> exists alpha : R -> R,
  (forall e, 0 < e -> exists p, hip2 (with_en c e) m1 m2 g None = Built p /\ halpha p = alpha e /\ hbetan p = 0 /\ hbetas p = 0) /\
  alpha 1 = 0 /\ (forall e1 e2, 0 < e1 < e2 -> alpha e2 < alpha e1).
Proof. exact (restitution c m1 m2 g). Qed.
Print Assumptions C199_restitution_partial.
Example C199_restitution_case : elastic steel /\ two_spheres (half_sphere 2 1).
Proof. split; [exact steel_ok|]. unfold two_spheres, half_sphere. cbn [radius1 radius2]. lra. Qed.
(** C199. Damping ratios are used as given, that of the normal direction also for the tangential one if it is alone. *)
Theorem C199_ratios_partial c m1 m2 g bn bs : elastic m1 -> elastic m2 -> two_spheres g -> c_frict c = None -> c_en c = None -> c_es c = None -> c_betan c = Some (constant bn) -> (c_betas c = None /\ bs = bn \/ c_betas c = Some (constant bs)) ->
  exists p, hip2 c m1 m2 g None = Built p /\ hbetan p = bn /\ hbetas p = bs /\ halpha p = 0.
Proof. exact (ratios c m1 m2 g bn bs). Qed.
Print Assumptions C199_ratios_partial.
Example C199_ratios_case : elastic steel /\ two_spheres (half_sphere 2 1).
Proof. split; [exact steel_ok|]. unfold two_spheres, half_sphere. cbn [radius1 radius2]. lra. Qed.
(** C199 is refuted for es: whatever it is, the outcome is the same, *)
Theorem C199_es_refuted c m1 m2 g es es' : c_en c <> None -> c_betas c = None -> hip2 (with_es c es) m1 m2 g None = hip2 (with_es c es') m1 m2 g None.
Proof. exact (es_unused c m1 m2 g es es'). Qed.
Print Assumptions C199_es_refuted.
Example C199_es_case : c_en (with_en plain_conf 1) <> None /\ c_betas (with_en plain_conf 1) = None.
Proof. split; [discriminate|reflexivity]. Qed.
(** C199. and given alone it makes the program crash. *)
Theorem C199_es_alone_refuted c m1 m2 g : elastic m1 -> elastic m2 -> two_spheres g -> c_frict c = None -> c_en c = None -> c_es c <> None -> c_betas c = None -> exists p, hip2 c m1 m2 g None = Crash p.
Proof. exact (es_crash c m1 m2 g). Qed.
Print Assumptions C199_es_alone_refuted.
Example C199_es_alone_case : elastic steel /\ two_spheres (half_sphere 2 1).
Proof. split; [exact steel_ok|]. unfold two_spheres, half_sphere. cbn [radius1 radius2]. lra. Qed.
(** C200. Without adhesion the normal force is never attractive, whatever the damping and the velocities. *)
Theorem C200_repel L p i1 i2 t s s' a e : mindlin L p i1 i2 t s = HKept s' a e -> unit_normal t -> 0 <= kno p -> hadhesion L = false \/ hadh p = 0 -> exists F, 0 <= F /\ hnormal s' = smul F (normal (hg t)).
Proof. exact (mindlin_repel L p i1 i2 t s s' a e). Qed.
Print Assumptions C200_repel.
Example C200_repel_case : exists s' a e, mindlin plain_law (unit_params 0 0 0 0) 0 1 (pair 1 1 (V 0 1 0) 1) hfresh = HKept s' a e /\ unit_normal (pair 1 1 (V 0 1 0) 1) /\ 0 < depth (pair 1 1 (V 0 1 0) 1).
Proof. destruct (tangent_applies plain_law (unit_params 0 0 0 0) 0 1 (pair 1 1 (V 0 1 0) 1) hfresh 1 (unit_undamped 0 0) eq_refl ltac:(lra)) as (s' & a & e & H). exists s', a, e. split; [exact H|]. split; [apply pair_unit|unfold depth, pair; cbn [hg penetrationDepth]; lra]. Qed.
(** C200. Without damping it is that of Hertz, less the adhesion. *)
Theorem C200_hertz L p i1 i2 t s s' a e : mindlin L p i1 i2 t s = HKept s' a e -> no_damping p -> 0 < depth t -> hnormal s' = smul (hertz_force p (depth t) - (if hadhesion L then hadh p else 0)) (normal (hg t)).
Proof. exact (mindlin_undamped L p i1 i2 t s s' a e). Qed.
Print Assumptions C200_hertz.
Example C200_hertz_case : exists s' a e, mindlin plain_law (unit_params 0 0 0 0) 0 1 (pair 1 1 (V 0 1 0) 1) hfresh = HKept s' a e /\ unit_normal (pair 1 1 (V 0 1 0) 1) /\ 0 < depth (pair 1 1 (V 0 1 0) 1).
Proof. destruct (tangent_applies plain_law (unit_params 0 0 0 0) 0 1 (pair 1 1 (V 0 1 0) 1) hfresh 1 (unit_undamped 0 0) eq_refl ltac:(lra)) as (s' & a & e & H). exists s', a, e. split; [exact H|]. split; [apply pair_unit|unfold depth, pair; cbn [hg penetrationDepth]; lra]. Qed.
(** C200. That of HertzWithLinearShear is that of Hertz. *)
Theorem C200_hertz_linear nv k p i1 i2 t s s' a e : hertz_linear nv k p i1 i2 t s = HKept s' a e -> 0 < depth t -> hnormal s' = smul (hertz_force p (depth t)) (normal (hg t)).
Proof. exact (linear_repel nv k p i1 i2 t s s' a e). Qed.
Print Assumptions C200_hertz_linear.
Example C200_hertz_linear_case : exists s' a e, hertz_linear false 0 (unit_params 0 0 0 0) 0 1 (pair 1 1 (V 0 1 0) 1) hfresh = HKept s' a e /\ 0 < depth (pair 1 1 (V 0 1 0) 1).
Proof. unfold hertz_linear. cbv zeta. assert (ltR (penetrationDepth (hg (pair 1 1 (V 0 1 0) 1))) 0 = false) as -> by (apply ltR_false; unfold pair; cbn [hg penetrationDepth]; lra). cbn [Z.ltb Z.compare]. eexists _, _, _. split; [reflexivity|]. unfold depth, pair. cbn [hg penetrationDepth]. lra. Qed.
(** C200. Bodies that are apart exert no force on each other, *)
Theorem C200_apart L p i1 i2 t s s' a e : mindlin L p i1 i2 t s = HKept s' a e -> depth t < 0 -> a = [] /\ hnormal s' = vzero /\ hshear s' = vzero.
Proof. exact (apart_no_force L p i1 i2 t s s' a e). Qed.
Print Assumptions C200_apart.
Example C200_apart_case : exists s' a e, mindlin lasting_law (unit_params 0 0 0 0) 0 1 (pair 1 (-1) vzero 1) hfresh = HKept s' a e /\ depth (pair 1 (-1) vzero 1) < 0.
Proof. assert (D : depth (pair 1 (-1) vzero 1) < 0) by (unfold depth, pair; cbn [hg penetrationDepth]; lra). exists (separated hfresh), [], no_account. split; [rewrite mindlin_apart by exact D; reflexivity|exact D]. Qed.
(** C200. for both laws, *)
Theorem C200_apart_linear nv k p i1 i2 t s s' a e : hertz_linear nv k p i1 i2 t s = HKept s' a e -> depth t < 0 -> a = [] /\ hnormal s' = vzero /\ hshear s' = vzero.
Proof. exact (apart_no_force_linear nv k p i1 i2 t s s' a e). Qed.
Print Assumptions C200_apart_linear.
Example C200_apart_linear_case : exists s' a e, hertz_linear true 0 (unit_params 0 0 0 0) 0 1 (pair 1 (-1) vzero 1) hfresh = HKept s' a e /\ depth (pair 1 (-1) vzero 1) < 0.
Proof. assert (D : depth (pair 1 (-1) vzero 1) < 0) by (unfold depth, pair; cbn [hg penetrationDepth]; lra). unfold hertz_linear. cbv zeta. fold (depth (pair 1 (-1) vzero 1)). pose proof D as D'. apply ltR_true in D'. rewrite D'. eexists _, _, _. split; [reflexivity|exact D]. Qed.
(** C200. and contacts are removed just when bodies are apart and neverErase is not set. *)
Theorem C200_lost L p i1 i2 t s : mindlin L p i1 i2 t s = HLost <-> depth t < 0 /\ hnever L = false.
Proof. exact (mindlin_lost L p i1 i2 t s). Qed.
Print Assumptions C200_lost.

(** C200. The same for HertzWithLinearShear. *)
Theorem C200_lost_linear nv k p i1 i2 t s : hertz_linear nv k p i1 i2 t s = HLost <-> depth t < 0 /\ nv = false.
Proof. exact (linear_lost nv k p i1 i2 t s). Qed.
Print Assumptions C200_lost_linear.

(** C200. The forces reported are those that the bodies get. *)
Theorem C200_applied L p i1 i2 t s s' a e : i1 <> i2 -> mindlin L p i1 i2 t s = HKept s' a e -> force_on a i1 = vopp (vadd (hnormal s') (hshear s')) /\ force_on a i2 = vadd (hnormal s') (hshear s').
Proof. exact (mindlin_applied L p i1 i2 t s s' a e). Qed.
Print Assumptions C200_applied.
Example C200_applied_case : exists s' a e, mindlin plain_law (unit_params 0 0 0 0) 0 1 (pair 1 1 (V 0 1 0) 1) hfresh = HKept s' a e /\ unit_normal (pair 1 1 (V 0 1 0) 1) /\ 0 < depth (pair 1 1 (V 0 1 0) 1).
Proof. destruct (tangent_applies plain_law (unit_params 0 0 0 0) 0 1 (pair 1 1 (V 0 1 0) 1) hfresh 1 (unit_undamped 0 0) eq_refl ltac:(lra)) as (s' & a & e & H). exists s', a, e. split; [exact H|]. split; [apply pair_unit|unfold depth, pair; cbn [hg penetrationDepth]; lra]. Qed.
(** C200. The same for HertzWithLinearShear. *)
Theorem C200_applied_linear nv k p i1 i2 t s s' a e : i1 <> i2 -> hertz_linear nv k p i1 i2 t s = HKept s' a e -> force_on a i1 = vopp (vadd (hnormal s') (hshear s')) /\ force_on a i2 = vadd (hnormal s') (hshear s').
Proof. exact (linear_applied nv k p i1 i2 t s s' a e). Qed.
Print Assumptions C200_applied_linear.
Example C200_applied_linear_case : exists s' a e, hertz_linear false 0 (unit_params 0 0 0 0) 0 1 (pair 1 1 (V 0 1 0) 1) hfresh = HKept s' a e /\ 0 < depth (pair 1 1 (V 0 1 0) 1).
Proof. unfold hertz_linear. cbv zeta. assert (ltR (penetrationDepth (hg (pair 1 1 (V 0 1 0) 1))) 0 = false) as -> by (apply ltR_false; unfold pair; cbn [hg penetrationDepth]; lra). cbn [Z.ltb Z.compare]. eexists _, _, _. split; [reflexivity|]. unfold depth, pair. cbn [hg penetrationDepth]. lra. Qed.
(** C201. Attraction is never larger than twice the adhesion force, and not larger than it without damping. *)
Theorem C201_adhesion_partial L p i1 i2 t s s' a e : mindlin L p i1 i2 t s = HKept s' a e -> unit_normal t -> 0 <= kno p -> 0 <= hadh p -> - (2 * hadh p) <= repulsion t s' /\ (no_damping p -> - hadh p <= repulsion t s').
Proof. exact (adhesion_bound L p i1 i2 t s s' a e). Qed.
Print Assumptions C201_adhesion_partial.
Example C201_adhesion_case : exists s' a e, mindlin adhesive_law (unit_params 0 2 (1/2) 0) 0 1 (pair 1 1 (V 3 0 0) (2/3)) hfresh = HKept s' a e.
Proof. destruct (adhesive_case 2) as (s' & a & e & H & _); [lra|]. exists s', a, e. exact H. Qed.
(** C201 is refuted with damping: an adhesion force of 2 and an attraction of 3. *)
Theorem C201_adhesion_refuted : exists s' a e, mindlin adhesive_law (unit_params 0 2 (1/2) 0) 0 1 (pair 1 1 (V 3 0 0) (2/3)) hfresh = HKept s' a e /\ repulsion (pair 1 1 (V 3 0 0) (2/3)) s' = -3 /\ repulsion (pair 1 1 (V 3 0 0) (2/3)) s' < - hadh (unit_params 0 2 (1/2) 0).
Proof. exact (adhesion_refuted). Qed.
Print Assumptions C201_adhesion_refuted.

(** C202. Without adhesion, the elastic part of the shear force is within the limit of friction, and so is all of it without damping or while sliding; it is the limit while sliding. *)
Theorem C202_coulomb_partial L p i1 i2 t s s' a e : mindlin L p i1 i2 t s = HKept s' a e -> hadhesion L = false -> 0 <= htan p -> 0 <= depth t ->
  norm (sElastic s') <= htan p * norm (hnormal s') /\ (no_damping p \/ isSliding s' = true -> norm (hshear s') <= htan p * norm (hnormal s')) /\ (isSliding s' = true -> norm (hshear s') = htan p * norm (hnormal s')).
Proof. exact (coulomb L p i1 i2 t s s' a e). Qed.
Print Assumptions C202_coulomb_partial.
Example C202_coulomb_case : exists s' a e, mindlin plain_law (unit_params 0 0 0 0) 0 1 (pair 1 1 (V 0 1 0) 1) hfresh = HKept s' a e /\ unit_normal (pair 1 1 (V 0 1 0) 1) /\ 0 < depth (pair 1 1 (V 0 1 0) 1).
Proof. destruct (tangent_applies plain_law (unit_params 0 0 0 0) 0 1 (pair 1 1 (V 0 1 0) 1) hfresh 1 (unit_undamped 0 0) eq_refl ltac:(lra)) as (s' & a & e & H). exists s', a, e. split; [exact H|]. split; [apply pair_unit|unfold depth, pair; cbn [hg penetrationDepth]; lra]. Qed.
(** C202. The shear force of HertzWithLinearShear is within the limit. *)
Theorem C202_coulomb_linear_partial nv k p i1 i2 t s s' a e : hertz_linear nv k p i1 i2 t s = HKept s' a e -> norm2 (normal (hg t)) = 1 -> 0 <= depth t -> norm (hshear s') <= Rabs (htan p) * norm (hnormal s').
Proof. exact (linear_coulomb nv k p i1 i2 t s s' a e). Qed.
Print Assumptions C202_coulomb_linear_partial.
Example C202_coulomb_linear_case : exists s' a e, hertz_linear false 0 (unit_params 0 0 0 0) 0 1 (pair 1 1 (V 0 1 0) 1) hfresh = HKept s' a e /\ 0 < depth (pair 1 1 (V 0 1 0) 1).
Proof. unfold hertz_linear. cbv zeta. assert (ltR (penetrationDepth (hg (pair 1 1 (V 0 1 0) 1))) 0 = false) as -> by (apply ltR_false; unfold pair; cbn [hg penetrationDepth]; lra). cbn [Z.ltb Z.compare]. eexists _, _, _. split; [reflexivity|]. unfold depth, pair. cbn [hg penetrationDepth]. lra. Qed.
(** C202. With adhesion the elastic part is limited by the sum of the adhesion and the normal force, *)
Theorem C202_adhesive_partial L p i1 i2 t s s' a e : mindlin L p i1 i2 t s = HKept s' a e -> hadhesion L = true -> 0 <= htan p -> 0 <= hadh p -> 0 <= depth t -> norm (sElastic s') <= htan p * (hadh p + norm (hnormal s')).
Proof. exact (adhesive_strength L p i1 i2 t s s' a e). Qed.
Print Assumptions C202_adhesive_partial.
Example C202_adhesive_case : exists s' a e, mindlin adhesive_law (unit_params 0 2 (1/2) 0) 0 1 (pair 1 1 (V 3 0 0) (2/3)) hfresh = HKept s' a e.
Proof. destruct (adhesive_case 2) as (s' & a & e & H & _); [lra|]. exists s', a, e. exact H. Qed.
(** C202 is refuted for this: the contact under tension 2 resists shear more than that under tension 1. *)
Theorem C202_tension_refuted : exists s1 a1 e1 s2 a2 e2, mindlin adhesive_law (unit_params 0 2 0 0) 0 1 (pair 1 1 vzero 1) (sheared 10) = HKept s1 a1 e1 /\ mindlin adhesive_law (unit_params 0 2 0 0) 0 1 (pair 1 0 vzero 1) (sheared 10) = HKept s2 a2 e2 /\
  repulsion (pair 1 1 vzero 1) s1 = -1 /\ repulsion (pair 1 0 vzero 1) s2 = -2 /\ norm (hshear s1) = 3 /\ norm (hshear s2) = 4.
Proof. exact (tension_refuted). Qed.
Print Assumptions C202_tension_refuted.

(** C202 is refuted with damping: a contact that is not sliding, with normal force 1 and friction 1, has a shear force of 5/2. *)
Theorem C202_viscous_refuted : exists s' a e, mindlin plain_law (unit_params 0 0 0 1) 0 1 (pair (1/2) 1 (V 0 1 0) 1) hfresh = HKept s' a e /\ isSliding s' = false /\ norm (hnormal s') = 1 /\ norm (hshear s') = 5/2.
Proof. exact (viscous_refuted). Qed.
Print Assumptions C202_viscous_refuted.

(** C203. Forces and moments applied to the two bodies balance. *)
Theorem C203_balance L p i1 i2 t s s' a e o at_ : mindlin L p i1 i2 t s = HKept s' a e -> at_ i1 = pos (hs1 t) -> at_ i2 = vadd (pos (hs2 t)) (if hperiodic L then hshift2 t else vzero) ->
  (hperiodic L = true -> touching (radius1 (hg t)) (radius2 (hg t)) (at_ i1) (at_ i2) (hg t)) -> total_force a = vzero /\ total_moment o at_ a = vzero.
Proof. exact (mindlin_balance L p i1 i2 t s s' a e o at_). Qed.
Print Assumptions C203_balance.
Example C203_balance_case : exists s' a e, mindlin plain_law (unit_params 0 0 0 0) 0 1 (pair 1 1 (V 0 1 0) 1) hfresh = HKept s' a e /\ unit_normal (pair 1 1 (V 0 1 0) 1) /\ 0 < depth (pair 1 1 (V 0 1 0) 1).
Proof. destruct (tangent_applies plain_law (unit_params 0 0 0 0) 0 1 (pair 1 1 (V 0 1 0) 1) hfresh 1 (unit_undamped 0 0) eq_refl ltac:(lra)) as (s' & a & e & H). exists s', a, e. split; [exact H|]. split; [apply pair_unit|unfold depth, pair; cbn [hg penetrationDepth]; lra]. Qed.
(** C203. The same for HertzWithLinearShear, about the center of a contact between two spheres. *)
Theorem C203_balance_linear nv k p i1 i2 t s s' a e o at_ : hertz_linear nv k p i1 i2 t s = HKept s' a e -> touching (radius1 (hg t)) (radius2 (hg t)) (at_ i1) (at_ i2) (hg t) -> total_force a = vzero /\ total_moment o at_ a = vzero.
Proof. exact (linear_balance nv k p i1 i2 t s s' a e o at_). Qed.
Print Assumptions C203_balance_linear.
Example C203_balance_linear_case : exists s' a e, hertz_linear false 0 (unit_params 0 0 0 0) 0 1 (pair 1 1 (V 0 1 0) 1) hfresh = HKept s' a e /\ 0 < depth (pair 1 1 (V 0 1 0) 1).
Proof. unfold hertz_linear. cbv zeta. assert (ltR (penetrationDepth (hg (pair 1 1 (V 0 1 0) 1))) 0 = false) as -> by (apply ltR_false; unfold pair; cbn [hg penetrationDepth]; lra). cbn [Z.ltb Z.compare]. eexists _, _, _. split; [reflexivity|]. unfold depth, pair. cbn [hg penetrationDepth]. lra. Qed.
(** C204. The energies accounted as dissipated by damping do not decrease. *)
Theorem C204_damping L p i1 i2 t s s' a e : mindlin L p i1 i2 t s = HKept s' a e -> unit_normal t -> 0 <= kno p -> 0 <= hadh p -> 0 <= hbetan p -> 0 <= hbetas p -> 0 <= halpha p -> 0 <= hdt t -> 0 <= a_normDamp e /\ 0 <= a_shearDamp e.
Proof. exact (damping_dissipates L p i1 i2 t s s' a e). Qed.
Print Assumptions C204_damping.
Example C204_damping_case : exists s' a e, mindlin adhesive_law (unit_params 0 2 (1/2) 0) 0 1 (pair 1 1 (V 3 0 0) (2/3)) hfresh = HKept s' a e.
Proof. destruct (adhesive_case 2) as (s' & a & e & H & _); [lra|]. exists s', a, e. exact H. Qed.
(** C204. Nor does that dissipated by friction, if the force before the step is within the present limit. *)
Theorem C204_friction_partial L p i1 i2 t s s' a e : mindlin L p i1 i2 t s = HKept s' a e -> 0 <= depth t -> hadhesion L = false -> 0 <= htan p -> 0 < kso p ->
  norm (rotate (hg t) (sElastic s)) <= htan p * norm (hnormal s') -> 0 <= a_friction e.
Proof. exact (friction_dissipates L p i1 i2 t s s' a e). Qed.
Print Assumptions C204_friction_partial.
Example C204_friction_case : exists s' a e, mindlin plain_law (unit_params 0 0 0 0) 0 1 (pair 1 1 (V 0 1 0) 1) hfresh = HKept s' a e /\ unit_normal (pair 1 1 (V 0 1 0) 1) /\ 0 < depth (pair 1 1 (V 0 1 0) 1).
Proof. destruct (tangent_applies plain_law (unit_params 0 0 0 0) 0 1 (pair 1 1 (V 0 1 0) 1) hfresh 1 (unit_undamped 0 0) eq_refl ltac:(lra)) as (s' & a & e & H). exists s', a, e. split; [exact H|]. split; [apply pair_unit|unfold depth, pair; cbn [hg penetrationDepth]; lra]. Qed.
(** C204 is refuted in general: with less normal force than before, energy dissipated by friction is negative. *)
Theorem C204_friction_refuted : exists s' a e, mindlin plain_law (unit_params 0 0 0 0) 0 1 (pair (1/2) 1 (V 0 1 0) 1) (sheared 10) = HKept s' a e /\ a_friction e < 0.
Proof. exact (friction_refuted). Qed.
Print Assumptions C204_friction_refuted.

(** C204. Nothing is accounted if not asked for. *)
Theorem C204_not_asked L p i1 i2 t s s' a e : mindlin L p i1 i2 t s = HKept s' a e -> henergy L = false -> e = no_account.
Proof. exact (not_accounted L p i1 i2 t s s' a e). Qed.
Print Assumptions C204_not_asked.
Example C204_not_asked_case : exists s' a e, mindlin rolling_law (unit_params 1 0 0 0) 0 1 (pair 1 1 vzero 1) hfresh = HKept s' a e.
Proof. exact (tangent_applies rolling_law (unit_params 1 0 0 0) 0 1 (pair 1 1 vzero 1) hfresh 1 (unit_undamped 1 0) eq_refl ltac:(lra)). Qed.
(** C204. Without sliding nothing is accounted to friction, and to elastic energy what is stored in a spring of the present stiffness. *)
Theorem C204_elastic_partial L p i1 i2 t s s' a e : mindlin L p i1 i2 t s = HKept s' a e -> henergy L = true -> 0 < depth t -> 0 < kso p -> 0 <= htan p -> hadhesion L = false -> isSliding s' = false ->
  a_shear e = (norm2 (sElastic s') - norm2 (rotate (hg t) (sElastic s))) / (2 * hks s') /\ a_friction e = 0.
Proof. exact (elastic_account L p i1 i2 t s s' a e). Qed.
Print Assumptions C204_elastic_partial.
Example C204_elastic_case : exists s' a e, mindlin plain_law (unit_params 0 0 0 0) 0 1 (pair 1 1 (V 0 1 0) 1) hfresh = HKept s' a e /\ unit_normal (pair 1 1 (V 0 1 0) 1) /\ 0 < depth (pair 1 1 (V 0 1 0) 1).
Proof. destruct (tangent_applies plain_law (unit_params 0 0 0 0) 0 1 (pair 1 1 (V 0 1 0) 1) hfresh 1 (unit_undamped 0 0) eq_refl ltac:(lra)) as (s' & a & e & H). exists s', a, e. split; [exact H|]. split; [apply pair_unit|unfold depth, pair; cbn [hg penetrationDepth]; lra]. Qed.
(** C204. While sliding, without rotations, the energy of friction is the work done against the shear force. *)
Theorem C204_work_partial L p i1 i2 t s s' a e : mindlin L p i1 i2 t s = HKept s' a e -> henergy L = true -> 0 <= depth t -> hratchet L = false -> irrotational t -> isSliding s' = true ->
  a_friction e = - dot (smul (hdt t) (tangential t (approach t))) (hshear s').
Proof. exact (friction_work L p i1 i2 t s s' a e). Qed.
Print Assumptions C204_work_partial.
Example C204_work_case : exists s' a e, mindlin plain_law (unit_params 0 0 0 0) 0 1 (pair 1 1 (V 0 1 0) 1) hfresh = HKept s' a e /\ unit_normal (pair 1 1 (V 0 1 0) 1) /\ 0 < depth (pair 1 1 (V 0 1 0) 1).
Proof. destruct (tangent_applies plain_law (unit_params 0 0 0 0) 0 1 (pair 1 1 (V 0 1 0) 1) hfresh 1 (unit_undamped 0 0) eq_refl ltac:(lra)) as (s' & a & e & H). exists s', a, e. split; [exact H|]. split; [apply pair_unit|unfold depth, pair; cbn [hg penetrationDepth]; lra]. Qed.
(** C205. A contact of HertzWithLinearShear that was apart is as a new one. *)
Theorem C205_linear_partial nv k p i1 i2 t s s1 a e l s' : hertz_linear nv k p i1 i2 t s = HKept s1 a e -> depth t < 0 -> run (hertz_linear nv k p i1 i2) l s1 = Some s' ->
  exists r', run (hertz_linear nv k p i1 i2) l hfresh = Some r' /\ hshear s' = hshear r' /\ (l <> [] -> hnormal s' = hnormal r').
Proof. exact (linear_recontact nv k p i1 i2 t s s1 a e l s'). Qed.
Print Assumptions C205_linear_partial.
Example C205_linear_case : exists s' a e, hertz_linear true 0 (unit_params 0 0 0 0) 0 1 (pair 1 (-1) vzero 1) hfresh = HKept s' a e /\ depth (pair 1 (-1) vzero 1) < 0.
Proof. assert (D : depth (pair 1 (-1) vzero 1) < 0) by (unfold depth, pair; cbn [hg penetrationDepth]; lra). unfold hertz_linear. cbv zeta. fold (depth (pair 1 (-1) vzero 1)). pose proof D as D'. apply ltR_true in D'. rewrite D'. eexists _, _, _. split; [reflexivity|exact D]. Qed.
(** C205. For Mindlin this holds for the normal force and stiffness, which do not depend on the past at all. *)
Theorem C205_normal_partial L p i1 i2 t s r s' a e r' b f : mindlin L p i1 i2 t s = HKept s' a e -> mindlin L p i1 i2 t r = HKept r' b f -> hnormal s' = hnormal r' /\ hkn s' = hkn r' /\ hks s' = hks r'.
Proof. exact (mindlin_normal_only L p i1 i2 t s r s' a e r' b f). Qed.
Print Assumptions C205_normal_partial.
Example C205_normal_case : exists s' a e, mindlin plain_law (unit_params 0 0 0 0) 0 1 (pair 1 1 (V 0 1 0) 1) hfresh = HKept s' a e /\ unit_normal (pair 1 1 (V 0 1 0) 1) /\ 0 < depth (pair 1 1 (V 0 1 0) 1).
Proof. destruct (tangent_applies plain_law (unit_params 0 0 0 0) 0 1 (pair 1 1 (V 0 1 0) 1) hfresh 1 (unit_undamped 0 0) eq_refl ltac:(lra)) as (s' & a & e & H). exists s', a, e. split; [exact H|]. split; [apply pair_unit|unfold depth, pair; cbn [hg penetrationDepth]; lra]. Qed.
(** C205 is refuted for the shear force: after being apart the old one is there again. *)
Theorem C205_recontact_refuted : exists s1 s2 r2 a1 e1 a2 e2 a3 e3,
  mindlin lasting_law (unit_params 0 0 0 0) 0 1 (pair 1 (-1) vzero 1) (sheared 1) = HKept s1 a1 e1 /\ hshear s1 = vzero /\
  mindlin lasting_law (unit_params 0 0 0 0) 0 1 (pair 1 1 vzero 1) s1 = HKept s2 a2 e2 /\
  mindlin lasting_law (unit_params 0 0 0 0) 0 1 (pair 1 1 vzero 1) hfresh = HKept r2 a3 e3 /\ hshear s2 = V 0 1 0 /\ hshear r2 = vzero.
Proof. exact (mindlin_recontact_refuted). Qed.
Print Assumptions C205_recontact_refuted.

(** C206. Within the limit of friction the shear force of HertzWithLinearShear with a constant stiffness is a function of the displacement only, and so vanishes after a closed path. *)
Theorem C206_linear_partial nv p i1 i2 l : forall s x, (forall t, In t l -> 0 <= depth t /\ unrotated t) -> hshear s = smul (- kso p) x -> within_friction p (kso p) x (fun t => shearInc (hg t)) l ->
  exists s', run (hertz_linear nv 0 p i1 i2) l s = Some s' /\ hshear s' = smul (- kso p) (vadd x (total_shear l)).
Proof. exact (linear_elastic nv p i1 i2 l). Qed.
Print Assumptions C206_linear_partial.
Example C206_linear_case : 0 <= depth (pair 1 1 (V 0 1 0) 1) /\ unrotated (pair 1 1 (V 0 1 0) 1) /\ within_friction (unit_params 0 0 0 0) (kso (unit_params 0 0 0 0)) vzero (fun t => shearInc (hg t)) [pair 1 1 (V 0 1 0) 1].
Proof. split; [unfold depth, pair; cbn [hg penetrationDepth]; lra|]. split; [apply pair_unrot|]. cbn [within_friction]. split; [|exact I]. change (shearInc (hg (pair 1 1 (V 0 1 0) 1))) with vzero. rewrite vadd_0_l. replace (norm2 vzero) with 0 by vring. rewrite Rmult_0_r. apply Rle_0_sqr. Qed.
(** C206. For Mindlin it is at a constant overlap. *)
Theorem C206_mindlin_partial L p i1 i2 u l : no_damping p -> hratchet L = false -> hadhesion L = false -> 0 <= htan p -> 0 <= kno p -> 0 <= u -> forall s x, (forall t, In t l -> depth t = u /\ unrotated t /\ irrotational t /\ unit_normal t) ->
  sElastic s = smul (- (kso p * sqrt u)) x -> within_friction p (kso p * sqrt u) x (fun t => smul (hdt t) (tangential t (approach t))) l ->
  exists s', run (mindlin L p i1 i2) l s = Some s' /\ sElastic s' = smul (- (kso p * sqrt u)) (vadd x (total_slide l)) /\ (l <> [] -> hshear s' = sElastic s').
Proof. exact (mindlin_elastic L p i1 i2 u l). Qed.
Print Assumptions C206_mindlin_partial.
Example C206_mindlin_case : depth (pair 1 1 (V 0 1 0) 1) = 1 /\ unrotated (pair 1 1 (V 0 1 0) 1) /\ irrotational (pair 1 1 (V 0 1 0) 1) /\ unit_normal (pair 1 1 (V 0 1 0) 1) /\ within_friction (unit_params 0 0 0 0) (kso (unit_params 0 0 0 0) * sqrt 1) vzero (fun t => smul (hdt t) (tangential t (approach t))) [pair 1 1 (V 0 1 0) 1].
Proof. split; [reflexivity|]. split; [apply pair_unrot|]. split; [apply pair_irr|]. split; [apply pair_unit|]. cbn [within_friction]. split; [|exact I]. change (kso (unit_params 0 0 0 0)) with 1. change (htan (unit_params 0 0 0 0)) with 1. change (kno (unit_params 0 0 0 0)) with 1. change (depth (pair 1 1 (V 0 1 0) 1)) with 1. change (hdt (pair 1 1 (V 0 1 0) 1)) with 1. rewrite vadd_0_l, smul_1, sqrt_1. unfold tangential, approach, pair, still. cbn [hg normal hs1 hs2 vel]. unfold Rsqr, norm2, dot, vsub, smul, vzero. cbn [vx vy vz]. lra. Qed.
(** C206 is refuted if the overlap changes: after a displacement and its reverse, without sliding, there is a shear force. *)
Theorem C206_cycle_refuted : exists s', run (mindlin plain_law (unit_params 0 0 0 0) 0 1) [pair 1 4 (V 0 (1/4) 0) 1; pair 1 1 (V 0 (-1/4) 0) 1] hfresh = Some s' /\
  total_slide [pair 1 4 (V 0 (1/4) 0) 1; pair 1 1 (V 0 (-1/4) 0) 1] = vzero /\ hshear s' = V 0 (-1/4) 0 /\ isSliding s' = false.
Proof. exact (cycle_refuted). Qed.
Print Assumptions C206_cycle_refuted.

(** C207. The bending moment of rolling is within the limit, and it is the one closest to the elastic moment, if there is a normal force. *)
Theorem C207_bending_partial L p i1 i2 t s s' a e : mindlin L p i1 i2 t s = HKept s' a e -> hmoment L = true -> 0 <= depth t -> 0 < maxBendPl p -> hnormal s' <> vzero -> norm (mBend s') <= maxBendPl p * norm (hnormal s') /\
  nearest_within (maxBendPl p * norm (hnormal s')) (vsub (rotate (hg t) (mBend s)) (smul (hkr p * hdt t) (tangential t (vsub (angVel (hs2 t)) (angVel (hs1 t)))))) (mBend s').
Proof. exact (bend_limit L p i1 i2 t s s' a e). Qed.
Print Assumptions C207_bending_partial.
Example C207_bending_case : exists s' a e, mindlin rolling_law (unit_params 1 0 0 0) 0 1 (pair 1 1 vzero 1) hfresh = HKept s' a e.
Proof. exact (tangent_applies rolling_law (unit_params 1 0 0 0) 0 1 (pair 1 1 vzero 1) hfresh 1 (unit_undamped 1 0) eq_refl ltac:(lra)). Qed.
(** C207. The twisting moment is elastic; moments are added to what the bodies get otherwise, forces are the same as without them. *)
Theorem C207_twisting_partial L p i1 i2 t s s' a e : mindlin L p i1 i2 t s = HKept s' a e -> hmoment L = true -> 0 <= depth t ->
  mTwist s' = vsub (rotate (hg t) (mTwist s)) (smul (hktw p * hdt t * dot (normal (hg t)) (vsub (angVel (hs2 t)) (angVel (hs1 t)))) (normal (hg t))) /\
  exists r b, mindlin (no_moment L) p i1 i2 t s = HKept r b e /\ a = b ++ [(i1, (vzero, vopp (vadd (mTwist s') (mBend s')))); (i2, (vzero, vadd (mTwist s') (mBend s')))] /\ mTwist r = mTwist s /\ mBend r = mBend s /\
    hnormal r = hnormal s' /\ hshear r = hshear s' /\ sElastic r = sElastic s'.
Proof. exact (twisting L p i1 i2 t s s' a e). Qed.
Print Assumptions C207_twisting_partial.
Example C207_twisting_case : exists s' a e, mindlin rolling_law (unit_params 1 0 0 0) 0 1 (pair 1 1 vzero 1) hfresh = HKept s' a e.
Proof. exact (tangent_applies rolling_law (unit_params 1 0 0 0) 0 1 (pair 1 1 vzero 1) hfresh 1 (unit_undamped 1 0) eq_refl ltac:(lra)). Qed.
(** C207. There are none if not asked for. *)
Theorem C207_none_partial L p i1 i2 t s s' a e : mindlin L p i1 i2 t s = HKept s' a e -> hmoment L = false -> mTwist s' = mTwist s /\ mBend s' = mBend s.
Proof. exact (no_moments L p i1 i2 t s s' a e). Qed.
Print Assumptions C207_none_partial.
Example C207_none_case : exists s' a e, mindlin plain_law (unit_params 0 0 0 0) 0 1 (pair 1 1 (V 0 1 0) 1) hfresh = HKept s' a e /\ unit_normal (pair 1 1 (V 0 1 0) 1) /\ 0 < depth (pair 1 1 (V 0 1 0) 1).
Proof. destruct (tangent_applies plain_law (unit_params 0 0 0 0) 0 1 (pair 1 1 (V 0 1 0) 1) hfresh 1 (unit_undamped 0 0) eq_refl ltac:(lra)) as (s' & a & e & H). exists s', a, e. split; [exact H|]. split; [apply pair_unit|unfold depth, pair; cbn [hg penetrationDepth]; lra]. Qed.
(** C207 is refuted if there is none: the moment is not limited at all. *)
Theorem C207_bending_refuted : exists s' a e, mindlin rolling_law (unit_params 1 0 0 0) 0 1 (pair 1 0 vzero 1) (rolled 5) = HKept s' a e /\ hnormal s' = vzero /\ mBend s' = V 0 5 0.
Proof. exact (bend_refuted). Qed.
Print Assumptions C207_bending_refuted.

(** C208. The normal stiffness reported by Mindlin is the derivative of the normal force. *)
Theorem C208_tangent_partial L p i1 i2 t s f k : no_damping p -> unit_normal t -> (forall u, 0 < u -> exists s' a e, mindlin L p i1 i2 (at_depth t u) s = HKept s' a e /\ repulsion t s' = f u /\ hkn s' = k u) -> forall u, 0 < u -> derivable_pt_lim f u (k u).
Proof. exact (tangent_stiffness L p i1 i2 t s f k). Qed.
Print Assumptions C208_tangent_partial.
Example C208_tangent_case : no_damping (unit_params 0 0 0 0) /\ unit_normal (pair 1 1 (V 0 1 0) 1) /\ forall u, 0 < u -> exists s' a e, mindlin plain_law (unit_params 0 0 0 0) 0 1 (at_depth (pair 1 1 (V 0 1 0) 1) u) hfresh = HKept s' a e.
Proof. split; [apply unit_undamped|]. split; [apply pair_unit|]. intros u H. apply tangent_applies; [apply unit_undamped|reflexivity|exact H]. Qed.
(** C208. The normal force is the derivative of the elastic energy reported. *)
Theorem C208_energy_partial adh p s f : (forall u, 0 < u -> normElast adh [mkHI true (Some (p, s)) u] = Some (f u)) -> forall u, 0 < u -> derivable_pt_lim f u (hertz_force p u - (if adh then hadh p else 0)).
Proof. exact (energy_derivative adh p s f). Qed.
Print Assumptions C208_energy_partial.
Example C208_energy_case : forall u, 0 < u -> exists x, normElast true [mkHI true (Some (unit_params 0 0 0 0, hfresh)) u] = Some x.
Proof. intros u H. unfold normElast. cbn [fold_left h_real h_phys h_depth]. assert (ltR u 0 = false) as -> by (apply ltR_false; lra). eexists. reflexivity. Qed.
(** C208 is refuted for HertzWithLinearShear: the stiffness reported stays zero, here with a force of 1. *)
Theorem C208_linear_refuted : (forall nv k p i1 i2 l s', run (hertz_linear nv k p i1 i2) l hfresh = Some s' -> hkn s' = 0 /\ hks s' = 0) /\
  exists s', run (hertz_linear false 0 (unit_params 0 0 0 0) 0 1) [pair 1 1 vzero 1] hfresh = Some s' /\ repulsion (pair 1 1 vzero 1) s' = 1.
Proof. exact (linear_reports_refuted). Qed.
Print Assumptions C208_linear_refuted.

(** C209. contactsAdhesive is the number of contacts marked as adhesive, if all are of Mindlin. *)
Theorem C209_adhesive_partial l : Forall is_hertz l -> contactsAdhesive l = Some (length (filter (counted isAdhesive) l)).
Proof. exact (adhesive_count l). Qed.
Print Assumptions C209_adhesive_partial.
Example C209_adhesive_case : Forall is_hertz [mkHI true (Some (unit_params 0 0 0 0, flagged true true)) 1; mkHI false None 0].
Proof. constructor; [intros _; discriminate|]. constructor; [intros H; discriminate H|constructor]. Qed.
(** C209. Without damping a contact is marked as adhesive just when its force is attractive. *)
Theorem C209_mark_partial L p i1 i2 t s s' a e : mindlin L p i1 i2 t s = HKept s' a e -> hadhesion L = true -> no_damping p -> 0 < depth t -> unit_normal t -> (isAdhesive s' = true <-> repulsion t s' < 0).
Proof. exact (adhesive_mark L p i1 i2 t s s' a e). Qed.
Print Assumptions C209_mark_partial.
Example C209_mark_case : exists s' a e, mindlin adhesive_law (unit_params 0 2 0 0) 0 1 (pair 1 1 (V 0 1 0) 1) hfresh = HKept s' a e /\ unit_normal (pair 1 1 (V 0 1 0) 1).
Proof. destruct (tangent_applies adhesive_law (unit_params 0 2 0 0) 0 1 (pair 1 1 (V 0 1 0) 1) hfresh 1 (unit_undamped 0 2) eq_refl ltac:(lra)) as (s' & a & e & H). exists s', a, e. split; [exact H|apply pair_unit]. Qed.
(** C209. ratioSlidingContacts is the share of those marked as sliding, if there are contacts, *)
Theorem C209_sliding_partial l : Forall is_hertz l -> filter h_real l <> [] -> ratioSlidingContacts l = Some (INR (length (filter (counted isSliding) l)) / INR (length (filter h_real l))).
Proof. exact (sliding_ratio l). Qed.
Print Assumptions C209_sliding_partial.
Example C209_sliding_case : Forall is_hertz [mkHI true (Some (unit_params 0 0 0 0, flagged true true)) 1; mkHI false None 0].
Proof. constructor; [intros _; discriminate|]. constructor; [intros H; discriminate H|constructor]. Qed.
(** C209. and not a number otherwise. *)
Theorem C209_empty_partial l : filter h_real l = [] -> ratioSlidingContacts l = None.
Proof. exact (no_contacts l). Qed.
Print Assumptions C209_empty_partial.
Example C209_empty_case : filter h_real [mkHI false None 0] = [].
Proof. reflexivity. Qed.
(** C209 is refuted if a contact is of another kind: a null pointer is used. *)
Theorem C209_other_refuted l : (exists i, In i l /\ h_real i = true /\ h_phys i = None) -> contactsAdhesive l = None /\ ratioSlidingContacts l = None.
Proof. exact (sums_none l). Qed.
Print Assumptions C209_other_refuted.
Example C209_other_case : exists i, In i [mkHI true None 0] /\ h_real i = true /\ h_phys i = None.
Proof. eexists. split; [left; reflexivity|]. split; reflexivity. Qed.
(** C209 is refuted for contacts kept by neverErase: bodies apart, without a force, are counted as adhesive and sliding. *)
Theorem C209_stale_refuted : exists s', mindlin lasting_law (unit_params 0 0 0 0) 0 1 (pair 1 (-1) vzero 1) (flagged true true) = HKept s' [] no_account /\ hnormal s' = vzero /\ hshear s' = vzero /\
  contactsAdhesive [mkHI true (Some (unit_params 0 0 0 0, s')) (-1)] = Some 1%nat /\ ratioSlidingContacts [mkHI true (Some (unit_params 0 0 0 0, s')) (-1)] = Some 1.
Proof. exact (stale_refuted). Qed.
Print Assumptions C209_stale_refuted.

(** C209 is refuted with damping: a contact with an attractive force that is not marked as adhesive. *)
Theorem C209_flag_refuted : exists s' a e, mindlin adhesive_law (unit_params 0 1 (1/2) 0) 0 1 (pair 1 1 (V 3 0 0) (2/3)) hfresh = HKept s' a e /\ repulsion (pair 1 1 (V 3 0 0) (2/3)) s' = -1 /\ isAdhesive s' = false.
Proof. exact (flag_refuted). Qed.
Print Assumptions C209_flag_refuted.

(** C210. The normal force of MindlinDeresiewitz is that of Hertz, *)
Theorem C210_normal_partial nv p i1 i2 t s s' a e : deresiewitz nv p i1 i2 t s = HKept s' a e -> 0 < depth t -> hnormal s' = smul (hertz_force p (depth t)) (normal (hg t)).
Proof. exact (deres_normal nv p i1 i2 t s s' a e). Qed.
Print Assumptions C210_normal_partial.
Example C210_normal_case : exists s' a e, deresiewitz false (unit_params 0 0 0 0) 0 1 (pair 1 1 (V 0 1 0) 1) hfresh = HKept s' a e.
Proof. unfold deresiewitz. cbv zeta. assert (ltR (penetrationDepth (hg (pair 1 1 (V 0 1 0) 1))) 0 = false) as -> by (apply ltR_false; unfold pair; cbn [hg penetrationDepth]; lra). destruct (is0 _); eexists _, _, _; reflexivity. Qed.
(** C210 is refuted for the shear force: there never is one. *)
Theorem C210_shear_refuted nv p i1 i2 l : (forall t, In t l -> 0 <= depth t) -> exists s', run (deresiewitz nv p i1 i2) l hfresh = Some s' /\ hshear s' = vzero.
Proof. exact (deres_refuted nv p i1 i2 l). Qed.
Print Assumptions C210_shear_refuted.
Example C210_shear_case : forall t, In t [pair 1 1 (V 0 1 0) 1] -> 0 <= depth t.
Proof. intros t [<- | []]. unfold depth, pair. cbn [hg penetrationDepth]. lra. Qed.
