(** Properties C226-C234: frictional contacts with normal damping *)
From Coq Require Import Reals List ZArith Bool Lra.
From Verif Require Import Vec_Model Vec_Proofs Rigid_Model Rigid_Spec Law_Model Law_Spec Fvis_Model Fvis_Spec Fvis_Proofs.
Import ListNotations.
Local Open Scope R_scope.

(** C226. A new contact has no force yet; its damping is the fraction of critical damping of the materials: the mean, or that of the only one that has any. *)
Theorem C226_damping K m1 m2 b1 b2 p1 p2 g p : ip2_visco K m1 m2 b1 b2 p1 p2 g None = Some p ->
  normalForce (fp p) = vzero /\ shearForce (fp p) = vzero /\ normalViscous p = vzero /\
  ((b1 = 0 /\ b2 = 0 /\ cn p = 0) \/ ((b1 <> 0 \/ b2 <> 0) /\ exists m crit x, reduced p1 p2 m /\ cn_crit p = Some crit /\ 0 <= crit /\ crit * crit = 4 * m * kn (fp p) /\ fraction b1 b2 x /\ cn p = crit * x)).
Proof. exact (ip2_visco_new K m1 m2 b1 b2 p1 p2 g p). Qed.
Print Assumptions C226_damping.
Example C226_damping_case : exists p, ip2_visco (mkMk None None None) (mkMat 0 1 1 0) (mkMat 1 2 1 0) 1 0 (mkPt 1 true) (mkPt 3 true) (pair_geom 0) None = Some p.
Proof. destruct (ip2_defined (mkMat 0 1 1 0) (mkMat 1 2 1 0) 1 0 (mkPt 1 true) (mkPt 3 true) (pair_geom 0)) as (p & E & _); cbn [young poisson pair_geom radius1 radius2 pmass dynamic]; try lra; try (exists p; exact E); left; lra. Qed.
(** C226. Without matchmakers springs are in series, and friction is the least one. *)
Theorem C226_springs K m1 m2 b1 b2 p1 p2 g p : ip2_visco K m1 m2 b1 b2 p1 p2 g None = Some p -> mm_kn K = None -> mm_kRatio K = None -> mm_frict K = None ->
  exists ra rb, radius_or (radius1 g) (radius2 g) ra /\ radius_or (radius2 g) (radius1 g) rb /\
    in_series (young m1 * ra) (young m2 * rb) (kn (fp p)) /\ in_series (young m1 * ra * poisson m1) (young m2 * rb * poisson m2) (ks (fp p)) /\ tanPhi (fp p) = tan (Rmin (frictionAngle m1) (frictionAngle m2)).
Proof. exact (ip2_springs K m1 m2 b1 b2 p1 p2 g p). Qed.
Print Assumptions C226_springs.
Example C226_springs_case : exists p, ip2_visco (mkMk None None None) (mkMat 0 1 1 0) (mkMat 1 2 1 0) 1 0 (mkPt 1 true) (mkPt 3 true) (pair_geom 0) None = Some p.
Proof. destruct (ip2_defined (mkMat 0 1 1 0) (mkMat 1 2 1 0) 1 0 (mkPt 1 true) (mkPt 3 true) (pair_geom 0)) as (p & E & _); cbn [young poisson pair_geom radius1 radius2 pmass dynamic]; try lra; try (exists p; exact E); left; lra. Qed.
(** C226. Matchmakers give the normal stiffness, the ratio of shear stiffness to it, and the angle of friction. *)
Theorem C226_matchmakers K m1 m2 b1 b2 p1 p2 g p : ip2_visco K m1 m2 b1 b2 p1 p2 g None = Some p ->
  (forall m, mm_kn K = Some m -> mm_call m (m_id m1) (m_id m2) None None = Some (kn (fp p))) /\
  (forall m, mm_kRatio K = Some m -> exists r, mm_call m (m_id m1) (m_id m2) None None = Some r /\ ks (fp p) = r * kn (fp p)) /\
  (forall m, mm_frict K = Some m -> exists a, mm_call m (m_id m1) (m_id m2) (Some (frictionAngle m1)) (Some (frictionAngle m2)) = Some a /\ tanPhi (fp p) = tan a).
Proof. exact (ip2_matchmakers K m1 m2 b1 b2 p1 p2 g p). Qed.
Print Assumptions C226_matchmakers.
Example C226_matchmakers_case : exists p, ip2_visco (mkMk (Some (mkMM Aval 7 [])) (Some (mkMM Aval 2 [])) (Some (mkMM Azero 0 []))) (mkMat 0 1 1 0) (mkMat 1 2 1 0) 0 0 (mkPt 1 true) (mkPt 3 true) (pair_geom 0) None = Some p.
Proof. unfold ip2_visco, ip2_common, damping, is0. cbn. destruct (Req_EM_T 0 0) as [_|N]; [|exfalso; apply N; reflexivity]. eexists. reflexivity. Qed.
(** C226. An existing contact stays as it is. *)
Theorem C226_kept K m1 m2 b1 b2 p1 p2 g p : ip2_visco K m1 m2 b1 b2 p1 p2 g (Some p) = Some p.
Proof. exact (ip2_kept K m1 m2 b1 b2 p1 p2 g p). Qed.
Print Assumptions C226_kept.

(** C226. A material without damping counts as one with fraction 0, *)
Theorem C226_mixed K m1 m2 b2 p1 p2 g old : ip2_mixed K m1 m2 b2 p1 p2 g old = ip2_visco K m1 m2 0 b2 p1 p2 g old.
Proof. exact (mixed_is_zero K m1 m2 b2 p1 p2 g old). Qed.
Print Assumptions C226_mixed.

(** C226. and parameters do not depend on the order of bodies, with or without matchmakers. *)
Theorem C226_order K m1 m2 b1 b2 p1 p2 g : ip2_visco K m2 m1 b2 b1 p2 p1 (exchanged g) None = ip2_visco K m1 m2 b1 b2 p1 p2 g None.
Proof. exact (ip2_order K m1 m2 b1 b2 p1 p2 g). Qed.
Print Assumptions C226_order.

(** C227. With positive stiffnesses and radii parameters are numbers, if at least one body has a mass, or exactly one is dynamic, or nothing is damped. *)
Theorem C227_defined_partial m1 m2 b1 b2 p1 p2 g : 0 < young m1 -> 0 < young m2 -> 0 < poisson m1 -> 0 < poisson m2 -> 0 < radius1 g -> 0 < radius2 g -> 0 <= pmass p1 -> 0 <= pmass p2 ->
  (0 < pmass p1 + pmass p2 \/ dynamic p1 <> dynamic p2 \/ (b1 = 0 /\ b2 = 0)) -> exists p, ip2_visco (mkMk None None None) m1 m2 b1 b2 p1 p2 g None = Some p /\ 0 < kn (fp p) /\ 0 < ks (fp p) /\ (0 <= b1 -> 0 <= b2 -> 0 <= cn p).
Proof. exact (ip2_defined m1 m2 b1 b2 p1 p2 g). Qed.
Print Assumptions C227_defined_partial.
Example C227_defined_case : 0 < young (mkMat 0 1 1 0) /\ 0 < poisson (mkMat 0 1 1 0) /\ 0 < radius1 (pair_geom 0) /\ 0 < pmass (mkPt 1 true) + pmass (mkPt 0 false).
Proof. cbn [young poisson pair_geom radius1 pmass]. lra. Qed.
(** C227 is refuted for two bodies without mass, for example a facet and a wall, if they are damped. *)
Theorem C227_defined_refuted : exists K m1 m2 g, ip2_visco K m1 m2 1 1 (mkPt 0 false) (mkPt 0 false) g None = None /\ ip2_visco K m1 m2 1 1 (mkPt 1 false) (mkPt 0 false) g None <> None /\ ip2_visco K m1 m2 0 0 (mkPt 0 false) (mkPt 0 false) g None <> None.
Proof. exact (no_mass_refuted). Qed.
Print Assumptions C227_defined_refuted.

(** C228. Without damping a step is that of the law for frictional contacts: same forces on bodies, same contact, same energies. *)
Theorem C228_same L g p i1 s1 i2 s2 sh sv : cn p = 0 -> radius1 g + radius2 g - penetrationDepth g <> 0 ->
  vlaw L g p i1 s1 i2 s2 sh sv = match law L g (fp p) i1 (pos s1) i2 (pos s2) with None => VErase | Some (q, e) => VKept (mkVP q (cn_crit p) 0 vzero) e end.
Proof. exact (undamped L g p i1 s1 i2 s2 sh sv). Qed.
Print Assumptions C228_same.
Example C228_same_case : cn (phys_of 1 0 1 vzero) = 0 /\ radius1 (pair_geom 1) + radius2 (pair_geom 1) - penetrationDepth (pair_geom 1) <> 0.
Proof. cbn [phys_of cn pair_geom radius1 radius2 penetrationDepth]. lra. Qed.
(** C228. With damping or without, it is erased exactly if bodies are apart, unless it must never be. *)
Theorem C228_erased L g p i1 s1 i2 s2 sh sv : vlaw L g p i1 s1 i2 s2 sh sv = VErase <-> penetrationDepth g < 0 /\ neverErase L = false.
Proof. exact (erases L g p i1 s1 i2 s2 sh sv). Qed.
Print Assumptions C228_erased.

(** C229. The dashpot is parallel to the normal, its force is the coefficient times the velocity times the ratio of radii to distance, it never gives energy to bodies; the normal force is the spring less the dashpot. *)
Theorem C229_dashpot_partial L g p i1 s1 i2 s2 sh sv p' e : plausible g -> 0 <= cn p -> vlaw L g p i1 s1 i2 s2 sh sv = VKept p' e ->
  normalForce (fp p') = vsub (smul (spring g p) (normal g)) (normalViscous p') /\ cross (normal g) (normalViscous p') = vzero /\
  pushes g (normalViscous p') = cn p * (stretch g * leaving g s1 s2 sv) /\ 0 <= pushes g (normalViscous p') * leaving g s1 s2 sv.
Proof. exact (dashpot L g p i1 s1 i2 s2 sh sv p' e). Qed.
Print Assumptions C229_dashpot_partial.
Example C229_dashpot_case : (exists p' e, plausible (pair_geom (1)) /\ vlaw (default_law false) (pair_geom (1)) (phys_of 1 1 1 vzero) 0 (still 0) 1 (moving (2 - 1) (1)) vzero vzero = VKept p' e) /\ 0 <= cn (phys_of 1 1 1 vzero).
Proof. split; [|cbn [phys_of cn]; lra]. destruct (pair_runs false (1) 1 1 1 vzero (1)) as (p' & e & E); [lra|left; lra|]. exists p', e. split; [apply pair_plausible; lra|exact E]. Qed.
(** C229 is refuted: the force is not the coefficient times the velocity as soon as bodies overlap. *)
Theorem C229_coefficient_refuted h v : 0 < h < 2 -> v <> 0 -> exists p' e, vlaw (default_law false) (pair_geom h) (phys_of 1 1 1 vzero) 0 (still 0) 1 (moving (2 - h) v) vzero vzero = VKept p' e /\ pushes (pair_geom h) (normalViscous p') <> 1 * leaving (pair_geom h) (still 0) (moving (2 - h) v) vzero.
Proof. exact (coefficient_refuted h v). Qed.
Print Assumptions C229_coefficient_refuted.
Example C229_coefficient_case : 0 < 1 < 2 /\ 1 <> 0.
Proof. lra. Qed.
(** C229. Stiffnesses, friction and damping stay the same in every step. *)
Theorem C229_parameters_partial L g p i1 s1 i2 s2 sh sv p' e : vlaw L g p i1 s1 i2 s2 sh sv = VKept p' e ->
  kn (fp p') = kn (fp p) /\ ks (fp p') = ks (fp p) /\ tanPhi (fp p') = tanPhi (fp p) /\ cn p' = cn p /\ cn_crit p' = cn_crit p.
Proof. exact (parameters_stay L g p i1 s1 i2 s2 sh sv p' e). Qed.
Print Assumptions C229_parameters_partial.
Example C229_parameters_case : exists p' e, plausible (pair_geom (1)) /\ vlaw (default_law false) (pair_geom (1)) (phys_of 1 1 1 vzero) 0 (still 0) 1 (moving (2 - 1) (1)) vzero vzero = VKept p' e.
Proof. destruct (pair_runs false (1) 1 1 1 vzero (1)) as (p' & e & E); [lra|left; lra|]. exists p', e. split; [apply pair_plausible; lra|exact E]. Qed.
(** C230. The normal force repels bodies if the dashpot is not stronger than the spring, *)
Theorem C230_repels_partial L g p i1 s1 i2 s2 sh sv p' e : plausible g -> vlaw L g p i1 s1 i2 s2 sh sv = VKept p' e -> cn p * (stretch g * leaving g s1 s2 sv) <= spring g p -> 0 <= pushes g (normalForce (fp p')).
Proof. exact (repels L g p i1 s1 i2 s2 sh sv p' e). Qed.
Print Assumptions C230_repels_partial.
Example C230_repels_case : (exists p' e, plausible (pair_geom (1)) /\ vlaw (default_law false) (pair_geom (1)) (phys_of 1 1 1 vzero) 0 (still 0) 1 (moving (2 - 1) (1/4)) vzero vzero = VKept p' e) /\ 1 * (stretch (pair_geom 1) * leaving (pair_geom 1) (still 0) (moving (2 - 1) (1/4)) vzero) <= spring (pair_geom 1) (phys_of 1 1 1 vzero).
Proof. split; [|rewrite pair_leaving, pair_stretch, pair_spring by lra; lra]. destruct (pair_runs false (1) 1 1 1 vzero (1/4)) as (p' & e & E); [lra|left; lra|]. exists p', e. split; [apply pair_plausible; lra|exact E]. Qed.
(** C230. and while bodies approach, at least as strongly as the spring. *)
Theorem C230_approaching_partial L g p i1 s1 i2 s2 sh sv p' e : plausible g -> 0 <= cn p -> 0 <= kn (fp p) -> leaving g s1 s2 sv <= 0 -> vlaw L g p i1 s1 i2 s2 sh sv = VKept p' e -> spring g p <= pushes g (normalForce (fp p')) /\ 0 <= spring g p.
Proof. exact (repels_approaching L g p i1 s1 i2 s2 sh sv p' e). Qed.
Print Assumptions C230_approaching_partial.
Example C230_approaching_case : (exists p' e, plausible (pair_geom (1)) /\ vlaw (default_law false) (pair_geom (1)) (phys_of 1 1 1 vzero) 0 (still 0) 1 (moving (2 - 1) (-1)) vzero vzero = VKept p' e) /\ leaving (pair_geom 1) (still 0) (moving (2 - 1) (-1)) vzero <= 0.
Proof. split; [|rewrite pair_leaving; lra]. destruct (pair_runs false (1) 1 1 1 vzero (-1)) as (p' & e & E); [lra|left; lra|]. exists p', e. split; [apply pair_plausible; lra|exact E]. Qed.
(** C230 is refuted: overlapping bodies which separate fast attract each other. *)
Theorem C230_pulls_refuted : exists p' e, vlaw (default_law false) (pair_geom 1) (phys_of 1 1 1 vzero) 0 (still 0) 1 (moving (2 - 1) 1) vzero vzero = VKept p' e /\ 0 < penetrationDepth (pair_geom 1) /\ pushes (pair_geom 1) (normalForce (fp p')) < 0.
Proof. exact (pulls_refuted). Qed.
Print Assumptions C230_pulls_refuted.

(** C231. Bodies which are apart have no force in a contact kept for ever, if there is no damping or no velocity along the normal. *)
Theorem C231_apart_partial L g p i1 s1 i2 s2 sh sv p' e : penetrationDepth g < 0 -> cn p * leaving g s1 s2 sv = 0 -> vlaw L g p i1 s1 i2 s2 sh sv = VKept p' e -> normalForce (fp p') = vzero /\ shearForce (fp p') = vzero.
Proof. exact (apart L g p i1 s1 i2 s2 sh sv p' e). Qed.
Print Assumptions C231_apart_partial.
Example C231_apart_case : (exists p' e, plausible (pair_geom (-1)) /\ vlaw (default_law true) (pair_geom (-1)) (phys_of 1 0 1 vzero) 0 (still 0) 1 (moving (2 - -1) (1)) vzero vzero = VKept p' e) /\ penetrationDepth (pair_geom (-1)) < 0 /\ cn (phys_of 1 0 1 vzero) = 0.
Proof. split; [|cbn [pair_geom penetrationDepth phys_of cn]; lra]. destruct (pair_runs true (-1) 1 0 1 vzero (1)) as (p' & e & E); [lra|right; reflexivity|]. exists p', e. split; [apply pair_plausible; lra|exact E]. Qed.
(** C231 is refuted with damping: bodies feel each other at a distance. *)
Theorem C231_apart_refuted : exists p' e, vlaw (default_law true) (pair_geom (-2)) (phys_of 1 1 1 vzero) 0 (still 0) 1 (moving (2 - -2) 1) vzero vzero = VKept p' e /\ penetrationDepth (pair_geom (-2)) < 0 /\ pushes (pair_geom (-2)) (normalForce (fp p')) < 0 /\ force_on (added e) 1 <> vzero.
Proof. exact (apart_refuted). Qed.
Print Assumptions C231_apart_refuted.

(** C232. The shear force is the admitted one nearest to the trial force, where friction is relative to the normal force with damping, *)
Theorem C232_friction_partial L g p i1 s1 i2 s2 sh sv p' e : vlaw L g p i1 s1 i2 s2 sh sv = VKept p' e -> nearest (tanPhi (fp p) * tanPhi (fp p)) (normalForce (fp p')) (trial_force g (fp p)) (shearForce (fp p')).
Proof. exact (friction L g p i1 s1 i2 s2 sh sv p' e). Qed.
Print Assumptions C232_friction_partial.
Example C232_friction_case : exists p' e, plausible (pair_geom (1)) /\ vlaw (default_law false) (pair_geom (1)) (phys_of 1 1 1 vzero) 0 (still 0) 1 (moving (2 - 1) (1)) vzero vzero = VKept p' e.
Proof. destruct (pair_runs false (1) 1 1 1 vzero (1)) as (p' & e & E); [lra|left; lra|]. exists p', e. split; [apply pair_plausible; lra|exact E]. Qed.
(** C232. and energy lost by friction is never negative. *)
Theorem C232_work_partial L g p i1 s1 i2 s2 sh sv p' e : 0 < ks (fp p) -> vlaw L g p i1 s1 i2 s2 sh sv = VKept p' e -> 0 <= plasticDissipation e /\ 0 <= plastDissip e.
Proof. exact (plastic_work L g p i1 s1 i2 s2 sh sv p' e). Qed.
Print Assumptions C232_work_partial.
Example C232_work_case : (exists p' e, plausible (pair_geom (1)) /\ vlaw (default_law false) (pair_geom (1)) (phys_of 1 1 1 vzero) 0 (still 0) 1 (moving (2 - 1) (1)) vzero vzero = VKept p' e) /\ 0 < ks (fp (phys_of 1 1 1 vzero)).
Proof. split; [|cbn [phys_of fp ks]; lra]. destruct (pair_runs false (1) 1 1 1 vzero (1)) as (p' & e & E); [lra|left; lra|]. exists p', e. split; [apply pair_plausible; lra|exact E]. Qed.
(** C232 is refuted relative to the spring: there is shear force without any elastic force. *)
Theorem C232_friction_refuted : exists p' e, vlaw (default_law false) (pair_geom 0) (phys_of 1 1 1 (V 0 1 0)) 0 (still 0) 1 (moving (2 - 0) (-1)) vzero vzero = VKept p' e /\ spring (pair_geom 0) (phys_of 1 1 1 (V 0 1 0)) = 0 /\ shearForce (fp p') = V 0 1 0.
Proof. exact (friction_refuted). Qed.
Print Assumptions C232_friction_refuted.

(** C233. The elastic energy of contacts is that stored in springs, if there is no damping or no velocity along the normal. *)
Theorem C233_energy_partial L g p i1 s1 i2 s2 sh sv p' e : plausible g -> kn (fp p) <> 0 -> cn p * leaving g s1 s2 sv = 0 -> trackEnergy L = true -> vlaw L g p i1 s1 i2 s2 sh sv = VKept p' e -> elastPotential e = stored g p' /\ elasticEnergy [p'] = stored g p'.
Proof. exact (energy_stored L g p i1 s1 i2 s2 sh sv p' e). Qed.
Print Assumptions C233_energy_partial.
Example C233_energy_case : (exists p' e, plausible (pair_geom (1)) /\ vlaw (default_law false) (pair_geom (1)) (phys_of 1 1 1 vzero) 0 (still 0) 1 (moving (2 - 1) (0)) vzero vzero = VKept p' e) /\ cn (phys_of 1 1 1 vzero) * leaving (pair_geom 1) (still 0) (moving (2 - 1) 0) vzero = 0.
Proof. split; [|rewrite pair_leaving; ring]. destruct (pair_runs false (1) 1 1 1 vzero (0)) as (p' & e & E); [lra|left; lra|]. exists p', e. split; [apply pair_plausible; lra|exact E]. Qed.
(** C233 is refuted: with damping there is elastic energy without overlap. *)
Theorem C233_energy_refuted : exists p' e, vlaw (default_law false) (pair_geom 0) (phys_of 1 1 1 vzero) 0 (still 0) 1 (moving (2 - 0) 1) vzero vzero = VKept p' e /\ elastPotential e = 1/2 /\ elasticEnergy [p'] = 1/2 /\ stored (pair_geom 0) p' = 0.
Proof. exact (energy_refuted). Qed.
Print Assumptions C233_energy_refuted.

(** C233. The energy of all contacts is the sum of those of each. *)
Theorem C233_sum_partial p l : elasticEnergy [] = 0 /\ elasticEnergy (p :: l) = elasticEnergy [p] + elasticEnergy l.
Proof. exact (energy_sum p l). Qed.
Print Assumptions C233_sum_partial.

(** C234. Forces on both bodies are opposite, and their moments about any point are balanced, with damping too. *)
Theorem C234_balance L g p i1 s1 i2 s2 q2 sh sv p' e o r1 r2 : vlaw L g p i1 s1 i2 s2 sh sv = VKept p' e -> touching r1 r2 (pos s1) q2 g -> (periodic L = false -> q2 = pos s2) ->
  exists f t1 t2, added e = [(i1, (f, t1)); (i2, (vopp f, t2))] /\ vadd (moment o (pos s1) f t1) (moment o q2 (vopp f) t2) = vzero.
Proof. exact (balance L g p i1 s1 i2 s2 q2 sh sv p' e o r1 r2). Qed.
Print Assumptions C234_balance.
Example C234_balance_case : (exists p' e, plausible (pair_geom (1)) /\ vlaw (default_law false) (pair_geom (1)) (phys_of 1 1 1 vzero) 0 (still 0) 1 (moving (2 - 1) (1)) vzero vzero = VKept p' e) /\ touching 1 1 (pos (still 0)) (pos (moving (2 - 1) 1)) (pair_geom 1).
Proof. split; [|unfold touching; cbn [still moving pos pair_geom normal penetrationDepth contactPoint radius1 radius2]; split; [vring|split; [unfold vadd, smul; cbn [vx vy vz]; f_equal; lra|split; [lra|split; [unfold vadd, smul; cbn [vx vy vz]; f_equal; lra|split; [unfold vsub, smul; cbn [vx vy vz]; f_equal; lra|split; reflexivity]]]]]]. destruct (pair_runs false (1) 1 1 1 vzero (1)) as (p' & e & E); [lra|left; lra|]. exists p', e. split; [apply pair_plausible; lra|exact E]. Qed.
