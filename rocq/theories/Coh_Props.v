(** Properties of cohesive contacts: C146-C150. *)
From Coq Require Import Reals List ZArith Bool Sorted.
From Verif Require Import Vec_Model Rigid_Model Law_Model Law_Spec Coh_Model Coh_Spec Coh_Proofs Coh_Proofs2 Coh_Proofs3 Coh_Proofs4.
Import ListNotations.
Local Open Scope R_scope.

(** * C146: action equals reaction *)
Theorem C146_balance : forall k p i1 i2 t s s' a d o at_, go k p i1 i2 t s = Kept s' a d -> at_ i1 = at1 t -> at_ i2 = at2 t ->
  total_force a = vzero /\ total_moment o at_ a = vzero /\ Forall (fun e => fst e = i1 \/ fst e = i2) a.
Proof. exact go_balance. Qed.
Print Assumptions C146_balance.
Theorem C146_forces : forall k p i1 i2 t s s' a d, i1 <> i2 -> go k p i1 i2 t s = Kept s' a d ->
  force_on a i1 = vopp (vadd (cnormal s') (cshear s')) /\ force_on a i2 = vadd (cnormal s') (cshear s').
Proof. exact go_forces. Qed.
Print Assumptions C146_forces.
Theorem C146_torques : forall k p i1 i2 t s s' a d, i1 <> i2 -> go k p i1 i2 t s = Kept s' a d ->
  let m := if momentLaw p && (negb (broken s') || alwaysMoment k) then vadd (ctwist s') (cbending s') else vzero in
  torque_on a i1 = vsub (cross (vsub (contactPoint (cg t)) (at1 t)) (force_on a i1)) m /\
  torque_on a i2 = vadd (cross (vsub (contactPoint (cg t)) (at2 t)) (force_on a i2)) m.
Proof. exact go_torques. Qed.
Print Assumptions C146_torques.
Example C146_case : exists s' a d, go plainc (par 0 false (-1)) 0 1 (stp (-1) 3) (stt true false 2 2) = Kept s' a d.
Proof. destruct broken_kept as (s' & a & d & H & _). eauto. Qed.

(** * C147: forces follow the documented law and never exceed the strength *)
Theorem C147_forces_partial : forall k p i1 i2 t s s' a d, go k p i1 i2 t s = Kept s' a d -> ckn p <> 0 -> shearCreep k = false -> disablesFriction p = false \/ shearAdh s = 0 -> 0 <= shearAdh s ->
  exists Fn, Fn = documented_normal p s (penetrationDepth (cg t)) /\ - Fn <= normalAdh s /\ Fn = ckn p * (penetrationDepth (cg t) - unp s') /\
  (cnormal s' = smul Fn (normal (cg t)) \/ (Fn < 0 /\ documented_strength p s Fn < norm (elastic_shear p s t) /\ cnormal s' = vzero)) /\
  nearest_within (if broken s' && negb (broken s) then friction_strength p Fn else documented_strength p s Fn) (elastic_shear p s t) (cshear s') /\
  (norm (elastic_shear p s t) <= documented_strength p s Fn -> cshear s' = elastic_shear p s t /\ broken s' = broken s /\ cnormal s' = smul Fn (normal (cg t))) /\ 0 <= d.
Proof. exact go_strength. Qed.
Print Assumptions C147_forces_partial.
Theorem C147_moments : forall k p i1 i2 t s s' a d, go k p i1 i2 t s = Kept s' a d ->
  if momentLaw p && (negb (broken s') || alwaysMoment k) then
    (0 <= maxTwistPl p -> nearest_within (maxTwistPl p * norm (cnormal s')) (elastic_twist k p s t) (ctwist s')) /\ (maxTwistPl p < 0 -> ctwist s' = elastic_twist k p s t) /\
    (0 <= maxRollPl p -> nearest_within (maxRollPl p * norm (cnormal s')) (elastic_bending k p s t) (cbending s')) /\ (maxRollPl p < 0 -> cbending s' = elastic_bending k p s t)
  else ctwist s' = ctwist s /\ cbending s' = cbending s /\ length a = 2%nat.
Proof. exact go_moments. Qed.
Print Assumptions C147_moments.
Example C147_case : exists s' a d, go plainc (par 0 false (-1)) 0 1 (stp (-1) 3) (stt true false 2 2) = Kept s' a d /\ ckn (par 0 false (-1)) <> 0 /\ 0 <= shearAdh (stt true false 2 2).
Proof. destruct broken_kept as (s' & a & d & H & _). exists s', a, d. split; [exact H|]. cbn [par stt ckn shearAdh]. split; Lra.lra. Qed.
(** with cohesionDisablesFriction the shear force grows when the bond breaks *)
Theorem C147_amplified_refuted : exists k p i1 i2 t s s' a d, go k p i1 i2 t s = Kept s' a d /\ disablesFriction p = true /\ shearAdh s = 1 /\ elastic_shear p s t = V 2 0 0 /\ cshear s' = V 10 0 0 /\ broken s' = true.
Proof. destruct amplified as (s' & a & d & H & E & F & B). exists plainc, (par 1 true (-1)), 0%nat, 1%nat, (stp 10 2), (stt true false 0 1), s', a, d. repeat split; assumption. Qed.
Print Assumptions C147_amplified_refuted.
(** plastic shear of a bond that is not fragile removes its tension *)
Theorem C147_tension_refuted : exists k p i1 i2 t s s' a d, go k p i1 i2 t s = Kept s' a d /\ cfragile s = false /\ documented_normal p s (penetrationDepth (cg t)) = -1 /\ cnormal s' = vzero /\ normalAdh s' = 2 /\ broken s' = false.
Proof. destruct tension_lost as (s' & a & d & H & E & F & B). exists plainc, (par 0 false (-1)), 0%nat, 1%nat, (stp (-1) 3), (stt false false 2 2), s', a, d. split; [exact H|]. split; [reflexivity|]. split; [exact E|]. split; [exact F|exact B]. Qed.
Print Assumptions C147_tension_refuted.
(** negative strength is documented as elastic, but a compressed contact is lost and friction is reduced *)
Theorem C147_negative_refuted : (forall k p i1 i2 t s, cfragile s = true -> normalAdh s < 0 -> 0 <= ckn p * (penetrationDepth (cg t) - unp s) < - normalAdh s -> exists s', go k p i1 i2 t s = Lost s') /\
  (forall p s Fn, disablesFriction p = false -> shearAdh s < 0 -> max_shear p s Fn = Rmax 0 (Fn * ctan p - Rabs (shearAdh s))).
Proof. split; [exact negative_lost|exact negative_shear]. Qed.
Print Assumptions C147_negative_refuted.
Example C147_negative_case : cfragile (stt true false (-1) (-1)) = true /\ normalAdh (stt true false (-1) (-1)) < 0 /\ 0 <= ckn (par 0 false 0) * (penetrationDepth (cg (stp (1/2) 0)) - unp (stt true false (-1) (-1))) < - normalAdh (stt true false (-1) (-1)).
Proof. cbn [par stp stt geo cfragile normalAdh ckn cg penetrationDepth unp]. repeat split; Lra.lra. Qed.

(** * C148: a broken bond stays broken *)
Theorem C148_history : forall k p i1 i2 s s', history k p i1 i2 s s' -> cfragile s' = cfragile s /\ initCohesion s' = initCohesion s /\ (same_strength s s' \/ has_broken s s').
Proof. exact history_state. Qed.
Print Assumptions C148_history.
Theorem C148_no_tension : forall k p i1 i2 s s1 t s2 a d, history k p i1 i2 s s1 -> broken s = true -> normalAdh s = 0 -> ckn p <> 0 -> go k p i1 i2 t s1 = Kept s2 a d ->
  broken s2 = true /\ exists Fn, 0 <= Fn /\ cnormal s2 = smul Fn (normal (cg t)).
Proof. exact broken_no_tension. Qed.
Print Assumptions C148_no_tension.
Theorem C148_lost_partial : forall k p i1 i2 t s, ckn p <> 0 -> (exists s', go k p i1 i2 t s = Lost s') <->
  normalAdh s < ckn p * (unp s - penetrationDepth (cg t)) /\ (cfragile s = true \/ (0 <= unpMax p /\ unpMax p < - (penetrationDepth (cg t) + normalAdh s / ckn p))).
Proof. exact go_lost. Qed.
Print Assumptions C148_lost_partial.
Example C148_case : history plainc (par 0 false (-1)) 0 1 (stt true true 0 0) (stt true true 0 0) /\ exists s2 a d, go plainc (par 0 false (-1)) 0 1 (stp 1 0) (stt true true 0 0) = Kept s2 a d.
Proof. split; [constructor|]. rewrite go_simple by Lra.lra. destruct (yield _ _ _ _ _ _) as [[[fn fs] br] d]. eauto. Qed.
(** under tension a bond that breaks in shear is kept *)
Theorem C148_kept_refuted : exists k p i1 i2 t s s' a d, go k p i1 i2 t s = Kept s' a d /\ broken s = false /\ broken s' = true /\ documented_normal p s (penetrationDepth (cg t)) = -1.
Proof. destruct broken_kept as (s' & a & d & H & B & E). exists plainc, (par 0 false (-1)), 0%nat, 1%nat, (stp (-1) 3), (stt true false 2 2), s', a, d. split; [exact H|]. split; [reflexivity|]. split; [exact B|exact E]. Qed.
Print Assumptions C148_kept_refuted.
(** with CohesiveFrictionalContactLaw a contact that was lost carries tension again *)
Theorem C148_engine_refuted : exists k p i1 i2 t t' s s1 s2, go k p i1 i2 t s = Lost s1 /\ engine k p i1 i2 t s = Some s1 /\ engine k p i1 i2 t' s1 = Some s2 /\ cnormal s2 = smul (-1) (normal (cg t')).
Proof. destruct engine_keeps as (s1 & s2 & H). exists plainc, (par 0 false (-1)), 0%nat, 1%nat, (stp (-3) 0), (stp (-1) 0), (stt true false 2 2), s1, s2. exact H. Qed.
Print Assumptions C148_engine_refuted.

(** creep with viscosity 0, the default of CohesiveFrictionalContactLaw, gives no numbers *)
Theorem C148_creep_refuted : forall k p i1 i2 t s, shearCreep k = true -> viscosity k = 0 -> (forall s', go k p i1 i2 t s <> Lost s') -> go k p i1 i2 t s = NotNumber.
Proof. exact creep_nan. Qed.
Print Assumptions C148_creep_refuted.

(** * C149: cohesion is assigned when asked for, in one step *)
Theorem C149_flag_partial : forall i l, (0 <= i)%Z -> StronglySorted Z.le (i :: l) -> flags (i :: l) (mkIp true (-1)) = map (Z.eqb i) (i :: l).
Proof. intros i l. exact (flags_first i l). Qed.
Print Assumptions C149_flag_partial.
Theorem C149_off : forall l d, flags l (mkIp false d) = map (fun _ => false) l.
Proof. exact flags_off. Qed.
Print Assumptions C149_off.
(** nothing happens before it is set; once another step came, it can be set again *)
Theorem C149_later : forall l, fold_left (fun f i => tick i f) l (mkIp false (-1)) = mkIp false (-1).
Proof. intros l. exact (ticks_off l (-1)). Qed.
Print Assumptions C149_later.
Theorem C149_reset : forall i l, (0 <= i)%Z -> StronglySorted Z.le (i :: l) -> (exists j, In j l /\ j <> i) -> fold_left (fun f i => tick i f) (i :: l) (mkIp true (-1)) = mkIp false (-1).
Proof. intros i l. exact (ticks_reset i l). Qed.
Print Assumptions C149_reset.
Example C149_case : flags [3; 3; 4; 4]%Z (mkIp true (-1)) = [true; true; false; false].
Proof. reflexivity. Qed.
(** what a call assigns *)
Theorem C149_new : forall c iter f m1 m2 g p s, snd (ip2_go c iter f m1 m2 g None) = Some (p, s) -> exists an sn, strength (nMatch c) m1 m2 normalCohesion = Some an /\ strength (sMatch c) m1 m2 shearCohesion = Some sn /\
  if (onNew c || setNow (fst (ip2_go c iter f m1 m2 g None))) && isCohesive m1 && isCohesive m2
  then broken s = false /\ normalAdh s = an * (Rmin (radius1 g) (radius2 g) * Rmin (radius1 g) (radius2 g)) /\ shearAdh s = sn * (Rmin (radius1 g) (radius2 g) * Rmin (radius1 g) (radius2 g)) /\ cfragile s = mfragile m1 || mfragile m2
  else broken s = true /\ normalAdh s = 0 /\ shearAdh s = 0.
Proof. exact new_cohesion. Qed.
Print Assumptions C149_new.
Theorem C149_weakest : forall c iter f m1 m2 g p s, snd (ip2_go c iter f m1 m2 g None) = Some (p, s) -> nMatch c = None -> sMatch c = None -> onNew c = true -> isCohesive m1 = true -> isCohesive m2 = true ->
  normalAdh s = Rmin (normalCohesion m1) (normalCohesion m2) * (Rmin (radius1 g) (radius2 g) * Rmin (radius1 g) (radius2 g)) /\
  shearAdh s = Rmin (shearCohesion m1) (shearCohesion m2) * (Rmin (radius1 g) (radius2 g) * Rmin (radius1 g) (radius2 g)).
Proof. exact weakest_cohesion. Qed.
Print Assumptions C149_weakest.
Theorem C149_asked : forall c iter f m1 m2 g p s, initCohesion s = true -> forall p' s', snd (ip2_go c iter f m1 m2 g (Some (p, s))) = Some (p', s') -> p' = p /\ initCohesion s' = false /\
  exists an sn, strength (nMatch c) m1 m2 normalCohesion = Some an /\ strength (sMatch c) m1 m2 shearCohesion = Some sn /\
  broken s' = false /\ normalAdh s' = an * (Rmin (radius1 g) (radius2 g) * Rmin (radius1 g) (radius2 g)) /\ shearAdh s' = sn * (Rmin (radius1 g) (radius2 g) * Rmin (radius1 g) (radius2 g)).
Proof. exact asked_cohesion. Qed.
Print Assumptions C149_asked.
Theorem C149_existing : forall c iter f m1 m2 g p s, initCohesion s = false -> forall p' s', snd (ip2_go c iter f m1 m2 g (Some (p, s))) = Some (p', s') -> p' = p /\
  exists an sn, strength (nMatch c) m1 m2 normalCohesion = Some an /\ strength (sMatch c) m1 m2 shearCohesion = Some sn /\
  if setNow (fst (ip2_go c iter f m1 m2 g (Some (p, s)))) && isCohesive m1 && isCohesive m2
  then broken s' = false /\ normalAdh s' = an * (Rmin (radius1 g) (radius2 g) * Rmin (radius1 g) (radius2 g)) /\ shearAdh s' = sn * (Rmin (radius1 g) (radius2 g) * Rmin (radius1 g) (radius2 g)) /\ cfragile s' = mfragile m1 || mfragile m2 /\
       unp s' = unp s /\ cnormal s' = cnormal s /\ cshear s' = cshear s /\ ctwist s' = ctwist s /\ cbending s' = cbending s /\ initCohesion s' = false
  else s' = s.
Proof. exact old_cohesion. Qed.
Print Assumptions C149_existing.
Example C149_existing_case : forall p, exists s', snd (ip2_go noconf 5 (mkIp true (-1)) smooth smooth (geo 0 0) (Some (p, stt true true 0 0))) = Some (p, s') /\ broken s' = false.
Proof. intros p. eexists. split; reflexivity. Qed.
(** asked for again in a later step: nothing is assigned; saved and loaded: assigned once more *)
Theorem C149_again_refuted : forall i j, (0 <= i < j)%Z -> setNow (tick j (user_sets (tick i (user_sets (mkIp false (-1)))))) = false.
Proof. exact set_again_lost. Qed.
Print Assumptions C149_again_refuted.
Theorem C149_saved_refuted : forall i j, setNow (tick j (save_load (tick i (user_sets (mkIp false (-1)))))) = true.
Proof. exact saved_again. Qed.
Print Assumptions C149_saved_refuted.
(** initCohesion makes contacts of any material cohesive *)
Theorem C149_init_refuted : exists c iter f m1 m2 g p s s', ip2_go c iter f m1 m2 g (Some (p, s)) = (f, Some (p, s')) /\ setNow f = false /\ isCohesive m1 = false /\ broken s = true /\ broken s' = false /\ normalAdh s' = 1.
Proof. destruct (init_assigned (par 0 false 0)) as (s' & H & C & B & N). exists noconf, 5%Z, (mkIp false (-1)), loose, loose, (geo 0 0), (par 0 false 0), wanted, s'. split; [exact H|]. split; [reflexivity|]. split; [exact C|]. split; [reflexivity|]. split; [exact B|exact N]. Qed.
Print Assumptions C149_init_refuted.

(** * C150: stiffness does not depend on the order of bodies, energies are numbers that add up *)
Theorem C150_symmetric : forall c now m1 m2 g, create c now m1 m2 g = create c now m2 m1 (exchanged g).
Proof. exact create_comm. Qed.
Print Assumptions C150_symmetric.
Theorem C150_stiffness : forall c now m1 m2 g p s, create c now m1 m2 g = Some (p, s) ->
  let Ka := young (cbase m1) * radius1 g in let Kb := young (cbase m2) * radius2 g in let va := poisson (cbase m1) in let vb := poisson (cbase m2) in
  ckn p = 2 * Ka * Kb / (Ka + Kb) /\ (va <> 0 -> vb <> 0 -> cks p = 2 * (Ka * va) * (Kb * vb) / (Ka * va + Kb * vb)) /\ (va = 0 \/ vb = 0 -> cks p = 0) /\
  (alphaKr m1 <> 0 -> alphaKr m2 <> 0 -> ckr p = radius1 g * radius2 g * cks p * (2 * alphaKr m1 * alphaKr m2 / (alphaKr m1 + alphaKr m2))) /\
  (alphaKtw m1 <> 0 -> alphaKtw m2 <> 0 -> cktw p = radius1 g * radius2 g * cks p * (2 * alphaKtw m1 * alphaKtw m2 / (alphaKtw m1 + alphaKtw m2))) /\
  maxRollPl p = Rmin (etaRoll m1 * radius1 g) (etaRoll m2 * radius2 g) /\ maxTwistPl p = Rmin (etaTwist m1 * radius1 g) (etaTwist m2 * radius2 g) /\ unpMax p = 0 /\ disablesFriction p = false /\ momentLaw p = mmoment m1 && mmoment m2 /\
  (fMatch c = None -> ctan p = tan (Rmin (frictionAngle (cbase m1)) (frictionAngle (cbase m2)))).
Proof. exact created_stiffness. Qed.
Print Assumptions C150_stiffness.
Theorem C150_energy_partial : forall l, totalElastEnergy l = add_opt (add_opt (add_opt (normElastEnergy l) (shearElastEnergy l)) (bendingElastEnergy l)) (twistElastEnergy l) /\
  (Forall (fun x => 0 < ckn (fst x) /\ 0 < cks (fst x) /\ 0 < ckr (fst x) /\ 0 < cktw (fst x)) l -> exists e, totalElastEnergy l = Some e /\ 0 <= e).
Proof. intros l. split; [exact (total_is_sum l)|exact (total_pos l)]. Qed.
Print Assumptions C150_energy_partial.
Theorem C150_value : forall p s, 0 < ckn p -> 0 < cks p -> 0 < ckr p -> 0 < cktw p ->
  totalElastEnergy [(p, s)] = Some (1/2 * (norm2 (cnormal s) / ckn p + norm2 (cshear s) / cks p + norm2 (cbending s) / ckr p + norm2 (ctwist s) / cktw p)).
Proof. exact energy_value. Qed.
Print Assumptions C150_value.
Example C150_case : exists p s, create noconf true smooth smooth (geo 0 0) = Some (p, s) /\ ckn p = 1 /\ cks p = 1.
Proof. destruct smooth_energy as (p & s & E & A & B & _). eauto. Qed.
(** contacts without rolling stiffness: the energy is not a number *)
Theorem C150_energy_refuted : exists c now m1 m2 g p s, create c now m1 m2 g = Some (p, s) /\ ckn p = 1 /\ cks p = 1 /\ totalElastEnergy [(p, s)] = None.
Proof. destruct smooth_energy as (p & s & H). exists noconf, true, smooth, smooth, (geo 0 0), p, s. exact H. Qed.
Print Assumptions C150_energy_refuted.
