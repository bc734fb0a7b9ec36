(** Cohesive contacts: cases in which the law differs from what is documented. *)
From Coq Require Import Reals List ZArith Bool Lra Lia.
From Verif Require Import Vec_Model Vec_Proofs Rigid_Model Rigid_Spec Law_Model Law_Spec Law_Proofs Coh_Model Coh_Spec Coh_Proofs Coh_Proofs2.
Import ListNotations.
Local Open Scope R_scope.

Definition up : vec := V 0 0 1.
(** a contact with overlap [un] that slides by [x] *)
Definition geo (un x : R) : scgeom := mkG up vzero un 1 1 vzero vzero (V (- x) 0 0).
Definition stp (un x : R) : cstep := mkSt 1 true (geo un x) 0 vzero vzero vzero vzero vzero.
Definition plainc : cconf := mkCC false false false 1 false true.
Definition par (tg : R) (dis : bool) (um : R) : cparams := mkCP 1 1 tg dis 0 0 (-1) (-1) um false.
Definition stt (fr br : bool) (an sn : R) : cstate := mkCS fr br an sn 0 false vzero vzero vzero vzero.
Lemma trial_geo tg dis um s un x : trial_shear plainc (par tg dis um) s (stp un x) = Some (V x 0 0).
Proof. unfold trial_shear, plainc, par, stp, geo. cbn [shearCreep andb fresh cks cg shearInc]. f_equal. unfold rotate. cbn [orthonormal_axis twist_axis]. vring. Qed.
Lemma norm_x x : 0 <= x -> norm (V x 0 0) = x.
Proof. intros X. replace (V x 0 0) with (smul x (V 1 0 0)) by vring. rewrite norm_smul by exact X. unfold norm. replace (norm2 (V 1 0 0)) with 1 by vring. rewrite sqrt_1. ring. Qed.
Lemma normal_elastic tg dis um fr br an sn un : - un <= an -> normal_law (par tg dis um) (stt fr br an sn) un = Some (inl (un, 0)).
Proof.
  intros L. unfold normal_law. cbv zeta. cbn [par stt ckn unp normalAdh cfragile]. rewrite (proj2 (ltR_false an (- (1 * (un - 0))))) by lra. rewrite andb_false_r. do 3 f_equal. ring.
Qed.
Lemma normal_tension tg dis um br an sn un : an < - un -> normal_law (par tg dis um) (stt true br an sn) un = Some (inr 0).
Proof. intros L. unfold normal_law. cbv zeta. cbn [par stt ckn unp normalAdh cfragile]. rewrite (proj2 (ltR_true an (- (1 * (un - 0))))) by lra. reflexivity. Qed.
(** [go] without moments, with an elastic normal force *)
Lemma go_simple tg dis um fr br an sn un x : - un <= an -> go plainc (par tg dis um) 0 1 (stp un x) (stt fr br an sn) =
  let '(fn, fs, breaks, d) := yield plainc (par tg dis um) (stt fr br an sn) un up (V x 0 0) in
  Kept (mkCS fr (br || breaks) (if breaks then 0 else an) (if breaks then 0 else sn) 0 false fn fs vzero vzero) (applyForceAtContactPoint (vsub (vopp fn) fs) vzero 0 vzero 1 vzero) d.
Proof.
  intros L. unfold go. change (penetrationDepth (cg (stp un x))) with un. rewrite (normal_elastic tg dis um fr br an sn un L), trial_geo. change (normal (cg (stp un x))) with up. destruct (yield plainc (par tg dis um) (stt fr br an sn) un up (V x 0 0)) as [[[fn fs] breaks] d]. reflexivity.
Qed.

(** the shear force grows beyond the trial force when cohesion without friction breaks *)
Lemma amplified : exists s' a d, go plainc (par 1 true (-1)) 0 1 (stp 10 2) (stt true false 0 1) = Kept s' a d /\ elastic_shear (par 1 true (-1)) (stt true false 0 1) (stp 10 2) = V 2 0 0 /\ cshear s' = V 10 0 0 /\ broken s' = true.
Proof.
  assert (Y : yield plainc (par 1 true (-1)) (stt true false 0 1) 10 up (V 2 0 0) = (smul 10 up, V 10 0 0, true, 0)).
  { unfold yield. cbv zeta. unfold max_shear. cbn [par stt disablesFriction shearAdh cfragile broken ctan cks negb andb orb]. rewrite (proj2 (is0_false 1)) by lra. cbn [orb]. rewrite norm_x by lra. rewrite (Rmax_right 0 1) by lra. rewrite (proj2 (ltR_true 1 2)) by lra. rewrite (Rmax_right 0 (10 * 1)) by lra. rewrite (proj2 (ltR_false 10 0)) by lra.
    replace (smul (10 * 1 / 2) (V 2 0 0)) with (V 10 0 0) by (unfold smul; cbn [vx vy vz]; f_equal; lra). rewrite (proj2 (ltR_false 0 (dot (smul (1 / 1) (vsub (V 2 0 0) (V 10 0 0))) (V 10 0 0)))); [rewrite andb_false_r; reflexivity|]. unfold dot, smul, vsub. cbn [vx vy vz]. lra. }
  rewrite go_simple by lra. rewrite Y. do 3 eexists. split; [reflexivity|]. split; [|split; reflexivity]. pose proof (trial_geo 1 true (-1) (stt true false 0 1) 10 2) as T. rewrite (trial_plain plainc _ _ _ eq_refl) in T. exact (f_equal (fun o => match o with Some v => v | None => vzero end) T).
Qed.
(** plastic shear of a contact that is not fragile loses its tension *)
Lemma tension_lost : exists s' a d, go plainc (par 0 false (-1)) 0 1 (stp (-1) 3) (stt false false 2 2) = Kept s' a d /\ documented_normal (par 0 false (-1)) (stt false false 2 2) (-1) = -1 /\ cnormal s' = vzero /\ normalAdh s' = 2 /\ broken s' = false.
Proof.
  rewrite go_simple by lra. unfold yield. cbv zeta. unfold max_shear. cbn [par stt disablesFriction shearAdh cfragile broken ctan cks negb andb orb]. rewrite norm_x by lra. replace (2 + -1 * 0) with 2 by ring. rewrite (Rmax_right 0 2) by lra. rewrite (proj2 (ltR_true 2 3)) by lra. rewrite (proj2 (ltR_true (-1) 0)) by lra. do 3 eexists. split; [reflexivity|]. cbn [cnormal normalAdh broken orb].
  split; [unfold documented_normal; cbn [par stt ckn unp normalAdh]; rewrite Rmax_left by lra; ring|]. repeat split.
Qed.
(** a contact that breaks in shear under tension is kept *)
Lemma broken_kept : exists s' a d, go plainc (par 0 false (-1)) 0 1 (stp (-1) 3) (stt true false 2 2) = Kept s' a d /\ broken s' = true /\ documented_normal (par 0 false (-1)) (stt true false 2 2) (-1) = -1.
Proof.
  rewrite go_simple by lra. unfold yield. cbv zeta. unfold max_shear. cbn [par stt disablesFriction shearAdh cfragile broken ctan cks negb andb orb]. rewrite norm_x by lra. replace (2 + -1 * 0) with 2 by ring. rewrite (Rmax_right 0 2) by lra. rewrite (proj2 (ltR_true 2 3)) by lra. do 3 eexists. split; [reflexivity|]. cbn [broken orb]. split; [reflexivity|]. unfold documented_normal. cbn [par stt ckn unp normalAdh]. rewrite Rmax_left by lra. ring.
Qed.
(** negative strength is not elastic: a compressed contact is lost *)
Lemma negative_lost k p i1 i2 t s : cfragile s = true -> normalAdh s < 0 -> 0 <= ckn p * (penetrationDepth (cg t) - unp s) < - normalAdh s -> exists s', go k p i1 i2 t s = Lost s'.
Proof. intros F N [L U]. unfold go, normal_law. cbv zeta. rewrite F. rewrite (proj2 (ltR_true _ _)) by lra. eexists. reflexivity. Qed.
Lemma negative_shear p s Fn : disablesFriction p = false -> shearAdh s < 0 -> max_shear p s Fn = Rmax 0 (Fn * ctan p - Rabs (shearAdh s)).
Proof. intros D N. unfold max_shear. rewrite D. cbn [negb orb]. rewrite Rabs_left by exact N. f_equal. ring. Qed.
(** the deprecated engine keeps a contact that was lost, with its cohesion *)
Lemma engine_keeps : exists s1 s2, go plainc (par 0 false (-1)) 0 1 (stp (-3) 0) (stt true false 2 2) = Lost s1 /\ engine plainc (par 0 false (-1)) 0 1 (stp (-3) 0) (stt true false 2 2) = Some s1 /\ engine plainc (par 0 false (-1)) 0 1 (stp (-1) 0) s1 = Some s2 /\ cnormal s2 = smul (-1) up.
Proof.
  assert (L : go plainc (par 0 false (-1)) 0 1 (stp (-3) 0) (stt true false 2 2) = Lost (stt true false 2 2)). { unfold go. change (penetrationDepth (cg (stp (-3) 0))) with (-3). rewrite normal_tension by lra. reflexivity. }
  exists (stt true false 2 2). eexists. split; [exact L|]. split; [unfold engine; rewrite L; reflexivity|]. unfold engine. rewrite go_simple by lra. unfold yield. cbv zeta. unfold max_shear. cbn [par stt disablesFriction shearAdh cfragile broken ctan cks negb andb orb]. rewrite norm_x by lra. replace (2 + -1 * 0) with 2 by ring. rewrite (Rmax_right 0 2) by lra. rewrite (proj2 (ltR_false 2 0)) by lra. split; reflexivity.
Qed.
(** creep without viscosity (the default of the engine) gives no numbers *)
Lemma creep_nan k p i1 i2 t s : shearCreep k = true -> viscosity k = 0 -> (forall s', go k p i1 i2 t s <> Lost s') -> go k p i1 i2 t s = NotNumber.
Proof.
  intros C V0 L. unfold go in *. destruct (normal_law p s (penetrationDepth (cg t))) as [[[Fn u]|u]|]; [|exfalso; exact (L _ eq_refl)|reflexivity]. unfold trial_shear. rewrite C, (proj2 (is0_true _) V0). reflexivity.
Qed.
(** initCohesion makes a contact of materials without cohesion cohesive *)
Definition loose : cmat := mkCM (mkMat 0 1 1 0) false 1 1 (-1) (-1) 1 1 true false.
Definition noconf : ip2conf := mkIC false None None None.
Definition wanted : cstate := mkCS true true 0 0 0 true vzero vzero vzero vzero.
Lemma init_assigned p : exists s', ip2_go noconf 5 (mkIp false (-1)) loose loose (geo 0 0) (Some (p, wanted)) = (mkIp false (-1), Some (p, s')) /\ isCohesive loose = false /\ broken s' = false /\ normalAdh s' = 1.
Proof.
  eexists. split; [reflexivity|]. split; [reflexivity|]. split; [reflexivity|]. cbn [normalAdh make_cohesive]. unfold adhesion. cbn [radius1 radius2 geo loose normalCohesion]. rewrite !Rmin_left by lra. ring.
Qed.
(** materials without rolling stiffness: no elastic energy *)
Definition smooth : cmat := mkCM (mkMat 0 1 1 0) true 0 0 (-1) (-1) 1 1 true false.
Lemma smooth_energy : exists p s, create noconf true smooth smooth (geo 0 0) = Some (p, s) /\ ckn p = 1 /\ cks p = 1 /\ totalElastEnergy [(p, s)] = None.
Proof.
  assert (H : harmonic 1 1 = Some 1) by (unfold harmonic; rewrite (proj2 (is0_false (1 + 1))) by lra; f_equal; lra).
  assert (Z1 : is0 1 = false) by (apply is0_false; lra). assert (Z0 : is0 0 = true) by (apply is0_true; reflexivity).
  assert (E : exists p s, create noconf true smooth smooth (geo 0 0) = Some (p, s) /\ ckn p = 1 /\ cks p = 1 /\ ckr p = 0).
  { unfold create, noconf, smooth, geo, strength. cbv zeta. cbn [nMatch sMatch fMatch young poisson cbase radius1 radius2 alphaKr alphaKtw]. unfold harmonic0. rewrite Z0, Z1. cbn [orb]. replace (1 * 1 * 1) with 1 by ring. replace (1 * 1) with 1 by ring. rewrite H. do 2 eexists. split; [reflexivity|]. cbn [ckn cks ckr]. split; [reflexivity|]. split; [reflexivity|]. ring. }
  destruct E as (p & s & E & A & B & C). exists p, s. split; [exact E|]. split; [exact A|]. split; [exact B|]. apply (total_none _ (p, s)); [left; reflexivity|exact C].
Qed.
(** ** what Ip2 assigns *)
Lemma new_cohesion c iter f m1 m2 g p s : snd (ip2_go c iter f m1 m2 g None) = Some (p, s) -> exists an sn, strength (nMatch c) m1 m2 normalCohesion = Some an /\ strength (sMatch c) m1 m2 shearCohesion = Some sn /\
  if (onNew c || setNow (fst (ip2_go c iter f m1 m2 g None))) && isCohesive m1 && isCohesive m2
  then broken s = false /\ normalAdh s = an * (Rmin (radius1 g) (radius2 g) * Rmin (radius1 g) (radius2 g)) /\ shearAdh s = sn * (Rmin (radius1 g) (radius2 g) * Rmin (radius1 g) (radius2 g)) /\ cfragile s = mfragile m1 || mfragile m2
  else broken s = true /\ normalAdh s = 0 /\ shearAdh s = 0.
Proof.
  unfold ip2_go. cbv zeta. cbn [fst snd]. intros H. destruct (create_some _ _ _ _ _ _ _ H) as (an & sn & A & B & -> & _). exists an, sn. split; [exact A|]. split; [exact B|]. destruct ((onNew c || setNow (tick iter f)) && isCohesive m1 && isCohesive m2); [|repeat split].
  unfold make_cohesive, adhesion. cbn [broken normalAdh shearAdh cfragile]. rewrite (Rmin_comm (radius2 g)). repeat split.
Qed.
Lemma old_cohesion c iter f m1 m2 g p s : initCohesion s = false -> forall p' s', snd (ip2_go c iter f m1 m2 g (Some (p, s))) = Some (p', s') -> p' = p /\
  exists an sn, strength (nMatch c) m1 m2 normalCohesion = Some an /\ strength (sMatch c) m1 m2 shearCohesion = Some sn /\
  if setNow (fst (ip2_go c iter f m1 m2 g (Some (p, s)))) && isCohesive m1 && isCohesive m2
  then broken s' = false /\ normalAdh s' = an * (Rmin (radius1 g) (radius2 g) * Rmin (radius1 g) (radius2 g)) /\ shearAdh s' = sn * (Rmin (radius1 g) (radius2 g) * Rmin (radius1 g) (radius2 g)) /\ cfragile s' = mfragile m1 || mfragile m2 /\
       unp s' = unp s /\ cnormal s' = cnormal s /\ cshear s' = cshear s /\ ctwist s' = ctwist s /\ cbending s' = cbending s /\ initCohesion s' = false
  else s' = s.
Proof.
  intros I p' s'. unfold ip2_go. cbv zeta. cbn [fst snd]. unfold update. rewrite I, orb_false_r. destruct (strength (nMatch c) m1 m2 normalCohesion) as [an|]; [|discriminate]. destruct (strength (sMatch c) m1 m2 shearCohesion) as [sn|]; [|discriminate].
  destruct (setNow (tick iter f) && isCohesive m1 && isCohesive m2); intros H; injection H as <- <-; (split; [reflexivity|]); exists an, sn; (split; [reflexivity|]); (split; [reflexivity|]); [|reflexivity]. unfold make_cohesive, adhesion. cbn [broken normalAdh shearAdh cfragile unp cnormal cshear ctwist cbending initCohesion]. rewrite (Rmin_comm (radius2 g)). repeat split.
Qed.
Lemma harmonic_some x y v : harmonic x y = Some v -> v = 2 * x * y / (x + y).
Proof. unfold harmonic. destruct (is0 (x + y)); [discriminate|]. intros H. injection H as <-. reflexivity. Qed.
Lemma harmonic0_some a b x y v : harmonic0 a b x y = Some v -> (a <> 0 -> b <> 0 -> v = 2 * x * y / (x + y)) /\ (a = 0 \/ b = 0 -> v = 0).
Proof.
  unfold harmonic0. destruct (is0 a) eqn:A; cbn [orb]; cmp.
  - intros H. injection H as <-. split; [contradiction|reflexivity].
  - destruct (is0 b) eqn:B; cmp; intros H.
    + injection H as <-. split; [contradiction|reflexivity].
    + split; [intros _ _; exact (harmonic_some _ _ _ H)|]. intros [Z|Z]; contradiction.
Qed.
Lemma created_stiffness c now m1 m2 g p s : create c now m1 m2 g = Some (p, s) ->
  let Ka := young (cbase m1) * radius1 g in let Kb := young (cbase m2) * radius2 g in let va := poisson (cbase m1) in let vb := poisson (cbase m2) in
  ckn p = 2 * Ka * Kb / (Ka + Kb) /\ (va <> 0 -> vb <> 0 -> cks p = 2 * (Ka * va) * (Kb * vb) / (Ka * va + Kb * vb)) /\ (va = 0 \/ vb = 0 -> cks p = 0) /\
  (alphaKr m1 <> 0 -> alphaKr m2 <> 0 -> ckr p = radius1 g * radius2 g * cks p * (2 * alphaKr m1 * alphaKr m2 / (alphaKr m1 + alphaKr m2))) /\
  (alphaKtw m1 <> 0 -> alphaKtw m2 <> 0 -> cktw p = radius1 g * radius2 g * cks p * (2 * alphaKtw m1 * alphaKtw m2 / (alphaKtw m1 + alphaKtw m2))) /\
  maxRollPl p = Rmin (etaRoll m1 * radius1 g) (etaRoll m2 * radius2 g) /\ maxTwistPl p = Rmin (etaTwist m1 * radius1 g) (etaTwist m2 * radius2 g) /\ unpMax p = 0 /\ disablesFriction p = false /\ momentLaw p = mmoment m1 && mmoment m2 /\
  (fMatch c = None -> ctan p = tan (Rmin (frictionAngle (cbase m1)) (frictionAngle (cbase m2)))).
Proof.
  intros H. cbv zeta. destruct (create_some _ _ _ _ _ _ _ H) as (an & sn & _ & _ & _ & N & U & D & M & S1 & (ar & R1 & R2) & (at_ & T1 & T2) & X1 & X2 & F). apply harmonic_some in N. apply harmonic0_some in S1 as [S1 S2]. apply harmonic0_some in R1 as [R1 _]. apply harmonic0_some in T1 as [T1 _].
  split; [exact N|]. split; [exact S1|]. split; [exact S2|]. split; [intros A B; rewrite R2, (R1 A B); reflexivity|]. split; [intros A B; rewrite T2, (T1 A B); reflexivity|]. auto 10.
Qed.
Lemma energy_value p s : 0 < ckn p -> 0 < cks p -> 0 < ckr p -> 0 < cktw p ->
  totalElastEnergy [(p, s)] = Some (1/2 * (norm2 (cnormal s) / ckn p + norm2 (cshear s) / cks p + norm2 (cbending s) / ckr p + norm2 (ctwist s) / cktw p)).
Proof.
  intros A B C D. unfold totalElastEnergy, sum_of. cbn [fold_left fst snd]. unfold part. rewrite !(fun x H => proj2 (is0_false x) H) by lra. cbn [add_opt]. f_equal. lra.
Qed.
