From Coq Require Import Reals List ZArith Bool Lra Lia.
From Verif Require Import Vec_Model Vec_Proofs Rigid_Model Rigid_Spec Law_Model Law_Spec Law_Proofs Law_Proofs2 Fvis_Model Fvis_Spec.
Import ListNotations.
Local Open Scope R_scope.

(** ** coefficients *)
Lemma is0_spec x : is0 x = true <-> x = 0.
Proof. unfold is0. destruct (Req_EM_T x 0); split; intros; congruence. Qed.
Lemma is0_false x : is0 x = false <-> x <> 0.
Proof. unfold is0. destruct (Req_EM_T x 0); split; intros; congruence. Qed.
Lemma mbar_spec a b m : mbar a b = Some m -> reduced a b m.
Proof.
  unfold mbar, reduced. destruct (dynamic a), (dynamic b); cbn [negb andb]; try (intros E; injection E as <-; reflexivity); destruct (Req_EM_T (pmass a + pmass b) 0) as [Z|Z]; try discriminate; intros E; injection E as <-; (split; [exact Z|field; exact Z]).
Qed.
Lemma mbar_comm a b : mbar a b = mbar b a.
Proof.
  unfold mbar. destruct (dynamic a), (dynamic b); cbn [negb andb]; try reflexivity; rewrite (Rplus_comm (pmass b)), (Rmult_comm (pmass b)); reflexivity.
Qed.
Lemma root_spec x q : root x = Some q -> 0 <= q /\ q * q = x.
Proof. unfold root. destruct (Rlt_dec x 0); [discriminate|]. intros E. injection E as <-. split; [apply sqrt_pos|apply sqrt_def; lra]. Qed.
Lemma damping_spec Kn b1 b2 p1 p2 cc c : damping Kn b1 b2 p1 p2 = Some (cc, c) ->
  (b1 = 0 /\ b2 = 0 /\ cc = None /\ c = 0) \/ ((b1 <> 0 \/ b2 <> 0) /\ exists m crit x, reduced p1 p2 m /\ cc = Some crit /\ 0 <= crit /\ crit * crit = 4 * m * Kn /\ fraction b1 b2 x /\ c = crit * x).
Proof.
  unfold damping. destruct (is0 b1) eqn:Z1, (is0 b2) eqn:Z2; cbn [negb orb andb]; try rewrite is0_spec in Z1; try rewrite is0_spec in Z2; try rewrite is0_false in Z1; try rewrite is0_false in Z2.
  1:{ intros E. injection E as <- <-. left. do 3 (split; [first [assumption|reflexivity]|]). reflexivity. }
  all: destruct (mbar p1 p2) as [m|] eqn:M; [|discriminate]; destruct (root (m * Kn)) as [q|] eqn:Q; [|discriminate]; intros E; injection E as <- <-; apply mbar_spec in M; apply root_spec in Q as (Q0 & Q1); right; (split; [tauto|]); exists m, (2 * q); eexists; (split; [exact M|]); (split; [reflexivity|]); (split; [lra|]); (split; [replace (2 * q * (2 * q)) with (4 * (q * q)) by ring; rewrite Q1; ring|]); (split; [|reflexivity]); unfold fraction; tauto.
Qed.
Lemma ip2_visco_new K m1 m2 b1 b2 p1 p2 g p : ip2_visco K m1 m2 b1 b2 p1 p2 g None = Some p ->
  normalForce (fp p) = vzero /\ shearForce (fp p) = vzero /\ normalViscous p = vzero /\
  ((b1 = 0 /\ b2 = 0 /\ cn p = 0) \/ ((b1 <> 0 \/ b2 <> 0) /\ exists m crit x, reduced p1 p2 m /\ cn_crit p = Some crit /\ 0 <= crit /\ crit * crit = 4 * m * kn (fp p) /\ fraction b1 b2 x /\ cn p = crit * x)).
Proof.
  unfold ip2_visco, ip2_common. cbv zeta. destruct (normal_stiffness _ _ _ _ _) as [Kn|]; [|discriminate]. destruct (shear_stiffness _ _ _ _ _ _) as [Ks|]; [|discriminate]. destruct (friction_angle _ _ _) as [phi|]; [|discriminate]. destruct (damping Kn b1 b2 p1 p2) as [(cc, c)|] eqn:D; [|discriminate].
  intros E. injection E as <-. cbn [fp normalForce shearForce normalViscous cn cn_crit kn]. do 3 (split; [reflexivity|]). destruct (damping_spec _ _ _ _ _ _ _ D) as [(A & B & _ & C)|H]; [left; auto|right; exact H].
Qed.
Lemma mixed_is_zero K m1 m2 b2 p1 p2 g old : ip2_mixed K m1 m2 b2 p1 p2 g old = ip2_visco K m1 m2 0 b2 p1 p2 g old.
Proof.
  unfold ip2_mixed, ip2_visco. destruct old; [reflexivity|]. unfold ip2_common. cbv zeta. destruct (normal_stiffness _ _ _ _ _) as [Kn|]; [|reflexivity]. assert (D : damping_mixed Kn b2 p1 p2 = damping Kn 0 b2 p1 p2); [|rewrite D; reflexivity].
  unfold damping_mixed, damping. assert (Z : is0 0 = true) by (apply is0_spec; reflexivity). rewrite Z. cbn [negb orb andb]. destruct (is0 b2); cbn [negb]; [reflexivity|]. reflexivity.
Qed.
Lemma mm_comm m i j v w : mm_call m i j v w = mm_call m j i w v.
Proof. unfold mm_call. rewrite (Z.min_comm j i), (Z.max_comm j i). destruct (find_pair _ _); [reflexivity|]. destruct v, w; try reflexivity. apply fallback_comm. Qed.
Lemma damping_comm Kn b1 b2 p1 p2 : damping Kn b2 b1 p2 p1 = damping Kn b1 b2 p1 p2.
Proof.
  unfold damping. rewrite (mbar_comm p2 p1). rewrite (orb_comm (negb (is0 b2))), (andb_comm (negb (is0 b2))), (Rplus_comm b2 b1). destruct (is0 b1) eqn:Z1, (is0 b2) eqn:Z2; cbn [negb orb andb]; try reflexivity.
Qed.
Lemma ip2_order K m1 m2 b1 b2 p1 p2 g : ip2_visco K m2 m1 b2 b1 p2 p1 (exchanged g) None = ip2_visco K m1 m2 b1 b2 p1 p2 g None.
Proof.
  unfold ip2_visco, ip2_common. cbv zeta. cbn [exchanged radius1 radius2].
  set (Ra := if Rlt_dec 0 (radius1 g) then radius1 g else radius2 g). set (Rb := if Rlt_dec 0 (radius2 g) then radius2 g else radius1 g).
  assert (N : normal_stiffness (mm_kn K) m2 m1 Rb Ra = normal_stiffness (mm_kn K) m1 m2 Ra Rb).
  { unfold normal_stiffness. destruct (mm_kn K); [apply mm_comm|]. cbv zeta. rewrite (Rplus_comm (young m2 * Rb)). destruct (Req_EM_T _ 0); [reflexivity|]. f_equal. unfold Rdiv. ring. }
  rewrite N. clear N. destruct (normal_stiffness (mm_kn K) m1 m2 Ra Rb) as [Kn|]; [|reflexivity].
  assert (S : shear_stiffness (mm_kRatio K) m2 m1 Rb Ra Kn = shear_stiffness (mm_kRatio K) m1 m2 Ra Rb Kn).
  { unfold shear_stiffness. destruct (mm_kRatio K); [rewrite mm_comm; reflexivity|]. cbv zeta. rewrite (Rplus_comm (young m2 * Rb * poisson m2)). destruct (Req_EM_T _ 0); [reflexivity|]. f_equal. unfold Rdiv. ring. }
  assert (F : friction_angle (mm_frict K) m2 m1 = friction_angle (mm_frict K) m1 m2).
  { unfold friction_angle. destruct (mm_frict K); [apply mm_comm|]. rewrite Rmin_comm. reflexivity. }
  rewrite S, F, damping_comm. reflexivity.
Qed.
Lemma no_mass_refuted : exists K m1 m2 g, ip2_visco K m1 m2 1 1 (mkPt 0 false) (mkPt 0 false) g None = None /\ ip2_visco K m1 m2 1 1 (mkPt 1 false) (mkPt 0 false) g None <> None /\ ip2_visco K m1 m2 0 0 (mkPt 0 false) (mkPt 0 false) g None <> None.
Proof.
  exists (mkMk None None None), (mkMat 0 1 1 0), (mkMat 0 1 1 0), (pair_geom 0). unfold ip2_visco, ip2_common, normal_stiffness, shear_stiffness, friction_angle. cbn [mm_kn mm_kRatio mm_frict young poisson frictionAngle pair_geom radius1 radius2]. cbv zeta.
  destruct (Rlt_dec 0 1) as [_|N]; [|exfalso; lra]. destruct (Req_EM_T (1 * 1 + 1 * 1) 0) as [Z|_]; [exfalso; lra|]. destruct (Req_EM_T (1 * 1 * 1 + 1 * 1 * 1) 0) as [Z|_]; [exfalso; lra|].
  unfold damping. assert (I1 : is0 1 = false) by (apply is0_false; lra). assert (I0 : is0 0 = true) by (apply is0_spec; reflexivity). rewrite I1, I0. unfold mbar. cbn [negb orb andb dynamic pmass].
  destruct (Req_EM_T (0 + 0) 0) as [_|N]; [|exfalso; lra]. destruct (Req_EM_T (1 + 0) 0) as [Z|_]; [exfalso; lra|]. split; [reflexivity|]. split; [|discriminate]. unfold root. destruct (Rlt_dec _ 0) as [Z|_]; [|discriminate]. exfalso.
  assert (0 <= 1 * 0 / (1 + 0) * (2 * (1 * 1) * (1 * 1) / (1 * 1 + 1 * 1))) by (rewrite Rmult_0_r; unfold Rdiv; rewrite !Rmult_0_l; lra). lra.
Qed.

Lemma ip2_springs K m1 m2 b1 b2 p1 p2 g p : ip2_visco K m1 m2 b1 b2 p1 p2 g None = Some p -> mm_kn K = None -> mm_kRatio K = None -> mm_frict K = None ->
  exists ra rb, radius_or (radius1 g) (radius2 g) ra /\ radius_or (radius2 g) (radius1 g) rb /\
    in_series (young m1 * ra) (young m2 * rb) (kn (fp p)) /\ in_series (young m1 * ra * poisson m1) (young m2 * rb * poisson m2) (ks (fp p)) /\ tanPhi (fp p) = tan (Rmin (frictionAngle m1) (frictionAngle m2)).
Proof.
  intros E A B C. unfold ip2_visco, ip2_common in E. cbv zeta in E. rewrite A, B, C in E. unfold normal_stiffness, shear_stiffness, friction_angle in E. cbv zeta in E.
  assert (HA : radius_or (radius1 g) (radius2 g) (if Rlt_dec 0 (radius1 g) then radius1 g else radius2 g)) by (unfold radius_or; destruct (Rlt_dec 0 (radius1 g)); [left|right]; split; try reflexivity; lra).
  assert (HB : radius_or (radius2 g) (radius1 g) (if Rlt_dec 0 (radius2 g) then radius2 g else radius1 g)) by (unfold radius_or; destruct (Rlt_dec 0 (radius2 g)); [left|right]; split; try reflexivity; lra).
  remember (if Rlt_dec 0 (radius1 g) then radius1 g else radius2 g) as ra. remember (if Rlt_dec 0 (radius2 g) then radius2 g else radius1 g) as rb.
  destruct (Req_EM_T (young m1 * ra + young m2 * rb) 0) as [Z|Z]; [discriminate|]. destruct (Req_EM_T (young m1 * ra * poisson m1 + young m2 * rb * poisson m2) 0) as [Y|Y]; [discriminate|].
  destruct (damping _ b1 b2 p1 p2) as [(cc, c)|]; [|discriminate]. injection E as <-. exists ra, rb. split; [exact HA|]. split; [exact HB|]. cbn [fp kn ks tanPhi]. unfold in_series. split; [field; exact Z|]. split; [field; exact Y|reflexivity].
Qed.
Lemma ip2_kept K m1 m2 b1 b2 p1 p2 g p : ip2_visco K m1 m2 b1 b2 p1 p2 g (Some p) = Some p.
Proof. reflexivity. Qed.
Lemma series_pos a b : 0 < a -> 0 < b -> 0 < 2 * a * b / (a + b).
Proof. intros. apply Rdiv_lt_0_compat; [apply Rmult_lt_0_compat|]; lra. Qed.
Lemma ip2_defined m1 m2 b1 b2 p1 p2 g : 0 < young m1 -> 0 < young m2 -> 0 < poisson m1 -> 0 < poisson m2 -> 0 < radius1 g -> 0 < radius2 g -> 0 <= pmass p1 -> 0 <= pmass p2 ->
  (0 < pmass p1 + pmass p2 \/ dynamic p1 <> dynamic p2 \/ (b1 = 0 /\ b2 = 0)) -> exists p, ip2_visco (mkMk None None None) m1 m2 b1 b2 p1 p2 g None = Some p /\ 0 < kn (fp p) /\ 0 < ks (fp p) /\ (0 <= b1 -> 0 <= b2 -> 0 <= cn p).
Proof.
  intros Y1 Y2 N1 N2 R1 R2 M1 M2 H. unfold ip2_visco, ip2_common, normal_stiffness, shear_stiffness, friction_angle. cbn [mm_kn mm_kRatio mm_frict]. cbv zeta.
  destruct (Rlt_dec 0 (radius1 g)) as [_|]; [|contradiction]. destruct (Rlt_dec 0 (radius2 g)) as [_|]; [|contradiction].
  assert (A : 0 < young m1 * radius1 g) by (apply Rmult_lt_0_compat; lra). assert (B : 0 < young m2 * radius2 g) by (apply Rmult_lt_0_compat; lra).
  assert (A' : 0 < young m1 * radius1 g * poisson m1) by (apply Rmult_lt_0_compat; lra). assert (B' : 0 < young m2 * radius2 g * poisson m2) by (apply Rmult_lt_0_compat; lra).
  destruct (Req_EM_T _ 0) as [Z|_]; [exfalso; lra|]. destruct (Req_EM_T _ 0) as [Z|_]; [exfalso; lra|].
  pose proof (series_pos _ _ A B) as KP. pose proof (series_pos _ _ A' B') as KP'. remember (2 * (young m1 * radius1 g) * (young m2 * radius2 g) / (young m1 * radius1 g + young m2 * radius2 g)) as Kn.
  assert (D : exists cc c, damping Kn b1 b2 p1 p2 = Some (cc, c)).
  { unfold damping. destruct (negb (is0 b1) || negb (is0 b2)) eqn:Q; [|eauto].
    assert (MB : exists m, mbar p1 p2 = Some m /\ 0 <= m).
    { unfold mbar. destruct (dynamic p1) eqn:D1, (dynamic p2) eqn:D2; cbn [negb andb]; eauto; (destruct H as [H|[H|(H1 & H2)]]; [|exfalso; congruence|exfalso; apply is0_spec in H1, H2; rewrite H1, H2 in Q; discriminate]); (destruct (Req_EM_T _ 0) as [Z|Z]; [exfalso; lra|]); eexists; (split; [reflexivity|]); apply Rmult_le_pos; [apply Rmult_le_pos; assumption|left; apply Rinv_0_lt_compat; lra| |]; try (apply Rmult_le_pos; assumption); left; apply Rinv_0_lt_compat; lra. }
    destruct MB as (m & -> & M0). unfold root. assert (0 <= m * Kn) by (apply Rmult_le_pos; lra). destruct (Rlt_dec _ 0); [exfalso; lra|]. eauto. }
  destruct D as (cc & c & D). rewrite D. eexists. split; [reflexivity|]. cbn [fp kn ks cn]. split; [exact KP|]. split; [exact KP'|]. intros P1 P2.
  destruct (damping_spec _ _ _ _ _ _ _ D) as [(_ & _ & _ & ->)|(_ & m & crit & x & _ & _ & C0 & _ & F & ->)]; [lra|]. apply Rmult_le_pos; [exact C0|]. destruct F as [(_ & _ & ->)|[(_ & ->)|(_ & ->)]]; lra.
Qed.

(** ** the law *)
Lemma incident_normal g s1 s2 sh sv : dot (normal g) (getIncidentVel g s1 s2 sh sv true) = stretch g * leaving g s1 s2 sv.
Proof.
  unfold getIncidentVel, stretch, leaving. cbv zeta. generalize ((radius1 g + radius2 g) / (radius1 g + radius2 g - penetrationDepth g)) (radius1 g) (radius2 g) (normal g) (vel s1) (vel s2) (angVel s1) (angVel s2). clear. intros. vring.
Qed.
Definition viscous_force (g : scgeom) (p : vphys) (s1 s2 : rstate) (sv : vec) : vec := smul (cn p * (stretch g * leaving g s1 s2 sv)) (normal g).
Lemma vlaw_inv L g p i1 s1 i2 s2 sh sv p' e : vlaw L g p i1 s1 i2 s2 sh sv = VKept p' e ->
  radius1 g + radius2 g - penetrationDepth g <> 0 /\ (penetrationDepth g < 0 -> neverErase L = true) /\
  normalViscous p' = viscous_force g p s1 s2 sv /\ normalForce (fp p') = smul (spring g p - cn p * (stretch g * leaving g s1 s2 sv)) (normal g) /\
  kn (fp p') = kn (fp p) /\ ks (fp p') = ks (fp p) /\ tanPhi (fp p') = tanPhi (fp p) /\ cn p' = cn p /\ cn_crit p' = cn_crit p /\
  exists d, slip (fp p) (normalForce (fp p')) (trial_force g (fp p)) = (shearForce (fp p'), d) /\
    let f := vsub (vopp (normalForce (fp p'))) (shearForce (fp p')) in
    added e = (if negb (periodic L) && negb (sphericalBodies L) then applyForceAtContactPoint f (contactPoint g) i1 (pos s1) i2 (pos s2)
      else [(i1, (f, smul (radius1 g - 1/2 * penetrationDepth g) (cross (normal g) f)));
            (i2, (vopp f, smul (radius2 g - 1/2 * penetrationDepth g) (cross (normal g) f)))]) /\
    plasticDissipation e = (if traceEnergy L then d else 0) /\ plastDissip e = (if trackEnergy L && negb (traceEnergy L) then Rmax 0 d else 0) /\
    elastPotential e = (if trackEnergy L || traceEnergy L then 1/2 * (norm2 (normalForce (fp p')) / kn (fp p) + norm2 (shearForce (fp p')) / ks (fp p)) else 0).
Proof.
  unfold vlaw. cbv zeta. rewrite incident_normal.
  assert (EV : smul (cn p) (smul (stretch g * leaving g s1 s2 sv) (normal g)) = viscous_force g p s1 s2 sv) by (unfold viscous_force; generalize (stretch g * leaving g s1 s2 sv) (cn p) (normal g); clear; intros; vring).
  rewrite EV. set (a := if Rlt_dec (penetrationDepth g) 0 then true else false). destruct (a && negb (neverErase L)) eqn:AW; [discriminate|]. destruct (Req_EM_T _ 0) as [Z|Z]; [discriminate|].
  assert (Ea : (if a then vzero else shearForce (fp p)) = (if Rlt_dec (penetrationDepth g) 0 then vzero else shearForce (fp p))) by (subst a; destruct (Rlt_dec _ 0); reflexivity). rewrite Ea. fold (trial_force g (fp p)).
  assert (EF : vsub (smul (kn (fp p) * Rmax (penetrationDepth g) 0) (normal g)) (viscous_force g p s1 s2 sv) = smul (spring g p - cn p * (stretch g * leaving g s1 s2 sv)) (normal g)).
  { unfold viscous_force, spring. generalize (kn (fp p) * Rmax (penetrationDepth g) 0) (cn p * (stretch g * leaving g s1 s2 sv)) (normal g). clear. intros. vring. }
  rewrite EF. destruct (slip (fp p) _ (trial_force g (fp p))) as [fs d] eqn:E. intros X. injection X as <- <-. cbn [fp kn ks tanPhi normalForce shearForce cn cn_crit normalViscous added plasticDissipation plastDissip elastPotential].
  split; [exact Z|]. split. { intros H. subst a. destruct (Rlt_dec _ 0); [|contradiction]. cbn [andb] in AW. apply negb_false_iff in AW. exact AW. }
  do 7 (split; [reflexivity|]). exists d. split; [exact E|]. split; [reflexivity|]. split; [reflexivity|]. split; [|reflexivity].
  destruct (trackEnergy L), (traceEnergy L); cbn [orb andb negb]; try reflexivity. destruct (Rlt_dec 0 d); [rewrite Rmax_right by lra; reflexivity|rewrite Rmax_left by lra; reflexivity].
Qed.
(** without damping it is the law of Cundall and Strack *)
Lemma undamped L g p i1 s1 i2 s2 sh sv : cn p = 0 -> radius1 g + radius2 g - penetrationDepth g <> 0 ->
  vlaw L g p i1 s1 i2 s2 sh sv = match law L g (fp p) i1 (pos s1) i2 (pos s2) with None => VErase | Some (q, e) => VKept (mkVP q (cn_crit p) 0 vzero) e end.
Proof.
  intros C Z. unfold vlaw, law. cbv zeta. rewrite incident_normal, C. destruct ((if Rlt_dec (penetrationDepth g) 0 then true else false) && negb (neverErase L)); [reflexivity|]. destruct (Req_EM_T _ 0) as [Z'|_]; [contradiction|].
  assert (V0 : smul 0 (smul (stretch g * leaving g s1 s2 sv) (normal g)) = vzero) by (generalize (stretch g * leaving g s1 s2 sv) (normal g); clear; intros; vring). rewrite V0.
  assert (F0 : forall x, vsub x vzero = x) by (clear; intros; vring). rewrite F0. destruct (slip _ _ _) as [fs d]. reflexivity.
Qed.
Lemma erases L g p i1 s1 i2 s2 sh sv : vlaw L g p i1 s1 i2 s2 sh sv = VErase <-> penetrationDepth g < 0 /\ neverErase L = false.
Proof.
  unfold vlaw. cbv zeta. destruct (Rlt_dec (penetrationDepth g) 0) as [A|A], (neverErase L); cbn [andb negb].
  2: split; auto.
  all: split; [|intros (B & C); try discriminate; contradiction]; destruct (Req_EM_T _ 0); [discriminate|]; destruct (slip _ _ _); discriminate.
Qed.
Lemma stretch_pos g : plausible g -> 0 < stretch g.
Proof. intros (_ & A & B). unfold stretch. apply Rdiv_lt_0_compat; lra. Qed.
Lemma dot_unit g k : plausible g -> dot (normal g) (smul k (normal g)) = k.
Proof. intros (U & _). replace (dot (normal g) (smul k (normal g))) with (k * norm2 (normal g)) by vring. rewrite U. ring. Qed.
(** the dashpot *)
Lemma dashpot L g p i1 s1 i2 s2 sh sv p' e : plausible g -> 0 <= cn p -> vlaw L g p i1 s1 i2 s2 sh sv = VKept p' e ->
  normalForce (fp p') = vsub (smul (spring g p) (normal g)) (normalViscous p') /\ cross (normal g) (normalViscous p') = vzero /\
  pushes g (normalViscous p') = cn p * (stretch g * leaving g s1 s2 sv) /\ 0 <= pushes g (normalViscous p') * leaving g s1 s2 sv.
Proof.
  intros PL C E. destruct (vlaw_inv _ _ _ _ _ _ _ _ _ _ _ E) as (_ & _ & V & F & _). rewrite V, F. unfold viscous_force, pushes. rewrite dot_unit by exact PL. split; [|split; [|split; [reflexivity|]]].
  - generalize (spring g p) (cn p * (stretch g * leaving g s1 s2 sv)) (normal g). clear. intros. vring.
  - generalize (cn p * (stretch g * leaving g s1 s2 sv)) (normal g). clear. intros. vring.
  - pose proof (stretch_pos g PL). replace (cn p * (stretch g * leaving g s1 s2 sv) * leaving g s1 s2 sv) with (cn p * stretch g * Rsqr (leaving g s1 s2 sv)) by (unfold Rsqr; ring). apply Rmult_le_pos; [apply Rmult_le_pos; lra|apply Rle_0_sqr].
Qed.
Lemma repels L g p i1 s1 i2 s2 sh sv p' e : plausible g -> vlaw L g p i1 s1 i2 s2 sh sv = VKept p' e -> cn p * (stretch g * leaving g s1 s2 sv) <= spring g p -> 0 <= pushes g (normalForce (fp p')).
Proof. intros PL E H. destruct (vlaw_inv _ _ _ _ _ _ _ _ _ _ _ E) as (_ & _ & _ & F & _). rewrite F. unfold pushes. rewrite dot_unit by exact PL. lra. Qed.
Lemma repels_approaching L g p i1 s1 i2 s2 sh sv p' e : plausible g -> 0 <= cn p -> 0 <= kn (fp p) -> leaving g s1 s2 sv <= 0 -> vlaw L g p i1 s1 i2 s2 sh sv = VKept p' e -> spring g p <= pushes g (normalForce (fp p')) /\ 0 <= spring g p.
Proof.
  intros PL C K A E. destruct (vlaw_inv _ _ _ _ _ _ _ _ _ _ _ E) as (_ & _ & _ & F & _). rewrite F. unfold pushes. rewrite dot_unit by exact PL. pose proof (stretch_pos g PL) as S. assert (X : 0 <= cn p * stretch g * - leaving g s1 s2 sv) by (apply Rmult_le_pos; [apply Rmult_le_pos|]; lra).
  split; [lra|]. unfold spring. apply Rmult_le_pos; [exact K|apply Rmax_r].
Qed.
Lemma friction L g p i1 s1 i2 s2 sh sv p' e : vlaw L g p i1 s1 i2 s2 sh sv = VKept p' e -> nearest (tanPhi (fp p) * tanPhi (fp p)) (normalForce (fp p')) (trial_force g (fp p)) (shearForce (fp p')).
Proof. intros E. destruct (vlaw_inv _ _ _ _ _ _ _ _ _ _ _ E) as (_ & _ & _ & _ & _ & _ & _ & _ & _ & d & S & _). destruct (slip_spec _ _ _ _ _ S) as (N & _). exact N. Qed.
Lemma apart L g p i1 s1 i2 s2 sh sv p' e : penetrationDepth g < 0 -> cn p * leaving g s1 s2 sv = 0 -> vlaw L g p i1 s1 i2 s2 sh sv = VKept p' e -> normalForce (fp p') = vzero /\ shearForce (fp p') = vzero.
Proof.
  intros A C E. destruct (vlaw_inv _ _ _ _ _ _ _ _ _ _ _ E) as (_ & _ & _ & F & _). assert (Z : normalForce (fp p') = vzero).
  { rewrite F. unfold spring. rewrite Rmax_right by lra. replace (kn (fp p) * 0 - cn p * (stretch g * leaving g s1 s2 sv)) with (- (stretch g * (cn p * leaving g s1 s2 sv))) by ring. rewrite C, Rmult_0_r, Ropp_0. vring. }
  split; [exact Z|]. destruct (friction _ _ _ _ _ _ _ _ _ _ _ E) as (N & _). unfold admitted in N. rewrite Z in N. replace (norm2 vzero) with 0 in N by vring. apply norm2_zero. pose proof (norm2_pos (shearForce (fp p'))). lra.
Qed.
Lemma plastic_work L g p i1 s1 i2 s2 sh sv p' e : 0 < ks (fp p) -> vlaw L g p i1 s1 i2 s2 sh sv = VKept p' e -> 0 <= plasticDissipation e /\ 0 <= plastDissip e.
Proof.
  intros K E. destruct (vlaw_inv _ _ _ _ _ _ _ _ _ _ _ E) as (_ & _ & _ & _ & _ & _ & _ & _ & _ & d & S & _ & P1 & P2 & _). rewrite P1, P2. split; [|destruct (trackEnergy L && _); [apply Rmax_l|lra]].
  destruct (slip_spec _ _ _ _ _ S) as (_ & -> & k & (K0 & K1) & EK). destruct (traceEnergy L); [|lra]. rewrite EK. replace (dot (smul (1 / ks (fp p)) (vsub (trial_force g (fp p)) (smul k (trial_force g (fp p))))) (smul k (trial_force g (fp p)))) with (1 / ks (fp p) * ((1 - k) * k) * norm2 (trial_force g (fp p))) by (generalize (trial_force g (fp p)) (1 / ks (fp p)); clear; intros; vring).
  apply Rmult_le_pos; [apply Rmult_le_pos; [left; apply Rdiv_lt_0_compat; lra|apply Rmult_le_pos; lra]|apply norm2_pos].
Qed.
Lemma energy_stored L g p i1 s1 i2 s2 sh sv p' e : plausible g -> kn (fp p) <> 0 -> cn p * leaving g s1 s2 sv = 0 -> trackEnergy L = true -> vlaw L g p i1 s1 i2 s2 sh sv = VKept p' e -> elastPotential e = stored g p' /\ elasticEnergy [p'] = stored g p'.
Proof.
  intros (U & _) K C T E. destruct (vlaw_inv _ _ _ _ _ _ _ _ _ _ _ E) as (_ & _ & _ & F & K1 & K2 & _ & _ & _ & d & S & _ & _ & _ & EP). rewrite EP, T. cbn [orb]. unfold elasticEnergy. cbn [fold_left]. rewrite K1, K2.
  assert (N : norm2 (normalForce (fp p')) / kn (fp p) = kn (fp p) * Rsqr (Rmax (penetrationDepth g) 0)).
  { rewrite F. replace (spring g p - cn p * (stretch g * leaving g s1 s2 sv)) with (spring g p - stretch g * (cn p * leaving g s1 s2 sv)) by ring. rewrite C, Rmult_0_r, Rminus_0_r, norm2_smul, U. unfold spring, Rsqr. field. exact K. }
  unfold stored. rewrite N, K1, K2. split; ring.
Qed.
Lemma balance L g p i1 s1 i2 s2 q2 sh sv p' e o r1 r2 : vlaw L g p i1 s1 i2 s2 sh sv = VKept p' e -> touching r1 r2 (pos s1) q2 g -> (periodic L = false -> q2 = pos s2) ->
  exists f t1 t2, added e = [(i1, (f, t1)); (i2, (vopp f, t2))] /\ vadd (moment o (pos s1) f t1) (moment o q2 (vopp f) t2) = vzero.
Proof.
  intros E T Q. destruct (vlaw_inv _ _ _ _ _ _ _ _ _ _ _ E) as (_ & _ & _ & _ & _ & _ & _ & _ & _ & d & _ & A & _). cbv zeta in A. clear E. destruct T as (_ & T1 & _ & _ & _ & T2 & T3). destruct (negb (periodic L) && negb (sphericalBodies L)) eqn:B.
  - apply andb_true_iff in B. destruct B as [B _]. apply negb_true_iff in B. rewrite (Q B). unfold applyForceAtContactPoint in A. do 3 eexists. split; [exact A|]. generalize (vsub (vopp (normalForce (fp p'))) (shearForce (fp p'))) (contactPoint g). clear. unfold moment. vring.
  - do 3 eexists. split; [exact A|]. rewrite T1, T2, T3. generalize (vsub (vopp (normalForce (fp p'))) (shearForce (fp p'))) (normal g) (penetrationDepth g). clear. unfold moment. intros. vring. all: try field.
Qed.
(** ** witnesses *)
Lemma pair_plausible h : h < 2 -> plausible (pair_geom h).
Proof. intros H. unfold plausible. cbn [pair_geom normal radius1 radius2 penetrationDepth]. split; [vring|lra]. Qed.
Lemma pair_leaving h v : leaving (pair_geom h) (still 0) (moving (2 - h) v) vzero = v.
Proof. unfold leaving. cbn [pair_geom normal still moving vel]. vring. Qed.
Lemma pair_runs never h k c mu fs v : h < 2 -> (0 <= h \/ never = true) -> exists p' e, vlaw (default_law never) (pair_geom h) (phys_of k c mu fs) 0 (still 0) 1 (moving (2 - h) v) vzero vzero = VKept p' e.
Proof.
  intros H N. destruct (vlaw (default_law never) (pair_geom h) (phys_of k c mu fs) 0 (still 0) 1 (moving (2 - h) v) vzero vzero) as [| |p' e] eqn:E.
  - apply erases in E as (A & B). cbn [pair_geom penetrationDepth] in A. destruct N; [lra|]. cbn [default_law neverErase] in B. congruence.
  - exfalso. unfold vlaw in E. cbv zeta in E. destruct (_ && _); [discriminate|]. destruct (Req_EM_T _ 0) as [Z|Z]; [cbn [pair_geom radius1 radius2 penetrationDepth] in Z; lra|]. destruct (slip _ _ _); discriminate.
  - exists p', e. reflexivity.
Qed.
Lemma pair_stretch h : stretch (pair_geom h) = 2 / (2 - h).
Proof. unfold stretch. cbn [pair_geom radius1 radius2 penetrationDepth]. replace (1 + 1) with 2 by ring. reflexivity. Qed.
Lemma pair_spring h k c mu fs : 0 <= h -> spring (pair_geom h) (phys_of k c mu fs) = k * h.
Proof. intros H. unfold spring. cbn [pair_geom phys_of fp kn penetrationDepth]. rewrite Rmax_left by lra. reflexivity. Qed.
(** the dashpot has the coefficient only at depth 0 *)
Lemma coefficient_refuted h v : 0 < h < 2 -> v <> 0 -> exists p' e, vlaw (default_law false) (pair_geom h) (phys_of 1 1 1 vzero) 0 (still 0) 1 (moving (2 - h) v) vzero vzero = VKept p' e /\ pushes (pair_geom h) (normalViscous p') <> 1 * leaving (pair_geom h) (still 0) (moving (2 - h) v) vzero.
Proof.
  intros H V. destruct (pair_runs false h 1 1 1 vzero v) as (p' & e & E); [lra|left; lra|]. exists p', e. split; [exact E|]. assert (C1 : 0 <= cn (phys_of 1 1 1 vzero)) by (cbn [phys_of cn]; lra). destruct (dashpot _ _ _ _ _ _ _ _ _ _ _ (pair_plausible h ltac:(lra)) C1 E) as (_ & _ & P & _). rewrite P, pair_leaving, pair_stretch. cbn [phys_of cn].
  intros Q. assert (X : v * (h / (2 - h)) = 0) by (replace (v * (h / (2 - h))) with (1 * (2 / (2 - h) * v) - 1 * v) by (field; lra); lra). apply Rmult_integral in X as [X|X]; [contradiction|]. assert (0 < h / (2 - h)) by (apply Rdiv_lt_0_compat; lra). lra.
Qed.
Lemma pulls_refuted : exists p' e, vlaw (default_law false) (pair_geom 1) (phys_of 1 1 1 vzero) 0 (still 0) 1 (moving (2 - 1) 1) vzero vzero = VKept p' e /\ 0 < penetrationDepth (pair_geom 1) /\ pushes (pair_geom 1) (normalForce (fp p')) < 0.
Proof.
  destruct (pair_runs false 1 1 1 1 vzero 1) as (p' & e & E); [lra|left; lra|]. exists p', e. split; [exact E|]. split; [cbn [pair_geom penetrationDepth]; lra|]. destruct (vlaw_inv _ _ _ _ _ _ _ _ _ _ _ E) as (_ & _ & _ & F & _). rewrite F. unfold pushes. rewrite dot_unit by (apply pair_plausible; lra). rewrite pair_spring by lra. rewrite pair_leaving, pair_stretch. cbn [phys_of cn]. lra.
Qed.
Lemma apart_refuted : exists p' e, vlaw (default_law true) (pair_geom (-2)) (phys_of 1 1 1 vzero) 0 (still 0) 1 (moving (2 - -2) 1) vzero vzero = VKept p' e /\ penetrationDepth (pair_geom (-2)) < 0 /\ pushes (pair_geom (-2)) (normalForce (fp p')) < 0 /\ force_on (added e) 1 <> vzero.
Proof.
  destruct (pair_runs true (-2) 1 1 1 vzero 1) as (p' & e & E); [lra|right; reflexivity|]. exists p', e. split; [exact E|]. split; [cbn [pair_geom penetrationDepth]; lra|]. destruct (vlaw_inv _ _ _ _ _ _ _ _ _ _ _ E) as (_ & _ & _ & F & _ & _ & _ & _ & _ & d & S & A & _). 
  assert (FN : normalForce (fp p') = V (-1/2) 0 0).
  { rewrite F, pair_leaving, pair_stretch. unfold spring. cbn [phys_of fp kn cn pair_geom penetrationDepth normal]. rewrite Rmax_right by lra. unfold smul. cbn [vx vy vz]. f_equal; field. }
  split; [rewrite FN; unfold pushes; cbn [pair_geom normal]; unfold dot; cbn [vx vy vz]; lra|].
  assert (TZ : trial_force (pair_geom (-2)) (fp (phys_of 1 1 1 vzero)) = vzero).
  { unfold trial_force. destruct (Rlt_dec _ 0) as [_|N]; [|cbn [pair_geom penetrationDepth] in N; exfalso; lra]. unfold rotate. cbn [pair_geom orthonormal_axis twist_axis shearInc phys_of fp ks]. vring. }
  assert (FS : shearForce (fp p') = vzero) by (destruct (slip_spec _ _ _ _ _ S) as (_ & _ & k & _ & ->); rewrite TZ; vring).
  cbn [default_law periodic sphericalBodies negb andb] in A. cbv zeta in A. rewrite A, FN, FS. unfold force_on. cbn [map vsum fold_right Nat.eqb fst snd]. unfold vadd, vopp, vsub, vzero. cbn [vx vy vz]. intros H. injection H as H _ _. lra.
Qed.
(** friction of an approaching contact is more than friction times the elastic force *)
Lemma friction_refuted : exists p' e, vlaw (default_law false) (pair_geom 0) (phys_of 1 1 1 (V 0 1 0)) 0 (still 0) 1 (moving (2 - 0) (-1)) vzero vzero = VKept p' e /\ spring (pair_geom 0) (phys_of 1 1 1 (V 0 1 0)) = 0 /\ shearForce (fp p') = V 0 1 0.
Proof.
  destruct (pair_runs false 0 1 1 1 (V 0 1 0) (-1)) as (p' & e & E); [lra|left; lra|]. exists p', e. split; [exact E|]. split; [rewrite pair_spring by lra; ring|]. destruct (vlaw_inv _ _ _ _ _ _ _ _ _ _ _ E) as (_ & _ & _ & F & _ & _ & _ & _ & _ & d & S & _).
  assert (FN : normalForce (fp p') = V 1 0 0). { rewrite F, pair_leaving, pair_stretch, pair_spring by lra. cbn [phys_of cn pair_geom normal]. unfold smul. cbn [vx vy vz]. f_equal; field. }
  assert (TZ : trial_force (pair_geom 0) (fp (phys_of 1 1 1 (V 0 1 0))) = V 0 1 0).
  { unfold trial_force. destruct (Rlt_dec _ 0) as [N|_]; [cbn [pair_geom penetrationDepth] in N; exfalso; lra|]. unfold rotate. cbn [pair_geom orthonormal_axis twist_axis shearInc phys_of fp ks shearForce]. vring. }
  rewrite FN, TZ in S. unfold slip in S. cbv zeta in S. destruct (Rlt_dec _ _) as [N|_]; [|injection S as <- _; reflexivity]. exfalso. revert N. cbn [phys_of fp tanPhi]. unfold norm2, dot. cbn [vx vy vz]. lra.
Qed.
Lemma energy_refuted : exists p' e, vlaw (default_law false) (pair_geom 0) (phys_of 1 1 1 vzero) 0 (still 0) 1 (moving (2 - 0) 1) vzero vzero = VKept p' e /\ elastPotential e = 1/2 /\ elasticEnergy [p'] = 1/2 /\ stored (pair_geom 0) p' = 0.
Proof.
  destruct (pair_runs false 0 1 1 1 vzero 1) as (p' & e & E); [lra|left; lra|]. exists p', e. split; [exact E|]. destruct (vlaw_inv _ _ _ _ _ _ _ _ _ _ _ E) as (_ & _ & _ & F & K1 & K2 & _ & _ & _ & d & S & _ & _ & _ & EP).
  assert (FN : normalForce (fp p') = V (-1) 0 0). { rewrite F, pair_leaving, pair_stretch, pair_spring by lra. cbn [phys_of cn pair_geom normal]. unfold smul. cbn [vx vy vz]. f_equal; field. }
  assert (TZ : trial_force (pair_geom 0) (fp (phys_of 1 1 1 vzero)) = vzero).
  { unfold trial_force. destruct (Rlt_dec _ 0); unfold rotate; cbn [pair_geom orthonormal_axis twist_axis shearInc phys_of fp ks shearForce]; vring. }
  assert (FS : shearForce (fp p') = vzero) by (destruct (slip_spec _ _ _ _ _ S) as (_ & _ & k & _ & ->); rewrite TZ; vring).
  unfold elasticEnergy, stored. cbn [fold_left]. rewrite EP, K1, K2, FN, FS. cbn [default_law trackEnergy traceEnergy orb phys_of fp kn ks pair_geom penetrationDepth]. rewrite Rmax_left by lra. unfold norm2, dot, vzero, Rsqr. cbn [vx vy vz]. split; [field|split; field].
Qed.
(** ** further facts *)
Lemma ip2_matchmakers K m1 m2 b1 b2 p1 p2 g p : ip2_visco K m1 m2 b1 b2 p1 p2 g None = Some p ->
  (forall m, mm_kn K = Some m -> mm_call m (m_id m1) (m_id m2) None None = Some (kn (fp p))) /\
  (forall m, mm_kRatio K = Some m -> exists r, mm_call m (m_id m1) (m_id m2) None None = Some r /\ ks (fp p) = r * kn (fp p)) /\
  (forall m, mm_frict K = Some m -> exists a, mm_call m (m_id m1) (m_id m2) (Some (frictionAngle m1)) (Some (frictionAngle m2)) = Some a /\ tanPhi (fp p) = tan a).
Proof.
  unfold ip2_visco, ip2_common. cbv zeta. destruct (normal_stiffness _ _ _ _ _) as [Kn|] eqn:N; [|discriminate]. destruct (shear_stiffness _ _ _ _ _ _) as [Ks|] eqn:S; [|discriminate]. destruct (friction_angle _ _ _) as [phi|] eqn:F; [|discriminate]. destruct (damping Kn b1 b2 p1 p2) as [(cc, c)|]; [|discriminate].
  intros E. injection E as <-. cbn [fp kn ks tanPhi]. split; [|split]; intros m M.
  - unfold normal_stiffness in N. rewrite M in N. exact N.
  - unfold shear_stiffness in S. rewrite M in S. destruct (mm_call m _ _ None None) as [r|]; [|discriminate]. injection S as <-. exists r. split; reflexivity.
  - unfold friction_angle in F. rewrite M in F. exists phi. split; [exact F|reflexivity].
Qed.
Lemma parameters_stay L g p i1 s1 i2 s2 sh sv p' e : vlaw L g p i1 s1 i2 s2 sh sv = VKept p' e ->
  kn (fp p') = kn (fp p) /\ ks (fp p') = ks (fp p) /\ tanPhi (fp p') = tanPhi (fp p) /\ cn p' = cn p /\ cn_crit p' = cn_crit p.
Proof. intros E. destruct (vlaw_inv _ _ _ _ _ _ _ _ _ _ _ E) as (_ & _ & _ & _ & A & B & C & D & F & _). auto. Qed.
Lemma energy_sum p l : elasticEnergy [] = 0 /\ elasticEnergy (p :: l) = elasticEnergy [p] + elasticEnergy l.
Proof.
  split; [reflexivity|]. unfold elasticEnergy. assert (G : forall (f : vphys -> R) l a, fold_left (fun e p => e + f p) l a = a + fold_left (fun e p => e + f p) l 0).
  { intros f l0. induction l0 as [|x l0 IH]; intros a; cbn [fold_left]; [ring|]. rewrite (IH (a + f x)), (IH (0 + f x)). ring. }
  cbn [fold_left]. rewrite (G (fun p => 1/2 * (norm2 (normalForce (fp p)) / kn (fp p) + norm2 (shearForce (fp p)) / ks (fp p)))). reflexivity.
Qed.
