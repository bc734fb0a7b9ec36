From Coq Require Import Reals List ZArith Bool Lra Lia.
From Verif Require Import Vec_Model Vec_Proofs Rigid_Model Rigid_Spec Law_Model Law_Spec Law_Proofs Pred_Proofs Mort_Model Mort_Spec.
Import ListNotations.
Local Open Scope R_scope.

(** ** C246 *)
Lemma minRad_sym r1 r2 : 0 < r1 \/ 0 < r2 -> minRad r1 r2 = minRad r2 r1.
Proof. intros H. unfold minRad. destruct (Rle_dec r1 0), (Rle_dec r2 0); [exfalso; lra|reflexivity|reflexivity|apply Rmin_comm]. Qed.
Lemma strengths_sym m1 m2 kn ks A : (mmid m1 = mmid m2 -> (0 <= mmid m1)%Z -> m1 = m2) -> strengths m1 m2 kn ks A = strengths m2 m1 kn ks A.
Proof.
  intros U. destruct (Z.eq_dec (mmid m1) (mmid m2)) as [E|E].
  - destruct (Z_le_dec 0 (mmid m1)) as [L|L]; [rewrite (U E L); reflexivity|]. unfold strengths. rewrite <- E. destruct (Z.leb_spec 0 (mmid m1)); [lia|]. cbn [andb]. rewrite (Rmin_comm (tensile m1)), (Rmin_comm (compressive m1)), (Rmin_comm (cohesive m1)), (Rplus_comm (mangle m1)), (Rplus_comm (aspect m1)), (orb_comm (never m1)). reflexivity.
  - unfold strengths. rewrite (Z.eqb_sym (mmid m2)). destruct (Z.eqb_spec (mmid m1) (mmid m2)); [contradiction|]. rewrite !andb_false_r. rewrite (Rmin_comm (tensile m1)), (Rmin_comm (compressive m1)), (Rmin_comm (cohesive m1)), (Rplus_comm (mangle m1)), (Rplus_comm (aspect m1)), (orb_comm (never m1)). reflexivity.
Qed.
Lemma ip2_sym iter th m1 m2 r1 r2 old : (0 < r1 \/ 0 < r2) -> (mmid m1 = mmid m2 -> (0 <= mmid m1)%Z -> m1 = m2) -> ip2 iter th m1 m2 r1 r2 old = ip2 iter th m2 m1 r2 r1 old.
Proof.
  intros H U. unfold ip2. destruct old; [reflexivity|]. cbv zeta. rewrite (Rplus_comm (myoung m2 * r2)), (Rplus_comm (myoung m2 * r2 * mratio m2)). destruct (Req_EM_T _ 0) as [|N]; [reflexivity|]. destruct (Req_EM_T _ 0) as [|N']; [reflexivity|].
  rewrite (strengths_sym m1 m2 _ _ _ U), (minRad_sym r1 r2 H). f_equal. f_equal. f_equal; field; assumption.
Qed.
Lemma ip2_mixed iter th m1 m2 r1 r2 p : mmid m1 <> mmid m2 \/ (mmid m1 < 0)%Z \/ m1 = m2 -> fst (ip2 iter th m1 m2 r1 r2 None) = Some p ->
  ft p = Rmin (tensile m1) (tensile m2) /\ fc p = Rmin (compressive m1) (compressive m2) /\ coh p = Rmin (cohesive m1) (cohesive m2) /\ ell p = (aspect m1 + aspect m2) / 2 /\ ptan p = tan ((mangle m1 + mangle m2) / 2) /\ (pnever p = true <-> never m1 = true \/ never m2 = true) /\ fN p = vzero /\ fS p = vzero.
Proof.
  intros U. unfold ip2. cbv zeta. cbn [fst]. destruct (Req_EM_T _ 0) as [|N]; [discriminate|]. destruct (Req_EM_T _ 0) as [|N']; [discriminate|]. intros E. injection E as <-. unfold strengths. destruct ((0 <=? mmid m1)%Z && (mmid m1 =? mmid m2)%Z)%bool eqn:B; cbn [ft fc coh ell ptan pnever fN fS].
  - apply andb_true_iff in B as (B1 & B2). apply Z.leb_le in B1. apply Z.eqb_eq in B2. destruct U as [U|[U|U]]; [contradiction|lia|]. subst m2. rewrite !Rmin_left by lra. split; [reflexivity|]. split; [reflexivity|]. split; [reflexivity|]. split; [field|]. split; [f_equal; field|]. split; [tauto|auto].
  - split; [reflexivity|]. split; [reflexivity|]. split; [reflexivity|]. split; [field|]. split; [f_equal; field|]. split; [apply orb_true_iff|auto].
Qed.
Lemma ip2_stiffness iter th m1 m2 r1 r2 : 0 < myoung m1 -> 0 < myoung m2 -> 0 < mratio m1 -> 0 < mratio m2 -> 0 < r1 -> 0 < r2 ->
  exists p, fst (ip2 iter th m1 m2 r1 r2 None) = Some p /\ 0 < pkn p /\ 0 < pks p /\ 2 / pkn p = 1 / (myoung m1 * r1) + 1 / (myoung m2 * r2) /\ 2 / pks p = 1 / (myoung m1 * mratio m1 * r1) + 1 / (myoung m2 * mratio m2 * r2) /\ section p = Rmin r1 r2 * Rmin r1 r2 /\ 0 < section p.
Proof.
  intros E1 E2 N1 N2 R1 R2. unfold ip2. cbv zeta. cbn [fst]. assert (A : 0 < myoung m1 * r1) by (apply Rmult_lt_0_compat; assumption). assert (B : 0 < myoung m2 * r2) by (apply Rmult_lt_0_compat; assumption). assert (VA : 0 < myoung m1 * r1 * mratio m1) by (apply Rmult_lt_0_compat; assumption). assert (VB : 0 < myoung m2 * r2 * mratio m2) by (apply Rmult_lt_0_compat; assumption).
  destruct (Req_EM_T _ 0) as [|N]; [exfalso; lra|]. destruct (Req_EM_T _ 0) as [|N']; [exfalso; lra|]. eexists. split; [reflexivity|].
  assert (K : forall k s A, pkn (strengths m1 m2 k s A) = k /\ pks (strengths m1 m2 k s A) = s /\ section (strengths m1 m2 k s A) = A) by (intros; unfold strengths; destruct (_ && _)%bool; cbn [pkn pks section]; auto).
  match goal with |- context [pkn (strengths m1 m2 ?k ?s ?A)] => destruct (K k s A) as (-> & -> & ->) end.
  assert (K1 : 2 * myoung m1 * r1 * myoung m2 * r2 / (myoung m1 * r1 + myoung m2 * r2) = 2 * ((myoung m1 * r1) * (myoung m2 * r2)) / (myoung m1 * r1 + myoung m2 * r2)) by (field; exact N).
  assert (K2 : 2 * myoung m1 * r1 * mratio m1 * myoung m2 * r2 * mratio m2 / (myoung m1 * r1 * mratio m1 + myoung m2 * r2 * mratio m2) = 2 * ((myoung m1 * r1 * mratio m1) * (myoung m2 * r2 * mratio m2)) / (myoung m1 * r1 * mratio m1 + myoung m2 * r2 * mratio m2)) by (field; exact N').
  rewrite K1, K2. assert (P1 : 0 < (myoung m1 * r1) * (myoung m2 * r2)) by (apply Rmult_lt_0_compat; assumption). assert (P2 : 0 < (myoung m1 * r1 * mratio m1) * (myoung m2 * r2 * mratio m2)) by (apply Rmult_lt_0_compat; assumption).
  split; [apply Rdiv_lt_0_compat; lra|]. split; [apply Rdiv_lt_0_compat; lra|]. split; [field; repeat split; lra|]. split; [field; repeat split; lra|].
  assert (M : minRad r1 r2 = Rmin r1 r2) by (unfold minRad; destruct (Rle_dec r1 0); [exfalso; lra|]; destruct (Rle_dec r2 0); [exfalso; lra|reflexivity]). rewrite M. split; [reflexivity|]. assert (0 < Rmin r1 r2) by (apply Rmin_glb_lt; assumption). apply Rmult_lt_0_compat; assumption.
Qed.
Lemma wall_refuted : exists p, fst (ip2 0 2 brick brick (-1) 2 None) = Some p /\ pkn p < 0 /\ section p = 4.
Proof.
  unfold ip2. cbv zeta. cbn [fst brick myoung mratio]. destruct (Req_EM_T _ 0) as [|N]; [exfalso; lra|]. destruct (Req_EM_T _ 0) as [|N']; [exfalso; lra|]. eexists. split; [reflexivity|]. unfold strengths. cbn [brick mmid Z.leb Z.compare andb pkn section]. unfold minRad. destruct (Rle_dec (-1) 0); [|exfalso; lra]. split; [|ring]. replace (2 * 1 * -1 * 1 * 2 / (1 * -1 + 1 * 2)) with (-4) by field. lra.
Qed.
(** ** C247 *)
Lemma threshold_refuted : exists p, ip2 100 2 brick brick 1 1 None = (Some p, true) /\ ft p = 1 /\ coh p = 1.
Proof.
  unfold ip2. cbv zeta. cbn [brick myoung mratio]. destruct (Req_EM_T _ 0) as [|N]; [exfalso; lra|]. destruct (Req_EM_T _ 0) as [|N']; [exfalso; lra|]. eexists. split; [reflexivity|]. unfold strengths. cbn [brick mmid Z.leb Z.compare andb ft coh tensile cohesive]. rewrite Rmin_left by lra. split; reflexivity.
Qed.
Lemma threshold_ignored iter iter' th m1 m2 r1 r2 old : fst (ip2 iter th m1 m2 r1 r2 old) = fst (ip2 iter' th m1 m2 r1 r2 old) /\ (old = None -> (snd (ip2 iter th m1 m2 r1 r2 old) = true <-> (th <= iter)%Z)) /\ (forall p, old = Some p -> ip2 iter th m1 m2 r1 r2 old = (Some p, false)).
Proof. destruct old as [p|]; (split; [reflexivity|]); (split; [|intros q E; try discriminate]); [discriminate|injection E as <-; reflexivity|intros _; apply Z.leb_le]. Qed.
(** ** C248 *)
Lemma fail_spec p s t : failureCondition p s t = false <-> within p s t.
Proof.
  unfold failureCondition, within, elastic. rewrite !orb_false_iff. replace (ell p * t * (ell p * t)) with (ell p * ell p * (t * t)) by ring.
  destruct (Rlt_dec 0 (s - ft p)), (Rlt_dec 0 (t + s * ptan p - coh p)), (Rlt_dec 0 _); split; intros H; try (destruct H as ((? & ?) & ?); discriminate); try (exfalso; lra); try lra; auto.
Qed.
Lemma law_spec per g p i1 x1 i2 x2 : section p <> 0 ->
  exists q, same_layer p q /\ fN q = smul (pkn p * penetrationDepth g) (normal g) /\ fS q = vsub (rotate g (fS p)) (smul (pks p) (shearInc g)) /\
    sigmaN q = - dot (fN q) (normal g) / section p /\ sigmaT q = smul (- / section p) (fS q) /\
    (pnever p = true \/ within p (sigmaN q) (norm (sigmaT q)) -> exists a, law per g p i1 x1 i2 x2 = MKept q a) /\ (pnever p = false /\ ~ within p (sigmaN q) (norm (sigmaT q)) -> law per g p i1 x1 i2 x2 = MBroken q).
Proof.
  intros NZ. unfold law. cbv zeta. destruct (Req_EM_T (section p) 0) as [|_]; [contradiction|].
  remember (smul (pkn p * penetrationDepth g) (normal g)) as n. remember (vsub (rotate g (fS p)) (smul (pks p) (shearInc g))) as s. remember (- dot n (normal g) / section p) as sn. remember (smul (/ section p) (vopp s)) as st.
  exists (mkMP (pkn p) (pks p) (ptan p) (ft p) (fc p) (coh p) (ell p) (section p) (pnever p) sn st n s). cbn [fN fS sigmaN sigmaT]. split; [unfold same_layer; cbn [pkn pks ptan ft fc coh ell section pnever]; repeat split|]. split; [reflexivity|]. split; [reflexivity|]. split; [exact Heqsn|]. split; [rewrite Heqst; clear; unfold smul, vopp; cbn [vx vy vz]; f_equal; ring|].
  split.
  - intros [H|H]; [rewrite H; cbn [negb andb]; eauto|]. apply fail_spec in H. rewrite H, andb_false_r. eauto.
  - intros (H & W). rewrite H. cbn [negb andb]. destruct (failureCondition p sn (norm st)) eqn:F; [reflexivity|]. apply fail_spec in F. contradiction.
Qed.
Lemma law_kept per g p i1 x1 i2 x2 q a : law per g p i1 x1 i2 x2 = MKept q a -> same_layer p q /\ (pnever p = true \/ within p (sigmaN q) (norm (sigmaT q))).
Proof.
  unfold law. cbv zeta. destruct (Req_EM_T (section p) 0) as [|_]; [discriminate|]. destruct (pnever p) eqn:N; cbn [negb andb]; [intros E; injection E as <- _; split; [unfold same_layer; cbn [pkn pks ptan ft fc coh ell section pnever]; repeat split; assumption|auto]|].
  destruct (failureCondition p _ _) eqn:F; [discriminate|]. intros E. injection E as <- _. split; [unfold same_layer; cbn [pkn pks ptan ft fc coh ell section pnever]; repeat split; assumption|]. right. cbn [sigmaN sigmaT]. apply fail_spec. exact F.
Qed.
Lemma same_within p q s t : same_layer p q -> within p s t <-> within q s t.
Proof. unfold same_layer, within. intros (_ & _ & -> & -> & -> & -> & -> & _). tauto. Qed.
Lemma same_trans p q r : same_layer p q -> same_layer q r -> same_layer p r.
Proof. unfold same_layer. intuition congruence. Qed.
Lemma history per gs : forall p q, survives per p gs q -> same_layer p q /\ length (stresses per p gs) = length gs /\ (pnever p = false -> Forall (fun e => within p (fst e) (snd e)) (stresses per p gs)).
Proof.
  induction gs as [|g gs IH]; intros p q H.
  - cbn [survives] in H. subst q. split; [unfold same_layer; auto 10|]. split; [reflexivity|]. intros _. constructor.
  - cbn [survives] in H. destruct H as (p' & a & E & H). destruct (IH p' q H) as (S1 & S2 & S3). destruct (law_kept _ _ _ _ _ _ _ _ _ E) as (S0 & W). split; [apply same_trans with p'; assumption|]. cbn [stresses]. rewrite E. split; [cbn [length]; rewrite S2; reflexivity|].
    intros N. constructor; [cbn [fst snd]; destruct W as [W|W]; [congruence|exact W]|]. assert (N' : pnever p' = false) by (destruct S0 as (_ & _ & _ & _ & _ & _ & _ & _ & <-); exact N). eapply Forall_impl; [|exact (S3 N')]. intros e We. cbv beta in We |- *. apply (same_within p p'); assumption.
Qed.
(** the elastic domain is convex *)
Lemma sq_mix k a b : 0 <= k <= 1 -> (k * a + (1 - k) * b) * (k * a + (1 - k) * b) <= k * (a * a) + (1 - k) * (b * b).
Proof. intros H. assert (P : 0 <= k * (1 - k) * ((a - b) * (a - b))) by (apply Rmult_le_pos; [apply Rmult_le_pos; lra|apply Rle_0_sqr]). lra. Qed.
Lemma convex f_t c phi f_c A s t s' t' k : elastic f_t c phi f_c A s t -> elastic f_t c phi f_c A s' t' -> 0 <= k <= 1 -> elastic f_t c phi f_c A (k * s + (1 - k) * s') (k * t + (1 - k) * t').
Proof.
  intros (A1 & A2 & A3) (B1 & B2 & B3) H. assert (M : forall x y z, x <= z -> y <= z -> k * x + (1 - k) * y <= z). { intros x y z X Y. assert (k * x <= k * z) by (apply Rmult_le_compat_l; lra). assert ((1 - k) * y <= (1 - k) * z) by (apply Rmult_le_compat_l; lra). lra. }
  split; [apply M; assumption|]. split; [pose proof (M _ _ _ A2 B2); lra|].
  pose proof (sq_mix k s s' H) as Q1. pose proof (sq_mix k t t' H) as Q2. assert (Q3 : A * A * ((k * t + (1 - k) * t') * (k * t + (1 - k) * t')) <= A * A * (k * (t * t) + (1 - k) * (t' * t'))) by (apply Rmult_le_compat_l; [apply Rle_0_sqr|exact Q2]). pose proof (M _ _ _ A3 B3). lra.
Qed.
Lemma unload p s t k : strong p -> within p s t -> 0 <= k <= 1 -> within p (k * s) (k * t).
Proof.
  intros (F & C) W H. unfold within in *. replace (k * s) with (k * s + (1 - k) * 0) by ring. replace (k * t) with (k * t + (1 - k) * 0) by ring. apply convex; [exact W| |exact H]. split; [exact F|]. split; [lra|]. pose proof (Rle_0_sqr (fc p)) as Q. unfold Rsqr in Q. lra.
Qed.
(** less shear is not worse *)
Lemma less_shear p s t t' : within p s t -> 0 <= t' <= t -> within p s t'.
Proof. intros (A & B & C) H. split; [exact A|]. split; [lra|]. assert (t' * t' <= t * t) by (apply Rsqr_incr_1; lra). assert (ell p * ell p * (t' * t') <= ell p * ell p * (t * t)) by (apply Rmult_le_compat_l; [apply Rle_0_sqr|assumption]). lra. Qed.
(** ** C249 *)
Lemma cross_smul k a b : smul k (cross a b) = cross (smul k a) b.
Proof. unfold smul, cross. cbn [vx vy vz]. f_equal; ring. Qed.
Lemma cross_smul_opp k a b : smul k (cross a b) = vopp (cross (smul (- k) a) b).
Proof. unfold smul, cross, vopp. cbn [vx vy vz]. f_equal; ring. Qed.
Lemma balance_point g p i1 x1 i2 x2 q a o at_ : law false g p i1 x1 i2 x2 = MKept q a -> at_ i1 = x1 -> at_ i2 = x2 -> total_force a = vzero /\ total_moment o at_ a = vzero /\ a = applyForceAtContactPoint (vsub (vopp (fN q)) (fS q)) (contactPoint g) i1 x1 i2 x2.
Proof.
  unfold law. cbv zeta. destruct (Req_EM_T (section p) 0) as [|_]; [discriminate|]. destruct (negb (pnever p) && _)%bool; [discriminate|]. cbn [negb]. intros E X1 X2. injection E as <- <-. cbn [fN fS]. remember (vsub (vopp (smul (pkn p * penetrationDepth g) (normal g))) (vsub (rotate g (fS p)) (smul (pks p) (shearInc g)))) as f.
  split; [|split; [|reflexivity]]; unfold total_force, total_moment, applyForceAtContactPoint, vsum, moment; cbn [map fst snd fold_right]; [|rewrite X1, X2]; clear; destruct f as [a b c]; unfold vadd, vopp, vsub, cross, vzero; cbn [vx vy vz]; f_equal; ring.
Qed.
Lemma balance_periodic g p i1 x1 i2 x2 y2 r1 r2 q a o : law true g p i1 x1 i2 x2 = MKept q a -> touching r1 r2 x1 y2 g -> i1 <> i2 ->
  total_force a = vzero /\ total_moment o (fun i => if Nat.eqb i i1 then x1 else y2) a = vzero /\ a = applyForceAtContactPoint (vsub (vopp (fN q)) (fS q)) (contactPoint g) i1 x1 i2 y2.
Proof.
  unfold law. cbv zeta. destruct (Req_EM_T (section p) 0) as [|_]; [discriminate|]. destruct (negb (pnever p) && _)%bool; [discriminate|]. cbn [negb]. intros E (_ & Y & _ & C1 & C2 & R1 & R2) N. injection E as <- <-. cbn [fN fS]. remember (vsub (vopp (smul (pkn p * penetrationDepth g) (normal g))) (vsub (rotate g (fS p)) (smul (pks p) (shearInc g)))) as f.
  assert (EQ : [(i1, (f, smul (radius1 g - 1 / 2 * penetrationDepth g) (cross (normal g) f))); (i2, (vopp f, smul (radius2 g - 1 / 2 * penetrationDepth g) (cross (normal g) f)))] = applyForceAtContactPoint f (contactPoint g) i1 x1 i2 y2).
  { unfold applyForceAtContactPoint. rewrite R1, R2. assert (A1 : vsub (contactPoint g) x1 = smul (r1 - 1 / 2 * penetrationDepth g) (normal g)) by (rewrite C1; clear; unfold vsub, vadd, smul; cbn [vx vy vz]; destruct (normal g) as [a b c]; cbn [vx vy vz]; f_equal; ring). assert (A2 : vsub (contactPoint g) y2 = smul (- (r2 - 1 / 2 * penetrationDepth g)) (normal g)) by (rewrite C2; clear; unfold vsub, vadd, smul; cbn [vx vy vz]; destruct (normal g) as [a b c]; cbn [vx vy vz]; f_equal; ring).
    rewrite A1, A2, <- cross_smul, <- cross_smul_opp. reflexivity. }
  rewrite EQ. split; [|split; [|reflexivity]]; unfold total_force, total_moment, applyForceAtContactPoint, vsum, moment; cbn [map fst snd fold_right]; [|rewrite Nat.eqb_refl; destruct (Nat.eqb_spec i2 i1); [congruence|]]; clear; destruct f as [a b c]; unfold vadd, vopp, vsub, cross, vzero; cbn [vx vy vz]; f_equal; ring.
Qed.
Lemma broken_silent per g p i1 x1 i2 x2 : match law per g p i1 x1 i2 x2 with MKept _ a => length a = 2%nat | MBroken q => pnever p = false /\ ~ within p (sigmaN q) (norm (sigmaT q)) | MNaN => section p = 0 end.
Proof.
  destruct (Req_EM_T (section p) 0) as [Z|NZ]; [unfold law; cbv zeta; destruct (Req_EM_T (section p) 0); [assumption|contradiction]|].
  unfold law. cbv zeta. destruct (Req_EM_T (section p) 0) as [|_]; [contradiction|]. destruct (pnever p); cbn [negb andb]; [destruct per; reflexivity|]. destruct (failureCondition p _ _) eqn:F; [|destruct per; reflexivity]. cbn [sigmaN sigmaT]. split; [reflexivity|]. intros W. apply fail_spec in W. congruence.
Qed.
(** examples *)
Lemma gap_touching d : d < 2 -> touching 1 1 (V (1/2 * d - 1) 0 0) (V (1 - 1/2 * d) 0 0) (gap d).
Proof.
  intros H. unfold touching, gap. cbn [normal contactPoint penetrationDepth radius1 radius2]. split; [unfold norm2, dot; cbn [vx vy vz]; ring|]. split; [unfold vadd, smul; cbn [vx vy vz]; f_equal; field|]. split; [lra|]. split; [unfold vzero, vadd, smul; cbn [vx vy vz]; f_equal; field|]. split; [unfold vzero, vsub, smul; cbn [vx vy vz]; f_equal; field|auto].
Qed.
Lemma layer_kept : exists q a, law false (gap (-1/2)) layer 0 vzero 1 vzero = MKept q a /\ sigmaN q = 1/2.
Proof.
  assert (S : section layer <> 0) by (cbn [layer section]; lra). destruct (law_spec false (gap (-1/2)) layer 0 vzero 1 vzero S) as (q & SL & F & T & N & ST & K & _).
  assert (Q1 : sigmaN q = 1/2). { rewrite N, F. unfold dot, smul, gap. cbn [layer pkn section penetrationDepth normal vx vy vz]. field. }
  assert (Q2 : norm (sigmaT q) = 0). { assert (Z : sigmaT q = vzero). { rewrite ST, T. unfold rotate, gap, smul, vsub, cross, vzero. cbn [layer pks section fS shearInc orthonormal_axis twist_axis vx vy vz]. unfold vzero. cbn [vx vy vz]. f_equal; ring. } rewrite Z. unfold norm, norm2, dot, vzero. cbn [vx vy vz]. replace (0 * 0 + 0 * 0 + 0 * 0) with 0 by ring. apply sqrt_0. }
  destruct K as (a & E); [|exists q, a; split; assumption]. right. rewrite Q1, Q2. unfold within, elastic. cbn [layer ft coh ptan fc ell]. split; [lra|]. split; lra.
Qed.
