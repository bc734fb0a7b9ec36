(** Cohesive contacts: forces. *)
From Coq Require Import Reals List ZArith Bool Lra Lia Psatz.
From Verif Require Import Vec_Model Vec_Proofs Rigid_Model Rigid_Spec Law_Model Law_Spec Law_Proofs Coh_Model Coh_Spec.
Import ListNotations.
Local Open Scope R_scope.

Lemma ltR_true x y : ltR x y = true <-> x < y. Proof. unfold ltR. destruct (Rlt_dec x y); split; intros; try discriminate; try contradiction; auto. Qed.
Lemma ltR_false x y : ltR x y = false <-> y <= x. Proof. unfold ltR. destruct (Rlt_dec x y); split; intros; try discriminate; try lra; auto. Qed.
Lemma leR_true x y : leR x y = true <-> x <= y. Proof. unfold leR. destruct (Rle_dec x y); split; intros; try discriminate; try contradiction; auto. Qed.
Lemma leR_false x y : leR x y = false <-> y < x. Proof. unfold leR. destruct (Rle_dec x y); split; intros; try discriminate; try lra; auto. Qed.
Lemma is0_true x : is0 x = true <-> x = 0. Proof. unfold is0. destruct (Req_EM_T x 0); split; intros; try discriminate; try contradiction; auto. Qed.
Lemma is0_false x : is0 x = false <-> x <> 0. Proof. unfold is0. destruct (Req_EM_T x 0); split; intros; try discriminate; try contradiction; auto. Qed.
Ltac cmp := repeat match goal with
 | H : ltR _ _ = true |- _ => apply ltR_true in H
 | H : ltR _ _ = false |- _ => apply ltR_false in H
 | H : leR _ _ = true |- _ => apply leR_true in H
 | H : leR _ _ = false |- _ => apply leR_false in H
 | H : is0 _ = true |- _ => apply is0_true in H
 | H : is0 _ = false |- _ => apply is0_false in H
 | H : _ && _ = true |- _ => apply andb_true_iff in H; destruct H
 | H : negb _ = true |- _ => apply negb_true_iff in H
 end.

(** ** scaling to a length *)
Lemma norm_of_sq v m : 0 <= m -> norm v <= m <-> norm2 v <= m * m.
Proof.
  intros M. pose proof (norm_sq v) as E. pose proof (norm_pos v) as P. split; intros H.
  - rewrite <- E. apply Rmult_le_compat; assumption.
  - destruct (Rle_dec (norm v) m) as [|N]; [assumption|]. exfalso. assert (m * m < norm v * norm v) by (apply Rmult_le_0_lt_compat; lra). lra.
Qed.
Lemma norm_vzero : norm vzero = 0.
Proof. unfold norm. replace (norm2 vzero) with 0 by vring. apply sqrt_0. Qed.
Lemma norm_smul k v : 0 <= k -> norm (smul k v) = k * norm v.
Proof. intros K. unfold norm. rewrite norm2_smul. rewrite sqrt_mult; [|apply Rle_0_sqr|apply norm2_pos]. rewrite sqrt_square by exact K. reflexivity. Qed.
Lemma scaled_norm m v : 0 <= m -> 0 < norm v -> norm (smul (m / norm v) v) = m.
Proof. intros M N. rewrite norm_smul by (unfold Rdiv; apply Rmult_le_pos; [exact M|left; apply Rinv_0_lt_compat; exact N]). field. lra. Qed.
Lemma scaled_nearest m v : 0 <= m -> m <= norm v -> 0 < norm v -> nearest_within m v (smul (m / norm v) v).
Proof.
  intros M L N. split; [rewrite scaled_norm by assumption; lra|]. intros x X. set (k := m / norm v). assert (Ek : k * norm v = m) by (unfold k; field; lra). assert (K0 : 0 <= k) by (unfold k, Rdiv; apply Rmult_le_pos; [exact M|left; apply Rinv_0_lt_compat; exact N]).
  rewrite !norm2_sub, norm2_smul. replace (dot v (smul k v)) with (k * norm2 v) by vring. rewrite <- (norm_sq v). assert (D : dot v x <= norm v * norm x) by (apply dot_le; [lra|apply norm_pos|rewrite norm_sq; lra|rewrite norm_sq; lra]). rewrite <- (norm_sq x).
  pose proof (norm_pos x) as X0. revert D X X0 Ek L N. generalize (norm x) (norm v) (dot v x). intros a b d D X X0 Ek L N. replace (k * (b * b)) with (m * b) by (rewrite <- Ek; ring). replace (k * k * (b * b)) with (m * m) by (rewrite <- Ek; ring).
  assert (Q : 0 <= (m - a) * (2 * b - m - a)) by (apply Rmult_le_pos; lra). lra.
Qed.
Lemma self_nearest m v : norm v <= m -> nearest_within m v v.
Proof. intros L. split; [exact L|]. intros x _. rewrite vsub_self. replace (norm2 vzero) with 0 by vring. apply norm2_pos. Qed.

(** ** the shape of a step *)
Lemma trial_moments_spec k p s t : trial_moments k p s t = (elastic_twist k p s t, elastic_bending k p s t).
Proof.
  unfold trial_moments, elastic_twist, elastic_bending, across. destruct (incremental k); [|f_equal; f_equal; ring]. generalize (vsub (w2 t) (w1 t)) (normal (cg t)) (rotate (cg t) (ctwist s)) (rotate (cg t) (cbending s)). clear. intros. f_equal; vring.
Qed.
Lemma go_kept k p i1 i2 t s s' a d : go k p i1 i2 t s = Kept s' a d -> exists Fn u trial fn fs breaks mt mb,
  normal_law p s (penetrationDepth (cg t)) = Some (inl (Fn, u)) /\ trial_shear k p s t = Some trial /\ yield k p s Fn (normal (cg t)) trial = (fn, fs, breaks, d) /\
  s' = mkCS (cfragile s) (broken s || breaks) (if breaks then 0 else normalAdh s) (if breaks then 0 else shearAdh s) u (initCohesion s) fn fs mt mb /\
  ((momentLaw p && (negb (broken s || breaks) || alwaysMoment k) = true /\ mt = limited (maxTwistPl p) fn (elastic_twist k p s t) /\ mb = limited (maxRollPl p) fn (elastic_bending k p s t) /\
    a = applyForceAtContactPoint (vsub (vopp fn) fs) (contactPoint (cg t)) i1 (at1 t) i2 (at2 t) ++ [(i1, (vzero, vopp (vadd mt mb))); (i2, (vzero, vadd mt mb))]) \/
   (momentLaw p && (negb (broken s || breaks) || alwaysMoment k) = false /\ mt = ctwist s /\ mb = cbending s /\ a = applyForceAtContactPoint (vsub (vopp fn) fs) (contactPoint (cg t)) i1 (at1 t) i2 (at2 t))).
Proof.
  unfold go. destruct (normal_law p s (penetrationDepth (cg t))) as [[[Fn u]|u]|] eqn:EN; try discriminate. destruct (trial_shear k p s t) as [trial|] eqn:ET; [|discriminate].
  destruct (yield k p s Fn (normal (cg t)) trial) as [[[fn fs] breaks] e] eqn:EY. destruct (momentLaw p && (negb (broken s || breaks) || alwaysMoment k)) eqn:EM.
  - destruct (incremental k && twistCreep k); [discriminate|]. rewrite trial_moments_spec. intros H. injection H as <- <- <-. cbn [normalAdh shearAdh].
    exists Fn, u, trial, fn, fs, breaks, (limited (maxTwistPl p) fn (elastic_twist k p s t)), (limited (maxRollPl p) fn (elastic_bending k p s t)). split; [reflexivity|]. split; [reflexivity|]. split; [exact EY|]. split; [reflexivity|]. left. repeat split; assumption || reflexivity.
  - intros H. injection H as <- <- <-. exists Fn, u, trial, fn, fs, breaks, (ctwist s), (cbending s). split; [reflexivity|]. split; [reflexivity|]. split; [exact EY|]. split; [reflexivity|]. right. repeat split; assumption || reflexivity.
Qed.
(** ** balance *)
Lemma go_balance k p i1 i2 t s s' a d o at_ : go k p i1 i2 t s = Kept s' a d -> at_ i1 = at1 t -> at_ i2 = at2 t ->
  total_force a = vzero /\ total_moment o at_ a = vzero /\ Forall (fun e => fst e = i1 \/ fst e = i2) a.
Proof.
  intros H A1 A2. destruct (go_kept _ _ _ _ _ _ _ _ _ H) as (Fn & u & trial & fn & fs & br & mt & mb & _ & _ & _ & _ & [(_ & _ & _ & E)|(_ & _ & _ & E)]); subst a; unfold applyForceAtContactPoint, total_force, total_moment; cbn [map app fst snd]; rewrite ?A1, ?A2; unfold vsum; cbn [fold_right]; unfold moment.
  - split; [generalize fn fs; vring|]. split; [|repeat (constructor; [cbn [fst]; auto|]); constructor]. generalize mt mb fn fs (contactPoint (cg t)) (at1 t) (at2 t). clear. vring.
  - split; [generalize fn fs; vring|]. split; [|repeat (constructor; [cbn [fst]; auto|]); constructor]. generalize fn fs (contactPoint (cg t)) (at1 t) (at2 t). clear. vring.
Qed.
Lemma go_forces k p i1 i2 t s s' a d : i1 <> i2 -> go k p i1 i2 t s = Kept s' a d -> force_on a i1 = vopp (vadd (cnormal s') (cshear s')) /\ force_on a i2 = vadd (cnormal s') (cshear s').
Proof.
  intros D H. assert (E12 : Nat.eqb i1 i2 = false) by (apply Nat.eqb_neq; exact D). assert (E21 : Nat.eqb i2 i1 = false) by (apply Nat.eqb_neq; auto).
  destruct (go_kept _ _ _ _ _ _ _ _ _ H) as (Fn & u & trial & fn & fs & br & mt & mb & _ & _ & _ & -> & [(_ & _ & _ & E)|(_ & _ & _ & E)]); subst a; unfold applyForceAtContactPoint, force_on; cbn [map app fst snd cnormal cshear]; rewrite !Nat.eqb_refl, ?E12, ?E21; unfold vsum; cbn [fold_right]; generalize fn fs; clear; intros; split; vring.
Qed.

(** ** normal force *)
Lemma normal_law_spec p s un Fn u : ckn p <> 0 -> normal_law p s un = Some (inl (Fn, u)) -> Fn = documented_normal p s un /\ (Fn = ckn p * (un - u)) /\ (- Fn <= normalAdh s) /\ (cfragile s = true -> u = unp s).
Proof.
  intros K. unfold normal_law, documented_normal. cbv zeta. destruct (ltR (normalAdh s) (- (ckn p * (un - unp s)))) eqn:E; rewrite ?andb_true_r, ?andb_false_r; cmp.
  - destruct (cfragile s); [discriminate|]. rewrite (proj2 (is0_false (ckn p)) K). destruct (leR 0 (unpMax p) && ltR (unpMax p) (- (un + normalAdh s / ckn p))); [discriminate|]. intros H. injection H as <- <-. split; [rewrite Rmax_right by lra; reflexivity|]. split; [field; exact K|]. split; [lra|discriminate].
  - intros H. injection H as <- <-. split; [rewrite Rmax_left by lra; reflexivity|]. split; [reflexivity|]. split; [lra|reflexivity].
Qed.
Lemma max_shear_doc p s Fn : disablesFriction p = false \/ shearAdh s = 0 -> max_shear p s Fn = documented_strength p s Fn.
Proof. intros [H|H]; unfold max_shear, documented_strength; rewrite ?H; cbn [negb orb]; [reflexivity|]. rewrite (proj2 (is0_true 0) eq_refl), orb_true_r. reflexivity. Qed.
Lemma trial_plain k p s t : shearCreep k = false -> trial_shear k p s t = Some (elastic_shear p s t).
Proof. intros H. unfold trial_shear. rewrite H. reflexivity. Qed.
Lemma yield_spec k p s Fn n trial fn fs br d : yield k p s Fn n trial = (fn, fs, br, d) -> disablesFriction p = false \/ shearAdh s = 0 -> 0 <= shearAdh s ->
  nearest_within (if br then friction_strength p Fn else documented_strength p s Fn) trial fs /\
  (norm trial <= documented_strength p s Fn -> fs = trial /\ fn = smul Fn n /\ br = false) /\
  (br = true -> cfragile s = true /\ broken s = false /\ documented_strength p s Fn < norm trial) /\
  (0 <= Fn -> fn = smul Fn n) /\ (fn = smul Fn n \/ (Fn < 0 /\ documented_strength p s Fn < norm trial /\ fn = vzero)) /\ 0 <= d.
Proof.
  intros H Dz A. revert H. unfold yield. cbv zeta. rewrite (max_shear_doc p s Fn Dz). set (m := documented_strength p s Fn). assert (M : 0 <= m) by apply Rmax_l. destruct (ltR m (norm trial)) eqn:E; cmp; intros H; injection H as <- <- <- <-.
  - assert (N : 0 < norm trial) by lra. split; [|split; [|split; [|split; [|split]]]].
    + destruct (cfragile s && negb (broken s)); [|apply scaled_nearest; lra]. apply scaled_nearest; [apply Rmax_l| |exact N]. unfold friction_strength. apply Rmax_lub; [lra|]. apply Rle_trans with (r2 := m); [|lra]. unfold m, documented_strength. apply Rle_trans with (r2 := shearAdh s + Fn * ctan p); [lra|apply Rmax_r].
    + intros L. lra.
    + intros B. cmp. auto.
    + intros P. rewrite (proj2 (ltR_false Fn 0) P). reflexivity.
    + destruct (ltR Fn 0) eqn:L; cmp; auto.
    + destruct (track k); cbn [andb]; [|lra]. destruct (ltR 0 _) eqn:L; cmp; lra.
  - split; [apply self_nearest; exact E|]. split; [auto|]. split; [discriminate|]. split; [auto|]. split; [auto|lra].
Qed.
Lemma limited_spec coef fn m : (0 <= coef -> nearest_within (coef * norm fn) m (limited coef fn m)) /\ (coef < 0 -> limited coef fn m = m).
Proof.
  unfold limited. split; intros C.
  - rewrite (proj2 (leR_true 0 coef) C). pose proof (norm_pos fn) as P. assert (0 <= coef * norm fn) by (apply Rmult_le_pos; assumption). destruct (ltR (coef * norm fn) (norm m)) eqn:E; cmp; [apply scaled_nearest; lra|apply self_nearest; exact E].
  - rewrite (proj2 (leR_false 0 coef) C). reflexivity.
Qed.
(** forces of a step *)
Lemma go_strength k p i1 i2 t s s' a d : go k p i1 i2 t s = Kept s' a d -> ckn p <> 0 -> shearCreep k = false -> disablesFriction p = false \/ shearAdh s = 0 -> 0 <= shearAdh s ->
  exists Fn, Fn = documented_normal p s (penetrationDepth (cg t)) /\ - Fn <= normalAdh s /\ Fn = ckn p * (penetrationDepth (cg t) - unp s') /\
  (cnormal s' = smul Fn (normal (cg t)) \/ (Fn < 0 /\ documented_strength p s Fn < norm (elastic_shear p s t) /\ cnormal s' = vzero)) /\
  nearest_within (if broken s' && negb (broken s) then friction_strength p Fn else documented_strength p s Fn) (elastic_shear p s t) (cshear s') /\
  (norm (elastic_shear p s t) <= documented_strength p s Fn -> cshear s' = elastic_shear p s t /\ broken s' = broken s /\ cnormal s' = smul Fn (normal (cg t))) /\ 0 <= d.
Proof.
  intros H K C Dz A. destruct (go_kept _ _ _ _ _ _ _ _ _ H) as (Fn & u & trial & fn & fs & br & mt & mb & EN & ET & EY & -> & _). rewrite (trial_plain k p s t C) in ET. injection ET as <-. destruct (normal_law_spec _ _ _ _ _ K EN) as (N1 & N2 & N3 & _). destruct (yield_spec _ _ _ _ _ _ _ _ _ _ EY Dz A) as (Y1 & Y2 & Y3 & Y4 & Y5 & Y6).
  exists Fn. cbn [cnormal cshear broken unp]. split; [exact N1|]. split; [exact N3|]. split; [exact N2|]. split; [exact Y5|]. split; [|split; [|exact Y6]].
  - destruct br.
    + destruct (Y3 eq_refl) as (_ & B & _). rewrite B. exact Y1.
    + rewrite orb_false_r. destruct (broken s); exact Y1.
  - intros L. destruct (Y2 L) as (E1 & E2 & E3). rewrite E3, orb_false_r. auto.
Qed.
Lemma go_moments k p i1 i2 t s s' a d : go k p i1 i2 t s = Kept s' a d ->
  if momentLaw p && (negb (broken s') || alwaysMoment k) then
    (0 <= maxTwistPl p -> nearest_within (maxTwistPl p * norm (cnormal s')) (elastic_twist k p s t) (ctwist s')) /\ (maxTwistPl p < 0 -> ctwist s' = elastic_twist k p s t) /\
    (0 <= maxRollPl p -> nearest_within (maxRollPl p * norm (cnormal s')) (elastic_bending k p s t) (cbending s')) /\ (maxRollPl p < 0 -> cbending s' = elastic_bending k p s t)
  else ctwist s' = ctwist s /\ cbending s' = cbending s /\ length a = 2%nat.
Proof.
  intros H. destruct (go_kept _ _ _ _ _ _ _ _ _ H) as (Fn & u & trial & fn & fs & br & mt & mb & EN & ET & EY & -> & M). cbn [broken cnormal ctwist cbending]. destruct M as [(-> & -> & -> & _)|(-> & -> & -> & ->)].
  - destruct (limited_spec (maxTwistPl p) fn (elastic_twist k p s t)) as [T1 T2]. destruct (limited_spec (maxRollPl p) fn (elastic_bending k p s t)) as [B1 B2]. auto.
  - auto.
Qed.
