From Coq Require Import Reals List ZArith Bool Lra Lia.
From Verif Require Import Vec_Model Vec_Proofs Rigid_Model Rigid_Spec Law_Model Law_Spec Law_Proofs Law_Proofs2 Coh_Model Coh_Spec Coh_Proofs Hertz_Model Hertz_Spec Hertz_Proofs Hertz_Proofs2.
Import ListNotations.
Local Open Scope R_scope.

(** ** Friction *)
Lemma exceeds m v : 0 <= m -> ltR (m * m) (norm2 v) = true <-> m < norm v.
Proof.
  intros M. rewrite ltR_true, <- norm_sq. split; intros H.
  - apply Rnot_le_lt. intros C. pose proof (norm_pos v). pose proof (Rmult_le_compat _ _ _ _ H0 H0 C C). lra.
  - apply Rmult_le_0_lt_compat; assumption.
Qed.
Lemma mohr_spec L p cs fn vs trial us slid sv fs fe us' : mohr L p cs fn vs trial us = (slid, sv, fs, fe, us') -> 0 <= shear_strength L p fn ->
  nearest_within (shear_strength L p fn) trial fe /\ (slid = true <-> shear_strength L p fn < norm trial) /\
  (slid = true -> fs = fe /\ sv = vzero /\ norm fe = shear_strength L p fn /\ fe = smul (shear_strength L p fn / norm trial) trial /\ us' = smul (shear_strength L p fn / norm trial) us) /\
  (slid = false -> fe = trial /\ us' = us /\ sv = (if use_damping p then smul cs vs else vzero) /\ fs = vsub fe sv).
Proof.
  intros H P. unfold mohr in H. cbv zeta in H. set (m := shear_strength L p fn) in *. clearbody m.
  destruct (ltR (m * m) (norm2 trial)) eqn:E.
  - injection H as <- <- <- <- <-. apply exceeds in E; [|assumption]. split; [|split; [|split]].
    + apply scaled_nearest; lra.
    + tauto.
    + intros _. split; [reflexivity|]. split; [reflexivity|]. split; [|split; reflexivity]. apply scaled_norm; lra.
    + discriminate.
  - assert (T : norm trial <= m). { apply Rnot_lt_le. intros C. apply exceeds in C; [|assumption]. rewrite C in E. discriminate. }
    destruct (use_damping p); injection H as <- <- <- <- <-; (split; [apply self_nearest; assumption|]); (split; [split; [discriminate|intros; lra]|]); (split; [discriminate|]); intros _.
    + split; [reflexivity|]. split; [reflexivity|]. split; reflexivity.
    + split; [reflexivity|]. split; [reflexivity|]. split; [reflexivity|]. vring.
Qed.
(** the elastic reaction to the displacement of this step *)
Definition trial_of (p : hparams) (t : hstep) (s : hstate) (v : vec) : vec := vsub (rotate (hg t) (sElastic s)) (smul (ks_of p t) (smul (hdt t) (across (normal (hg t)) v))).
Lemma strength_plain L p fn : hadhesion L = false -> shear_strength L p fn = htan p * norm fn.
Proof. intros A. unfold shear_strength. rewrite A. ring. Qed.
Lemma coulomb L p i1 i2 t s s' a e : mindlin L p i1 i2 t s = HKept s' a e -> hadhesion L = false -> 0 <= htan p -> 0 <= depth t ->
  norm (sElastic s') <= htan p * norm (hnormal s') /\ (no_damping p \/ isSliding s' = true -> norm (hshear s') <= htan p * norm (hnormal s')) /\ (isSliding s' = true -> norm (hshear s') = htan p * norm (hnormal s')).
Proof.
  intros H A P D. destruct (mindlin_shape _ _ _ _ _ _ _ _ _ H D) as (cn & cs & v & fn & visc & slid & sv & fs & fe & us' & _ & _ & _ & EM & E1 & E2 & E3 & E4 & _).
  rewrite E1, E2, E3, E4. apply mohr_spec in EM; [|rewrite strength_plain by assumption; apply Rmult_le_pos; [assumption|apply norm_pos]]. rewrite (strength_plain L p fn A) in EM.
  destruct EM as ((B & _) & _ & C1 & C2). split; [assumption|]. split.
  - intros [N | N].
    + destruct slid; [destruct (C1 eq_refl) as (-> & _); assumption|]. destruct (C2 eq_refl) as (_ & _ & -> & ->). rewrite (no_damping_off p N). replace (vsub fe vzero) with fe by vring. assumption.
    + destruct (C1 N) as (-> & _). assumption.
  - intros N. destruct (C1 N) as (-> & _ & X & _). assumption.
Qed.
Lemma linear_coulomb nv k p i1 i2 t s s' a e : hertz_linear nv k p i1 i2 t s = HKept s' a e -> norm2 (normal (hg t)) = 1 -> 0 <= depth t -> norm (hshear s') <= Rabs (htan p) * norm (hnormal s').
Proof.
  intros H U D. destruct (linear_shape _ _ _ _ _ _ _ _ _ _ H D) as (inc & _ & EE & _). cbv zeta in EE. subst s'. cbn [with_forces hshear hnormal]. clear H.
  set (Fn := kno p * (depth t * sqrt (depth t))). set (trial := vsub _ _). clearbody Fn trial.
  rewrite norm_smul_abs by assumption. assert (M : 0 <= Rabs (htan p) * Rabs Fn) by (apply Rmult_le_pos; apply Rabs_pos).
  assert (MM : Fn * Fn * (htan p * htan p) = Rabs (htan p) * Rabs Fn * (Rabs (htan p) * Rabs Fn)).
  { rewrite <- Rabs_mult. change (Rabs (htan p * Fn) * Rabs (htan p * Fn)) with (Rsqr (Rabs (htan p * Fn))). rewrite <- Rsqr_abs. unfold Rsqr. ring. }
  rewrite MM. rewrite sqrt_square by assumption. destruct (ltR _ _) eqn:E.
  - apply exceeds in E; [|assumption]. rewrite scaled_norm; lra.
  - apply Rnot_lt_le. intros C. apply exceeds in C; [|assumption]. rewrite C in E. discriminate.
Qed.

(** ** Balance *)
Lemma sphere_forces_balance t i1 i2 f o at_ q2 : touching (radius1 (hg t)) (radius2 (hg t)) (at_ i1) q2 (hg t) -> at_ i2 = q2 ->
  total_force (sphere_forces t i1 i2 f) = vzero /\ total_moment o at_ (sphere_forces t i1 i2 f) = vzero.
Proof.
  intros (_ & Q & _ & C1 & C2 & _) E. unfold total_force, total_moment, sphere_forces. cbv zeta. cbn [map fst snd]. rewrite !vsum_cons. cbn [vsum fold_right]. rewrite E, Q.
  set (n := normal (hg t)). set (r1 := radius1 (hg t)). set (r2 := radius2 (hg t)). set (u := penetrationDepth (hg t)). set (x := at_ i1). clearbody n r1 r2 u x.
  split; [vring|]. unfold moment. vring. all: try field.
Qed.
Lemma contact_point_forces f cp i1 i2 o at_ : total_force (applyForceAtContactPoint f cp i1 (at_ i1) i2 (at_ i2)) = vzero /\ total_moment o at_ (applyForceAtContactPoint f cp i1 (at_ i1) i2 (at_ i2)) = vzero.
Proof.
  unfold total_force, total_moment, applyForceAtContactPoint. cbn [map fst snd]. rewrite !vsum_cons. cbn [vsum fold_right].
  set (x := at_ i1). set (y := at_ i2). clearbody x y. split; [vring|]. unfold moment. vring.
Qed.
Lemma moments_balance i1 i2 m o at_ : total_force [(i1, (vzero, vopp m)); (i2, (vzero, m))] = vzero /\ total_moment o at_ [(i1, (vzero, vopp m)); (i2, (vzero, m))] = vzero.
Proof. unfold total_force, total_moment. cbn [map fst snd]. rewrite !vsum_cons. cbn [vsum fold_right]. set (x := at_ i1). set (y := at_ i2). clearbody x y. split; [vring|]. unfold moment. vring. Qed.
Lemma mindlin_balance L p i1 i2 t s s' a e o at_ : mindlin L p i1 i2 t s = HKept s' a e -> at_ i1 = pos (hs1 t) -> at_ i2 = vadd (pos (hs2 t)) (if hperiodic L then hshift2 t else vzero) ->
  (hperiodic L = true -> touching (radius1 (hg t)) (radius2 (hg t)) (at_ i1) (at_ i2) (hg t)) -> total_force a = vzero /\ total_moment o at_ a = vzero.
Proof.
  intros H A1 A2 T. destruct (Rlt_or_le (depth t) 0) as [D|D].
  - rewrite mindlin_apart in H by assumption. destruct (hnever L); [|discriminate]. injection H as _ <- _. split; reflexivity.
  - destruct (mindlin_shape _ _ _ _ _ _ _ _ _ H D) as (cn & cs & v & fn & visc & slid & sv & fs & fe & us' & _ & _ & _ & _ & _ & _ & _ & _ & _ & _ & _ & _ & _ & _ & _ & _ & _ & ->).
    rewrite total_force_app, total_moment_app.
    assert (B : forall f, total_force (apply_forces L t i1 i2 f) = vzero /\ total_moment o at_ (apply_forces L t i1 i2 f) = vzero).
    { intros f. unfold apply_forces. cbv zeta. destruct (hperiodic L) eqn:PE; cbn [negb].
      - apply (sphere_forces_balance t i1 i2 f o at_ (at_ i2)); [apply T; reflexivity|reflexivity].
      - rewrite vadd_0_r in A2. rewrite <- A1, <- A2. apply contact_point_forces. }
    destruct (B (vsub (vopp fn) fs)) as (-> & ->). destruct (hmoment L).
    + destruct (moments_balance i1 i2 (vadd (mTwist s') (mBend s')) o at_) as (-> & ->). split; apply vadd_0_l.
    + split; apply vadd_0_l.
Qed.
Lemma linear_balance nv k p i1 i2 t s s' a e o at_ : hertz_linear nv k p i1 i2 t s = HKept s' a e -> touching (radius1 (hg t)) (radius2 (hg t)) (at_ i1) (at_ i2) (hg t) -> total_force a = vzero /\ total_moment o at_ a = vzero.
Proof.
  intros H T. destruct (Rlt_or_le (depth t) 0) as [D|D].
  - unfold hertz_linear in H. cbv zeta in H. fold (depth t) in H. apply ltR_true in D. rewrite D in H. destruct nv; [|discriminate]. injection H as _ <- _. split; reflexivity.
  - destruct (linear_shape _ _ _ _ _ _ _ _ _ _ H D) as (inc & _ & _ & -> & _). apply (sphere_forces_balance t i1 i2 _ o at_ (at_ i2)); [assumption|reflexivity].
Qed.

(** ** Dissipation *)
Definition damped_well (p : hparams) : Prop := 0 <= hbetan p /\ 0 <= hbetas p /\ 0 <= halpha p.
Lemma coefs_pos p t cn cs : damping_coefs p t = Some (cn, cs) -> 0 <= hbetan p -> 0 <= hbetas p -> 0 <= halpha p -> 0 <= cn /\ 0 <= cs.
Proof.
  intros H A B C. unfold damping_coefs in H. cbv zeta in H. destruct (negb (use_damping p)); [injection H as <- <-; lra|]. destruct (mbar t) as [m|]; [|discriminate].
  destruct (ltR m 0 || _ || _); [discriminate|]. destruct (is0 (halpha p)); injection H as <- <-.
  - split; apply Rmult_le_pos; try assumption; (apply Rmult_le_pos; [lra|apply sqrt_pos]).
  - assert (0 <= halpha p * sqrt m * sqrt (sqrt (penetrationDepth (hg t)))); [|lra]. apply Rmult_le_pos; [apply Rmult_le_pos|]; try assumption; apply sqrt_pos.
Qed.
Lemma dot_smul_l k a b : dot (smul k a) b = k * dot a b. Proof. vring. Qed.
Lemma dot_smul_r k a b : dot a (smul k b) = k * dot a b. Proof. vring. Qed.
Lemma dot_zero_l b : dot vzero b = 0. Proof. vring. Qed.
Lemma visc_power L p n F cn v fn visc : norm2 n = 1 -> 0 <= hadh p -> (hadhesion L = false \/ hadh p = 0 -> 0 <= F) -> 0 <= cn -> damp_normal L p n (smul F n) (smul cn (along n v)) = Some (fn, visc) -> 0 <= dot visc (along n v).
Proof.
  intros U P FF C H. unfold damp_normal in H. cbv zeta in H. unfold along in *. rewrite smul_smul in H. set (w := dot n v) in *. clearbody w.
  assert (SQ : 0 <= w * w) by (apply Rle_0_sqr).
  assert (B : 0 <= dot (smul (cn * w) n) (smul w n)). { rewrite dot_smul_l, dot_smul_r. change (dot n n) with (norm2 n). rewrite U. replace (cn * w * (w * 1)) with (cn * (w * w)) by ring. apply Rmult_le_pos; assumption. }
  destruct (is0 (hadh p) || negb (hadhesion L)) eqn:A.
  - assert (A' : hadhesion L = false \/ hadh p = 0). { apply orb_prop in A. destruct A as [A|A]; [right; apply is0_true; assumption|left; apply negb_true_iff; assumption]. }
    specialize (FF A'). rewrite smul_sub, dot_smul_unit in H by assumption. destruct (ltR _ 0) eqn:Z; injection H as <- <-; [|assumption]. apply ltR_true in Z.
    replace (vadd (smul (cn * w) n) (smul (F - cn * w) n)) with (smul F n). 2:{ transitivity (smul (cn * w + (F - cn * w)) n); [f_equal; ring|vring]. }
    rewrite dot_smul_l, dot_smul_r. change (dot n n) with (norm2 n). rewrite U. replace (F * (w * 1)) with (F * w) by ring. apply Rmult_le_pos; [assumption|].
    destruct (Rle_or_lt 0 w) as [W|W]; [assumption|]. exfalso. pose proof (Rmult_le_compat_l cn w 0 C (Rlt_le _ _ W)). lra.
  - destruct (ltR _ 0 && _).
    + destruct (is0 (norm (smul (cn * w) n))) eqn:Z; [discriminate|]. injection H as <- <-. apply is0_false in Z. pose proof (norm_pos (smul (cn * w) n)).
      rewrite !dot_smul_l. apply Rmult_le_pos; [assumption|]. rewrite dot_smul_l in B. apply Rmult_le_pos; [apply Rlt_le, Rinv_0_lt_compat; lra|assumption].
    + injection H as <- <-. assumption.
Qed.
Lemma damping_dissipates L p i1 i2 t s s' a e : mindlin L p i1 i2 t s = HKept s' a e -> unit_normal t -> 0 <= kno p -> 0 <= hadh p -> 0 <= hbetan p -> 0 <= hbetas p -> 0 <= halpha p -> 0 <= hdt t -> 0 <= a_normDamp e /\ 0 <= a_shearDamp e.
Proof.
  intros H U K P B1 B2 B3 T. destruct (Rlt_or_le (depth t) 0) as [D|D].
  - rewrite mindlin_apart in H by assumption. destruct (hnever L); [|discriminate]. injection H as _ _ <-. cbn [no_account a_normDamp a_shearDamp]. lra.
  - destruct (mindlin_shape _ _ _ _ _ _ _ _ _ H D) as (cn & cs & v & fn & visc & slid & sv & fs & fe & us' & DC & _ & EN & EM & _ & _ & _ & _ & _ & _ & _ & _ & _ & _ & -> & _).
    destruct (coefs_pos _ _ _ _ DC B1 B2 B3) as (CN & CS). unfold mk_account. destruct (henergy L); [|cbn [no_account a_normDamp a_shearDamp]; lra]. cbn [a_normDamp a_shearDamp].
    destruct (use_damping p) eqn:UD; [|cbn [andb]; lra]. split.
    + rewrite dot_smul_r. apply Rmult_le_pos; [assumption|]. apply (visc_power L p (normal (hg t)) (fn0 L p t) cn v fn visc); try assumption.
      intros A. unfold fn0. pose proof (Rmult_le_pos _ _ K (usqrt_pos _ D)). destruct A as [-> | ->]; [lra|destruct (hadhesion L); lra].
    + cbn [andb]. destruct slid; cbn [negb]; [lra|]. unfold mohr in EM. cbv zeta in EM. rewrite UD in EM. destruct (ltR _ _) in EM; [discriminate|]. injection EM as <- _ _ _.
      rewrite dot_smul_r, dot_smul_l. apply Rmult_le_pos; [assumption|]. apply Rmult_le_pos; [assumption|]. apply norm2_pos.
Qed.
Lemma cauchy_norm a b : dot a b <= norm a * norm b.
Proof. apply dot_le; try apply norm_pos; rewrite norm_sq; lra. Qed.
(** friction takes energy if the force was within the limit before *)
Lemma friction_dissipates L p i1 i2 t s s' a e : mindlin L p i1 i2 t s = HKept s' a e -> 0 <= depth t -> hadhesion L = false -> 0 <= htan p -> 0 < kso p ->
  norm (rotate (hg t) (sElastic s)) <= htan p * norm (hnormal s') -> 0 <= a_friction e.
Proof.
  intros H D A P K B. destruct (mindlin_shape _ _ _ _ _ _ _ _ _ H D) as (cn & cs & v & fn & visc & slid & sv & fs & fe & us' & _ & _ & _ & EM & E1 & _ & _ & _ & _ & _ & _ & _ & _ & _ & -> & _).
  unfold mk_account. destruct (henergy L); [|cbn [no_account a_friction]; lra]. cbn [a_friction]. destruct slid; [|lra].
  rewrite E1 in B. apply mohr_spec in EM; [|rewrite strength_plain by assumption; apply Rmult_le_pos; [assumption|apply norm_pos]]. rewrite (strength_plain L p fn A) in EM.
  destruct EM as (_ & S1 & S2 & _). pose proof (proj1 S1 eq_refl) as X. destruct (S2 eq_refl) as (_ & _ & _ & -> & _). clear S1 S2.
  set (prev := rotate (hg t) (sElastic s)) in *. set (d := smul (hdt t) (across (normal (hg t)) v)) in *. set (m := htan p * norm fn) in *.
  assert (M : 0 <= m) by (apply Rmult_le_pos; [assumption|apply norm_pos]).
  set (k := ks_of p t) in *. assert (K0 : 0 <= k) by (apply Rmult_le_pos; [lra|apply sqrt_pos]). set (R0 := rotate (hg t) (usTotal s)). clearbody prev d m k R0.
  replace (vsub (vsub R0 d) R0) with (smul (-1) d) by vring. set (T := vsub prev (smul k d)) in *. rewrite dot_smul_r, dot_smul_l.
  destruct (Req_dec k 0) as [Z|Z].
  - exfalso. unfold T in X. rewrite Z in X. replace (vsub prev (smul 0 d)) with prev in X by vring. lra.
  - assert (NT : 0 < norm T) by lra. apply Rmult_le_pos; [unfold Rdiv; apply Rmult_le_pos; [assumption|apply Rlt_le, Rinv_0_lt_compat; assumption]|].
    assert (Q : k * dot d T = dot prev T - norm2 T). { unfold T. vring. }
    pose proof (cauchy_norm prev T) as CS. pose proof (norm_sq T) as NS. 
    assert (norm prev * norm T <= norm T * norm T) by (apply Rmult_le_compat_r; lra).
    assert (k * dot d T <= 0) by lra. destruct (Rle_or_lt (dot d T) 0) as [W|W]; [lra|]. exfalso. pose proof (Rmult_lt_0_compat k (dot d T) ltac:(lra) W). lra.
Qed.

(** ** Bending moment *)
Lemma bend_limit L p i1 i2 t s s' a e : mindlin L p i1 i2 t s = HKept s' a e -> hmoment L = true -> 0 <= depth t -> 0 < maxBendPl p -> hnormal s' <> vzero -> norm (mBend s') <= maxBendPl p * norm (hnormal s') /\
  nearest_within (maxBendPl p * norm (hnormal s')) (vsub (rotate (hg t) (mBend s)) (smul (hkr p * hdt t) (tangential t (vsub (angVel (hs2 t)) (angVel (hs1 t)))))) (mBend s').
Proof.
  intros H M D P N. destruct (mindlin_shape _ _ _ _ _ _ _ _ _ H D) as (cn & cs & v & fn & visc & slid & sv & fs & fe & us' & _ & _ & _ & _ & E1 & _ & _ & _ & _ & _ & _ & _ & _ & _ & _ & _ & EB & _).
  rewrite M in EB. rewrite EB. rewrite E1 in *. set (b := vsub _ _) at 1. fold b.
  assert (EQ : vsub (rotate (hg t) (mBend s)) (smul (hkr p * hdt t) (tangential t (vsub (angVel (hs2 t)) (angVel (hs1 t))))) = b). { unfold b, tangential, across, along. rewrite smul_smul. reflexivity. }
  rewrite EQ. clearbody b. assert (F : 0 < norm fn). { destruct (Rle_lt_or_eq_dec _ _ (norm_pos fn)) as [F|F]; [assumption|]. exfalso. apply N, norm2_zero. rewrite <- norm_sq, <- F. ring. }
  pose proof (Rmult_lt_0_compat _ _ P F) as MM. set (m := maxBendPl p * norm fn) in *.
  assert (G : nearest_within m b (limit_bend p fn b)). { unfold limit_bend. cbv zeta. fold m. apply ltR_true in MM. rewrite MM. apply ltR_true in MM. destruct (ltR m (norm b)) eqn:Z.
    - apply ltR_true in Z. apply scaled_nearest; lra.
    - apply ltR_false in Z. apply self_nearest. assumption. }
  split; [apply G|assumption].
Qed.
