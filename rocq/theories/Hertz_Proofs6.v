From Coq Require Import Reals List ZArith Bool Lra Lia.
From Verif Require Import Vec_Model Vec_Proofs Rigid_Model Rigid_Spec Law_Model Law_Spec Law_Proofs Law_Proofs2 Coh_Model Coh_Spec Coh_Proofs Hertz_Model Hertz_Spec Hertz_Proofs Hertz_Proofs2 Hertz_Proofs3 Hertz_Proofs4 Hertz_Proofs5.
Import ListNotations.
Local Open Scope R_scope.

(** ** Moments *)
Lemma twisting L p i1 i2 t s s' a e : mindlin L p i1 i2 t s = HKept s' a e -> hmoment L = true -> 0 <= depth t ->
  mTwist s' = vsub (rotate (hg t) (mTwist s)) (smul (hktw p * hdt t * dot (normal (hg t)) (vsub (angVel (hs2 t)) (angVel (hs1 t)))) (normal (hg t))) /\
  exists r b, mindlin (no_moment L) p i1 i2 t s = HKept r b e /\ a = b ++ [(i1, (vzero, vopp (vadd (mTwist s') (mBend s')))); (i2, (vzero, vadd (mTwist s') (mBend s')))] /\ mTwist r = mTwist s /\ mBend r = mBend s /\
    hnormal r = hnormal s' /\ hshear r = hshear s' /\ sElastic r = sElastic s'.
Proof.
  intros H M D. split.
  - destruct (mindlin_shape _ _ _ _ _ _ _ _ _ H D) as (cn & cs & v & fn & visc & slid & sv & fs & fe & us' & _ & _ & _ & _ & _ & _ & _ & _ & _ & _ & _ & _ & _ & _ & _ & ET & _). rewrite M in ET. rewrite ET. unfold along. rewrite !smul_smul. reflexivity.
  - unfold mindlin in *. cbv zeta in *. fold (depth t) in *. apply ltR_false in D. rewrite D in *. cbn [no_moment hratchet hadhesion hmoment henergy]. rewrite M in H.
    destruct (damping_coefs p t) as [[cn cs]|]; [|discriminate]. destruct (incident (hratchet L) t) as [v|]; [|discriminate].
    change (damp_normal (no_moment L)) with (damp_normal L). change (mohr (no_moment L)) with (mohr L). change (apply_forces (no_moment L)) with (apply_forces L).
    match type of H with match ?x with Some _ => _ | None => _ end = _ => destruct x as [[fn visc]|]; [|discriminate] end. destruct (mohr _ _ _ _ _ _ _) as [[[[slid sv] fs] fe] us'].
    injection H as <- <- <-. eexists _, _. split; [reflexivity|]. cbn [mTwist mBend hnormal hshear sElastic]. repeat (split; [reflexivity|]). reflexivity.
Qed.
Lemma no_moments L p i1 i2 t s s' a e : mindlin L p i1 i2 t s = HKept s' a e -> hmoment L = false -> mTwist s' = mTwist s /\ mBend s' = mBend s.
Proof.
  intros H M. destruct (Rlt_or_le (depth t) 0) as [D|D].
  - rewrite mindlin_apart in H by assumption. destruct (hnever L); [|discriminate]. injection H as <- _ _. split; reflexivity.
  - destruct (mindlin_shape _ _ _ _ _ _ _ _ _ H D) as (cn & cs & v & fn & visc & slid & sv & fs & fe & us' & _ & _ & _ & _ & _ & _ & _ & _ & _ & _ & _ & _ & _ & _ & _ & ET & EB & _). rewrite M in *. split; assumption.
Qed.

(** ** Energies *)
Lemma not_accounted L p i1 i2 t s s' a e : mindlin L p i1 i2 t s = HKept s' a e -> henergy L = false -> e = no_account.
Proof.
  intros H E. destruct (Rlt_or_le (depth t) 0) as [D|D].
  - rewrite mindlin_apart in H by assumption. destruct (hnever L); [|discriminate]. injection H as _ _ <-. reflexivity.
  - destruct (mindlin_shape _ _ _ _ _ _ _ _ _ H D) as (cn & cs & v & fn & visc & slid & sv & fs & fe & us' & _ & _ & _ & _ & _ & _ & _ & _ & _ & _ & _ & _ & _ & _ & -> & _). unfold mk_account. rewrite E. reflexivity.
Qed.
Lemma dot_vsub_l a b c : dot (vsub a b) c = dot a c - dot b c. Proof. destruct a as [a1 a2 a3], b as [b1 b2 b3], c as [c1 c2 c3]. unfold dot, vsub. cbn [vx vy vz]. ring. Qed.
Lemma half_squares k prev d us : k <> 0 -> dot (vsub (vsub us d) us) (smul (1/2) (vadd (vsub prev (smul k d)) prev)) = (norm2 (vsub prev (smul k d)) - norm2 prev) / (2 * k).
Proof. intros K. destruct prev as [a1 a2 a3], d as [b1 b2 b3], us as [c1 c2 c3]. unfold norm2, dot, vsub, vadd, smul. cbn [vx vy vz]. field. assumption. Qed.
Lemma elastic_account L p i1 i2 t s s' a e : mindlin L p i1 i2 t s = HKept s' a e -> henergy L = true -> 0 < depth t -> 0 < kso p -> 0 <= htan p -> hadhesion L = false -> isSliding s' = false ->
  a_shear e = (norm2 (sElastic s') - norm2 (rotate (hg t) (sElastic s))) / (2 * hks s') /\ a_friction e = 0.
Proof.
  intros H E D K P A SL. destruct (mindlin_shape _ _ _ _ _ _ _ _ _ H (Rlt_le _ _ D)) as (cn & cs & v & fn & visc & slid & sv & fs & fe & us' & _ & _ & _ & EM & _ & _ & EF & ES & _ & _ & _ & _ & EK & _ & -> & _).
  rewrite SL in ES. subst slid. apply mohr_spec in EM; [|rewrite strength_plain by assumption; apply Rmult_le_pos; [assumption|apply norm_pos]]. destruct EM as (_ & _ & _ & S3). destruct (S3 eq_refl) as (E1 & E2 & _).
  unfold mk_account. rewrite E. cbn [a_shear a_friction]. split; [|reflexivity]. rewrite EF, EK, E2, E1. apply half_squares. unfold ks_of. apply Rgt_not_eq, Rmult_lt_0_compat; [assumption|apply sqrt_lt_R0; assumption].
Qed.
Lemma turn_back tot d f : dot (vsub (vsub tot d) tot) f = - dot d f. Proof. destruct tot as [a1 a2 a3], d as [b1 b2 b3], f as [c1 c2 c3]. unfold dot, vsub. cbn [vx vy vz]. ring. Qed.
Lemma friction_work L p i1 i2 t s s' a e : mindlin L p i1 i2 t s = HKept s' a e -> henergy L = true -> 0 <= depth t -> hratchet L = false -> irrotational t -> isSliding s' = true ->
  a_friction e = - dot (smul (hdt t) (tangential t (approach t))) (hshear s').
Proof.
  intros H E D RR I SL. destruct (mindlin_shape _ _ _ _ _ _ _ _ _ H D) as (cn & cs & v & fn & visc & slid & sv & fs & fe & us' & _ & IV & _ & EM & _ & ES' & EF & ES & _ & _ & _ & _ & EK & _ & -> & _).
  rewrite SL in ES. subst slid. rewrite RR, incident_plain, (incident_straight t I) in IV. injection IV as <-. unfold mk_account. rewrite E. cbn [a_friction]. rewrite turn_back.
  assert (fs = fe) as ->. { unfold mohr in EM. cbv zeta in EM. destruct (ltR _ _); [injection EM as _ <- <- _; reflexivity|destruct (use_damping p); discriminate]. }
  rewrite ES'. reflexivity.
Qed.

(** ** Marks *)
Lemma adhesive_mark L p i1 i2 t s s' a e : mindlin L p i1 i2 t s = HKept s' a e -> hadhesion L = true -> no_damping p -> 0 < depth t -> unit_normal t -> (isAdhesive s' = true <-> repulsion t s' < 0).
Proof.
  intros H A N D U. destruct (mindlin_shape _ _ _ _ _ _ _ _ _ H (Rlt_le _ _ D)) as (cn & cs & v & fn & visc & slid & sv & fs & fe & us' & _ & _ & EN & _ & E1 & _ & _ & _ & _ & _ & _ & _ & _ & EA & _).
  rewrite (no_damping_off p N) in EN. injection EN as <- _. rewrite EA, A, ltR_true. unfold repulsion. rewrite E1, dot_smul_unit by exact U. tauto.
Qed.
