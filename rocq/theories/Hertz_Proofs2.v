From Coq Require Import Reals List ZArith Bool Lra Lia.
From Verif Require Import Vec_Model Vec_Proofs Rigid_Model Rigid_Spec Law_Model Law_Spec Law_Proofs Law_Proofs2 Coh_Model Coh_Spec Coh_Proofs Hertz_Model Hertz_Spec Hertz_Proofs.
Import ListNotations.
Local Open Scope R_scope.

(** ** Shape of a step *)
Lemma rpower_32 u : 0 < u -> u * sqrt u = Rpower u (3/2).
Proof. intros U. replace (3/2) with (1 + /2) by field. rewrite Rpower_plus, Rpower_1, Rpower_sqrt by assumption. reflexivity. Qed.
Lemma usqrt_pos u : 0 <= u -> 0 <= u * sqrt u. Proof. intros. apply Rmult_le_pos; [assumption|apply sqrt_pos]. Qed.
(** the elastic normal force, with adhesion *)
Definition fn0 (L : hlaw) (p : hparams) (t : hstep) : R := kno p * (depth t * sqrt (depth t)) - (if hadhesion L then hadh p else 0).
Definition ks_of (p : hparams) (t : hstep) : R := kso p * sqrt (depth t).
Definition mk_account (L : hlaw) (p : hparams) (t : hstep) (s : hstate) (visc sv fe us' vs vn : vec) (slid : bool) : account :=
  if henergy L then
    mkAc (if slid then dot (vsub (vsub (rotate (hg t) (usTotal s)) (smul (hdt t) vs)) (rotate (hg t) (usTotal s))) fe else 0)
         (dot (vsub us' (rotate (hg t) (usElastic s))) (smul (1/2) (vadd fe (rotate (hg t) (sElastic s)))))
         (if use_damping p then dot visc (smul (hdt t) vn) else 0)
         (if use_damping p && negb slid then dot sv (smul (hdt t) vs) else 0)
  else no_account.
Lemma mindlin_shape L p i1 i2 t s s' a e : mindlin L p i1 i2 t s = HKept s' a e -> 0 <= depth t ->
  exists cn cs v fn visc slid sv fs fe us',
    damping_coefs p t = Some (cn, cs) /\ incident (hratchet L) t = Some v /\
    (if use_damping p then damp_normal L p (normal (hg t)) (smul (fn0 L p t) (normal (hg t))) (smul cn (along (normal (hg t)) v)) else Some (smul (fn0 L p t) (normal (hg t)), nVisc s)) = Some (fn, visc) /\
    mohr L p cs fn (across (normal (hg t)) v) (vsub (rotate (hg t) (sElastic s)) (smul (ks_of p t) (smul (hdt t) (across (normal (hg t)) v)))) (vsub (rotate (hg t) (usElastic s)) (smul (hdt t) (across (normal (hg t)) v))) = (slid, sv, fs, fe, us') /\
    hnormal s' = fn /\ hshear s' = fs /\ sElastic s' = fe /\ isSliding s' = slid /\ sVisc s' = sv /\ nVisc s' = visc /\ usElastic s' = us' /\
    hkn s' = 3/2 * kno p * sqrt (depth t) /\ hks s' = ks_of p t /\ isAdhesive s' = (if hadhesion L then ltR (fn0 L p t) 0 else isAdhesive s) /\
    e = mk_account L p t s visc sv fe us' (across (normal (hg t)) v) (along (normal (hg t)) v) slid /\
    mTwist s' = (if hmoment L then vsub (rotate (hg t) (mTwist s)) (smul (hktw p) (smul (hdt t) (along (normal (hg t)) (vsub (angVel (hs2 t)) (angVel (hs1 t)))))) else mTwist s) /\
    mBend s' = (if hmoment L then limit_bend p fn (vsub (rotate (hg t) (mBend s)) (smul (hkr p) (smul (hdt t) (across (normal (hg t)) (vsub (angVel (hs2 t)) (angVel (hs1 t))))))) else mBend s) /\
    a = apply_forces L t i1 i2 (vsub (vopp fn) fs) ++ (if hmoment L then [(i1, (vzero, vopp (vadd (mTwist s') (mBend s')))); (i2, (vzero, vadd (mTwist s') (mBend s')))] else []).
Proof.
  intros H D. unfold mindlin in H. cbv zeta in H. fold (depth t) in H. apply ltR_false in D. rewrite D in H.
  destruct (damping_coefs p t) as [[cn cs]|] eqn:DC; [|discriminate]. destruct (incident (hratchet L) t) as [v|] eqn:IV; [|discriminate].
  fold (fn0 L p t) in H. fold (ks_of p t) in H. change (kso p * sqrt (penetrationDepth (hg t))) with (ks_of p t) in H.
  destruct (if use_damping p then _ else _) as [[fn visc]|] eqn:DN; [|discriminate].
  destruct (mohr _ _ _ _ _ _ _) as [[[[slid sv] fs] fe] us'] eqn:MO.
  exists cn, cs, v, fn, visc, slid, sv, fs, fe, us'. unfold mk_account.
  destruct (hmoment L); injection H as <- <- <-; cbn [hnormal hshear sElastic isSliding sVisc nVisc usElastic hkn hks isAdhesive mTwist mBend].
  - repeat (split; [first [reflexivity | assumption]|]). reflexivity.
  - repeat (split; [first [reflexivity | assumption]|]). rewrite app_nil_r. reflexivity.
Qed.
Lemma mindlin_apart L p i1 i2 t s : depth t < 0 -> mindlin L p i1 i2 t s = if hnever L then HKept (separated s) [] no_account else HLost.
Proof. intros D. unfold mindlin. cbv zeta. fold (depth t). apply ltR_true in D. rewrite D. reflexivity. Qed.
Lemma mindlin_lost L p i1 i2 t s : mindlin L p i1 i2 t s = HLost <-> depth t < 0 /\ hnever L = false.
Proof.
  split.
  - intros H. destruct (Rlt_or_le (depth t) 0) as [D|D].
    + rewrite mindlin_apart in H by assumption. destruct (hnever L); [discriminate|]. auto.
    + exfalso. unfold mindlin in H. cbv zeta in H. fold (depth t) in H. apply ltR_false in D. rewrite D in H.
      destruct (damping_coefs p t) as [[cn cs]|]; [|discriminate]. destruct (incident _ _); [|discriminate]. destruct (if use_damping p then _ else _) as [[fn visc]|]; [|discriminate].
      destruct (mohr _ _ _ _ _ _ _) as [[[[slid sv] fs] fe] us']. destruct (hmoment L); discriminate.
  - intros (D & N). rewrite mindlin_apart by assumption. rewrite N. reflexivity.
Qed.
Lemma linear_lost nv k p i1 i2 t s : hertz_linear nv k p i1 i2 t s = HLost <-> depth t < 0 /\ nv = false.
Proof.
  unfold hertz_linear. cbv zeta. fold (depth t). destruct (ltR (depth t) 0) eqn:D.
  - apply ltR_true in D. destruct nv; split; intros H; try discriminate; try (destruct H; discriminate); auto.
  - apply ltR_false in D. split; [|intros (A & _); lra]. intros H. exfalso. revert H. destruct (if (1 <? k)%Z then option_map (fun v => smul (hdt t) (across (normal (hg t)) v)) (incident (2 <? k)%Z t) else Some (shearInc (hg t))); discriminate.
Qed.
Lemma linear_shape nv k p i1 i2 t s s' a e : hertz_linear nv k p i1 i2 t s = HKept s' a e -> 0 <= depth t -> exists inc,
  (if (1 <? k)%Z then option_map (fun v => smul (hdt t) (across (normal (hg t)) v)) (incident (2 <? k)%Z t) else Some (shearInc (hg t))) = Some inc /\
  let Fn := kno p * (depth t * sqrt (depth t)) in let trial := vsub (rotate (hg t) (hshear s)) (smul (if (0 <? k)%Z then kso p * sqrt (depth t) else kso p) inc) in let max2 := Fn * Fn * (htan p * htan p) in
  s' = with_forces s (smul Fn (normal (hg t))) (if ltR max2 (norm2 trial) then smul (sqrt max2 / norm trial) trial else trial) /\ a = sphere_forces t i1 i2 (vsub (vopp (hnormal s')) (hshear s')) /\ e = no_account.
Proof.
  intros H D. unfold hertz_linear in H. cbv zeta in H. fold (depth t) in H. apply ltR_false in D. rewrite D in H.
  destruct (if (1 <? k)%Z then _ else _) as [inc|]; [|discriminate]. exists inc. split; [reflexivity|]. cbv zeta. injection H as <- <- <-. repeat split.
Qed.
Lemma deres_shape nv p i1 i2 t s s' a e : deresiewitz nv p i1 i2 t s = HKept s' a e -> 0 <= depth t ->
  hnormal s' = smul (kno p * (depth t * sqrt (depth t))) (normal (hg t)) /\ hshear s' = hshear s /\ (a = sphere_forces t i1 i2 (vsub (vopp (hnormal s')) (hshear s')) \/ (a = [] /\ kno p * (depth t * sqrt (depth t)) = 0)).
Proof.
  intros H D. unfold deresiewitz in H. cbv zeta in H. fold (depth t) in H. apply ltR_false in D. rewrite D in H. destruct (is0 _) eqn:Z; injection H as <- <- <-.
  - split; [reflexivity|]. split; [reflexivity|]. right. split; [reflexivity|]. apply is0_true. assumption.
  - split; [reflexivity|]. split; [reflexivity|]. left. reflexivity.
Qed.

(** ** Forces on the two bodies *)
Lemma force_pair i1 i2 f ta tb : i1 <> i2 -> forall l, (forall e, In e l -> fst (snd e) = vzero) -> force_on ([(i1, (f, ta)); (i2, (vopp f, tb))] ++ l) i1 = f /\ force_on ([(i1, (f, ta)); (i2, (vopp f, tb))] ++ l) i2 = vopp f.
Proof.
  intros N l Z. assert (ZL : forall i, vsum (map (fun e : nat * (vec * vec) => if Nat.eqb (fst e) i then fst (snd e) else vzero) l) = vzero).
  { intros i. induction l as [|x l IH]; [reflexivity|]. cbn [map]. rewrite vsum_cons, IH by (intros; apply Z; right; assumption). rewrite vadd_0_r. destruct (Nat.eqb (fst x) i); [apply Z; left; reflexivity|reflexivity]. }
  unfold force_on. cbn [app map fst snd]. rewrite !vsum_cons, !ZL, !Nat.eqb_refl, !vadd_0_r.
  apply Nat.eqb_neq in N. rewrite (Nat.eqb_sym i2 i1), N. rewrite vadd_0_r, vadd_0_l. split; reflexivity.
Qed.
Lemma apply_forces_pair L t i1 i2 f : exists ta tb, apply_forces L t i1 i2 f = [(i1, (f, ta)); (i2, (vopp f, tb))].
Proof. unfold apply_forces. destruct (negb (hperiodic L)); eexists _, _; reflexivity. Qed.
Lemma opp_sum a b : vopp (vadd a b) = vsub (vopp a) b. Proof. vring. Qed.
Lemma opp_opp a : vopp (vopp a) = a. Proof. vring. Qed.
Lemma mindlin_applied L p i1 i2 t s s' a e : i1 <> i2 -> mindlin L p i1 i2 t s = HKept s' a e -> force_on a i1 = vopp (vadd (hnormal s') (hshear s')) /\ force_on a i2 = vadd (hnormal s') (hshear s').
Proof.
  intros N H. destruct (Rlt_or_le (depth t) 0) as [D|D].
  - rewrite mindlin_apart in H by assumption. destruct (hnever L); [|discriminate]. injection H as <- <- _. unfold force_on, separated. cbn [map vsum fold_right hnormal hshear]. split; vring.
  - destruct (mindlin_shape _ _ _ _ _ _ _ _ _ H D) as (cn & cs & v & fn & visc & slid & sv & fs & fe & us' & _ & _ & _ & _ & E1 & E2 & _ & _ & _ & _ & _ & _ & _ & _ & _ & _ & _ & EA).
    rewrite E1, E2, EA. destruct (apply_forces_pair L t i1 i2 (vsub (vopp fn) fs)) as (ta & tb & ->).
    destruct (force_pair i1 i2 (vsub (vopp fn) fs) ta tb N (if hmoment L then [(i1, (vzero, vopp (vadd (mTwist s') (mBend s')))); (i2, (vzero, vadd (mTwist s') (mBend s')))] else [])) as (A & B).
    + intros x X. destruct (hmoment L); [|destruct X]. destruct X as [<- | [<- | []]]; reflexivity.
    + rewrite A, B, opp_sum. split; [reflexivity|]. rewrite <- opp_sum, opp_opp. reflexivity.
Qed.
Lemma linear_applied nv k p i1 i2 t s s' a e : i1 <> i2 -> hertz_linear nv k p i1 i2 t s = HKept s' a e -> force_on a i1 = vopp (vadd (hnormal s') (hshear s')) /\ force_on a i2 = vadd (hnormal s') (hshear s').
Proof.
  intros N H. destruct (Rlt_or_le (depth t) 0) as [D|D].
  - unfold hertz_linear in H. cbv zeta in H. fold (depth t) in H. apply ltR_true in D. rewrite D in H. destruct nv; [|discriminate]. injection H as <- <- _. unfold force_on, separated. cbn [map vsum fold_right hnormal hshear]. split; vring.
  - destruct (linear_shape _ _ _ _ _ _ _ _ _ _ H D) as (inc & _ & _ & -> & _). unfold sphere_forces. cbv zeta.
    match goal with |- context [ (i1, (?f, ?ta)) :: [(i2, (_, ?tb))] ] => destruct (force_pair i1 i2 f ta tb N []) as (A & B); [intros x []|]; rewrite app_nil_r in A, B; rewrite A, B end.
    rewrite opp_sum. split; [reflexivity|]. rewrite <- opp_sum, opp_opp. reflexivity.
Qed.

(** ** Repulsion *)
Lemma dot_smul_unit k n : norm2 n = 1 -> dot (smul k n) n = k.
Proof. intros U. transitivity (k * norm2 n); [vring|]. rewrite U. ring. Qed.
Lemma smul_smul k l n : smul k (smul l n) = smul (k * l) n. Proof. vring. Qed.
Lemma smul_sub k l n : vsub (smul k n) (smul l n) = smul (k - l) n. Proof. vring. Qed.
Lemma smul_0 n : smul 0 n = vzero. Proof. vring. Qed.
Lemma smul_vzero k : smul k vzero = vzero. Proof. vring. Qed.
Lemma norm_smul_abs k n : norm2 n = 1 -> norm (smul k n) = Rabs k.
Proof. intros U. unfold norm. rewrite norm2_smul, U, Rmult_1_r. apply sqrt_Rsqr_abs. Qed.
Lemma damp_normal_repel L p n F cn v fn visc : norm2 n = 1 -> hadhesion L = false \/ hadh p = 0 -> 0 <= F -> damp_normal L p n (smul F n) (smul cn (along n v)) = Some (fn, visc) ->
  fn = smul (Rmax 0 (F - cn * dot n v)) n /\ visc = smul (Rmin F (cn * dot n v)) n.
Proof.
  intros U A P H. unfold damp_normal, along in H. cbv zeta in H.
  assert (is0 (hadh p) || negb (hadhesion L) = true) as E. { destruct A as [-> | A]; [apply orb_true_r|]. apply is0_true in A. rewrite A. reflexivity. }
  rewrite E, smul_smul, smul_sub, dot_smul_unit in H by assumption.
  destruct (ltR _ 0) eqn:Z in H; injection H as <- <-.
  - apply ltR_true in Z. rewrite Rmax_left by lra. rewrite Rmin_left by lra. split; [symmetry; apply smul_0|].
    transitivity (smul (cn * dot n v + (F - cn * dot n v)) n); [vring|]. f_equal. ring.
  - apply ltR_false in Z. rewrite Rmax_right by lra. rewrite Rmin_right by lra. split; reflexivity.
Qed.
Lemma mindlin_repel L p i1 i2 t s s' a e : mindlin L p i1 i2 t s = HKept s' a e -> unit_normal t -> 0 <= kno p -> hadhesion L = false \/ hadh p = 0 -> exists F, 0 <= F /\ hnormal s' = smul F (normal (hg t)).
Proof.
  intros H U K A. destruct (Rlt_or_le (depth t) 0) as [D|D].
  - rewrite mindlin_apart in H by assumption. destruct (hnever L); [|discriminate]. injection H as <- _ _. exists 0. split; [lra|]. symmetry. apply smul_0.
  - destruct (mindlin_shape _ _ _ _ _ _ _ _ _ H D) as (cn & cs & v & fn & visc & slid & sv & fs & fe & us' & _ & _ & EN & _ & -> & _).
    assert (F0 : 0 <= fn0 L p t). { unfold fn0. pose proof (Rmult_le_pos _ _ K (usqrt_pos _ D)). destruct A as [-> | ->]; [lra|destruct (hadhesion L); lra]. }
    destruct (use_damping p).
    + destruct (damp_normal_repel _ _ _ _ _ _ _ _ U A F0 EN) as (-> & _). eexists. split; [|reflexivity]. apply Rmax_l.
    + injection EN as <- _. exists (fn0 L p t). split; [assumption|reflexivity].
Qed.
Lemma no_damping_off p : no_damping p -> use_damping p = false.
Proof. intros (A & B & C). unfold use_damping. apply is0_true in A, B, C. rewrite A, B, C. reflexivity. Qed.
Lemma mindlin_undamped L p i1 i2 t s s' a e : mindlin L p i1 i2 t s = HKept s' a e -> no_damping p -> 0 < depth t -> hnormal s' = smul (hertz_force p (depth t) - (if hadhesion L then hadh p else 0)) (normal (hg t)).
Proof.
  intros H N D. destruct (mindlin_shape _ _ _ _ _ _ _ _ _ H (Rlt_le _ _ D)) as (cn & cs & v & fn & visc & slid & sv & fs & fe & us' & _ & _ & EN & _ & -> & _).
  rewrite (no_damping_off p N) in EN. injection EN as <- _. unfold fn0, hertz_force. rewrite rpower_32 by assumption. reflexivity.
Qed.
Lemma linear_repel nv k p i1 i2 t s s' a e : hertz_linear nv k p i1 i2 t s = HKept s' a e -> 0 < depth t -> hnormal s' = smul (hertz_force p (depth t)) (normal (hg t)).
Proof. intros H D. destruct (linear_shape _ _ _ _ _ _ _ _ _ _ H (Rlt_le _ _ D)) as (inc & _ & -> & _). cbn [with_forces hnormal]. unfold hertz_force. rewrite rpower_32 by assumption. reflexivity. Qed.
Lemma apart_no_force L p i1 i2 t s s' a e : mindlin L p i1 i2 t s = HKept s' a e -> depth t < 0 -> a = [] /\ hnormal s' = vzero /\ hshear s' = vzero.
Proof. intros H D. rewrite mindlin_apart in H by assumption. destruct (hnever L); [|discriminate]. injection H as <- <- _. repeat split. Qed.
Lemma apart_no_force_linear nv k p i1 i2 t s s' a e : hertz_linear nv k p i1 i2 t s = HKept s' a e -> depth t < 0 -> a = [] /\ hnormal s' = vzero /\ hshear s' = vzero.
Proof. intros H D. unfold hertz_linear in H. cbv zeta in H. fold (depth t) in H. apply ltR_true in D. rewrite D in H. destruct nv; [|discriminate]. injection H as <- <- _. repeat split. Qed.

(** ** Adhesion *)
Lemma norm_opp_smul A x n : norm2 n = 1 -> x <> 0 -> smul A (smul (/ norm (smul x n)) (smul x n)) = smul (A * (x / Rabs x)) n.
Proof. intros U X. rewrite norm_smul_abs, !smul_smul by assumption. f_equal. unfold Rdiv. ring. Qed.
Lemma sign_bound A x : 0 <= A -> x <> 0 -> A * (x / Rabs x) <= A.
Proof.
  intros P X. unfold Rabs. destruct (Rcase_abs x).
  - replace (x / - x) with (-1) by (field; assumption). lra.
  - replace (x / x) with 1 by (field; assumption). lra.
Qed.
Lemma damp_normal_adh L p n F cn v fn visc : norm2 n = 1 -> 0 <= hadh p -> - hadh p <= F -> hadhesion L = true -> damp_normal L p n (smul F n) (smul cn (along n v)) = Some (fn, visc) -> exists x, fn = smul x n /\ - (2 * hadh p) <= x.
Proof.
  intros U P Q A H. unfold damp_normal, along in H. cbv zeta in H. rewrite A in H. cbn [negb] in H. rewrite orb_false_r in H.
  rewrite smul_smul, smul_sub, dot_smul_unit in H by assumption. set (x := cn * dot n v) in *.
  destruct (is0 (hadh p)) eqn:Z.
  - apply is0_true in Z. destruct (ltR (F - x) 0) eqn:T; injection H as <- <-.
    + exists 0. split; [symmetry; apply smul_0|lra].
    + apply ltR_false in T. exists (F - x). split; [reflexivity|lra].
  - destruct (ltR (F - x) 0 && ltR (hadh p) (norm (smul x n))) eqn:T.
    + destruct (is0 (norm (smul x n))) eqn:NZ; [discriminate|]. apply is0_false in NZ. rewrite norm_smul_abs in NZ by assumption. assert (X : x <> 0) by (intros E; rewrite E, Rabs_R0 in NZ; lra).
      injection H as <- <-. rewrite norm_opp_smul by assumption. rewrite smul_sub. eexists. split; [reflexivity|]. pose proof (sign_bound _ _ P X). lra.
    + injection H as <- <-. exists (F - x). split; [reflexivity|]. apply andb_false_iff in T. destruct T as [T|T]; apply ltR_false in T; [lra|].
      rewrite norm_smul_abs in T by assumption. pose proof (Rle_abs x). lra.
Qed.
Lemma adhesion_bound L p i1 i2 t s s' a e : mindlin L p i1 i2 t s = HKept s' a e -> unit_normal t -> 0 <= kno p -> 0 <= hadh p -> - (2 * hadh p) <= repulsion t s' /\ (no_damping p -> - hadh p <= repulsion t s').
Proof.
  intros H U K P. unfold repulsion. destruct (Rlt_or_le (depth t) 0) as [D|D].
  - rewrite mindlin_apart in H by assumption. destruct (hnever L); [|discriminate]. injection H as <- _ _. cbn [separated hnormal]. replace (dot vzero (normal (hg t))) with 0 by vring. lra.
  - destruct (mindlin_shape _ _ _ _ _ _ _ _ _ H D) as (cn & cs & v & fn & visc & slid & sv & fs & fe & us' & _ & _ & EN & _ & EF & _). 
    assert (F0 : - hadh p <= fn0 L p t). { unfold fn0. pose proof (Rmult_le_pos _ _ K (usqrt_pos _ D)). destruct (hadhesion L); lra. }
    split.
    + destruct (hadhesion L) eqn:A.
      * rewrite EF. destruct (use_damping p).
        -- destruct (damp_normal_adh _ _ _ _ _ _ _ _ U P F0 A EN) as (x & -> & X). rewrite dot_smul_unit by assumption. assumption.
        -- injection EN as <- _. rewrite dot_smul_unit by assumption. lra.
      * destruct (mindlin_repel _ _ _ _ _ _ _ _ _ H U K (or_introl A)) as (F & FP & ->). rewrite dot_smul_unit by assumption. lra.
    + intros N. rewrite EF. rewrite (no_damping_off p N) in EN. injection EN as <- _. rewrite dot_smul_unit by assumption. assumption.
Qed.
