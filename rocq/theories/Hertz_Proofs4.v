From Coq Require Import Reals List ZArith Bool Lra Lia.
From Verif Require Import Vec_Model Vec_Proofs Rigid_Model Rigid_Spec Law_Model Law_Spec Law_Proofs Law_Proofs2 Coh_Model Coh_Spec Coh_Proofs Hertz_Model Hertz_Spec Hertz_Proofs Hertz_Proofs2 Hertz_Proofs3.
Import ListNotations.
Local Open Scope R_scope.

(** ** Steps that end *)
Lemma mindlin_runs L p i1 i2 t s cn cs v fn visc : 0 <= depth t -> damping_coefs p t = Some (cn, cs) -> incident (hratchet L) t = Some v ->
  (if use_damping p then damp_normal L p (normal (hg t)) (smul (fn0 L p t) (normal (hg t))) (smul cn (along (normal (hg t)) v)) else Some (smul (fn0 L p t) (normal (hg t)), nVisc s)) = Some (fn, visc) ->
  exists s' a e, mindlin L p i1 i2 t s = HKept s' a e.
Proof.
  intros D A B C. unfold mindlin. cbv zeta. fold (depth t). apply ltR_false in D. rewrite D, A, B.
  change (kno p * (depth t * sqrt (depth t)) - (if hadhesion L then hadh p else 0)) with (fn0 L p t). rewrite C. destruct (mohr _ _ _ _ _ _ _) as [[[[slid sv] fs] fe] us']. destruct (hmoment L); eexists _, _, _; reflexivity.
Qed.
Lemma undamped_coefs p t : no_damping p -> damping_coefs p t = Some (0, 0).
Proof. intros N. unfold damping_coefs. rewrite (no_damping_off p N). reflexivity. Qed.
Lemma incident_plain t : incident false t = Some (getIncidentVel (hg t) (hs1 t) (hs2 t) (hshift2 t) (hshiftVel t) false). Proof. reflexivity. Qed.
Lemma incident_straight t : irrotational t -> getIncidentVel (hg t) (hs1 t) (hs2 t) (hshift2 t) (hshiftVel t) false = approach t.
Proof.
  intros (A & B & C). unfold getIncidentVel. cbv zeta. rewrite A, B, C. unfold approach.
  set (x := vsub (contactPoint (hg t)) (vadd (pos (hs2 t)) (hshift2 t))). set (y := vsub (contactPoint (hg t)) (pos (hs1 t))). set (v := vel (hs2 t)). set (w := vel (hs1 t)). clearbody x y v w. vring.
Qed.
Lemma rotate_unrotated t x : unrotated t -> rotate (hg t) x = x.
Proof. intros (A & B). unfold rotate. cbv zeta. rewrite A, B. vring. Qed.
(** a step without damping, rotation and adhesion *)
Lemma plain_step L p i1 i2 t s : 0 <= depth t -> no_damping p -> hratchet L = false -> hadhesion L = false -> irrotational t -> unrotated t -> 0 <= htan p ->
  exists s' a e, mindlin L p i1 i2 t s = HKept s' a e /\ hnormal s' = smul (kno p * (depth t * sqrt (depth t))) (normal (hg t)) /\
  let T := vsub (sElastic s) (smul (ks_of p t) (smul (hdt t) (tangential t (approach t)))) in
  let m := htan p * norm (hnormal s') in
  (norm T <= m -> sElastic s' = T /\ hshear s' = T /\ isSliding s' = false) /\
  (m < norm T -> sElastic s' = smul (m / norm T) T /\ hshear s' = smul (m / norm T) T /\ isSliding s' = true /\ (henergy L = true -> a_friction e = - (hdt t * (m / norm T)) * dot (tangential t (approach t)) T)).
Proof.
  intros D N R A I U P.
  destruct (mindlin_runs L p i1 i2 t s 0 0 (approach t) (smul (fn0 L p t) (normal (hg t))) (nVisc s) D (undamped_coefs p t N)) as (s' & a & e & H).
  { rewrite R, incident_plain, incident_straight by assumption. reflexivity. }
  { rewrite (no_damping_off p N). reflexivity. }
  exists s', a, e. split; [assumption|]. destruct (mindlin_shape _ _ _ _ _ _ _ _ _ H D) as (cn & cs & v & fn & visc & slid & sv & fs & fe & us' & _ & IV & EN & EM & E1 & E2 & E3 & E4 & _ & _ & _ & _ & _ & _ & EA & _).
  rewrite R, incident_plain, incident_straight in IV by assumption. injection IV as <-. rewrite (no_damping_off p N) in EN. injection EN as EF _.
  unfold fn0 in EF. rewrite A in EF. replace (kno p * (depth t * sqrt (depth t)) - 0) with (kno p * (depth t * sqrt (depth t))) in EF by ring.
  split; [rewrite E1; symmetry; exact EF|]. cbv zeta. rewrite !rotate_unrotated in EM by assumption. change (across (normal (hg t)) (approach t)) with (tangential t (approach t)) in *.
  rewrite E1, E2, E3, E4. apply mohr_spec in EM; [|rewrite strength_plain by assumption; apply Rmult_le_pos; [assumption|apply norm_pos]]. rewrite (strength_plain L p fn A) in EM.
  destruct EM as (_ & S1 & S2 & S3). set (T := vsub (sElastic s) _) in *. split; intros X.
  - destruct slid; [exfalso; pose proof (proj1 S1 eq_refl); lra|]. destruct (S3 eq_refl) as (-> & _ & -> & ->). rewrite (no_damping_off p N). split; [reflexivity|]. split; [|reflexivity]. clearbody T. vring.
  - destruct slid; [|exfalso; pose proof (proj2 S1 X); discriminate]. destruct (S2 eq_refl) as (-> & _ & _ & -> & _). split; [reflexivity|]. split; [reflexivity|]. split; [reflexivity|].
    intros EE. rewrite EA. unfold mk_account. rewrite EE. cbn [a_friction]. change (across (normal (hg t)) (approach t)) with (tangential t (approach t)).
    set (r := rotate (hg t) (usTotal s)). set (w := tangential t (approach t)). set (q := htan p * norm fn / norm T). clearbody r w q T. replace (vsub (vsub r (smul (hdt t) w)) r) with (smul (- hdt t) w) by vring. rewrite dot_smul_l, dot_smul_r. ring.
Qed.

(** ** The pair of bodies *)
Lemma pair_irr dt u v m : irrotational (pair dt u v m). Proof. repeat split. Qed.
Lemma pair_unrot dt u v m : unrotated (pair dt u v m). Proof. split; reflexivity. Qed.
Lemma pair_unit dt u v m : unit_normal (pair dt u v m). Proof. unfold unit_normal, pair. cbn [hg normal]. vring. Qed.
Lemma pair_tang dt u x y z m : tangential (pair dt u (V x y z) m) (approach (pair dt u (V x y z) m)) = V 0 y z.
Proof. unfold tangential, approach, pair, still. cbn [hg normal hs1 hs2 vel]. vring. Qed.
Lemma unit_undamped mb A : no_damping (unit_params mb A 0 0). Proof. repeat split. Qed.
Lemma sqrt4 : sqrt 4 = 2. Proof. replace 4 with (2 * 2) by ring. apply sqrt_square. lra. Qed.
Lemma norm_y y : norm (V 0 y 0) = Rabs y.
Proof. unfold norm. replace (norm2 (V 0 y 0)) with (Rsqr y) by (unfold Rsqr; vring). apply sqrt_Rsqr_abs. Qed.
Lemma norm_x x : norm (V x 0 0) = Rabs x.
Proof. unfold norm. replace (norm2 (V x 0 0)) with (Rsqr x) by (unfold Rsqr; vring). apply sqrt_Rsqr_abs. Qed.
Lemma pair_step L mb dt u x y m z i1 i2 s : 0 <= u -> hratchet L = false -> hadhesion L = false -> sElastic s = V 0 z 0 ->
  exists s' a e, mindlin L (unit_params mb 0 0 0) i1 i2 (pair dt u (V x y 0) m) s = HKept s' a e /\ hnormal s' = V (u * sqrt u) 0 0 /\
  let T := z - sqrt u * dt * y in let M := u * sqrt u in
  (Rabs T <= M -> sElastic s' = V 0 T 0 /\ hshear s' = V 0 T 0 /\ isSliding s' = false) /\
  (M < Rabs T -> sElastic s' = V 0 (M / Rabs T * T) 0 /\ hshear s' = V 0 (M / Rabs T * T) 0 /\ isSliding s' = true /\ (henergy L = true -> a_friction e = - (dt * (M / Rabs T)) * (y * T))).
Proof.
  intros U R A Z. destruct (plain_step L (unit_params mb 0 0 0) i1 i2 (pair dt u (V x y 0) m) s U (unit_undamped mb 0) R A (pair_irr _ _ _ _) (pair_unrot _ _ _ _)) as (s' & a & e & H & N & C); [cbn; lra|].
  exists s', a, e. split; [assumption|]. assert (N' : hnormal s' = V (u * sqrt u) 0 0). { rewrite N. change (depth (pair dt u (V x y 0) m)) with u. change (kno (unit_params mb 0 0 0)) with 1. change (normal (hg (pair dt u (V x y 0) m))) with (V 1 0 0). vring. }
  split; [assumption|]. cbv zeta in *. rewrite pair_tang, Z, N' in C. rewrite norm_x in C. change (htan (unit_params mb 0 0 0)) with 1 in C. rewrite Rmult_1_l, (Rabs_right (u * sqrt u)) in C by (apply Rle_ge, usqrt_pos; assumption).
  assert (TE : vsub (V 0 z 0) (smul (ks_of (unit_params mb 0 0 0) (pair dt u (V x y 0) m)) (smul (hdt (pair dt u (V x y 0) m)) (V 0 y 0))) = V 0 (z - sqrt u * dt * y) 0).
  { unfold ks_of. change (depth (pair dt u (V x y 0) m)) with u. change (kso (unit_params mb 0 0 0)) with 1. change (hdt (pair dt u (V x y 0) m)) with dt. vring. }
  rewrite TE in C. rewrite norm_y in C. set (T := z - sqrt u * dt * y) in *. clearbody T. destruct C as (C1 & C2). split; [exact C1|]. intros X. destruct (C2 X) as (-> & -> & -> & F).
  assert (SM : smul (u * sqrt u / Rabs T) (V 0 T 0) = V 0 (u * sqrt u / Rabs T * T) 0) by vring. rewrite SM. split; [reflexivity|]. split; [reflexivity|]. split; [reflexivity|]. intros E. rewrite (F E).
  change (hdt (pair dt u (V x y 0) m)) with dt. replace (dot (V 0 y 0) (V 0 T 0)) with (y * T) by vring. reflexivity.
Qed.

(** ** Contacts that come back *)
Lemma linear_same nv k p i1 i2 t s r s' a e : hshear s = hshear r -> hertz_linear nv k p i1 i2 t s = HKept s' a e -> exists r', hertz_linear nv k p i1 i2 t r = HKept r' a e /\ hshear s' = hshear r' /\ hnormal s' = hnormal r'.
Proof.
  intros E H. unfold hertz_linear in *. cbv zeta in *. destruct (ltR _ 0).
  - destruct nv; [|discriminate]. injection H as <- <- <-. eexists. split; [reflexivity|]. split; reflexivity.
  - destruct (if (1 <? k)%Z then _ else _); [|discriminate]. injection H as <- <- <-. rewrite <- E. eexists. split; [reflexivity|]. split; reflexivity.
Qed.
Lemma linear_same_run nv k p i1 i2 l : forall s r s', hshear s = hshear r -> run (hertz_linear nv k p i1 i2) l s = Some s' -> exists r', run (hertz_linear nv k p i1 i2) l r = Some r' /\ hshear s' = hshear r' /\ (l <> [] -> hnormal s' = hnormal r').
Proof.
  induction l as [|t l IH]; intros s r s' E H; cbn [run] in *.
  - injection H as <-. exists r. split; [reflexivity|]. split; [assumption|]. intros X. contradiction.
  - destruct (hertz_linear nv k p i1 i2 t s) as [|s1 a e|] eqn:G; try discriminate. destruct (linear_same _ _ _ _ _ _ _ _ _ _ _ E G) as (r1 & -> & E1 & E2).
    destruct (IH _ _ _ E1 H) as (r' & X & Y & Z). exists r'. split; [assumption|]. split; [assumption|]. intros _. destruct l as [|t' l']; [|apply Z; discriminate]. cbn [run] in H, X. injection H as <-. injection X as <-. assumption.
Qed.
Lemma linear_recontact nv k p i1 i2 t s s1 a e l s' : hertz_linear nv k p i1 i2 t s = HKept s1 a e -> depth t < 0 -> run (hertz_linear nv k p i1 i2) l s1 = Some s' ->
  exists r', run (hertz_linear nv k p i1 i2) l hfresh = Some r' /\ hshear s' = hshear r' /\ (l <> [] -> hnormal s' = hnormal r').
Proof. intros H D. apply linear_same_run. destruct (apart_no_force_linear _ _ _ _ _ _ _ _ _ _ H D) as (_ & _ & ->). reflexivity. Qed.
Lemma mindlin_normal_only L p i1 i2 t s r s' a e r' b f : mindlin L p i1 i2 t s = HKept s' a e -> mindlin L p i1 i2 t r = HKept r' b f -> hnormal s' = hnormal r' /\ hkn s' = hkn r' /\ hks s' = hks r'.
Proof.
  intros H G. destruct (Rlt_or_le (depth t) 0) as [D|D].
  - rewrite mindlin_apart in H, G by assumption. destruct (hnever L); [|discriminate]. injection H as <- _ _. injection G as <- _ _. repeat split.
  - destruct (mindlin_shape _ _ _ _ _ _ _ _ _ H D) as (cn & cs & v & fn & visc & slid & sv & fs & fe & us' & A1 & A2 & A3 & _ & -> & _ & _ & _ & _ & _ & _ & -> & -> & _).
    destruct (mindlin_shape _ _ _ _ _ _ _ _ _ G D) as (cn' & cs' & v' & fn' & visc' & slid' & sv' & fs' & fe' & us'' & B1 & B2 & B3 & _ & -> & _ & _ & _ & _ & _ & _ & -> & -> & _).
    rewrite A1 in B1. injection B1 as <- <-. rewrite A2 in B2. injection B2 as <-. split; [|split; reflexivity]. destruct (use_damping p).
    + rewrite A3 in B3. injection B3 as <- _. reflexivity.
    + injection A3 as <- _. injection B3 as <- _. reflexivity.
Qed.
Lemma mindlin_recontact_refuted : exists s1 s2 r2 a1 e1 a2 e2 a3 e3,
  mindlin lasting_law (unit_params 0 0 0 0) 0 1 (pair 1 (-1) vzero 1) (sheared 1) = HKept s1 a1 e1 /\ hshear s1 = vzero /\
  mindlin lasting_law (unit_params 0 0 0 0) 0 1 (pair 1 1 vzero 1) s1 = HKept s2 a2 e2 /\
  mindlin lasting_law (unit_params 0 0 0 0) 0 1 (pair 1 1 vzero 1) hfresh = HKept r2 a3 e3 /\ hshear s2 = V 0 1 0 /\ hshear r2 = vzero.
Proof.
  exists (separated (sheared 1)).
  destruct (pair_step lasting_law 0 1 1 0 0 1 1 0 1 (separated (sheared 1))) as (s2 & a2 & e2 & H2 & _ & C2 & _); try reflexivity; [lra|].
  destruct (pair_step lasting_law 0 1 1 0 0 1 0 0 1 hfresh) as (r2 & a3 & e3 & H3 & _ & C3 & _); try reflexivity; [lra|].
  exists s2, r2, [], no_account, a2, e2, a3, e3. change vzero with (V 0 0 0) at 1 3 4. rewrite sqrt_1 in *.
  split; [rewrite mindlin_apart by (unfold depth, pair; cbn [hg penetrationDepth]; lra); reflexivity|]. split; [reflexivity|]. split; [assumption|]. split; [assumption|].
  destruct C2 as (_ & -> & _); [rewrite Rabs_right; lra|]. destruct C3 as (_ & -> & _); [rewrite Rabs_right; lra|]. split; unfold vzero; f_equal; lra.
Qed.

(** ** Closed cycles *)
Lemma linear_elastic nv p i1 i2 l : forall s x, (forall t, In t l -> 0 <= depth t /\ unrotated t) -> hshear s = smul (- kso p) x -> within_friction p (kso p) x (fun t => shearInc (hg t)) l ->
  exists s', run (hertz_linear nv 0 p i1 i2) l s = Some s' /\ hshear s' = smul (- kso p) (vadd x (total_shear l)).
Proof.
  induction l as [|t l IH]; intros s x A E W; cbn [run total_shear].
  - exists s. split; [reflexivity|]. rewrite vadd_0_r. assumption.
  - destruct (A t (or_introl eq_refl)) as (D & U). cbn [within_friction] in W. cbv zeta in W. destruct W as (W & W').
    unfold hertz_linear at 1. cbv zeta. change (0 <? 0)%Z with false. change (1 <? 0)%Z with false. cbv iota. fold (depth t). apply ltR_false in D. rewrite D. rewrite (rotate_unrotated t _ U), E.
    assert (TE : vsub (smul (- kso p) x) (smul (kso p) (shearInc (hg t))) = smul (- kso p) (vadd x (shearInc (hg t)))) by (set (y := shearInc (hg t)); clearbody y; vring). rewrite TE.
    assert (ltR (kno p * (depth t * sqrt (depth t)) * (kno p * (depth t * sqrt (depth t))) * (htan p * htan p)) (norm2 (smul (- kso p) (vadd x (shearInc (hg t))))) = false) as ->.
    { apply ltR_false. rewrite norm2_smul. unfold Rsqr in W. replace (- kso p * - kso p) with (kso p * kso p) by ring.
      replace (kno p * (depth t * sqrt (depth t)) * (kno p * (depth t * sqrt (depth t))) * (htan p * htan p)) with (htan p * (kno p * (depth t * sqrt (depth t))) * (htan p * (kno p * (depth t * sqrt (depth t))))) by ring. exact W. }
    match goal with |- context [run _ l ?s1] => destruct (IH s1 (vadd x (shearInc (hg t)))) as (s' & R1 & R2) end.
    + intros t' I. apply A. right. assumption.
    + reflexivity.
    + exact W'.
    + exists s'. split; [exact R1|]. rewrite R2, vadd_assoc. reflexivity.
Qed.
Lemma mindlin_elastic L p i1 i2 u l : no_damping p -> hratchet L = false -> hadhesion L = false -> 0 <= htan p -> 0 <= kno p -> 0 <= u -> forall s x, (forall t, In t l -> depth t = u /\ unrotated t /\ irrotational t /\ unit_normal t) ->
  sElastic s = smul (- (kso p * sqrt u)) x -> within_friction p (kso p * sqrt u) x (fun t => smul (hdt t) (tangential t (approach t))) l ->
  exists s', run (mindlin L p i1 i2) l s = Some s' /\ sElastic s' = smul (- (kso p * sqrt u)) (vadd x (total_slide l)) /\ (l <> [] -> hshear s' = sElastic s').
Proof.
  intros N R AD P KP UP. induction l as [|t l IH]; intros s x A E W; cbn [run total_slide].
  - exists s. split; [reflexivity|]. rewrite vadd_0_r. split; [assumption|]. intros X. contradiction.
  - destruct (A t (or_introl eq_refl)) as (D & U & I & UN). cbn [within_friction] in W. cbv zeta in W. destruct W as (W & W').
    destruct (plain_step L p i1 i2 t s) as (s1 & a & e & H & HN & C & _); try assumption; [rewrite D; assumption|]. rewrite H.
    cbv zeta in C. set (d := smul (hdt t) (tangential t (approach t))) in *.
    assert (TE : vsub (sElastic s) (smul (ks_of p t) d) = smul (- (kso p * sqrt u)) (vadd x d)). { rewrite E. unfold ks_of. rewrite D. clearbody d. vring. }
    rewrite TE in C. destruct C as (C1 & C2 & _).
    { rewrite HN. rewrite (norm_smul_abs _ (normal (hg t))) by exact UN. rewrite Rabs_right by (apply Rle_ge, Rmult_le_pos; [assumption|apply usqrt_pos; rewrite D; assumption]).
      apply norm_of_sq; [apply Rmult_le_pos; [assumption|]; apply Rmult_le_pos; [assumption|apply usqrt_pos; rewrite D; assumption]|]. rewrite norm2_smul. unfold Rsqr in W.
      replace (- (kso p * sqrt u) * - (kso p * sqrt u)) with (kso p * sqrt u * (kso p * sqrt u)) by ring. exact W. }
    destruct (IH s1 (vadd x d)) as (s' & R1 & R2 & R3).
    + intros t' I'. apply A. right. assumption.
    + exact C1.
    + exact W'.
    + exists s'. split; [exact R1|]. split; [rewrite R2, vadd_assoc; reflexivity|]. intros _. destruct l as [|t' l']; [|apply R3; discriminate]. cbn [run] in R1. injection R1 as <-. rewrite C1, C2. reflexivity.
Qed.
Lemma cycle_refuted : exists s', run (mindlin plain_law (unit_params 0 0 0 0) 0 1) [pair 1 4 (V 0 (1/4) 0) 1; pair 1 1 (V 0 (-1/4) 0) 1] hfresh = Some s' /\
  total_slide [pair 1 4 (V 0 (1/4) 0) 1; pair 1 1 (V 0 (-1/4) 0) 1] = vzero /\ hshear s' = V 0 (-1/4) 0 /\ isSliding s' = false.
Proof.
  destruct (pair_step plain_law 0 1 4 0 (1/4) 1 0 0 1 hfresh) as (s1 & a1 & e1 & H1 & _ & C1 & _); try reflexivity; [lra|]. rewrite sqrt4 in C1. destruct C1 as (C1 & _); [rewrite Rabs_left; lra|].
  destruct (pair_step plain_law 0 1 1 0 (-1/4) 1 _ 0 1 s1 ltac:(lra) eq_refl eq_refl C1) as (s2 & a2 & e2 & H2 & _ & C2 & _). rewrite sqrt_1 in C2. destruct C2 as (_ & C2 & C3); [rewrite Rabs_left; lra|].
  exists s2. cbn [run]. rewrite H1, H2. split; [reflexivity|]. split; [|split; [rewrite C2; f_equal; lra|assumption]].
  cbn [total_slide]. rewrite !pair_tang. change (hdt (pair 1 4 (V 0 (1 / 4) 0) 1)) with 1. change (hdt (pair 1 1 (V 0 (-1 / 4) 0) 1)) with 1. unfold vadd, smul, vzero. cbn [vx vy vz]. f_equal; lra.
Qed.

(** ** Friction that gives energy *)
Lemma friction_refuted : exists s' a e, mindlin plain_law (unit_params 0 0 0 0) 0 1 (pair (1/2) 1 (V 0 1 0) 1) (sheared 10) = HKept s' a e /\ a_friction e < 0.
Proof.
  destruct (pair_step plain_law 0 (1/2) 1 0 1 1 10 0 1 (sheared 10)) as (s' & a & e & H & _ & _ & C); try reflexivity; [lra|]. exists s', a, e. split; [assumption|]. rewrite sqrt_1 in C. destruct C as (_ & _ & _ & F); [rewrite Rabs_right; lra|].
  rewrite F by reflexivity. rewrite Rabs_right by lra. lra.
Qed.

(** ** Bending without limit *)
Lemma bend_refuted : exists s' a e, mindlin rolling_law (unit_params 1 0 0 0) 0 1 (pair 1 0 vzero 1) (rolled 5) = HKept s' a e /\ hnormal s' = vzero /\ mBend s' = V 0 5 0.
Proof.
  destruct (plain_step rolling_law (unit_params 1 0 0 0) 0 1 (pair 1 0 vzero 1) (rolled 5)) as (s' & a & e & H & HN & _); try reflexivity; try apply pair_irr; try apply pair_unrot; try apply unit_undamped; [unfold depth, pair; cbn [hg penetrationDepth]; lra|cbn; lra|].
  exists s', a, e. split; [assumption|]. change (depth (pair 1 0 vzero 1)) with 0 in HN. rewrite !Rmult_0_l, Rmult_0_r, smul_0 in HN. split; [assumption|].
  destruct (mindlin_shape _ _ _ _ _ _ _ _ _ H) as (cn & cs & v & fn & visc & slid & sv & fs & fe & us' & _ & _ & _ & _ & E1 & _ & _ & _ & _ & _ & _ & _ & _ & _ & _ & _ & EB & _); [unfold depth, pair; cbn [hg penetrationDepth]; lra|].
  change (hmoment rolling_law) with true in EB. rewrite EB. rewrite HN in E1. rewrite <- E1. unfold limit_bend. cbv zeta. rewrite norm_vzero, Rmult_0_r. assert (ltR 0 0 = false) as -> by (apply ltR_false; lra).
  rewrite rotate_unrotated by apply pair_unrot. change (hkr (unit_params 1 0 0 0)) with 0. rewrite smul_0. cbn [rolled mBend]. vring.
Qed.

(** ** Viscous shear beyond friction *)
Lemma sqrt_one2 : sqrt (1 * (1 * 1)) = 1. Proof. replace (1 * (1 * 1)) with 1 by ring. apply sqrt_1. Qed.
Lemma viscous_refuted : exists s' a e, mindlin plain_law (unit_params 0 0 0 1) 0 1 (pair (1/2) 1 (V 0 1 0) 1) hfresh = HKept s' a e /\ isSliding s' = false /\ norm (hnormal s') = 1 /\ norm (hshear s') = 5/2.
Proof.
  set (p := unit_params 0 0 0 1). set (t := pair (1/2) 1 (V 0 1 0) 1).
  assert (UD : use_damping p = true). { unfold use_damping, p, unit_params. cbn [hbetan hbetas halpha]. assert (is0 1 = false) as -> by (apply is0_false; lra). cbn [negb orb]. rewrite orb_true_r. reflexivity. }
  assert (DC : damping_coefs p t = Some (0, 2)).
  { unfold damping_coefs. rewrite UD. cbn [negb]. cbv zeta. change (mbar t) with (Some 1). cbv beta iota. change (kno p) with 1. change (kso p) with 1. change (halpha p) with 0. change (hbetan p) with 0. change (hbetas p) with 1. change (penetrationDepth (hg t)) with 1.
    assert (ltR 1 0 = false) as -> by (apply ltR_false; lra). assert (is0 0 = true) as -> by (apply is0_true; reflexivity). cbn [orb]. cbv iota. rewrite sqrt_1, sqrt_one2. apply f_equal, f_equal2; ring. }
  assert (D : 0 <= depth t) by (unfold depth, t, pair; cbn [hg penetrationDepth]; lra).
  assert (F0 : fn0 plain_law p t = 1). { unfold fn0. change (hadhesion plain_law) with false. change (kno p) with 1. change (depth t) with 1. rewrite sqrt_1. ring. }
  assert (AL : along (normal (hg t)) (approach t) = vzero). { unfold along, t, pair, approach, still. cbn [hg normal hs1 hs2 vel]. vring. }
  assert (AC : across (normal (hg t)) (approach t) = V 0 1 0) by apply (pair_tang (1/2) 1 0 1 0 1).
  assert (IV : incident (hratchet plain_law) t = Some (approach t)). { change (hratchet plain_law) with false. rewrite incident_plain, incident_straight by apply pair_irr. reflexivity. }
  assert (DN : damp_normal plain_law p (normal (hg t)) (smul (fn0 plain_law p t) (normal (hg t))) (smul 0 (along (normal (hg t)) (approach t))) = Some (V 1 0 0, vzero)).
  { rewrite F0, AL, smul_0. unfold damp_normal. cbv zeta. change (negb (hadhesion plain_law)) with true. rewrite orb_true_r. change (normal (hg t)) with (V 1 0 0).
    replace (vsub (smul 1 (V 1 0 0)) vzero) with (V 1 0 0) by vring. assert (ltR (dot (V 1 0 0) (V 1 0 0)) 0 = false) as ->; [|reflexivity]. apply ltR_false. unfold dot. cbn [vx vy vz]. lra. }
  destruct (mindlin_runs plain_law p 0 1 t hfresh 0 2 (approach t) (V 1 0 0) vzero D DC IV) as (s' & a & e & H); [rewrite UD; exact DN|]. exists s', a, e. split; [assumption|].
  destruct (mindlin_shape _ _ _ _ _ _ _ _ _ H D) as (cn & cs & v & fn & visc & slid & sv & fs & fe & us' & DC' & IV' & EN & EM & E1 & E2 & _ & E4 & _).
  rewrite DC in DC'. injection DC' as <- <-. rewrite IV in IV'. injection IV' as <-. rewrite UD, DN in EN. injection EN as <- <-. rewrite AC in EM.
  assert (ST : shear_strength plain_law p (V 1 0 0) = 1). { unfold shear_strength. change (hadhesion plain_law) with false. rewrite norm_x, Rabs_right by lra. change (htan p) with 1. ring. }
  assert (TE : vsub (rotate (hg t) (sElastic hfresh)) (smul (ks_of p t) (smul (hdt t) (V 0 1 0))) = V 0 (-1/2) 0).
  { rewrite rotate_unrotated by apply pair_unrot. unfold ks_of. change (depth t) with 1. change (kso p) with 1. change (hdt t) with (1/2). rewrite sqrt_1. unfold hfresh, vsub, smul, vzero. cbn [sElastic vx vy vz]. f_equal; lra. }
  rewrite TE in EM. apply mohr_spec in EM; [|rewrite ST; lra]. rewrite ST in EM. destruct EM as (_ & S1 & _ & S3). rewrite norm_y, Rabs_left in S1 by lra.
  destruct slid; [exfalso; pose proof (proj1 S1 eq_refl); lra|]. destruct (S3 eq_refl) as (-> & _ & -> & EF). rewrite UD in EF. rewrite E1, E2, E4, EF. split; [reflexivity|]. split; [rewrite norm_x, Rabs_right; lra|].
  replace (vsub (V 0 (-1/2) 0) (smul 2 (V 0 1 0))) with (V 0 (-5/2) 0); [rewrite norm_y, Rabs_left; lra|]. unfold vsub, smul. cbn [vx vy vz]. f_equal; lra.
Qed.
