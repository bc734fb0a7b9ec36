From Coq Require Import Reals List ZArith Bool Lra Lia.
From Verif Require Import Vec_Model Vec_Proofs Rigid_Model Rigid_Spec Law_Model Law_Spec Law_Proofs Law_Proofs2 Coh_Model Coh_Spec Coh_Proofs Hertz_Model Hertz_Spec Hertz_Proofs Hertz_Proofs2 Hertz_Proofs3 Hertz_Proofs4.
Import ListNotations.
Local Open Scope R_scope.

(** ** Adhesion with damping *)
Lemma adhesive_case A : 0 < A < 3 -> exists s' a e, mindlin adhesive_law (unit_params 0 A (1/2) 0) 0 1 (pair 1 1 (V 3 0 0) (2/3)) hfresh = HKept s' a e /\ hnormal s' = V (1 - 2 * A) 0 0 /\ isAdhesive s' = ltR (1 - A) 0.
Proof.
  intros AA. set (p := unit_params 0 A (1/2) 0). set (t := pair 1 1 (V 3 0 0) (2/3)).
  assert (UD : use_damping p = true). { unfold use_damping, p, unit_params. cbn [hbetan hbetas halpha]. assert (is0 (1/2) = false) as -> by (apply is0_false; lra). reflexivity. }
  assert (DC : damping_coefs p t = Some (1, 0)).
  { unfold damping_coefs. rewrite UD. cbn [negb]. cbv zeta. change (mbar t) with (Some (2/3)). cbv beta iota. change (kno p) with 1. change (kso p) with 1. change (halpha p) with 0. change (hbetan p) with (1/2). change (hbetas p) with 0. change (penetrationDepth (hg t)) with 1.
    assert (ltR 1 0 = false) as -> by (apply ltR_false; lra). assert (ltR (2/3) 0 = false) as -> by (apply ltR_false; lra). assert (is0 0 = true) as -> by (apply is0_true; reflexivity). cbn [orb]. cbv iota. rewrite sqrt_1.
    replace (2/3 * (3/2 * 1 * 1)) with 1 by field. rewrite sqrt_1. apply f_equal, f_equal2; field. }
  assert (D : 0 <= depth t) by (unfold depth, t, pair; cbn [hg penetrationDepth]; lra).
  assert (F0 : fn0 adhesive_law p t = 1 - A). { unfold fn0. change (hadhesion adhesive_law) with true. change (kno p) with 1. change (depth t) with 1. change (hadh p) with A. rewrite sqrt_1. ring. }
  assert (AL : along (normal (hg t)) (approach t) = V 3 0 0). { unfold along, t, pair, approach, still. cbn [hg normal hs1 hs2 vel]. vring. }
  assert (IV : incident (hratchet adhesive_law) t = Some (approach t)). { change (hratchet adhesive_law) with false. rewrite incident_plain, incident_straight by apply pair_irr. reflexivity. }
  assert (DN : exists w, damp_normal adhesive_law p (normal (hg t)) (smul (fn0 adhesive_law p t) (normal (hg t))) (smul 1 (along (normal (hg t)) (approach t))) = Some (V (1 - 2 * A) 0 0, w)).
  { rewrite F0, AL, smul_1. unfold damp_normal. cbv zeta. change (negb (hadhesion adhesive_law)) with false. change (hadh p) with A. assert (is0 A = false) as -> by (apply is0_false; lra). cbn [orb]. change (normal (hg t)) with (V 1 0 0).
    rewrite norm_x, Rabs_right by lra. assert (ltR A 3 = true) as -> by (apply ltR_true; lra). assert (is0 3 = false) as -> by (apply is0_false; lra).
    assert (ltR (dot (vsub (smul (1 - A) (V 1 0 0)) (V 3 0 0)) (V 1 0 0)) 0 = true) as ->. { apply ltR_true. unfold dot, vsub, smul. cbn [vx vy vz]. lra. }
    cbn [andb]. cbv iota. eexists. apply f_equal, f_equal2; [|reflexivity]. unfold vsub, smul. cbn [vx vy vz]. f_equal; field. }
  destruct DN as (w & DN).
  destruct (mindlin_runs adhesive_law p 0 1 t hfresh 1 0 (approach t) (V (1 - 2 * A) 0 0) w D DC IV) as (s' & a & e & H); [rewrite UD; exact DN|]. exists s', a, e. split; [assumption|].
  destruct (mindlin_shape _ _ _ _ _ _ _ _ _ H D) as (cn & cs & v & fn & visc & slid & sv & fs & fe & us' & DC' & IV' & EN & _ & E1 & _ & _ & _ & _ & _ & _ & _ & _ & EA & _).
  rewrite DC in DC'. injection DC' as <- <-. rewrite IV in IV'. injection IV' as <-. rewrite UD, DN in EN. injection EN as <- <-. split; [assumption|]. rewrite EA, F0. reflexivity.
Qed.
Lemma adhesion_refuted : exists s' a e, mindlin adhesive_law (unit_params 0 2 (1/2) 0) 0 1 (pair 1 1 (V 3 0 0) (2/3)) hfresh = HKept s' a e /\ repulsion (pair 1 1 (V 3 0 0) (2/3)) s' = -3 /\ repulsion (pair 1 1 (V 3 0 0) (2/3)) s' < - hadh (unit_params 0 2 (1/2) 0).
Proof.
  destruct (adhesive_case 2) as (s' & a & e & H & N & _); [lra|]. exists s', a, e. split; [assumption|]. unfold repulsion. rewrite N. change (normal (hg (pair 1 1 (V 3 0 0) (2 / 3)))) with (V 1 0 0). change (hadh (unit_params 0 2 (1 / 2) 0)) with 2. unfold dot. cbn [vx vy vz]. lra.
Qed.
Lemma flag_refuted : exists s' a e, mindlin adhesive_law (unit_params 0 1 (1/2) 0) 0 1 (pair 1 1 (V 3 0 0) (2/3)) hfresh = HKept s' a e /\ repulsion (pair 1 1 (V 3 0 0) (2/3)) s' = -1 /\ isAdhesive s' = false.
Proof.
  destruct (adhesive_case 1) as (s' & a & e & H & N & F); [lra|]. exists s', a, e. split; [assumption|]. split.
  - unfold repulsion. rewrite N. change (normal (hg (pair 1 1 (V 3 0 0) (2 / 3)))) with (V 1 0 0). unfold dot. cbn [vx vy vz]. lra.
  - rewrite F. apply ltR_false. lra.
Qed.
Lemma adhesive_slide u : 0 <= u <= 1 -> exists s' a e, mindlin adhesive_law (unit_params 0 2 0 0) 0 1 (pair 1 u vzero 1) (sheared 10) = HKept s' a e /\ hnormal s' = V (u * sqrt u - 2) 0 0 /\ hshear s' = V 0 (4 - u * sqrt u) 0.
Proof.
  intros U. set (p := unit_params 0 2 0 0). set (t := pair 1 u vzero 1). pose proof (unit_undamped 0 2) as N. fold p in N.
  assert (SB : 0 <= u * sqrt u <= 1). { split; [apply usqrt_pos; lra|]. pose proof (sqrt_le_1 u 1 ltac:(lra) ltac:(lra) ltac:(lra)) as S1. rewrite sqrt_1 in S1. pose proof (sqrt_pos u). rewrite <- (Rmult_1_l 1). apply Rmult_le_compat; lra. }
  assert (D : 0 <= depth t) by (unfold depth, t, pair; cbn [hg penetrationDepth]; lra).
  assert (F0 : fn0 adhesive_law p t = u * sqrt u - 2). { unfold fn0. change (hadhesion adhesive_law) with true. change (kno p) with 1. change (depth t) with u. change (hadh p) with 2. cbv iota. ring. }
  assert (IV : incident (hratchet adhesive_law) t = Some (approach t)). { change (hratchet adhesive_law) with false. rewrite incident_plain, incident_straight by apply pair_irr. reflexivity. }
  destruct (mindlin_runs adhesive_law p 0 1 t (sheared 10) 0 0 (approach t) (smul (fn0 adhesive_law p t) (normal (hg t))) (nVisc (sheared 10)) D (undamped_coefs p t N) IV) as (s' & a & e & H); [rewrite (no_damping_off p N); reflexivity|].
  exists s', a, e. split; [assumption|]. destruct (mindlin_shape _ _ _ _ _ _ _ _ _ H D) as (cn & cs & v & fn & visc & slid & sv & fs & fe & us' & _ & IV' & EN & EM & E1 & E2 & _).
  rewrite IV in IV'. injection IV' as <-. rewrite (no_damping_off p N), F0 in EN. injection EN as <- _. change (normal (hg t)) with (V 1 0 0) in *.
  assert (FE : smul (u * sqrt u - 2) (V 1 0 0) = V (u * sqrt u - 2) 0 0) by vring. rewrite FE in *. split; [assumption|].
  assert (ST : shear_strength adhesive_law p (V (u * sqrt u - 2) 0 0) = 4 - u * sqrt u). { unfold shear_strength. change (hadhesion adhesive_law) with true. change (htan p) with 1. change (hadh p) with 2. rewrite norm_x, Rabs_left by lra. ring. }
  assert (TE : vsub (rotate (hg t) (sElastic (sheared 10))) (smul (ks_of p t) (smul (hdt t) (across (V 1 0 0) (approach t)))) = V 0 10 0).
  { rewrite rotate_unrotated by apply pair_unrot. unfold t, pair, approach, still, across, along. cbn [hs1 hs2 vel hdt sheared sElastic]. set (k := ks_of _ _). clearbody k. vring. }
  rewrite TE in EM. apply mohr_spec in EM; [|rewrite ST; lra]. rewrite ST in EM. destruct EM as (_ & S1 & S2 & _). rewrite norm_y, Rabs_right in S1, S2 by lra.
  destruct slid; [|exfalso; pose proof (proj2 S1 ltac:(lra)); discriminate]. destruct (S2 eq_refl) as (EF & _ & _ & -> & _). rewrite E2, EF. unfold smul. cbn [vx vy vz]. f_equal; field.
Qed.
Lemma tension_refuted : exists s1 a1 e1 s2 a2 e2, mindlin adhesive_law (unit_params 0 2 0 0) 0 1 (pair 1 1 vzero 1) (sheared 10) = HKept s1 a1 e1 /\ mindlin adhesive_law (unit_params 0 2 0 0) 0 1 (pair 1 0 vzero 1) (sheared 10) = HKept s2 a2 e2 /\
  repulsion (pair 1 1 vzero 1) s1 = -1 /\ repulsion (pair 1 0 vzero 1) s2 = -2 /\ norm (hshear s1) = 3 /\ norm (hshear s2) = 4.
Proof.
  destruct (adhesive_slide 1) as (s1 & a1 & e1 & H1 & N1 & F1); [lra|]. destruct (adhesive_slide 0) as (s2 & a2 & e2 & H2 & N2 & F2); [lra|]. exists s1, a1, e1, s2, a2, e2. split; [assumption|]. split; [assumption|].
  unfold repulsion. rewrite N1, N2, F1, F2, !norm_y, sqrt_1, sqrt_0. change (normal (hg (pair 1 1 vzero 1))) with (V 1 0 0). change (normal (hg (pair 1 0 vzero 1))) with (V 1 0 0). unfold dot. cbn [vx vy vz]. rewrite !Rabs_right by lra. lra.
Qed.
Lemma adhesive_strength L p i1 i2 t s s' a e : mindlin L p i1 i2 t s = HKept s' a e -> hadhesion L = true -> 0 <= htan p -> 0 <= hadh p -> 0 <= depth t -> norm (sElastic s') <= htan p * (hadh p + norm (hnormal s')).
Proof.
  intros H A P Q D. destruct (mindlin_shape _ _ _ _ _ _ _ _ _ H D) as (cn & cs & v & fn & visc & slid & sv & fs & fe & us' & _ & _ & _ & EM & -> & _ & -> & _).
  assert (ST : shear_strength L p fn = htan p * (hadh p + norm fn)) by (unfold shear_strength; rewrite A; reflexivity). pose proof (norm_pos fn).
  apply mohr_spec in EM; [|rewrite ST; apply Rmult_le_pos; lra]. rewrite ST in EM. apply EM.
Qed.

(** ** Tangent stiffness *)
Lemma local_derivative f g x l : 0 < x -> (forall u, 0 < u -> f u = g u) -> derivable_pt_lim g x l -> derivable_pt_lim f x l.
Proof.
  intros X E H eps EP. destruct (H eps EP) as (d & DD). assert (MP : 0 < Rmin d x) by (apply Rmin_pos; [apply cond_pos|assumption]). exists (mkposreal _ MP). intros h HN HL. change (Rabs h < Rmin d x) in HL.
  pose proof (Rmin_l d x). pose proof (Rmin_r d x). assert (0 < x + h). { apply Rabs_def2 in HL. destruct HL. lra. } rewrite !E by assumption. apply DD; [assumption|lra].
Qed.
Lemma deriv_u32 k c x : 0 < x -> derivable_pt_lim (fun u => k * (u * sqrt u) - c) x (3/2 * k * sqrt x).
Proof.
  intros X. replace (3/2 * k * sqrt x) with (k * (1 * sqrt x + x * / (2 * sqrt x)) - 0).
  - apply (derivable_pt_lim_minus (fun u => k * (u * sqrt u)) (fct_cte c)); [|apply derivable_pt_lim_const]. apply (derivable_pt_lim_scal (fun u => u * sqrt u)). apply (derivable_pt_lim_mult id sqrt); [apply derivable_pt_lim_id|apply derivable_pt_lim_sqrt; assumption].
  - pose proof (sqrt_lt_R0 _ X) as S1. pose proof (sqrt_sqrt x ltac:(lra)) as S2. replace (x * / (2 * sqrt x)) with (1/2 * sqrt x); [field|]. rewrite <- S2 at 2. field. lra.
Qed.
Lemma tangent_stiffness L p i1 i2 t s f k : no_damping p -> unit_normal t -> (forall u, 0 < u -> exists s' a e, mindlin L p i1 i2 (at_depth t u) s = HKept s' a e /\ repulsion t s' = f u /\ hkn s' = k u) -> forall u, 0 < u -> derivable_pt_lim f u (k u).
Proof.
  intros N U H u UP. apply (local_derivative _ (fun u => kno p * (u * sqrt u) - (if hadhesion L then hadh p else 0))); [assumption| |].
  - intros w W. destruct (H w W) as (s' & a & e & G & R1 & _). rewrite <- R1. unfold repulsion. rewrite (mindlin_undamped _ _ _ _ _ _ _ _ _ G N W). change (normal (hg (at_depth t w))) with (normal (hg t)). rewrite dot_smul_unit by exact U. change (depth (at_depth t w)) with w. unfold hertz_force. rewrite rpower_32 by assumption. reflexivity.
  - destruct (H u UP) as (s' & a & e & G & _ & <-). destruct (mindlin_shape _ _ _ _ _ _ _ _ _ G (Rlt_le _ _ UP)) as (cn & cs & v & fn & visc & slid & sv & fs & fe & us' & _ & _ & _ & _ & _ & _ & _ & _ & _ & _ & _ & -> & _). apply deriv_u32. assumption.
Qed.
Lemma tangent_applies L p i1 i2 t s u : no_damping p -> hratchet L = false -> 0 < u -> exists s' a e, mindlin L p i1 i2 (at_depth t u) s = HKept s' a e.
Proof.
  intros N R U. eapply (mindlin_runs L p i1 i2 (at_depth t u) s 0 0); [unfold depth, at_depth; cbn [hg penetrationDepth]; lra|apply undamped_coefs; assumption|rewrite R; apply incident_plain|rewrite (no_damping_off p N); reflexivity].
Qed.
Lemma deriv_u52 k c x : 0 < x -> derivable_pt_lim (fun u => u * u * sqrt u * (2/5) * k - c * u) x (k * (x * sqrt x) - c).
Proof.
  intros X. pose proof (sqrt_lt_R0 _ X) as S1. pose proof (sqrt_sqrt x ltac:(lra)) as S2.
  assert (G : derivable_pt_lim (fun u => (2/5 * k) * (u * (u * sqrt u)) - c * u) x (k * (x * sqrt x) - c)).
  { replace (k * (x * sqrt x) - c) with (2/5 * k * (1 * (x * sqrt x) + x * (1 * sqrt x + x * / (2 * sqrt x))) - c * 1).
    - apply (derivable_pt_lim_minus (fun u => 2/5 * k * (u * (u * sqrt u))) (fun u => c * u)).
      + apply (derivable_pt_lim_scal (fun u => u * (u * sqrt u))). apply (derivable_pt_lim_mult id (fun u => u * sqrt u)); [apply derivable_pt_lim_id|]. apply (derivable_pt_lim_mult id sqrt); [apply derivable_pt_lim_id|apply derivable_pt_lim_sqrt; assumption].
      + apply (derivable_pt_lim_scal id). apply derivable_pt_lim_id.
    - replace (x * / (2 * sqrt x)) with (1/2 * sqrt x); [field|]. rewrite <- S2 at 2. field. lra. }
  apply (local_derivative _ (fun u => (2/5 * k) * (u * (u * sqrt u)) - c * u)); [assumption|intros; ring|assumption].
Qed.
Lemma energy_derivative adh p s f : (forall u, 0 < u -> normElast adh [mkHI true (Some (p, s)) u] = Some (f u)) -> forall u, 0 < u -> derivable_pt_lim f u (hertz_force p u - (if adh then hadh p else 0)).
Proof.
  intros H u U. unfold hertz_force. rewrite <- rpower_32 by assumption. apply (local_derivative _ (fun u => u * u * sqrt u * (2/5) * kno p - (if adh then hadh p else 0) * u)); [assumption| |apply deriv_u52; assumption].
  intros w W. specialize (H w W). unfold normElast in H. cbn [fold_left h_real h_phys h_depth] in H. assert (E : ltR w 0 = false) by (apply ltR_false; lra). rewrite E in H. injection H as <-. destruct adh; ring.
Qed.
Lemma linear_keeps nv k p i1 i2 t s s' a e : hertz_linear nv k p i1 i2 t s = HKept s' a e -> hkn s = 0 -> hks s = 0 -> hkn s' = 0 /\ hks s' = 0.
Proof.
  intros H A B. destruct (Rlt_or_le (depth t) 0) as [D|D].
  - unfold hertz_linear in H. cbv zeta in H. fold (depth t) in H. apply ltR_true in D. rewrite D in H. destruct nv; [|discriminate]. injection H as <- _ _. split; reflexivity.
  - destruct (linear_shape _ _ _ _ _ _ _ _ _ _ H D) as (inc & _ & E & _). cbv zeta in E. subst s'. split; assumption.
Qed.
Lemma linear_reports nv k p i1 i2 l : forall s s', hkn s = 0 -> hks s = 0 -> run (hertz_linear nv k p i1 i2) l s = Some s' -> hkn s' = 0 /\ hks s' = 0.
Proof.
  induction l as [|t l IH]; intros s s' A B H; cbn [run] in H.
  - injection H as <-. split; assumption.
  - destruct (hertz_linear nv k p i1 i2 t s) as [|s1 a e|] eqn:G; try discriminate. destruct (linear_keeps _ _ _ _ _ _ _ _ _ _ G A B) as (A1 & B1). exact (IH _ _ A1 B1 H).
Qed.
Lemma linear_reports_refuted : (forall nv k p i1 i2 l s', run (hertz_linear nv k p i1 i2) l hfresh = Some s' -> hkn s' = 0 /\ hks s' = 0) /\
  exists s', run (hertz_linear false 0 (unit_params 0 0 0 0) 0 1) [pair 1 1 vzero 1] hfresh = Some s' /\ repulsion (pair 1 1 vzero 1) s' = 1.
Proof.
  split; [intros; eapply linear_reports; try eassumption; reflexivity|].
  destruct (linear_elastic false (unit_params 0 0 0 0) 0 1 [pair 1 1 vzero 1] hfresh vzero) as (s' & R1 & _).
  - intros t [<- | []]. split; [unfold depth, pair; cbn [hg penetrationDepth]; lra|apply pair_unrot].
  - symmetry. apply smul_vzero.
  - cbn [within_friction]. split; [|exact I]. change (shearInc (hg (pair 1 1 vzero 1))) with vzero. rewrite vadd_0_l. replace (norm2 vzero) with 0 by vring. rewrite Rmult_0_r. apply Rle_0_sqr.
  - exists s'. split; [assumption|]. cbn [run] in R1. destruct (hertz_linear false 0 (unit_params 0 0 0 0) 0 1 (pair 1 1 vzero 1) hfresh) as [|s1 a e|] eqn:G; try discriminate. injection R1 as <-.
    unfold repulsion. rewrite (linear_repel _ _ _ _ _ _ _ _ _ _ G) by (unfold depth, pair; cbn [hg penetrationDepth]; lra). change (depth (pair 1 1 vzero 1)) with 1. unfold hertz_force. rewrite <- rpower_32, sqrt_1 by lra. change (kno (unit_params 0 0 0 0)) with 1. change (normal (hg (pair 1 1 vzero 1))) with (V 1 0 0). unfold dot, smul. cbn [vx vy vz]. ring.
Qed.

(** ** Sums *)
Lemma adhesive_fold l : Forall is_hertz l -> forall k, fold_left (fun n i => match n with None => None | Some k => if h_real i then match h_phys i with Some (_, s) => Some (if isAdhesive s then S k else k) | None => None end else Some k end) l (Some k) = Some (length (filter (counted isAdhesive) l) + k)%nat.
Proof.
  induction 1 as [|x l X F IH]; intros k; [reflexivity|]. cbn [fold_left filter]. unfold counted at 1. destruct (h_real x) eqn:E; cbn [andb].
  - specialize (X E). destruct (h_phys x) as [[p s]|]; [|contradiction]. rewrite IH. destruct (isAdhesive s); cbn [length]; f_equal; lia.
  - apply IH.
Qed.
Lemma adhesive_count l : Forall is_hertz l -> contactsAdhesive l = Some (length (filter (counted isAdhesive) l)).
Proof. intros H. unfold contactsAdhesive. rewrite adhesive_fold by assumption. f_equal. lia. Qed.
Lemma sliding_fold l : Forall is_hertz l -> forall k c, fold_left (fun n i => match n with None => None | Some (k, c) => if h_real i then match h_phys i with Some (_, s) => Some (if isSliding s then S k else k, S c) | None => None end else Some (k, c) end) l (Some (k, c)) = Some (length (filter (counted isSliding) l) + k, length (filter h_real l) + c)%nat.
Proof.
  induction 1 as [|x l X F IH]; intros k c; [reflexivity|]. cbn [fold_left filter]. unfold counted at 1. destruct (h_real x) eqn:E; cbn [andb].
  - specialize (X E). destruct (h_phys x) as [[p s]|]; [|contradiction]. rewrite IH. destruct (isSliding s); cbn [length]; apply f_equal, f_equal2; lia.
  - apply IH.
Qed.
Lemma sliding_ratio l : Forall is_hertz l -> filter h_real l <> [] -> ratioSlidingContacts l = Some (INR (length (filter (counted isSliding) l)) / INR (length (filter h_real l))).
Proof.
  intros H N. unfold ratioSlidingContacts, slidingContacts. rewrite sliding_fold by assumption. rewrite !Nat.add_0_r. destruct (filter h_real l) as [|x r]; [contradiction|]. reflexivity.
Qed.
Lemma sums_none l : (exists i, In i l /\ h_real i = true /\ h_phys i = None) -> contactsAdhesive l = None /\ ratioSlidingContacts l = None.
Proof.
  intros (i & I & A & B). split.
  - unfold contactsAdhesive. generalize (Some O). induction l as [|x l IH]; [destruct I|]. intros o. cbn [fold_left]. destruct I as [-> | I]; [|apply IH; assumption].
    rewrite A, B. destruct o; clear; induction l as [|x l IH]; try reflexivity; cbn [fold_left]; exact IH.
  - unfold ratioSlidingContacts, slidingContacts. replace (fold_left _ l (Some (0%nat, 0%nat))) with (@None (nat * nat)); [reflexivity|]. generalize (Some (0%nat, 0%nat)). induction l as [|x l IH]; [destruct I|]. intros o. cbn [fold_left]. destruct I as [-> | I]; [|apply IH; assumption].
    rewrite A, B. destruct o as [[k c]|]; clear; induction l as [|x l IH]; try reflexivity; cbn [fold_left]; exact IH.
Qed.
Lemma no_contacts l : filter h_real l = [] -> ratioSlidingContacts l = None.
Proof.
  intros H. unfold ratioSlidingContacts, slidingContacts. assert (E : forall kc, fold_left (fun n i => match n with None => None | Some (k, c) => if h_real i then match h_phys i with Some (_, s) => Some (if isSliding s then S k else k, S c) | None => None end else Some (k, c) end) l (Some kc) = Some kc).
  { induction l as [|x l IH]; [reflexivity|]. cbn [filter] in H. destruct (h_real x) eqn:X; [discriminate|]. intros [k c]. cbn [fold_left]. rewrite X. apply IH. assumption. }
  rewrite E. reflexivity.
Qed.
(** contacts of bodies that are apart keep their marks *)
Lemma stale_refuted : exists s', mindlin lasting_law (unit_params 0 0 0 0) 0 1 (pair 1 (-1) vzero 1) (flagged true true) = HKept s' [] no_account /\ hnormal s' = vzero /\ hshear s' = vzero /\
  contactsAdhesive [mkHI true (Some (unit_params 0 0 0 0, s')) (-1)] = Some 1%nat /\ ratioSlidingContacts [mkHI true (Some (unit_params 0 0 0 0, s')) (-1)] = Some 1.
Proof.
  exists (separated (flagged true true)). split; [rewrite mindlin_apart by (unfold depth, pair; cbn [hg penetrationDepth]; lra); reflexivity|]. split; [reflexivity|]. split; [reflexivity|]. split; [reflexivity|].
  unfold ratioSlidingContacts, slidingContacts. cbn [fold_left h_real h_phys isSliding separated flagged Nat.eqb INR]. f_equal. field.
Qed.

(** ** The law without shear *)
Lemma deres_keeps nv p i1 i2 l : forall s s', hshear s = vzero -> run (deresiewitz nv p i1 i2) l s = Some s' -> hshear s' = vzero.
Proof.
  induction l as [|t l IH]; intros s s' Z H; cbn [run] in H.
  - injection H as <-. assumption.
  - destruct (deresiewitz nv p i1 i2 t s) as [|s1 a e|] eqn:G; try discriminate. apply (IH s1); [|assumption]. destruct (Rlt_or_le (depth t) 0) as [D|D].
    + unfold deresiewitz in G. cbv zeta in G. fold (depth t) in G. apply ltR_true in D. rewrite D in G. destruct nv; [|discriminate]. injection G as <- _ _. reflexivity.
    + destruct (deres_shape _ _ _ _ _ _ _ _ _ G D) as (_ & -> & _). assumption.
Qed.
Lemma deres_runs nv p i1 i2 l : (forall t, In t l -> 0 <= depth t) -> forall s, exists s', run (deresiewitz nv p i1 i2) l s = Some s'.
Proof.
  induction l as [|t l IH]; intros A s; cbn [run]; [eexists; reflexivity|]. assert (D : 0 <= depth t) by (apply A; left; reflexivity).
  unfold deresiewitz at 1. cbv zeta. fold (depth t). apply ltR_false in D. rewrite D. destruct (is0 _); apply IH; intros; apply A; right; assumption.
Qed.
(** whatever the displacement, there is no shear force *)
Lemma deres_refuted nv p i1 i2 l : (forall t, In t l -> 0 <= depth t) -> exists s', run (deresiewitz nv p i1 i2) l hfresh = Some s' /\ hshear s' = vzero.
Proof. intros A. destruct (deres_runs nv p i1 i2 l A hfresh) as (s' & H). exists s'. split; [assumption|]. eapply deres_keeps; [|eassumption]. reflexivity. Qed.
Lemma deres_normal nv p i1 i2 t s s' a e : deresiewitz nv p i1 i2 t s = HKept s' a e -> 0 < depth t -> hnormal s' = smul (hertz_force p (depth t)) (normal (hg t)).
Proof. intros H D. destruct (deres_shape _ _ _ _ _ _ _ _ _ H (Rlt_le _ _ D)) as (-> & _). unfold hertz_force. rewrite rpower_32 by assumption. reflexivity. Qed.
