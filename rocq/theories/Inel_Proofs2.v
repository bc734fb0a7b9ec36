(** Shear, moments and balance of inelastic contacts *)
From Coq Require Import Reals List ZArith Bool Lra Lia.
From Verif Require Import Vec_Model Vec_Proofs Rigid_Model Rigid_Spec Law_Model Law_Spec Law_Proofs Inel_Model Inel_Spec Inel_Proofs.
Import ListNotations.
Local Open Scope R_scope.

(** ** C267: shear *)
Lemma norm_scale j v : 0 <= j -> norm (smul j v) = j * norm v.
Proof. intros J. unfold norm. rewrite norm2_smul. rewrite sqrt_mult; [|apply Rle_0_sqr|apply norm2_pos]. rewrite sqrt_square by exact J. reflexivity. Qed.
Lemma scaled m v : 0 <= m -> m < norm v -> 0 <= m / norm v <= 1 /\ norm (smul (m / norm v) v) = m.
Proof.
  intros M L. assert (N : 0 < norm v) by lra. assert (J : 0 <= m / norm v) by (apply Rmult_le_pos; [exact M|left; apply Rinv_0_lt_compat; exact N]).
  split; [split; [exact J|]|].
  - apply (Rmult_le_reg_r (norm v)); [exact N|]. unfold Rdiv. rewrite Rmult_assoc, Rinv_l by lra. lra.
  - rewrite norm_scale by exact J. unfold Rdiv. rewrite Rmult_assoc, Rinv_l by lra. ring.
Qed.
Theorem shear_kept ks tp g Fn s trial lim : trial = vadd (rotate g (sforce s)) (smul ks (shearInc g)) -> lim = Rmax 0 (if Req_EM_T (adhesion s) 0 then Fn * tp else adhesion s) ->
  norm trial <= lim -> shear_law ks tp g Fn s = mkSS (adhesion s) (cohesionBroken s) trial.
Proof. intros -> -> H. unfold shear_law. cbv zeta. rewrite ltR_f by exact H. reflexivity. Qed.
Theorem shear_slips ks tp g Fn s trial lim : trial = vadd (rotate g (sforce s)) (smul ks (shearInc g)) -> lim = Rmax 0 (if Req_EM_T (adhesion s) 0 then Fn * tp else adhesion s) ->
  lim < norm trial -> cohesionBroken s = true \/ adhesion s = 0 ->
  let s' := shear_law ks tp g Fn s in cohesionBroken s' = true /\ adhesion s' = adhesion s /\ norm (sforce s') = lim /\ exists j, 0 <= j <= 1 /\ sforce s' = smul j trial.
Proof.
  intros -> -> H D s'. subst s'. unfold shear_law. cbv zeta. rewrite ltR_t by exact H. destruct (scaled _ _ (Rmax_l 0 _) H) as (J & N). destruct (cohesionBroken s) eqn:B.
  - cbn [cohesionBroken adhesion sforce]. repeat split; try assumption. eexists. split; [exact J|reflexivity].
  - destruct D as [D | D]; [discriminate D|]. cbn [cohesionBroken adhesion sforce]. destruct (Req_EM_T (adhesion s) 0) as [_ | X]; [|contradiction]. repeat split; try assumption; [symmetry; exact D|]. eexists. split; [exact J|reflexivity].
Qed.
Theorem shear_breaks ks tp g Fn s trial : trial = vadd (rotate g (sforce s)) (smul ks (shearInc g)) -> adhesion s <> 0 -> cohesionBroken s = false -> Rmax 0 (adhesion s) < norm trial ->
  let s' := shear_law ks tp g Fn s in cohesionBroken s' = true /\ adhesion s' = 0 /\ norm (sforce s') = Rmax 0 (Fn * tp) /\ exists j, 0 <= j /\ sforce s' = smul j trial.
Proof.
  intros -> A B H s'. subst s'. unfold shear_law. cbv zeta. destruct (Req_EM_T (adhesion s) 0) as [X | _]; [contradiction|]. rewrite ltR_t by exact H. rewrite B. cbn [cohesionBroken adhesion sforce].
  remember (vadd (rotate g (sforce s)) (smul ks (shearInc g))) as v eqn:EV. pose proof (Rmax_l 0 (adhesion s)) as P. assert (N : 0 < norm v) by lra.
  assert (J : 0 <= Rmax 0 (Fn * tp) / norm v) by (apply Rmult_le_pos; [apply Rmax_l|left; apply Rinv_0_lt_compat; exact N]).
  repeat split.
  - rewrite norm_scale by exact J. unfold Rdiv. rewrite Rmult_assoc, Rinv_l by lra. ring.
  - eexists. split; [exact J|reflexivity].
Qed.
Lemma norm_y x : 0 <= x -> norm (V 0 x 0) = x.
Proof. intros H. unfold norm. replace (norm2 (V 0 x 0)) with (x * x) by (unfold norm2, dot; cbn [vx vy vz]; ring). apply sqrt_square. exact H. Qed.
Lemma flat_rotate inc v : rotate (flat_geom inc) v = v.
Proof. unfold rotate, flat_geom. cbn [orthonormal_axis twist_axis]. destruct v as [a b c]. vgoal. f_equal; ring. Qed.
(** the broken contact is pushed ten times more than elasticity would *)
Theorem amplified_refuted : sforce (shear_law 1 (1/2) (flat_geom (V 0 2 0)) 40 (mkSS 1 false vzero)) = V 0 20 0 /\ vadd (rotate (flat_geom (V 0 2 0)) vzero) (smul 1 (V 0 2 0)) = V 0 2 0.
Proof.
  assert (T : vadd (rotate (flat_geom (V 0 2 0)) vzero) (smul 1 (V 0 2 0)) = V 0 2 0) by (rewrite flat_rotate; vgoal; f_equal; ring).
  split; [|exact T]. unfold shear_law. cbv zeta. cbn [sforce adhesion cohesionBroken]. replace (shearInc (flat_geom (V 0 2 0))) with (V 0 2 0) by reflexivity. rewrite T. rewrite (norm_y 2) by lra.
  destruct (Req_EM_T 1 0); [lra|]. rewrite (Rmax_right 0 1) by lra. rewrite (ltR_t 1 2) by lra. cbn [sforce]. rewrite (Rmax_right 0 (40 * (1/2))) by lra. vgoal. f_equal; field.
Qed.

(** ** the law of a contact *)
Lemma law_nst k st x i j : nst (snd (fst (law k st x i j))) = snd (normal_law (nco k) (nst st) (penetrationDepth (sg x))).
Proof.
  unfold law. cbv zeta. destruct (normal_law (nco k) (nst st) (penetrationDepth (sg x))) as [o n']. cbn [fst snd]. destruct o as [| | Fn]; [reflexivity|reflexivity|].
  destruct (if cohesionBroken _ then _ else _) as [t b1]. destruct (if b1 then _ else _) as [b b2]. reflexivity.
Qed.
Lemma spent_broken k s d : (forall f, fst (normal_law k s d) <> NForce f) -> isBroken (snd (normal_law k s d)) = true.
Proof.
  unfold normal_law. cbv zeta. destruct (leR (d - unp s) 0); destruct (ltR _ _ || isBroken s); cbn [fst snd]; intros H; try reflexivity; exfalso; eapply H; reflexivity.
Qed.
Lemma shear_stays ks tp g Fn s : cohesionBroken s = true -> cohesionBroken (shear_law ks tp g Fn s) = true.
Proof. intros B. unfold shear_law. cbv zeta. rewrite B. destruct (ltR _ _); reflexivity. Qed.
Lemma law_torn k st x i j : cohesionBroken (sst st) = true -> isBroken (nst (snd (fst (law k st x i j)))) = false ->
  let st' := snd (fst (law k st x i j)) in cohesionBroken (sst st') = true /\ bst st' = bst st /\ mtwist (tst st') = vzero /\
  exists e1 e2, snd (law k st x i j) = [e1; e2; (i, (vzero, vopp (mbend (bst st)))); (j, (vzero, mbend (bst st)))].
Proof.
  intros B N. rewrite law_nst in N. cbv zeta. unfold law. cbv zeta. destruct (normal_law (nco k) (nst st) (penetrationDepth (sg x))) as [o n'] eqn:E. cbn [fst snd] in *.
  assert (F : exists f, o = NForce f). { destruct o as [| | f]; [| |exists f; reflexivity]; exfalso; pose proof (spent_broken (nco k) (nst st) (penetrationDepth (sg x))) as Z; rewrite E in Z; cbn [fst snd] in Z; rewrite Z in N; (discriminate N || intros f D; discriminate D). }
  destruct F as (Fn & ->). rewrite shear_stays by exact B. cbn [fst snd sst cohesionBroken bst tst mtwist quiet_t app applyForceAtContactPoint]. split; [reflexivity|]. split; [reflexivity|]. split; [reflexivity|]. eexists. eexists. unfold applyForceAtContactPoint. cbn [app].
  assert (A1 : vsub (vopp (mbend (bst st))) vzero = vopp (mbend (bst st))) by (destruct (mbend (bst st)) as [a b c]; vgoal; f_equal; ring).
  assert (A2 : vadd (mbend (bst st)) vzero = mbend (bst st)) by (destruct (mbend (bst st)) as [a b c]; vgoal; f_equal; ring).
  rewrite A1, A2. reflexivity.
Qed.
Lemma steps_broken k l : forall st, isBroken (nst st) = true -> isBroken (nst (steps k st l)) = true.
Proof.
  induction l as [|x l IH]; intros st B; [exact B|]. cbn [steps]. apply IH. rewrite law_nst. rewrite (broken_step (nco k) (nst st) _ B). reflexivity.
Qed.
(** the bending moment of a torn contact never changes *)
Theorem frozen k l : forall st x, cohesionBroken (sst st) = true -> isBroken (nst (steps k st (l ++ [x]))) = false ->
  mbend (bst (steps k st (l ++ [x]))) = mbend (bst st) /\ mtwist (tst (steps k st (l ++ [x]))) = vzero /\ cohesionBroken (sst (steps k st (l ++ [x]))) = true.
Proof.
  induction l as [|y l IH]; intros st x B N; cbn [app steps] in *.
  - destruct (law_torn k st x 0%nat 1%nat B N) as (A1 & A2 & A3 & _). rewrite A2. repeat split; assumption.
  - assert (Y : isBroken (nst (snd (fst (law k st y 0%nat 1%nat)))) = false). { destruct (isBroken (nst (snd (fst (law k st y 0%nat 1%nat))))) eqn:D; [|reflexivity]. rewrite (steps_broken k (l ++ [x]) _ D) in N. discriminate N. }
    destruct (law_torn k st y 0%nat 1%nat B Y) as (A1 & A2 & A3 & _). destruct (IH _ x A1 N) as (I1 & I2 & I3). rewrite I1, A2. repeat split; assumption.
Qed.

(** the steps of the witnesses *)
Definition moved (s : nstate) : Prop := isBroken s = false /\ unp s = 0 /\ elT s = 1 /\ onT s = false.
Lemma moved_step s : moved s -> exists s', normal_law soft s 0 = (NForce 0, s') /\ moved s'.
Proof.
  intros (B & U & E & O). unfold normal_law. cbv zeta. rewrite B, U. cbn [soft maxExten knT]. rewrite (leR_t (0 - 0) 0) by lra. rewrite (ltR_f 4 (- (0 - 0))) by lra. cbn [orb]. unfold tension. cbv zeta. rewrite E, O. cbn [soft knT]. rewrite (ltR_f 1 (- (1 * (0 - 0)))) by lra. cbn [orb fst snd]. eexists. split; [apply (f_equal2 pair); [f_equal; ring|reflexivity]|]. unfold moved. cbn [isBroken unp elT onT]. repeat split; assumption.
Qed.
Lemma new_moved : moved (new_contact 1 1). Proof. unfold moved, new_contact. cbn. repeat split. Qed.
Lemma zero_smul v : smul 0 v = vzero. Proof. destruct v as [a b c]. vgoal. f_equal; ring. Qed.

(** a step without twist of a sound contact, with shear force below its adhesion and bending within elasticity *)
Lemma sound_step st inc w sh m : moved (nst st) -> sst st = mkSS 10 false sh -> tst st = mkTS 10 false 0 0 0 vzero -> onB (bst st) = false -> mbend (bst st) = m ->
  norm (vadd sh inc) <= 10 -> vx w = 0 -> norm (vsub m w) <= 10 ->
  let st' := snd (fst (law glue st (mkIT false 1 (flat_geom inc) 0 vzero w (V (-1) 0 0) (V 1 0 0)) 0%nat 1%nat)) in
  moved (nst st') /\ nforce st' = vzero /\ sst st' = mkSS 10 false (vadd sh inc) /\ tst st' = mkTS 10 false 0 0 0 vzero /\ onB (bst st') = false /\ mbend (bst st') = vsub m w.
Proof.
  intros Mv Hs Ht Ho Hm H1 Hw H2 st'. destruct (moved_step (nst st) Mv) as (n' & EN & Mv').
  subst st'. unfold law. cbv zeta. cbn [sg fresh stwist sdt om1 om2 at1 at2]. replace (penetrationDepth (flat_geom inc)) with 0 by reflexivity. replace (nco glue) with soft by reflexivity. rewrite EN. cbn [fst snd]. rewrite Hs. cbn [adhesion cohesionBroken sforce].
  assert (T : vadd (rotate (flat_geom inc) sh) (smul (ksh glue) (shearInc (flat_geom inc))) = vadd sh inc) by (rewrite flat_rotate; cbn [flat_geom shearInc glue ksh]; destruct sh as [a b c], inc as [a' b' c']; vgoal; f_equal; ring).
  rewrite (shear_kept (ksh glue) (tanPhi_ glue) (flat_geom inc) 0 (mkSS 10 false sh) (vadd sh inc) 10); [|symmetry; exact T| |exact H1].
  2:{ cbn [adhesion]. destruct (Req_EM_T 10 0); [lra|]. rewrite Rmax_right by lra. reflexivity. }
  cbn [cohesionBroken adhesion sforce]. rewrite Ht. unfold twist_law. cbv zeta. cbn [glue tco ktw ktwCrp ktwUnl maxTwist elTw onTw twp cW0 cW1 mtwist]. replace (0 - 0) with 0 by ring. rewrite Rmult_0_l, Rabs_R0. rewrite (ltR_f 1 0), (ltR_f 10 0) by lra. cbn [orb].
  unfold bend_law. cbv zeta. cbn [bco glue kr krCrp krUnl elB maxBend]. rewrite !flat_rotate, Hm, Ho.
  assert (W : vsub m (smul 1 (smul 1 (vsub (vsub w vzero) (smul (dot (normal (flat_geom inc)) (vsub w vzero)) (normal (flat_geom inc)))))) = vsub m w).
  { cbn [flat_geom normal]. destruct m as [a b c], w as [p q r]. cbn [vx] in Hw. subst p. vgoal. f_equal; ring. }
  rewrite W. rewrite (ltR_f 10 (norm (vsub m w))) by exact H2. cbn [orb fst snd nst nforce sst tst bst onB mbend adhesion sforce]. rewrite !zero_smul. split; [exact Mv'|]. split; [destruct (normal (flat_geom inc)) as [a b c]; vgoal; f_equal; ring|]. repeat split.
Qed.
(** a step of too much twist *)
Lemma twisted_step st inc w sh : moved (nst st) -> sst st = mkSS 10 false sh -> tst st = mkTS 10 false 0 0 0 vzero -> norm (vadd sh inc) <= 10 ->
  let st' := snd (fst (law glue st (mkIT false 1 (flat_geom inc) 2 vzero w (V (-1) 0 0) (V 1 0 0)) 0%nat 1%nat)) in
  moved (nst st') /\ nforce st' = vzero /\ sst st' = mkSS 10 true (vadd sh inc) /\ bst st' = bst st.
Proof.
  intros Mv Hs Ht H1 st'. destruct (moved_step (nst st) Mv) as (n' & EN & Mv').
  subst st'. unfold law. cbv zeta. cbn [sg fresh stwist sdt om1 om2 at1 at2]. replace (penetrationDepth (flat_geom inc)) with 0 by reflexivity. replace (nco glue) with soft by reflexivity. rewrite EN. cbn [fst snd]. rewrite Hs. cbn [adhesion cohesionBroken sforce].
  assert (T : vadd (rotate (flat_geom inc) sh) (smul (ksh glue) (shearInc (flat_geom inc))) = vadd sh inc) by (rewrite flat_rotate; cbn [flat_geom shearInc glue ksh]; destruct sh as [a b c], inc as [a' b' c']; vgoal; f_equal; ring).
  rewrite (shear_kept (ksh glue) (tanPhi_ glue) (flat_geom inc) 0 (mkSS 10 false sh) (vadd sh inc) 10); [|symmetry; exact T| |exact H1].
  2:{ cbn [adhesion]. destruct (Req_EM_T 10 0); [lra|]. rewrite Rmax_right by lra. reflexivity. }
  cbn [cohesionBroken adhesion sforce]. rewrite Ht. unfold twist_law. cbv zeta. cbn [glue tco ktw ktwCrp ktwUnl maxTwist elTw onTw twp cW0 cW1 mtwist]. replace (2 - 0) with 2 by ring. rewrite (Rabs_right 2) by lra. rewrite (ltR_t 1 2) by lra. cbn [fst snd nst nforce sst tst bst adhesion sforce].
  split; [exact Mv'|]. split; [destruct (normal (flat_geom inc)) as [a b c]; vgoal; f_equal; ring|]. split; reflexivity.
Qed.
(** a step of shear after the cohesion was broken *)
Lemma torn_step st inc sh : moved (nst st) -> sst st = mkSS 10 true sh -> norm (vadd sh inc) <= 10 ->
  let st' := snd (fst (law glue st (mkIT false 1 (flat_geom inc) 2 vzero vzero (V (-1) 0 0) (V 1 0 0)) 0%nat 1%nat)) in
  nforce st' = vzero /\ sst st' = mkSS 10 true (vadd sh inc).
Proof.
  intros Mv Hs H1 st'. destruct (moved_step (nst st) Mv) as (n' & EN & Mv').
  subst st'. unfold law. cbv zeta. cbn [sg fresh stwist sdt om1 om2 at1 at2]. replace (penetrationDepth (flat_geom inc)) with 0 by reflexivity. replace (nco glue) with soft by reflexivity. rewrite EN. cbn [fst snd]. rewrite Hs. cbn [adhesion cohesionBroken sforce].
  assert (T : vadd (rotate (flat_geom inc) sh) (smul (ksh glue) (shearInc (flat_geom inc))) = vadd sh inc) by (rewrite flat_rotate; cbn [flat_geom shearInc glue ksh]; destruct sh as [a b c], inc as [a' b' c']; vgoal; f_equal; ring).
  rewrite (shear_kept (ksh glue) (tanPhi_ glue) (flat_geom inc) 0 (mkSS 10 true sh) (vadd sh inc) 10); [|symmetry; exact T| |exact H1].
  2:{ cbn [adhesion]. destruct (Req_EM_T 10 0); [lra|]. rewrite Rmax_right by lra. reflexivity. }
  cbn [cohesionBroken adhesion sforce fst snd nforce sst]. split; [destruct (normal (flat_geom inc)) as [a b c]; vgoal; f_equal; ring|reflexivity].
Qed.
Lemma made_facts sh : moved (nst (made (mkSS 10 false sh))) /\ sst (made (mkSS 10 false sh)) = mkSS 10 false sh /\ tst (made (mkSS 10 false sh)) = mkTS 10 false 0 0 0 vzero /\ onB (bst (made (mkSS 10 false sh))) = false /\ mbend (bst (made (mkSS 10 false sh))) = vzero.
Proof. split; [exact new_moved|]. repeat split. Qed.
Theorem adheres_refuted : let st1 := steps glue (made (mkSS 10 false vzero)) [sheared 2] in let st2 := steps glue st1 [sheared 2] in
  cohesionBroken (sst st1) = true /\ nforce st2 = vzero /\ sforce (sst st2) = V 0 2 0.
Proof.
  destruct (made_facts vzero) as (M1 & M2 & M3 & M4 & M5). assert (I1 : vadd vzero (V 0 1 0) = V 0 1 0) by (vgoal; f_equal; ring). assert (I2 : vadd (V 0 1 0) (V 0 1 0) = V 0 2 0) by (vgoal; f_equal; ring).
  cbv zeta. cbn [steps]. unfold sheared. remember (snd (fst (law glue (made (mkSS 10 false vzero)) (mkIT false 1 (flat_geom (V 0 1 0)) 2 vzero vzero (V (-1) 0 0) (V 1 0 0)) 0%nat 1%nat))) as st1 eqn:E1.
  destruct (twisted_step (made (mkSS 10 false vzero)) (V 0 1 0) vzero vzero M1 M2 M3) as (A1 & A2 & A3 & A4); [rewrite I1, (norm_y 1) by lra; lra|]. rewrite <- E1 in *. rewrite I1 in A3.
  destruct (torn_step st1 (V 0 1 0) (V 0 1 0) A1 A3) as (B1 & B2); [rewrite I2, (norm_y 2) by lra; lra|]. rewrite A3, B1, B2. cbn [cohesionBroken sforce]. split; [reflexivity|]. split; [reflexivity|exact I2].
Qed.
Theorem bending_refuted l x : let st := steps glue (made (mkSS 10 false vzero)) [bent 0; bent 2] in
  cohesionBroken (sst st) = true /\ isBroken (nst st) = false /\
  (isBroken (nst (steps glue st (l ++ [x]))) = false -> mbend (bst (steps glue st (l ++ [x]))) = V 0 (-1) 0 /\
     exists e1 e2, snd (law glue (steps glue st l) x 0 1) = [e1; e2; (0%nat, (vzero, V 0 1 0)); (1%nat, (vzero, V 0 (-1) 0))]).
Proof.
  destruct (made_facts vzero) as (M1 & M2 & M3 & M4 & M5). assert (I1 : vadd vzero vzero = vzero) by (vgoal; f_equal; ring). assert (N0 : norm vzero = 0) by (unfold vzero; apply norm_y; lra).
  assert (I2 : vsub vzero (V 0 1 0) = V 0 (-1) 0) by (vgoal; f_equal; ring). assert (N1 : norm (V 0 (-1) 0) = 1) by (unfold norm; replace (norm2 (V 0 (-1) 0)) with (1 * 1) by (unfold norm2, dot; cbn [vx vy vz]; ring); apply sqrt_square; lra).
  cbn [steps]. unfold bent.
  remember (snd (fst (law glue (made (mkSS 10 false vzero)) (mkIT false 1 (flat_geom vzero) 0 vzero (V 0 1 0) (V (-1) 0 0) (V 1 0 0)) 0%nat 1%nat))) as st1 eqn:E1.
  destruct (sound_step (made (mkSS 10 false vzero)) vzero (V 0 1 0) vzero vzero M1 M2 M3 M4 M5) as (A1 & A2 & A3 & A4 & A5 & A6); [rewrite I1, N0; lra|reflexivity|rewrite I2, N1; lra|]. rewrite <- E1 in *. rewrite I1 in A3. rewrite I2 in A6.
  destruct (twisted_step st1 vzero (V 0 1 0) vzero A1 A3 A4) as (B1 & B2 & B3 & B4); [rewrite I1, N0; lra|].
  remember (snd (fst (law glue st1 (mkIT false 1 (flat_geom vzero) 2 vzero (V 0 1 0) (V (-1) 0 0) (V 1 0 0)) 0%nat 1%nat))) as st2 eqn:E2.
  assert (C2 : cohesionBroken (sst st2) = true) by (rewrite B3; reflexivity). split; [exact C2|]. split; [exact (proj1 B1)|]. intros N. destruct (frozen glue l st2 x C2 N) as (F & _). split; [rewrite F, B4; exact A6|].
  assert (ST : forall l' s y, steps glue s (l' ++ [y]) = snd (fst (law glue (steps glue s l') y 0%nat 1%nat))) by (induction l' as [|z l' IH]; intros s y; [reflexivity|cbn [app steps]; apply IH]).
  rewrite ST in N. assert (CL : cohesionBroken (sst (steps glue st2 l)) = true /\ mbend (bst (steps glue st2 l)) = V 0 (-1) 0).
  { destruct l as [|y l'] using rev_ind; [cbn [steps]; split; [exact C2|rewrite B4; exact A6]|]. clear IHl'.
    assert (NL : isBroken (nst (steps glue st2 (l' ++ [y]))) = false). { destruct (isBroken (nst (steps glue st2 (l' ++ [y])))) eqn:D; [|reflexivity]. rewrite law_nst, (broken_step _ _ _ D) in N. discriminate N. }
    destruct (frozen glue l' st2 y C2 NL) as (F1 & _ & F3). split; [exact F3|]. rewrite F1, B4. exact A6. }
  destruct CL as (CL & ML). destruct (law_torn glue (steps glue st2 l) x 0%nat 1%nat CL N) as (_ & _ & _ & e1 & e2 & EE). exists e1, e2. rewrite EE, ML. replace (vopp (V 0 (-1) 0)) with (V 0 1 0) by (vgoal; f_equal; ring). reflexivity.
Qed.
(** failure of bending itself releases the moment *)
Theorem bending_fails k g dt w1 w2 s : snd (bend_law k g dt w1 w2 s) = true -> mbend (fst (bend_law k g dt w1 w2 s)) = vzero.
Proof.
  unfold bend_law. cbv zeta. destruct (ltR _ _ || onB s); [|intros H; discriminate H]. destruct (ltR (norm _) (norm (mbend s))); [intros H; discriminate H|].
  destruct (ltR (maxBend k) _); [intros _; reflexivity|intros H; discriminate H].
Qed.

(** ** C269: twist *)
Lemma sgn_opp x : x <> 0 -> sgn (- x) = - sgn x.
Proof. intros H. unfold sgn, ltR. destruct (Rlt_dec x 0), (Rlt_dec (- x) 0); lra. Qed.
Theorem twist_odd k fr n gt s : gt - twp s <> 0 -> twist_law k fr n (- gt) (reversed s) = (reversed (fst (twist_law k fr n gt s)), snd (twist_law k fr n gt s)).
Proof.
  intros H. unfold twist_law. cbv zeta. cbn [reversed elTw onTw twp cW0 cW1 mtwist]. replace (- gt - - twp s) with (- (gt - twp s)) by ring. remember (gt - twp s) as t eqn:Et. clear Et.
  replace (- t * ktw k) with (- (t * ktw k)) by ring. rewrite !Rabs_Ropp. replace (dot (vopp (mtwist s)) (smul (- (t * ktw k)) n)) with (dot (mtwist s) (smul (t * ktw k) n)) by (destruct (mtwist s) as [a b c], n as [p q r]; vgoal; ring). rewrite (sgn_opp t H).
  assert (Z : forall f v, vopp (smul f v) = smul (- f) v) by (intros f v; destruct v as [a b c]; vgoal; f_equal; ring). assert (Z0 : vopp (smul 0 n) = smul 0 n) by (rewrite Z; f_equal; ring).
  destruct (ltR (maxTwist k) (Rabs t)); [cbn [fst snd]; unfold reversed; cbn [elTw onTw twp cW0 cW1 mtwist]; rewrite Z0; reflexivity|].
  destruct (ltR (elTw s) (Rabs (t * ktw k)) || onTw s); [|cbn [fst snd]; unfold reversed; cbn [elTw onTw twp cW0 cW1 mtwist]; rewrite Z; reflexivity].
  destruct (negb fr && ltR (dot (mtwist s) (smul (t * ktw k) n)) 0); destruct (ltR (Rabs t) (Rabs (cW0 s))); cbn [fst snd]; unfold reversed; cbn [elTw onTw twp cW0 cW1 mtwist]; rewrite Z.
  - replace (ktwUnl k * (- t - - cW0 s) + - cW1 s) with (- (ktwUnl k * (t - cW0 s) + cW1 s)) by ring. rewrite Ropp_0. reflexivity.
  - replace (- sgn t * elTw s + ktwCrp k * (- t - - sgn t * elTw s / ktw k)) with (- (sgn t * elTw s + ktwCrp k * (t - sgn t * elTw s / ktw k))) by (unfold Rdiv; ring). rewrite Ropp_0. reflexivity.
  - replace (ktwUnl k * (- t - - cW0 s) + - cW1 s) with (- (ktwUnl k * (t - cW0 s) + cW1 s)) by ring. reflexivity.
  - replace (- sgn t * elTw s + ktwCrp k * (- t - - sgn t * elTw s / ktw k)) with (- (sgn t * elTw s + ktwCrp k * (t - sgn t * elTw s / ktw k))) by (unfold Rdiv; ring). reflexivity.
Qed.
Theorem twist_elastic k fr n gt s : onTw s = false -> Rabs (gt - twp s) <= maxTwist k -> Rabs ((gt - twp s) * ktw k) <= elTw s ->
  twist_law k fr n gt s = (mkTS (elTw s) false (twp s) (gt - twp s) ((gt - twp s) * ktw k) (smul ((gt - twp s) * ktw k) n), false).
Proof. intros O T E. unfold twist_law. cbv zeta. rewrite (ltR_f (maxTwist k) (Rabs (gt - twp s))) by exact T. rewrite (ltR_f (elTw s) (Rabs ((gt - twp s) * ktw k))) by exact E. rewrite O. reflexivity. Qed.
Theorem twist_plastic k fr n gt s : Rabs (gt - twp s) <= maxTwist k -> elTw s < Rabs ((gt - twp s) * ktw k) \/ onTw s = true -> dot (mtwist s) (smul ((gt - twp s) * ktw k) n) >= 0 ->
  let t := gt - twp s in let r := twist_law k fr n gt s in snd r = false /\ onTw (fst r) = true /\ elTw (fst r) = elTw s /\ twp (fst r) = twp s /\
  (Rabs (cW0 s) <= Rabs t -> cW0 (fst r) = t /\ mtwist (fst r) = smul (sgn t * elTw s + ktwCrp k * (t - sgn t * elTw s / ktw k)) n) /\
  (Rabs t < Rabs (cW0 s) -> cW0 (fst r) = cW0 s /\ cW1 (fst r) = cW1 s /\ mtwist (fst r) = smul (cW1 s + ktwUnl k * (t - cW0 s)) n).
Proof.
  intros T E D t r. subst t r. unfold twist_law. cbv zeta. rewrite (ltR_f (maxTwist k) (Rabs (gt - twp s))) by exact T.
  assert (O : ltR (elTw s) (Rabs ((gt - twp s) * ktw k)) || onTw s = true) by (destruct E as [E | E]; [rewrite ltR_t by exact E; reflexivity|rewrite E; apply orb_true_r]). rewrite O.
  rewrite (ltR_f (dot (mtwist s) (smul ((gt - twp s) * ktw k) n)) 0) by lra. rewrite andb_false_r. cbn [fst snd onTw elTw twp cW0 cW1 mtwist].
  split; [reflexivity|]. split; [reflexivity|]. split; [reflexivity|]. split; [reflexivity|]. split; intros H; [rewrite ltR_f by exact H; split; reflexivity|rewrite ltR_t by exact H].
  split; [reflexivity|]. split; [reflexivity|]. f_equal. ring.
Qed.
Theorem twist_breaks k fr n gt s : maxTwist k < Rabs (gt - twp s) -> snd (twist_law k fr n gt s) = true /\ mtwist (fst (twist_law k fr n gt s)) = vzero.
Proof. intros T. unfold twist_law. cbv zeta. rewrite ltR_t by exact T. cbn [fst snd mtwist]. split; [reflexivity|apply zero_smul]. Qed.

(** ** C270: Ip2 *)
Lemma harmonic_sym a b : harmonic a b = harmonic b a.
Proof. unfold harmonic. rewrite (Rplus_comm b a). destruct (Req_EM_T (a + b) 0); [reflexivity|]. f_equal. field. assumption. Qed.
Theorem ip2_sym m1 m2 r1 r2 : ip2 m1 m2 r1 r2 = ip2 m2 m1 r2 r1.
Proof.
  unfold ip2. cbv zeta. rewrite (harmonic_sym (mC m2 * r2)), (harmonic_sym (mT m2 * r2)), (harmonic_sym (mS m2 * r2)), (harmonic_sym (aKr m2)), (harmonic_sym (aKtw m2)), (Rmult_comm r2 r1).
  rewrite (Rmin_comm (mcreep m2)), (Rmin_comm (munload m2)), (Rmin_comm (sC m2)), (Rmin_comm (sT m2)), (Rmin_comm (sS m2)), (Rmin_comm (eT m2 * r2)), (Rmin_comm (eC m2 * r2)), (Rmin_comm (etaTw m2)), (Rmin_comm r2 r1). reflexivity.
Qed.
Lemma harmonic_mean a b : 0 < a -> 0 < b -> exists h, harmonic a b = Some h /\ Rmin a b <= h <= Rmax a b.
Proof.
  intros A B. unfold harmonic. destruct (Req_EM_T (a + b) 0); [lra|]. eexists. split; [reflexivity|].
  assert (P : 0 < a + b) by lra. unfold Rmin, Rmax. destruct (Rle_dec a b) as [L | L]; split; (apply (Rmult_le_reg_r (a + b)); [exact P|]); replace (2 * a * b / (a + b) * (a + b)) with (2 * a * b) by (field; lra).
  - assert (0 <= a * (b - a)) by (apply Rmult_le_pos; lra). lra.
  - assert (0 <= b * (b - a)) by (apply Rmult_le_pos; lra). lra.
  - assert (0 <= b * (a - b)) by (apply Rmult_le_pos; lra). lra.
  - assert (0 <= a * (a - b)) by (apply Rmult_le_pos; lra). lra.
Qed.
Theorem ip2_stiff m1 m2 r1 r2 : 0 < mC m1 * r1 -> 0 < mC m2 * r2 -> 0 < mT m1 * r1 -> 0 < mT m2 * r2 ->
  exists kC kT, iknC (ip2 m1 m2 r1 r2) = Some kC /\ iknT (ip2 m1 m2 r1 r2) = Some kT /\ Rmin (mC m1 * r1) (mC m2 * r2) <= kC <= Rmax (mC m1 * r1) (mC m2 * r2) /\ Rmin (mT m1 * r1) (mT m2 * r2) <= kT <= Rmax (mT m1 * r1) (mT m2 * r2) /\
  ikTCrp (ip2 m1 m2 r1 r2) = Some (kT * Rmin (mcreep m1) (mcreep m2)) /\ ikTUnld (ip2 m1 m2 r1 r2) = Some (kT * Rmin (munload m1) (munload m2)).
Proof.
  intros A B C D. destruct (harmonic_mean _ _ A B) as (kC & E1 & B1). destruct (harmonic_mean _ _ C D) as (kT & E2 & B2). exists kC, kT. unfold ip2. cbv zeta. cbn [iknC iknT ikTCrp ikTUnld]. rewrite E2. split; [exact E1|]. split; [reflexivity|]. split; [exact B1|]. split; [exact B2|]. split; reflexivity.
Qed.
Theorem ip2_limits m1 m2 r1 r2 : 0 <= r1 -> 0 <= r2 -> 0 <= sC m1 -> 0 <= sC m2 -> 0 <= sT m1 -> 0 <= sT m2 -> 0 <= sS m1 -> 0 <= sS m2 ->
  let p := ip2 m1 m2 r1 r2 in
  (0 <= imaxElC p <= sC m1 * (r1 * r1) /\ imaxElC p <= sC m2 * (r2 * r2)) /\ (0 <= imaxElT p <= sT m1 * (r1 * r1) /\ imaxElT p <= sT m2 * (r2 * r2)) /\ (0 <= iadh p <= sS m1 * (r1 * r1) /\ iadh p <= sS m2 * (r2 * r2)) /\
  (imaxExten p <= eT m1 * r1 /\ imaxExten p <= eT m2 * r2 /\ (imaxExten p = eT m1 * r1 \/ imaxExten p = eT m2 * r2)) /\ (imaxContract p <= eC m1 * r1 /\ imaxContract p <= eC m2 * r2 /\ (imaxContract p = eC m1 * r1 \/ imaxContract p = eC m2 * r2)).
Proof.
  intros R1 R2 C1 C2 T1 T2 S1 S2 p. subst p. unfold ip2. cbv zeta. cbn [imaxElC imaxElT iadh imaxExten imaxContract].
  assert (G : forall a b x y, 0 <= a -> 0 <= b -> 0 <= x -> 0 <= y -> 0 <= Rmin a b * (Rmin x y * Rmin x y) <= a * (x * x) /\ Rmin a b * (Rmin x y * Rmin x y) <= b * (y * y)).
  { intros a b x y HA HB HX HY. assert (P1 : 0 <= Rmin a b) by (apply Rmin_glb; assumption). assert (P2 : 0 <= Rmin x y) by (apply Rmin_glb; assumption).
    pose proof (Rmin_l a b). pose proof (Rmin_r a b). pose proof (Rmin_l x y). pose proof (Rmin_r x y). assert (0 <= Rmin x y * Rmin x y) by (apply Rmult_le_pos; assumption).
    split; [split; [apply Rmult_le_pos; assumption|]|]; (apply Rmult_le_compat; [assumption|assumption|assumption|apply Rmult_le_compat; assumption]). }
  rewrite (Rmin_comm r2 r1). split; [apply G; assumption|]. split; [apply G; assumption|]. split; [apply G; assumption|].
  split; (split; [apply Rmin_l|]); (split; [apply Rmin_r|]); unfold Rmin; destruct (Rle_dec _ _); auto.
Qed.
Theorem ip2_refuted r1 r2 : iknC (ip2 default_mat default_mat r1 r2) = None /\ iknT (ip2 default_mat default_mat r1 r2) = None.
Proof. unfold ip2. cbv zeta. cbn [iknC iknT default_mat mC mT]. unfold harmonic. rewrite !Rmult_0_l, Rplus_0_r. destruct (Req_EM_T 0 0) as [_ | X]; [split; reflexivity|contradiction X; reflexivity]. Qed.

(** ** C271: balance *)
Theorem balance k st x i j at_ o : at_ i = at1 x -> at_ j = at2 x -> total_force (snd (law k st x i j)) = vzero /\ total_moment o at_ (snd (law k st x i j)) = vzero.
Proof.
  intros P1 P2. unfold law. cbv zeta. destruct (normal_law (nco k) (nst st) (penetrationDepth (sg x))) as [r n']. cbn [fst snd]. destruct r as [| | Fn]; [split; reflexivity|split; reflexivity|].
  destruct (if cohesionBroken _ then _ else _) as [t b1]. destruct (if b1 then _ else _) as [b b2]. cbn [snd]. unfold applyForceAtContactPoint. cbn [app].
  remember (vadd (smul (- Fn) (normal (sg x))) (sforce (shear_law (ksh k) (tanPhi_ k) (sg x) Fn (mkSS (adhesion (sst st)) (cohesionBroken (sst st)) (if fresh x then vzero else sforce (sst st)))))) as f eqn:Ef. clear Ef.
  unfold total_force, total_moment, vsum, moment. cbn [map fold_right fst snd]. rewrite P1, P2. generalize (at1 x) (at2 x) (contactPoint (sg x)) (mbend b) (mtwist t). intros p q c u w. clear -f. destruct p as [p1 p2 p3], q as [q1 q2 q3], c as [c1 c2 c3], u as [u1 u2 u3], w as [w1 w2 w3], f as [f1 f2 f3], o as [o1 o2 o3].
  split; vgoal; f_equal; ring.
Qed.
(** when a contact is broken in tension or compression nothing acts any more *)
Theorem silent k st x i j : isBroken (snd (normal_law (nco k) (nst st) (penetrationDepth (sg x)))) = true -> 
  let r := law k st x i j in snd r = [] /\ nforce (snd (fst r)) = vzero /\ sforce (sst (snd (fst r))) = vzero /\ mtwist (tst (snd (fst r))) = vzero /\ mbend (bst (snd (fst r))) = vzero.
Proof.
  intros B r. subst r. unfold law. cbv zeta. assert (N : forall f, fst (normal_law (nco k) (nst st) (penetrationDepth (sg x))) <> NForce f).
  { intros f E. destruct (isBroken (nst st)) eqn:D; [rewrite (broken_step _ _ _ D) in E; cbn [fst] in E; destruct (leR _ _ && _) in E; discriminate E|].
    revert B E. unfold normal_law. cbv zeta. rewrite D. destruct (leR (penetrationDepth (sg x) - unp (nst st)) 0); destruct (ltR _ _); cbn [orb fst snd]; intros B E; try discriminate E.
    - rewrite tension_keeps, D in B. discriminate B.
    - destruct (leR _ _) in E; discriminate E.
    - rewrite compression_keeps, D in B. discriminate B. }
  destruct (normal_law (nco k) (nst st) (penetrationDepth (sg x))) as [o n']. cbn [fst snd] in *. destruct o as [| | f]; [repeat split|repeat split|exfalso; exact (N f eq_refl)].
Qed.
(** what is applied *)
Theorem applied k st x i j Fn n' : i <> j -> normal_law (nco k) (nst st) (penetrationDepth (sg x)) = (NForce Fn, n') ->
  let s := shear_law (ksh k) (tanPhi_ k) (sg x) Fn (mkSS (adhesion (sst st)) (cohesionBroken (sst st)) (if fresh x then vzero else sforce (sst st))) in
  let r := law k st x i j in
  fst (fst r) = true /\ nst (snd (fst r)) = n' /\ nforce (snd (fst r)) = vopp (smul Fn (normal (sg x))) /\ sforce (sst (snd (fst r))) = sforce s /\ adhesion (sst (snd (fst r))) = adhesion s /\
  force_on (snd r) i = vsub (sforce s) (smul Fn (normal (sg x))) /\ force_on (snd r) j = vsub (smul Fn (normal (sg x))) (sforce s).
Proof.
  intros D E. cbv zeta. unfold law. cbv zeta. rewrite E. cbn [fst snd]. remember (shear_law (ksh k) (tanPhi_ k) (sg x) Fn (mkSS (adhesion (sst st)) (cohesionBroken (sst st)) (if fresh x then vzero else sforce (sst st)))) as s eqn:Es. clear Es.
  destruct (if cohesionBroken _ then _ else _) as [t b1]. destruct (if b1 then _ else _) as [b b2]. cbn [fst snd nst nforce sst adhesion sforce]. split; [reflexivity|]. split; [reflexivity|].
  split; [destruct (normal (sg x)) as [p q r]; vgoal; f_equal; ring|]. split; [reflexivity|]. split; [reflexivity|].
  unfold force_on, vsum, applyForceAtContactPoint. cbn [app map fold_right fst snd]. rewrite !Nat.eqb_refl. rewrite (proj2 (Nat.eqb_neq i j) D), (proj2 (Nat.eqb_neq j i) (fun e => D (eq_sym e))). destruct (normal (sg x)) as [p q r], (sforce s) as [a d c]. split; vgoal; f_equal; ring.
Qed.
Theorem leaves k st x i j : fst (fst (law k st x i j)) = false <-> fst (normal_law (nco k) (nst st) (penetrationDepth (sg x))) = NErase.
Proof.
  unfold law. cbv zeta. destruct (normal_law (nco k) (nst st) (penetrationDepth (sg x))) as [o n']. cbn [fst snd]. destruct o as [| | Fn]; cbn [fst]; [tauto|split; intros H; discriminate H|].
  destruct (if cohesionBroken _ then _ else _) as [t b1]. destruct (if b1 then _ else _) as [b b2]. cbn [fst]. split; intros H; discriminate H.
Qed.
(** the elastic bending moment resists the relative rotation across the normal *)
Theorem bending_elastic k g dt w1 w2 s e : onB s = false -> e = vsub (rotate g (mbend s)) (smul (kr k * dt) (vsub (vsub w2 w1) (smul (dot (normal g) (vsub w2 w1)) (normal g)))) -> norm e <= elB k ->
  bend_law k g dt w1 w2 s = (mkBS false e e e (krCrp k), false).
Proof.
  intros O -> H. unfold bend_law. cbv zeta.
  replace (smul (kr k) (smul dt (vsub (vsub w2 w1) (smul (dot (normal g) (vsub w2 w1)) (normal g))))) with (smul (kr k * dt) (vsub (vsub w2 w1) (smul (dot (normal g) (vsub w2 w1)) (normal g)))).
  2:{ generalize (vsub (vsub w2 w1) (smul (dot (normal g) (vsub w2 w1)) (normal g))). intros v. destruct v as [a b c]. vgoal. f_equal; ring. }
  rewrite (ltR_f (elB k)) by exact H. rewrite O. reflexivity.
Qed.
(** the moments applied while sound are those of twist and bending *)
Theorem moments_sound k st x i j Fn n' : normal_law (nco k) (nst st) (penetrationDepth (sg x)) = (NForce Fn, n') ->
  cohesionBroken (shear_law (ksh k) (tanPhi_ k) (sg x) Fn (mkSS (adhesion (sst st)) (cohesionBroken (sst st)) (if fresh x then vzero else sforce (sst st)))) = false ->
  snd (twist_law (tco k) (fresh x) (normal (sg x)) (stwist x) (tst st)) = false ->
  let t := fst (twist_law (tco k) (fresh x) (normal (sg x)) (stwist x) (tst st)) in let b := bend_law (bco k) (sg x) (sdt x) (om1 x) (om2 x) (bst st) in
  tst (snd (fst (law k st x i j))) = t /\ bst (snd (fst (law k st x i j))) = fst b /\ cohesionBroken (sst (snd (fst (law k st x i j)))) = snd b /\
  exists e1 e2, snd (law k st x i j) = [e1; e2; (i, (vzero, vsub (vopp (mbend (fst b))) (mtwist t))); (j, (vzero, vadd (mbend (fst b)) (mtwist t)))].
Proof.
  intros E S1 T. cbv zeta. unfold law. cbv zeta. rewrite E. cbn [fst snd]. rewrite S1. destruct (twist_law (tco k) (fresh x) (normal (sg x)) (stwist x) (tst st)) as [t b1]. cbn [snd] in T. subst b1. destruct (bend_law (bco k) (sg x) (sdt x) (om1 x) (om2 x) (bst st)) as [b b2]. cbn [fst snd tst bst sst cohesionBroken].
  split; [reflexivity|]. split; [reflexivity|]. split; [reflexivity|]. unfold applyForceAtContactPoint. cbn [app]. eexists. eexists. reflexivity.
Qed.
