From Coq Require Import Reals List ZArith Bool Lra Lia.
From Verif Require Import Vec_Model Pcell_Model Pcell_Spec Pcell_Proofs.
From Verif Require Cell_Model.
Import ListNotations.
Local Open Scope R_scope.

Lemma least_pos m v : 0 < m -> all_at_least m v -> vpos v.
Proof. intros P [A [B C]]. unfold vpos. lra. Qed.
Lemma grown_factor dt s g : vpos s -> vpos (grown dt s g) -> 0 < 1 + dt * vx g /\ 0 < 1 + dt * vy g /\ 0 < 1 + dt * vz g.
Proof.
  intros [A [B C]] [X [Y Z]]. unfold grown in X, Y, Z. cbn [vx vy vz] in X, Y, Z. assert (F : forall a x, 0 < x -> 0 < a * x -> 0 < a). { intros a x H H0. destruct (Rle_or_lt a 0) as [L|L]; [|exact L]. exfalso. assert (a * x <= 0 * x) by (apply Rmult_le_compat_r; lra). lra. }
  split; [exact (F _ _ A X)|split; [exact (F _ _ B Y)|exact (F _ _ C Z)]].
Qed.
Theorem iso_sizes cf b iter dt m s c S0 T0 G0 span d : boxy c S0 T0 G0 -> 0 < dt -> maxSpan s = span -> 0 < span -> maxDispl s = d -> 0 <= d -> all_at_least (21/10 * span) S0 -> all_at_least (21/10 * span) (grown dt S0 G0) ->
  forall n s' c' h, iso_run cf n b iter dt m s c = IStep s' c' h -> (forall k s1 c1 h1, (k < n)%nat -> iso_run cf k b iter dt m s c = IStep s1 c1 h1 -> (state s1 < length (stresses cf))%nat) ->
    exists S1 T1 G1, boxy c' S1 T1 G1 /\ all_at_least (21/10 * span) S1 /\ all_at_least (21/10 * span) (grown dt S1 G1) /\ maxSpan s' = span /\ maxDispl s' = d /\ (n <> O -> within d (grown dt S1 G1) S1) /\ (keepProportions cf = true -> proportional S0 (grown dt S0 G0) -> proportional S0 S1 /\ proportional S0 (grown dt S1 G1)).
Proof.
  intros B DT MS SP MD DP L0 L1. assert (SP' : 0 < 21/10 * span) by lra. induction n as [|n IH]; intros s' c' h E H.
  - cbn [iso_run] in E. injection E as <- <- <-. exists S0, T0, G0. split; [exact B|]. split; [exact L0|]. split; [exact L1|]. split; [exact MS|]. split; [exact MD|]. split; [intros X; destruct (X eq_refl)|]. intros _ K. split; [|exact K]. exists 1. destruct S0 as [a1 a2 a3]. unfold smul. cbn [vx vy vz]. f_equal; ring.
  - cbn [iso_run] in E. destruct (iso_run cf n b iter dt m s c) as [s1 c1 h1|] eqn:E1; [|discriminate]. pose proof (H n s1 c1 h1 (Nat.lt_succ_diag_r n) E1) as ST. destruct (IH s1 c1 h1 eq_refl) as [S1 [T1 [G1 [B1 [L2 [L3 [MS1 [MD1 [_ PR]]]]]]]]]; [intros k s2 c2 h2 K; apply H; lia|].
    unfold iso_step in E. destruct (grown_factor dt S1 G1 (least_pos _ _ SP' L2) (least_pos _ _ SP' L3)) as [X [Y Z]]. destruct (integrate_boxy dt c1 S1 T1 G1 B1 X Y Z) as [c2 [EI B2]]. rewrite EI in E. destruct (iso_action cf (b n) (iter + Z.of_nat n) dt (m n) s1 c2) as [s3 c3 h3| | |] eqn:EA; try discriminate. injection E as <- <- <-.
    assert (DP3 : maxDispl s3 = d).
    { revert EA. unfold iso_action. destruct (Nat.leb_spec (length (stresses cf)) (state s1)); [lia|]. destruct (char_len _ _) as [cl| |]; try discriminate. cbv zeta. destruct (Rlt_dec (vmin _) _); [discriminate|]. destruct (updateInt cf =? 0)%Z; [discriminate|]. destruct (Rlt_dec (maxDispl s1) 0) as [N|_]; [exfalso; lra|]. destruct (keepProportions cf); [destruct (Rlt_dec _ (- (_ - _) / _)); [discriminate|]|]; intros Q; apply transition_done in Q; destruct Q as [_ [_ [_ [Q _]]]]; cbn [maxDispl] in Q; congruence. }
    destruct (iso_action_done cf (b n) _ dt (m n) s1 c2 s3 c3 h3 _ _ _ B2 DT ST EA ltac:(lra)) as [G' [B3 [K1 [K2 [K3 [K4 [K5 K6]]]]]]]. assert (MS3 : maxSpan s3 = span) by (rewrite K5 by lra; exact MS1). rewrite MS3, DP3 in *.
    exists (grown dt S1 G1), (grown dt T1 G1), G'. split; [exact B3|]. split; [exact K1|]. split; [exact K2|]. split; [reflexivity|]. split; [reflexivity|]. split; [intros _; exact K3|]. intros KP P0. destruct (PR KP P0) as [_ P1]. split; [exact P1|]. destruct (K4 KP) as [k KK], P1 as [q QQ]. exists (k * q). rewrite KK, QQ. destruct S0 as [a1 a2 a3]. unfold smul. cbn [vx vy vz]. f_equal; ring.
Qed.
(** ** after the last stress the cell goes on *)
Theorem iso_goes_on cf b iter dt m s c S0 T0 G0 : boxy c S0 T0 G0 -> (length (stresses cf) <= state s)%nat -> 0 < 1 + dt * vx G0 -> 0 < 1 + dt * vy G0 -> 0 < 1 + dt * vz G0 ->
  forall n, exists c' T1, iso_run cf n b iter dt m s c = IStep s c' false /\ boxy c' (V ((1 + dt * vx G0) ^ n * vx S0) ((1 + dt * vy G0) ^ n * vy S0) ((1 + dt * vz G0) ^ n * vz S0)) T1 G0.
Proof.
  intros B ST X Y Z. induction n as [|n IH].
  - exists c, T0. split; [reflexivity|]. cbn [pow]. rewrite !Rmult_1_l. destruct S0 as [a1 a2 a3]. exact B.
  - destruct IH as [c1 [T1 [E B1]]]. cbn [iso_run]. rewrite E. unfold iso_step. destruct (integrate_boxy dt c1 _ T1 G0 B1 X Y Z) as [c2 [EI B2]]. rewrite EI. unfold iso_action. destruct (Nat.leb_spec (length (stresses cf)) (state s)); [|lia]. exists c2, (grown dt T1 G0). split; [reflexivity|].
    match type of B2 with boxy _ ?a _ _ => match goal with |- boxy _ ?b _ _ => replace b with a; [exact B2|] end end. unfold grown. cbn [vx vy vz pow]. f_equal; ring.
Qed.
Theorem iso_vanishes cf b iter dt m s c S0 T0 G0 eps : boxy c S0 T0 G0 -> (length (stresses cf) <= state s)%nat -> 0 < 1 + dt * vx G0 -> 0 < 1 + dt * vy G0 -> 0 < 1 + dt * vz G0 -> dt * vx G0 < 0 -> 0 < eps ->
  exists n c', iso_run cf n b iter dt m s c = IStep s c' false /\ 0 < vx (Cell_Model.size c') < eps.
Proof.
  intros B ST X Y Z N E. pose proof B as [_ [_ [_ [_ [PX [PY PZ]]]]]]. destruct (pow_lt_1_zero (1 + dt * vx G0)) with (y := eps / vx S0) as [n H]; [rewrite Rabs_right; lra|unfold Rdiv; apply Rmult_lt_0_compat; [exact E|apply Rinv_0_lt_compat, PX]|].
  specialize (H n (le_n n)). destruct (iso_goes_on cf b iter dt m s c S0 T0 G0 B ST X Y Z n) as [c' [T1 [ER B1]]]. exists n, c'. split; [exact ER|]. destruct B1 as [_ [SZ [_ [_ [QX _]]]]]. rewrite SZ. cbn [vx] in *. split; [exact QX|]. rewrite Rabs_right in H by (apply Rle_ge, pow_le; lra). apply Rmult_lt_compat_r with (r := vx S0) in H; [|exact PX]. replace (eps / vx S0 * vx S0) with eps in H by (field; lra). exact H.
Qed.
(** ** transitions *)
Lemma off_close goal x : off goal x = false -> close goal x.
Proof.
  unfold off, close. intros H N. destruct (Req_EM_T goal 0) as [|_]; [contradiction|]. destruct (Rlt_dec (5/1000) (Rabs ((x - goal) / goal))) as [|L]; [discriminate|]. apply Rnot_lt_le in L. unfold Rdiv in L. rewrite Rabs_mult, Rabs_inv in L. assert (0 < Rabs goal) by (apply Rabs_pos_lt, N). apply Rmult_le_compat_r with (r := Rabs goal) in L; [|lra]. rewrite Rmult_assoc, Rinv_l, Rmult_1_r in L by lra. lra.
Qed.
Theorem iso_transition cf b iter dt m s c s' c' h : iso_action cf b iter dt m s c = IDone s' c' h -> (state s < length (stresses cf))%nat ->
  (state s' = state s /\ h = false) \/
  (state s' = S (state s) /\ unb s' < maxUnb cf /\ h = (state s' =? length (stresses cf))%nat /\ (Z.rem iter (updateInt cf) = 0%Z -> unb s' = unbalanced m) /\ (Z.rem iter (updateInt cf) <> 0%Z -> unb s' = unb s) /\
   let goal := nth (state s) (stresses cf) 0 in if keepProportions cf then close goal (vavg (sigma s')) else close goal (vx (sigma s')) /\ close goal (vy (sigma s')) /\ close goal (vz (sigma s'))).
Proof.
  intros E ST. unfold iso_action in E. destruct (Nat.leb_spec (length (stresses cf)) (state s)); [lia|]. destruct (char_len b (charLen s)) as [cl| |]; try discriminate. cbv zeta in E. destruct (Rlt_dec (vmin _) _); [discriminate|]. destruct (updateInt cf =? 0)%Z; [discriminate|].
  match type of E with context [if ?x then stiffness m else avgStiffness s] => remember x as measure end. remember (if measure then stiffness m else avgStiffness s) as K. destruct (keepProportions cf).
  - remember (avg_grow _ _ _ _ _ _) as g. destruct (Rlt_dec g _); [discriminate|]. apply transition_done in E. destruct E as [_ [_ [_ [_ [SG [_ [[C|[OK [ST' [U HH]]]] [U1 U2]]]]]]]]; [left; exact C|right]. cbn [state sigma] in *. rewrite ST'. split; [reflexivity|]. split; [exact U|]. split; [exact HH|]. split; [intros; apply U1; assumption|]. split; [intros; apply U2; right; assumption|].
    cbv zeta. apply off_close. apply negb_true_iff in OK. rewrite <- OK. f_equal. rewrite SG. unfold predicted. destruct (Rlt_dec 0 K); [|reflexivity]. unfold vavg, vadd, smul. cbn [vx vy vz]. field.
  - apply transition_done in E. destruct E as [_ [_ [_ [_ [SG [_ [[C|[OK [ST' [U HH]]]] [U1 U2]]]]]]]]; [left; exact C|right]. cbn [state sigma] in *. rewrite ST'. split; [reflexivity|]. split; [exact U|]. split; [exact HH|]. split; [intros; apply U1; assumption|]. split; [intros; apply U2; right; assumption|].
    cbv zeta. rewrite SG. apply andb_true_iff in OK. destruct OK as [OK O3]. apply andb_true_iff in OK. destruct OK as [O1 O2]. apply negb_true_iff in O1, O2, O3. split; [apply off_close, O1|split; [apply off_close, O2|apply off_close, O3]].
Qed.
(** the unbalanced force is not looked at between updates *)
Theorem iso_unmeasured cf b iter dt f K u u' s c : Z.rem iter (updateInt cf) <> 0%Z -> iso_action cf b iter dt (mkM f K u) s c = iso_action cf b iter dt (mkM f K u') s c.
Proof.
  intros N. apply Z.eqb_neq in N. unfold iso_action. cbn [sumForces stiffness]. destruct (_ <=? _)%nat; [reflexivity|]. destruct (char_len _ _); try reflexivity. cbv zeta. unfold transition. rewrite N. reflexivity.
Qed.
Lemma iso_unstable : forall u, exists s' c', iso_action (isoc true) [] 1 1 (mkM (V 1 1 1) 0 u) iso0 (unit_box (V 1 1 1) vzero) = IDone s' c' true /\ state s' = 1%nat.
Proof.
  intros u. unfold iso_action, iso0, isoc, unit_box. cbn [stresses length state Nat.leb char_len charLen maxSpan maxDispl avgStiffness sigma updateInt keepProportions Cell_Model.size Z.rem Z.eqb]. unfold char_len. destruct (Rle_dec 1 0) as [X|_]; [exfalso; lra|]. cbv zeta. destruct (Rle_dec (1/4) 0) as [X|_]; [exfalso; lra|]. destruct (Rlt_dec (-1) 0) as [_|X]; [|exfalso; lra].
  assert (MN : vmin (V 1 1 1) = 1) by (unfold vmin; cbn [vx vy vz]; unfold Rmin; repeat (destruct (Rle_dec _ _)); lra). assert (MX : vmax (V 1 1 1) = 1) by (unfold vmax; cbn [vx vy vz]; unfold Rmax; repeat (destruct (Rle_dec _ _)); lra). assert (AV : vavg (V 1 1 1) = 1) by (unfold vavg; cbn [vx vy vz]; lra). rewrite MN, MX, AV. destruct (Rlt_dec 1 (21/10 * (1/4))) as [X|_]; [exfalso; lra|].
  replace (Z.rem 1 20 =? 0)%Z with false by reflexivity. cbn [orb Z.eqb Pos.eqb sumForces stiffness nth].
  assert (SG : vopp (vquot (V 1 1 1) (areas (V 1 1 1))) = V (-1) (-1) (-1)) by (unfold vopp, vquot, areas; cbn [vx vy vz]; f_equal; field). rewrite SG. assert (G : forall aa q d, avg_grow (-1) (vavg (V (-1) (-1) (-1))) aa q 0 d = if Rlt_dec d 0 then 0 else 0).
  { intros aa q d. unfold avg_grow, kdiv, vavg. cbn [vx vy vz]. destruct (Rlt_dec 0 0); [exfalso; lra|]. cbv zeta. replace (1 / 10000 * (-1 - (-1 + -1 + -1) / 3) * aa / 1) with 0 by field. rewrite Rmult_0_r, Rabs_R0. destruct (Rlt_dec d 0); [|reflexivity]. unfold sign. destruct (Rlt_dec 0 0); [exfalso; lra|]. unfold Rdiv. ring. }
  rewrite G. destruct (Rlt_dec (1/100 * 1) 0) as [X|_]; [exfalso; lra|]. destruct (Rlt_dec 0 (- (1 - 21 / 10 * (1 / 4)) / (1 / 1))) as [X|_]; [exfalso; lra|]. unfold transition. replace (off (-1) (predicted 0 0 (vavg (V (-1) (-1) (-1))))) with false.
  - cbn [negb updateInt maxUnb unb state]. replace (Z.rem 1 20 =? 0)%Z with false by reflexivity. destruct (Rlt_dec (-1) (1/10000)) as [_|X]; [|exfalso; lra]. do 2 eexists. split; reflexivity.
  - unfold off, predicted, vavg. cbn [vx vy vz]. destruct (Rlt_dec 0 0); [exfalso; lra|]. destruct (Req_EM_T (-1) 0); [exfalso; lra|]. replace (((-1 + -1 + -1) / 3 - -1) / -1) with 0 by field. rewrite Rabs_R0. destruct (Rlt_dec (5/1000) 0); [exfalso; lra|reflexivity].
Qed.
(** the stress that counts is a guess: with faces of 10000 it is the goal, whatever was measured *)
Theorem iso_guess K d span goal sig : 0 < K -> Rabs ((goal - sig) / K) <= d -> - (100 - 21/10 * span) <= (goal - sig) / K -> predicted K (axis_grow goal sig 10000 100 K d span) sig = goal.
Proof.
  intros P D S0. unfold axis_grow, kdiv, predicted. destruct (Rlt_dec 0 K) as [_|]; [|lra]. replace (1 / 10000 * (goal - sig) * 10000 / K) with ((goal - sig) / K) by (field; lra). rewrite clip_id by exact D. rewrite Rmax_left by exact S0. field. lra.
Qed.
Lemma iso_no_stress : exists s' c', iso_action (isoc false) [] 0 1 (mkM vzero 1000 0) iso100 (unit_box (V 100 100 100) vzero) = IDone s' c' true /\ state s' = 1%nat.
Proof.
  unfold iso_action, iso100, isoc, unit_box. cbn [stresses length state Nat.leb char_len charLen maxSpan maxDispl avgStiffness sigma updateInt keepProportions Cell_Model.size Z.rem Z.eqb]. unfold char_len. destruct (Rle_dec 1 0) as [X|_]; [exfalso; lra|]. cbv zeta. destruct (Rlt_dec 1 0) as [X|_]; [exfalso; lra|].
  assert (MN : vmin (V 100 100 100) = 100) by (unfold vmin; cbn [vx vy vz]; unfold Rmin; repeat (destruct (Rle_dec _ _)); lra). rewrite MN. destruct (Rlt_dec 100 (21/10 * 1)) as [X|_]; [exfalso; lra|]. replace (Z.rem 0 20 =? 0)%Z with true by reflexivity. cbn [orb Z.eqb sumForces stiffness nth].
  assert (SG : vopp (vquot vzero (areas (V 100 100 100))) = vzero) by (unfold vopp, vquot, areas, vzero; cbn [vx vy vz]; f_equal; field). rewrite SG. assert (AR : areas (V 100 100 100) = V 10000 10000 10000) by (unfold areas; cbn [vx vy vz]; f_equal; ring). rewrite AR. unfold tab. cbn [comp vx vy vz vzero].
  rewrite iso_guess; [|lra|rewrite Rabs_left; lra|lra]. unfold transition. replace (off (-1) (-1)) with false.
  - cbn [negb andb updateInt maxUnb unb state unbalanced]. replace (Z.rem 0 20 =? 0)%Z with true by reflexivity. destruct (Rlt_dec 0 (1/10000)) as [_|X]; [|exfalso; lra]. do 2 eexists. split; reflexivity.
  - unfold off. destruct (Req_EM_T (-1) 0); [exfalso; lra|]. replace ((-1 - -1) / -1) with 0 by field. rewrite Rabs_R0. destruct (Rlt_dec (5/1000) 0); [exfalso; lra|reflexivity].
Qed.
