From Coq Require Import Reals List ZArith NArith Bool Lra Lia.
From Verif Require Import Vec_Model Attr_Model Strain_Model Strain_Spec Strain_Proofs Strain_Proofs2.
Import ListNotations.
Local Open Scope R_scope.

Lemma length_fun c w x y : length_is c w x -> length_is c w y -> x = y.
Proof.
  intros [p [q [a [b [H1 [H2 [H3 [H4 ->]]]]]]]] [p' [q' [a' [b' [H1' [H2' [H3' [H4' ->]]]]]]]]. rewrite H1 in H1'. injection H1' as <-. rewrite H2 in H2'. injection H2' as <-. rewrite (at_fun _ _ _ _ _ H3 H3'), (at_fun _ _ _ _ _ H4 H4'). reflexivity.
Qed.
(** ** failures of the initialization *)
Lemma act_no_throw c sc F s w s' w' : act c sc F s w <> Throws s' w'.
Proof.
  unfold act. destruct (posIds c) as [|i P] eqn:EP; [discriminate|]. destruct (negIds c) as [|j N] eqn:EN; [discriminate|]. destruct (rate sc s); [|discriminate]. destruct (axisCoord c w (i :: P)); [|discriminate]. destruct (axisCoord c w (j :: N)); [|discriminate]. destruct (limited _ _ _ _) as [d reached]. cbv zeta.
  match goal with |- match ?X with _ => _ end <> _ => destruct X; [|discriminate] end. match goal with |- match ?X with _ => _ end <> _ => destruct X; [|discriminate] end. destruct (_ =? 0)%Z; [discriminate|]. match goal with |- match ?X with _ => _ end <> _ => destruct X; discriminate end.
Qed.
Theorem throws_once c sc F s w s1 w1 : action c sc F s w = Throws s1 w1 -> needsInit s1 = false /\ forall c' sc' F' w2 s3 w3, action c' sc' F' s1 w2 <> Throws s3 w3.
Proof.
  intros E. assert (N : needsInit s1 = false).
  { unfold action in E. destruct (needsInit s); [|destruct (act_no_throw _ _ _ _ _ _ _ E)]. destruct (init c sc s w) as [s0 sc0 w0|s0 w0| |] eqn:I; try discriminate; [destruct (act_no_throw _ _ _ _ _ _ _ E)|]. injection E as <- <-.
    revert I. unfold init. cbv zeta. destruct (block c (posIds c) w) as [wa|]; [|discriminate]. destruct (block c (negIds c) wa) as [wb|]; [|discriminate]. destruct (axisCoord c wb (posIds c)) as [p1|]; [|discriminate]. destruct (axisCoord c wb (negIds c)) as [p0|]; [|discriminate].
    destruct (Rle_dec (p1 - p0) 0); [intros I; injection I as <- _; reflexivity|]. cbn [strainRate absSpeed]. destruct (strainRate s) as [r|], (absSpeed s) as [a|]; try discriminate; (destruct (setSpeeds c); [destruct (ends _ _) as [[v0 v1]|]|]); (destruct (crossSectionArea c); intros I; try discriminate; injection I as <- _; reflexivity). }
  split; [exact N|]. intros c' sc' F' w2 s3 w3. unfold action. rewrite N. apply act_no_throw.
Qed.
Theorem empty_ub c sc F s w : needsInit s = true -> posIds c = [] \/ negIds c = [] -> action c sc F s w = UB.
Proof.
  intros N H. unfold action, init. rewrite N. cbv zeta. destruct (block c (posIds c) w) as [wa|]; [|reflexivity]. destruct (block c (negIds c) wa) as [wb|]; [|reflexivity]. destruct H as [-> | -> ]; cbn [axisCoord]; [reflexivity|]. destruct (axisCoord c wb (posIds c)); reflexivity.
Qed.
Lemma two_swapped : exists s1 w1 s2 sc2 w2, action swapped scene0 (fun _ => vzero) us0 two = Throws s1 w1 /\ originalLength s1 = -1 /\ action swapped scene0 (fun _ => vzero) s1 w1 = Done s2 sc2 w2 /\ moves swapped w2 1%nat (-1/2) /\ moves swapped w2 0%nat (1/2).
Proof.
  do 5 eexists. split.
  { unfold action, us0, init, swapped. cbn [needsInit posIds negIds block two put axisCoord]. cbv zeta. cbn [block put Nat.eqb bpos bvel coord vx axis dofs axisCoord two active strainRate absSpeed currentStrainRate initAccelTime_s originalLength notYetReversed strain avgStress]. destruct (Rle_dec (1 - 2) 0) as [_|X]; [reflexivity|exfalso; apply X; lra]. }
  split; [cbn [originalLength]; lra|]. split.
  { unfold action, act. cbn [needsInit posIds negIds]. unfold rate. cbn [currentStrainRate strainRate]. cbn [axisCoord put Nat.eqb two bpos coord vx axis]. unfold limited. cbn [stopStrain originalLength asymmetry Z.eqb drive put Nat.eqb two bpos bvel dofs axis stressUpdateInterval crossSectionArea iter scene0 dt]. cbv zeta. cbn [Z.rem Z.quotrem N.eqb Z.eqb]. reflexivity. }
  split; (eexists; split; [reflexivity|]); cbn [bvel set_coord coord vx axis swapped originalLength dt scene0 strainRate asymmetry Z.eqb]; lra.
Qed.

(** ** the rate *)
Lemma rate_none sc s r : strainRate s = Some r -> currentStrainRate s = None -> rate sc s = Some r.
Proof. intros S C. unfold rate. rewrite C, S. reflexivity. Qed.
(** the first step of all *)
Theorem first_step c F others s sc w s' sc' w' r L sp sn : (axis c < 3)%nat -> posIds c <> [] -> negIds c <> [] -> (forall i, In i (posIds c) -> ~ In i (negIds c)) ->
  (asymmetry c = 1%Z -> forall i, In i (negIds c) -> moves c w i 0) -> (asymmetry c = (-1)%Z -> forall i, In i (posIds c) -> moves c w i 0) -> shares (asymmetry c) = Some (sp, sn) ->
  dt sc <> 0 -> active s = true -> needsInit s = true -> stopStrain c = None -> strainRate s = Some r -> currentStrainRate s = None -> length_is c w L ->
  step c F others s sc w = Done s' sc' w' -> 0 < L /\ length_is c w' (L + r * L * dt sc).
Proof.
  intros A NP NN DJ Z1 Z2 SH D AC NI ST SR CR HL E. unfold step in E. rewrite AC in E. unfold action in E. rewrite NI in E. destruct (init c sc s w) as [s1 sc1 w1| | |] eqn:EI; try discriminate.
  pose proof (init_prepared c sc s w s1 sc1 w1 EI A NP NN DJ Z1 Z2) as P. pose proof EI as EI'. apply init_done in EI. destruct EI as [p0 [p1 [r' [P1 [P0 [OL [POS [SR1 [_ [RQ [_ [SC [NI1 [CR1 [AC1 [_ [K _]]]]]]]]]]]]]]]]]. subst sc1.
  assert (r' = r) by (apply RQ, SR). subst r'.
  assert (HL1 : length_is c w1 L).
  { destruct HL as [p [n [x [y [H1 [H2 [H3 [H4 ->]]]]]]]]. exists p, n, x, y. split; [exact H1|]. split; [exact H2|]. assert (IP : In p (posIds c)) by (destruct (posIds c); [discriminate|injection H1 as ->; left; reflexivity]). assert (IN : In n (negIds c)) by (destruct (negIds c); [discriminate|injection H2 as ->; left; reflexivity]).
    split; [|split; [|reflexivity]].
    - destruct (K p (or_introl IP)) as [b [B W]], H3 as [b' [B' X]]. rewrite B in B'. injection B' as <-. eexists. split; [exact W|exact X].
    - destruct (K n (or_intror IN)) as [b [B W]], H4 as [b' [B' X]]. rewrite B in B'. injection B' as <-. eexists. split; [exact W|exact X]. }
  assert (LL : L = p1 - p0).
  { destruct HL as [p [n [x [y [H1 [H2 [H3 [H4 ->]]]]]]]]. rewrite (axisCoord_at c w _ p x H1 H3) in P1. injection P1 as <-. rewrite (axisCoord_at c w _ n y H2 H4) in P0. injection P0 as <-. reflexivity. }
  assert (E1 : step c F others s1 sc w1 = Done s' sc' w') by (unfold step, action; rewrite AC1, AC, NI1; exact E).
  destruct (step_active c F others s1 sc w1 s' sc' w' sp sn P SH D ltac:(congruence) NI1 E1) as [r' [L' [d [reached [R [HL' [LIM [HN _]]]]]]]].
  rewrite (rate_none sc s1 r SR1 ltac:(congruence)) in R. injection R as <-. rewrite (length_fun _ _ _ _ HL' HL1) in *. unfold limited in LIM. rewrite ST in LIM. injection LIM as <- _. split; [lra|]. rewrite OL, <- LL in HN. exact HN.
Qed.
(** the rising of the rate, if the present rate is given *)
Theorem run_ramp c F others s sc w sp sn r T L : prepared c w -> shares (asymmetry c) = Some (sp, sn) -> 0 < dt sc -> time sc = 0 -> active s = true -> needsInit s = false -> stopStrain c = None ->
  strainRate s = Some r -> r <> 0 -> currentStrainRate s = Some 0 -> initAccelTime_s s = T -> 0 < T -> length_is c w L ->
  forall n s' sc' w', run c n F others s sc w = Done s' sc' w' -> INR n * dt sc < T + 2 * dt sc -> length_is c w' (L + INR n * (INR n - 1) / 2 * (dt sc / T * r * originalLength s * dt sc)).
Proof.
  intros P SH D0 T0 A NI ST SR RN CR IT TP HL.
  assert (G : forall n s' sc' w', run c n F others s sc w = Done s' sc' w' -> INR n * dt sc < T + 2 * dt sc ->
    length_is c w' (L + INR n * (INR n - 1) / 2 * (dt sc / T * r * originalLength s * dt sc)) /\ prepared c w' /\ dt sc' = dt sc /\ time sc' = INR n * dt sc /\ active s' = true /\ needsInit s' = false /\ strainRate s' = Some r /\ originalLength s' = originalLength s /\ initAccelTime_s s' = T /\
    exists q, currentStrainRate s' = Some q /\ Rabs q = (match n with O => 0 | S k => INR k * dt sc / T * Rabs r end)).
  { induction n as [|n IH]; intros s' sc' w' E LT.
    - cbn [run] in E. injection E as <- <- <-. split; [cbn [INR]; replace (L + 0 * (0 - 1) / 2 * (dt sc / T * r * originalLength s * dt sc)) with L by (field; lra); exact HL|]. split; [exact P|]. split; [reflexivity|]. split; [cbn [INR]; lra|]. repeat (split; [assumption || reflexivity|]). exists 0. split; [exact CR|apply Rabs_R0].
    - cbn [run] in E. destruct (run c n F others s sc w) as [s1 sc1 w1| | |] eqn:E1; try discriminate. rewrite S_INR in LT. destruct (IH s1 sc1 w1 eq_refl ltac:(lra)) as [HL1 [P1 [D1 [T1 [A1 [NI1 [SR1 [OL1 [IT1 [q [CR1 Q]]]]]]]]]]].
      destruct (step_active c (F n) (others n) s1 sc1 w1 s' sc' w' sp sn P1 SH ltac:(rewrite D1; lra) A1 NI1 E) as [r' [L' [d [reached H]]]]. destruct H as [R [HL' [LIM [HN [PN [_ [_ [_ [_ [AC [_ [_ [DT [TT [NI' [OL [SR' [CR' [IT' _]]]]]]]]]]]]]]]]]]].
      assert (RR : r' = INR n * dt sc / T * r).
      { unfold rate in R. rewrite CR1, SR1 in R. destruct (Rlt_dec (Rabs q) (Rabs r)) as [_|X].
        - destruct (Req_EM_T (initAccelTime_s s1) 0) as [Z|_]; [lra|]. injection R as <-. rewrite T1, IT1. reflexivity.
        - exfalso. apply X. rewrite Q. assert (0 < Rabs r) by (apply Rabs_pos_lt, RN). destruct n as [|k]; [lra|]. rewrite S_INR in LT. apply Rmult_lt_reg_r with (/ Rabs r); [apply Rinv_0_lt_compat; assumption|]. field_simplify; [|lra|lra]. apply Rmult_lt_reg_r with T; [exact TP|]. unfold Rdiv. rewrite Rmult_assoc, Rinv_l, Rmult_1_r by lra. lra. }
      unfold limited in LIM. rewrite ST in LIM. injection LIM as <- <-. rewrite (length_fun _ _ _ _ HL' HL1), RR, OL1, D1 in HN.
      split; [rewrite S_INR; match type of HN with length_is _ _ ?x => match goal with |- length_is _ _ ?y => replace y with x by (field; lra) end end; exact HN|].
      split; [exact PN|]. split; [congruence|]. split; [rewrite TT, T1, D1, S_INR; ring|]. split; [exact AC|]. split; [exact NI'|]. split; [congruence|]. split; [congruence|]. split; [congruence|].
      assert (PP : 0 <= INR n * dt sc / T) by (apply Rmult_le_pos; [apply Rmult_le_pos; [apply pos_INR|lra]|left; apply Rinv_0_lt_compat; exact TP]).
      destruct CR' as [CR' | CR']; (eexists; split; [exact CR'|]); rewrite RR, ?Rabs_mult; [rewrite (Rabs_right (INR n * dt sc / T)) by lra; reflexivity|]. replace (Rabs (-1)) with 1 by (rewrite Rabs_left; lra). rewrite (Rabs_right (INR n * dt sc / T)) by lra. ring. }
  intros n s' sc' w' E LT. exact (proj1 (G n s' sc' w' E LT)).
Qed.
(** other values of asymmetry *)
Theorem asymmetry_other c sc F s w s' sc' w' r p n v u : act c sc F s w = Done s' sc' w' -> posIds c <> [] -> negIds c <> [] -> (asymmetry c <> -1)%Z -> (asymmetry c <> 0)%Z -> (asymmetry c <> 1)%Z -> stopStrain c = None -> dt sc <> 0 ->
  rate sc s = Some r -> In p (posIds c) -> In n (negIds c) -> ~ In n (posIds c) -> moves c w' p v -> moves c w' n u -> dt sc * (v - u) = 2 * (r * originalLength s * dt sc).
Proof.
  intros E NP NN A1 A2 A3 ST D R IP IN NI [b [B V]] [b' [B' U]]. destruct (act_done c sc F s w s' sc' w' E NP NN) as [r' [p0 [p1 [d [reached H]]]]]. destruct H as [R' [_ [_ [LIM H]]]]. rewrite R in R'. injection R' as <-. unfold limited in LIM. rewrite ST in LIM. injection LIM as <- <-. do 8 (destruct H as [_ H]). destruct H as [W _].
  apply Z.eqb_neq in A1, A2, A3. pose proof (W p) as Wp. pose proof (W n) as Wn. rewrite A1 in *. rewrite A3 in *. rewrite B in Wp. rewrite B' in Wn. unfold half in Wp, Wn. rewrite A2 in Wp, Wn.
  destruct (w p) as [b0|]; [|discriminate]. destruct (in_dec Nat.eq_dec p (posIds c)); [|contradiction]. injection Wp as ->. destruct (w n) as [b1|]; [|discriminate]. destruct (in_dec Nat.eq_dec n (posIds c)); [contradiction|]. destruct (in_dec Nat.eq_dec n (negIds c)); [|contradiction]. injection Wn as ->.
  cbn [bvel] in V, U. rewrite coord_set in V, U. rewrite <- V, <- U. field. exact D.
Qed.
(** an end that should stay goes on with the velocity it has *)
Theorem stays c F others s sc w s' sc' w' n b : step c F others s sc w = Done s' sc' w' -> needsInit s = false -> asymmetry c = 1%Z -> posIds c <> [] -> In n (negIds c) -> ~ In n (posIds c) -> w n = Some b -> driven c b ->
  at_ c w' n (coord (bpos b) (axis c) + dt sc * coord (bvel b) (axis c)) /\ moves c w' n (coord (bvel b) (axis c)).
Proof.
  intros E NI A NP IN NN B D. assert (NE : negIds c <> []) by (destruct (negIds c); [destruct IN|discriminate]).
  assert (G : exists sc1 w1, w1 n = Some b /\ dt sc1 = dt sc /\ w' = newton c (dt sc1) others w1).
  { unfold step in E. destruct (active s); [|injection E as <- <- <-; exists sc, w; split; [exact B|split; reflexivity]]. unfold action in E. rewrite NI in E. destruct (act c sc F s w) as [s1 sc1 w1| | |] eqn:EA; try discriminate. injection E as <- <- <-. destruct (act_done c sc F s w s1 sc1 w1 EA NP NE) as [r [p0 [p1 [d [reached H]]]]]. do 4 (destruct H as [_ H]). destruct H as [SC H]. do 7 (destruct H as [_ H]). destruct H as [W _].
    exists sc1, w1. split; [|split; [rewrite SC; destruct reached; reflexivity|reflexivity]]. rewrite W, B. destruct (in_dec Nat.eq_dec n (posIds c)); [contradiction|]. rewrite A. cbn [Z.eqb Pos.eqb]. destruct (in_dec Nat.eq_dec n (negIds c)); reflexivity. }
  destruct G as [sc1 [w1 [B1 [DT ->]]]]. unfold at_, moves, newton. rewrite B1. unfold driven in D. destruct (N.eqb_spec (N.land (dofs b) (axisDOF (N.of_nat (axis c)) false)) 0) as [Z|_]; [contradiction|]. cbv zeta. split; eexists; (split; [reflexivity|]); cbn [bpos bvel]; rewrite coord_set; [rewrite DT; reflexivity|reflexivity].
Qed.
