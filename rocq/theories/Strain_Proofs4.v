From Coq Require Import Reals List ZArith NArith Bool Lra Lia.
From Verif Require Import Vec_Model Attr_Model Strain_Model Strain_Spec Strain_Proofs Strain_Proofs2 Strain_Proofs3.
Import ListNotations.
Local Open Scope R_scope.

(** ** the strain at which to stop *)
Lemma run_one c F others s sc w : run c 1 F others s sc w = step c (F O) (others O) s sc w.
Proof. reflexivity. Qed.
Lemma limited_pos c s L d stop d' reached : stopStrain c = Some stop -> 0 < stop -> 0 < originalLength s -> limited c s L d = (d', reached) ->
  (reached = true -> L + d' = originalLength s * (1 + stop)) /\ (reached = false -> d' = d /\ L + d' < originalLength s * (1 + stop)).
Proof.
  intros ST SP OP. unfold limited. rewrite ST. cbv zeta. remember ((L + d) / originalLength s - 1) as new. assert (EQ : L + d = originalLength s * (1 + new)) by (rewrite Heqnew; field; lra).
  destruct (Rlt_dec 0 (new * stop)) as [P|P].
  - assert (0 < new). { destruct (Rle_or_lt new 0) as [Q|Q]; [|exact Q]. exfalso. assert (new * stop <= 0 * stop) by (apply Rmult_le_compat_r; lra). lra. } rewrite Rabs_right by lra. destruct (Rle_dec stop new) as [Q|Q]; intros E; injection E as <- <-.
    + split; [intros _; ring|discriminate].
    + split; [discriminate|]. intros _. split; [reflexivity|]. rewrite EQ. apply Rmult_lt_compat_l; lra.
  - intros E. injection E as <- <-. split; [discriminate|]. intros _. split; [reflexivity|]. rewrite EQ. apply Rmult_lt_compat_l; [exact OP|]. destruct (Rle_or_lt new 0) as [Q|Q]; [lra|]. exfalso. apply P. apply Rmult_lt_0_compat; assumption.
Qed.
Theorem stop_positive c F others s sc w sp sn stop L : prepared c w -> shares (asymmetry c) = Some (sp, sn) -> dt sc <> 0 -> active s = true -> needsInit s = false -> stopStrain c = Some stop -> 0 < stop -> 0 < originalLength s ->
  length_is c w L -> L < originalLength s * (1 + stop) ->
  forall n s' sc' w', run c n F others s sc w = Done s' sc' w' -> (forall k s1 sc1 w1, (k < n)%nat -> run c k F others s sc w = Done s1 sc1 w1 -> active s1 = true) ->
    exists L', length_is c w' L' /\ iter sc' = (iter sc + Z.of_nat n)%Z /\
      if active s' then L' < originalLength s * (1 + stop) /\ stopAtIter sc' = stopAtIter sc
      else L' = originalLength s * (1 + stop) /\ stopAtIter sc' = (iter sc' + idleIterations c)%Z.
Proof.
  intros P SH D A NI ST SP OP HL LT.
  assert (G : forall n s' sc' w', run c n F others s sc w = Done s' sc' w' -> (forall k s1 sc1 w1, (k < n)%nat -> run c k F others s sc w = Done s1 sc1 w1 -> active s1 = true) ->
    prepared c w' /\ dt sc' = dt sc /\ needsInit s' = false /\ originalLength s' = originalLength s /\ exists L', length_is c w' L' /\ iter sc' = (iter sc + Z.of_nat n)%Z /\
      if active s' then L' < originalLength s * (1 + stop) /\ stopAtIter sc' = stopAtIter sc
      else L' = originalLength s * (1 + stop) /\ stopAtIter sc' = (iter sc' + idleIterations c)%Z).
  { induction n as [|n IH]; intros s' sc' w' E H.
    - cbn [run] in E. injection E as <- <- <-. repeat (split; [assumption || reflexivity|]). exists L. split; [exact HL|]. split; [cbn; lia|]. rewrite A. split; [exact LT|reflexivity].
    - cbn [run] in E. destruct (run c n F others s sc w) as [s1 sc1 w1| | |] eqn:E1; try discriminate. pose proof (H n s1 sc1 w1 (Nat.lt_succ_diag_r n) E1) as A1.
      destruct (IH s1 sc1 w1 eq_refl) as [P1 [D1 [NI1 [OL1 [L1 [HL1 [IT1 S1]]]]]]]; [intros k s2 sc2 w2 K; apply H; lia|]. rewrite A1 in S1. destruct S1 as [LT1 SA1].
      destruct (step_active c (F n) (others n) s1 sc1 w1 s' sc' w' sp sn P1 SH ltac:(rewrite D1; exact D) A1 NI1 E) as [r' [L' [d [reached Q]]]]. destruct Q as [R [HL' [LIM [HN [PN [_ [_ [_ [_ [AC [SA [IT [DT [_ [NI' [OL _]]]]]]]]]]]]]]]].
      destruct (limited_pos c s1 L' _ stop d reached ST SP ltac:(rewrite OL1; exact OP) LIM) as [Y N].
      split; [exact PN|]. split; [congruence|]. split; [exact NI'|]. split; [congruence|]. exists (L' + d). split; [exact HN|]. split; [rewrite IT, IT1; lia|]. rewrite AC. destruct reached; cbn [negb].
      + split; [rewrite Y, OL1 by reflexivity; reflexivity|]. rewrite SA, IT. reflexivity.
      + split; [rewrite OL1 in N; apply N; reflexivity|]. congruence. }
  intros n s' sc' w' E H. exact (proj2 (proj2 (proj2 (proj2 (G n s' sc' w' E H))))).
Qed.
(** in compression the first step imposes all of it *)
Theorem stop_negative c F others s sc w s' sc' w' sp sn stop r L : prepared c w -> shares (asymmetry c) = Some (sp, sn) -> 0 < dt sc -> active s = true -> needsInit s = false -> stopStrain c = Some stop -> stop < 0 -> 0 < originalLength s ->
  rate sc s = Some r -> r < 0 -> length_is c w L -> L <= originalLength s -> step c F others s sc w = Done s' sc' w' -> length_is c w' (originalLength s * (1 + stop)) /\ active s' = false.
Proof.
  intros P SH D A NI ST SP OP R RN HL LE E. destruct (step_active c F others s sc w s' sc' w' sp sn P SH ltac:(lra) A NI E) as [r' [L' [d [reached [R' [HL' [LIM [HN [_ [_ [_ [_ [_ [AC _]]]]]]]]]]]]]]. rewrite R in R'. injection R' as <-. rewrite (length_fun _ _ _ _ HL' HL) in *.
  unfold limited in LIM. rewrite ST in LIM. cbv zeta in LIM. remember (originalLength s) as L0. assert (NEW : (L + r * L0 * dt sc) / L0 - 1 < 0).
  { apply Rmult_lt_reg_r with L0; [exact OP|]. replace (((L + r * L0 * dt sc) / L0 - 1) * L0) with (L - L0 + r * dt sc * L0) by (field; lra). assert (0 < - r * dt sc * L0) by (apply Rmult_lt_0_compat; [apply Rmult_lt_0_compat; lra|exact OP]). lra. }
  remember ((L + r * L0 * dt sc) / L0 - 1) as new. assert (0 < (- new) * (- stop)) by (apply Rmult_lt_0_compat; lra). destruct (Rlt_dec 0 (new * stop)) as [_|X]; [|exfalso; apply X; lra]. destruct (Rle_dec stop (Rabs new)) as [_|X]; [|exfalso; apply X; pose proof (Rabs_pos new); lra].
  injection LIM as <- <-. split; [|exact AC]. replace (L0 * (1 + stop)) with (L + (L0 * (stop + 1) - L)) by ring. exact HN.
Qed.
(** what is moving goes on after the end *)
Lemma run_idle c F others : forall n s sc w s' sc' w' p q v u L, prepared c w -> active s = false -> hd_error (posIds c) = Some p -> hd_error (negIds c) = Some q -> moves c w p v -> moves c w q u -> length_is c w L -> run c n F others s sc w = Done s' sc' w' ->
  active s' = false /\ prepared c w' /\ moves c w' p v /\ moves c w' q u /\ dt sc' = dt sc /\ length_is c w' (L + INR n * (dt sc * (v - u))).
Proof.
  induction n as [|n IH]; intros s sc w s' sc' w' p q v u L P A HP HQ MP MQ HL E; cbn [run] in E.
  - injection E as <- <- <-. cbn [INR]. replace (L + 0 * (dt sc * (v - u))) with L by ring. tauto.
  - destruct (run c n F others s sc w) as [s1 sc1 w1| | |] eqn:E1; try discriminate. destruct (IH s sc w s1 sc1 w1 p q v u L P A HP HQ MP MQ HL E1) as [A1 [P1 [MP1 [MQ1 [D1 HL1]]]]].
    destruct (step_idle c (F n) (others n) s1 sc1 w1 P1 A1) as [w2 [E2 [P2 M2]]]. rewrite E2 in E. injection E as <- <- <-. assert (IP : In p (posIds c)) by (destruct (posIds c); [discriminate|injection HP as ->; left; reflexivity]). assert (IQ : In q (negIds c)) by (destruct (negIds c); [discriminate|injection HQ as ->; left; reflexivity]).
    destruct HL1 as [p' [q' [x [y [H1 [H2 [H3 [H4 HX]]]]]]]]. rewrite HP in H1. injection H1 as <-. rewrite HQ in H2. injection H2 as <-. destruct (M2 p x v (or_introl IP) H3 MP1) as [X1 X2]. destruct (M2 q y u (or_intror IQ) H4 MQ1) as [Y1 Y2].
    split; [exact A1|]. split; [exact P2|]. split; [exact X2|]. split; [exact Y2|]. cbn [dt]. split; [exact D1|]. exists p, q, (x + dt sc1 * v), (y + dt sc1 * u). repeat (split; [assumption|]). rewrite S_INR. rewrite D1 in *. replace (L + (INR n + 1) * (dt sc * (v - u))) with (L + INR n * (dt sc * (v - u)) + dt sc * (v - u)) by ring. rewrite HX. ring.
Qed.
Theorem stop_goes_on c F others F' others' s sc w s1 sc1 w1 sp sn stop L : prepared c w -> shares (asymmetry c) = Some (sp, sn) -> dt sc <> 0 -> active s = true -> needsInit s = false -> stopStrain c = Some stop -> 0 < stop -> 0 < originalLength s -> length_is c w L ->
  step c F others s sc w = Done s1 sc1 w1 -> active s1 = false ->
  forall n s2 sc2 w2, run c n F' others' s1 sc1 w1 = Done s2 sc2 w2 -> length_is c w2 (originalLength s * (1 + stop) + INR n * (originalLength s * (1 + stop) - L)).
Proof.
  intros P SH D A NI ST SP OP HL E A1 n s2 sc2 w2 ER. destruct (step_active c F others s sc w s1 sc1 w1 sp sn P SH D A NI E) as [r [L' [d [reached Q]]]]. destruct Q as [R [HL' [LIM [HN [PN [_ [_ [MP [MN [AC [_ [_ [DT _]]]]]]]]]]]]]. rewrite (length_fun _ _ _ _ HL' HL) in *.
  destruct (limited_pos c s L _ stop d reached ST SP OP LIM) as [Y _]. rewrite A1 in AC. destruct reached; [|discriminate]. specialize (Y eq_refl).
  destruct (prepared_heads c w1 PN) as [p [q [x [y [HP [HQ [IP [IQ _]]]]]]]]. destruct (run_idle c F' others' n s1 sc1 w1 s2 sc2 w2 p q _ _ (L + d) PN A1 HP HQ (MP p IP) (MN q IQ) HN ER) as [_ [_ [_ [_ [_ G]]]]].
  rewrite <- Y. replace (L + d - L) with d by ring. replace d with (dt sc1 * (sp * (d / dt sc) - - (sn * (d / dt sc)))) at 2; [exact G|]. rewrite DT. pose proof (shares_sum _ _ _ SH). replace (dt sc * (sp * (d / dt sc) - - (sn * (d / dt sc)))) with ((sp + sn) * d) by (field; exact D). rewrite H. ring.
Qed.
(** ** reversing *)
Theorem turning c sc F s w s' sc' w' r L : posIds c <> [] -> negIds c <> [] -> act c sc F s w = Done s' sc' w' -> rate sc s = Some r -> length_is c w L ->
  (notYetReversed s = true /\ over (limitStrain c) r (L / originalLength s - 1) -> currentStrainRate s' = Some (r * -1) /\ notYetReversed s' = false) /\
  (~ (notYetReversed s = true /\ over (limitStrain c) r (L / originalLength s - 1)) -> currentStrainRate s' = Some r /\ notYetReversed s' = notYetReversed s).
Proof.
  intros NP NN E R HL. destruct HL as [p [q [x [y [H1 [H2 [H3 [H4 ->]]]]]]]]. pose proof (axisCoord_at _ _ _ _ _ H1 H3) as X. pose proof (axisCoord_at _ _ _ _ _ H2 H4) as Y. unfold act in E. destruct (posIds c) as [|i0 P] eqn:EP; [contradiction|]. destruct (negIds c) as [|j0 N] eqn:EN; [contradiction|]. rewrite <- EP, <- EN in *. rewrite R, X, Y in E. destruct (limited _ _ _ _) as [d reached]. cbv zeta in E.
  match type of E with match ?X with _ => _ end = _ => destruct X; [|discriminate] end. match type of E with match ?X with _ => _ end = _ => destruct X; [|discriminate] end. destruct (_ =? 0)%Z; [discriminate|]. match type of E with match ?X with _ => _ end = _ => destruct X; [|discriminate] end. injection E as <- <- <-. cbn [currentStrainRate notYetReversed].
  unfold over. destruct (notYetReversed s); cbn [andb negb]; [|split; [intros [Z _]; discriminate|intros _; split; reflexivity]].
  destruct (Req_EM_T (limitStrain c) 0) as [Z|Z]; cbn [andb negb]; [split; [intros [_ [Z' _]]; contradiction|intros _; split; reflexivity]|].
  destruct (Rlt_dec 0 r) as [A|A], (Rlt_dec (limitStrain c) ((x - y) / originalLength s - 1)) as [B|B], (Rlt_dec r 0) as [C|C], (Rlt_dec ((x - y) / originalLength s - 1) (limitStrain c)) as [D|D]; cbn [andb orb negb]; (split; [intros K; first [split; reflexivity|exfalso; tauto]|intros K; first [split; reflexivity|exfalso; tauto]]).
Qed.
Theorem turns_once c F others s sc w n s' sc' w' : posIds c <> [] -> negIds c <> [] -> needsInit s = false -> notYetReversed s = false -> run c n F others s sc w = Done s' sc' w' -> notYetReversed s' = false /\ needsInit s' = false.
Proof.
  intros NP NN NI NR. revert s' sc' w'. induction n as [|n IH]; intros s' sc' w' E; cbn [run] in E; [injection E as <- <- <-; tauto|]. destruct (run c n F others s sc w) as [s1 sc1 w1| | |]; try discriminate. destruct (IH s1 sc1 w1 eq_refl) as [N1 I1]. unfold step in E. destruct (active s1); [|injection E as <- <- <-; tauto]. unfold action in E. rewrite I1 in E. destruct (act c sc1 (F n) s1 w1) as [s2 sc2 w2| | |] eqn:EA; try discriminate. injection E as <- <- <-.
  destruct (act_done _ _ _ _ _ _ _ _ EA NP NN) as [r [p0 [p1 [d [reached H]]]]]. do 10 (destruct H as [_ H]). destruct H as [NI2 [_ [_ [[t [_ T]] _]]]]. rewrite T, N1. split; [reflexivity|congruence].
Qed.
(** ** the stress *)
Lemma axialForces_total a F ids : axialForces a F ids = total a F ids.
Proof.
  unfold axialForces. assert (G : forall x, fold_left (fun y i => y + coord (F i) a) ids x = x + total a F ids). { induction ids as [|i ids IH]; intros x; cbn [fold_left total fold_right]; [ring|]. rewrite IH. unfold total. cbn [fold_right]. ring. } rewrite G. ring.
Qed.
Theorem stress c sc F s w s' sc' w' : posIds c <> [] -> negIds c <> [] -> act c sc F s w = Done s' sc' w' -> stressUpdateInterval c <> 0%Z /\
  if (Z.rem (iter sc) (stressUpdateInterval c) =? 0)%Z then exists A, crossSectionArea c = Some A /\ avgStress s' = (total (axis c) F (negIds c) - total (axis c) F (posIds c)) / (2 * A) else avgStress s' = avgStress s.
Proof.
  intros NP NN E. unfold act in E. destruct (posIds c) as [|i0 P] eqn:EP; [contradiction|]. destruct (negIds c) as [|j0 N] eqn:EN; [contradiction|]. rewrite <- EP, <- EN in *. destruct (rate sc s); [|discriminate]. destruct (axisCoord c w (posIds c)); [|discriminate]. destruct (axisCoord c w (negIds c)); [|discriminate]. destruct (limited _ _ _ _) as [d reached]. cbv zeta in E.
  match type of E with match ?X with _ => _ end = _ => destruct X; [|discriminate] end. match type of E with match ?X with _ => _ end = _ => destruct X; [|discriminate] end. destruct (Z.eqb_spec (stressUpdateInterval c) 0) as [|NZ]; [discriminate|]. split; [exact NZ|].
  destruct (Z.rem (iter sc) (stressUpdateInterval c) =? 0)%Z; [|injection E as <- <- <-; reflexivity]. destruct (crossSectionArea c) as [A|]; [|discriminate]. injection E as <- <- <-. exists A. split; [reflexivity|]. cbn [avgStress]. rewrite !axialForces_total. unfold Rdiv. ring.
Qed.
Theorem tension c sc F s w s' sc' w' A T : posIds c <> [] -> negIds c <> [] -> act c sc F s w = Done s' sc' w' -> Z.rem (iter sc) (stressUpdateInterval c) = 0%Z -> crossSectionArea c = Some A -> A <> 0 -> total (axis c) F (negIds c) = T -> total (axis c) F (posIds c) = - T -> avgStress s' = T / A.
Proof. intros NP NN E Z CA AN TN TP. destruct (stress c sc F s w s' sc' w' NP NN E) as [_ H]. rewrite Z in H. cbn [Z.eqb] in H. destruct H as [A' [CA' H]]. rewrite CA in CA'. injection CA' as <-. rewrite H, TN, TP. field. exact AN. Qed.
Theorem interval_zero c sc F s w : stressUpdateInterval c = 0%Z -> prepared c w -> strainRate s <> None -> act c sc F s w = UB.
Proof.
  intros Z [_ [NP [NN [_ [EX _]]]]] SR. unfold act. destruct (posIds c) as [|i0 P] eqn:EP; [contradiction|]. destruct (negIds c) as [|j0 N] eqn:EN; [contradiction|].
  assert (R : exists r, rate sc s = Some r). { unfold rate. destruct (strainRate s) as [r|]; [|contradiction]. destruct (currentStrainRate s); [|eexists; reflexivity]. destruct (Rlt_dec _ _); [destruct (Req_EM_T _ _)|]; eexists; reflexivity. } destruct R as [r R]. rewrite R.
  destruct (EX i0 (or_introl (or_introl eq_refl))) as [b [B _]], (EX j0 (or_intror (or_introl eq_refl))) as [b' [B' _]]. cbn [axisCoord]. rewrite B, B'. destruct (limited _ _ _ _) as [d reached]. cbv zeta. rewrite Z. cbn [Z.eqb].
  match goal with |- match ?X with _ => _ end = _ => destruct X; [|reflexivity] end. match goal with |- match ?X with _ => _ end = _ => destruct X; reflexivity end.
Qed.

(** ** nothing else can go wrong *)
Lemma act_ok c sc F s w : prepared c w -> strainRate s <> None -> stressUpdateInterval c <> 0%Z -> crossSectionArea c <> None -> exists s' sc' w', act c sc F s w = Done s' sc' w'.
Proof.
  intros [_ [NP [NN [_ [EX _]]]]] SR SI CA. unfold act. destruct (posIds c) as [|i0 P] eqn:EP; [contradiction|]. destruct (negIds c) as [|j0 N] eqn:EN; [contradiction|].
  assert (R : exists r, rate sc s = Some r). { unfold rate. destruct (strainRate s) as [r|]; [|contradiction]. destruct (currentStrainRate s); [|eexists; reflexivity]. destruct (Rlt_dec _ _); [destruct (Req_EM_T _ _)|]; eexists; reflexivity. } destruct R as [r R]. rewrite R.
  destruct (EX i0 (or_introl (or_introl eq_refl))) as [b [B _]], (EX j0 (or_intror (or_introl eq_refl))) as [b' [B' _]]. cbn [axisCoord]. rewrite B, B'. destruct (limited _ _ _ _) as [d reached]. cbv zeta. apply Z.eqb_neq in SI. rewrite SI.
  assert (EN' : forall i, In i (j0 :: N) -> w i <> None) by (intros i I; destruct (EX i (or_intror I)) as [bb [BB _]]; congruence). assert (EP' : forall i, In i (i0 :: P) -> w i <> None) by (intros i I; destruct (EX i (or_introl I)) as [bb [BB _]]; congruence).
  remember (if (asymmetry c =? 0)%Z then d * (1 / 2) else d) as h.
  assert (W1 : exists w1, (if (asymmetry c =? 1)%Z then Some w else drive (axis c) (- h / dt sc) (j0 :: N) w) = Some w1 /\ forall i, w i <> None -> w1 i <> None).
  { destruct (asymmetry c =? 1)%Z; [exists w; split; [reflexivity|tauto]|]. destruct (drive_some (axis c) (- h / dt sc) (j0 :: N) w EN') as [w1 E1]. exists w1. split; [exact E1|]. intros i I. apply drive_spec in E1. rewrite (proj2 E1 i). destruct (w i); [|contradiction]. destruct (in_dec _ _ _); discriminate. }
  destruct W1 as [w1 [-> K]]. assert (W2 : exists w2, (if (asymmetry c =? -1)%Z then Some w1 else drive (axis c) (h / dt sc) (i0 :: P) w1) = Some w2).
  { destruct (asymmetry c =? -1)%Z; [exists w1; reflexivity|]. apply drive_some. intros i I. apply K, EP', I. }
  destruct W2 as [w2 ->]. destruct (crossSectionArea c) as [A|]; [|contradiction]. destruct (Z.rem (iter sc) (stressUpdateInterval c) =? 0)%Z; do 3 eexists; reflexivity.
Qed.
Theorem run_ok c F others s sc w sp sn : prepared c w -> shares (asymmetry c) = Some (sp, sn) -> dt sc <> 0 -> needsInit s = false -> strainRate s <> None -> stressUpdateInterval c <> 0%Z -> crossSectionArea c <> None ->
  forall n, exists s' sc' w', run c n F others s sc w = Done s' sc' w' /\ prepared c w' /\ needsInit s' = false /\ strainRate s' = strainRate s /\ dt sc' = dt sc.
Proof.
  intros P SH D NI SR SI CA. induction n as [|n IH]; [exists s, sc, w; cbn [run]; tauto|]. destruct IH as [s1 [sc1 [w1 [E [P1 [N1 [S1 D1]]]]]]]. cbn [run]. rewrite E.
  destruct (active s1) eqn:A1.
  - destruct (act_ok c sc1 (F n) s1 w1 P1 ltac:(congruence) SI CA) as [s2 [sc2 [w2 E2]]]. assert (E3 : step c (F n) (others n) s1 sc1 w1 = Done s2 (mkS (time sc2 + dt sc2) (dt sc2) (iter sc2 + 1) (stopAtIter sc2)) (newton c (dt sc2) (others n) w2)) by (unfold step, action; rewrite A1, N1, E2; reflexivity).
    destruct (step_active _ _ _ _ _ _ _ _ _ sp sn P1 SH ltac:(rewrite D1; exact D) A1 N1 E3) as [r [L [d [reached Q]]]]. destruct Q as [_ [_ [_ [_ [PN [_ [_ [_ [_ [_ [_ [_ [DT [_ [NI' [_ [SR' _]]]]]]]]]]]]]]]]]. do 3 eexists. split; [exact E3|]. split; [exact PN|]. split; [exact NI'|]. split; congruence.
  - destruct (step_idle c (F n) (others n) s1 sc1 w1 P1 A1) as [w2 [E2 [P2 _]]]. do 3 eexists. split; [exact E2|]. split; [exact P2|]. split; [exact N1|]. split; [exact S1|exact D1].
Qed.
Lemma two1_prepared c : axis c = O -> posIds c = [0%nat] -> negIds c = [1%nat] -> prepared c two1.
Proof.
  intros A P N. unfold prepared, moves. rewrite A, P, N. split; [lia|]. split; [discriminate|]. split; [discriminate|]. split; [intros i [<-|[]] [X|[]]; discriminate|]. split; [|split].
  - intros i [[<-|[]]|[<-|[]]]; eexists; (split; [reflexivity|discriminate]).
  - intros _ i [<-|[]]. eexists. split; reflexivity.
  - intros _ i [<-|[]]. eexists. split; reflexivity.
Qed.
Lemma two1_length c : axis c = O -> posIds c = [0%nat] -> negIds c = [1%nat] -> length_is c two1 1.
Proof. intros A P N. exists 0%nat, 1%nat, 2, 1. rewrite P, N. unfold at_. rewrite A. split; [reflexivity|]. split; [reflexivity|]. split; [|split; [|lra]]; eexists; (split; reflexivity). Qed.
Lemma two_init : exists s' sc' w', init conf0 scene0 us0 two = Done s' sc' w'.
Proof.
  unfold init, conf0, us0. cbn [posIds negIds block two put axisCoord]. cbv zeta. cbn [block put Nat.eqb bpos bvel coord vx axis dofs axisCoord two active strainRate absSpeed currentStrainRate initAccelTime_s originalLength notYetReversed strain avgStress setSpeeds crossSectionArea]. destruct (Rle_dec (2 - 1) 0) as [X|_]; [exfalso; lra|]. do 3 eexists. reflexivity.
Qed.
Lemma first_ok c F others s sc w s1 sc1 w1 : init c sc s w = Done s1 sc1 w1 -> prepared c w1 -> needsInit s = true -> active s = true -> stressUpdateInterval c <> 0%Z -> crossSectionArea c <> None -> exists s' sc' w', step c F others s sc w = Done s' sc' w'.
Proof.
  intros E P N A SI CA. pose proof E as E'. apply init_done in E. destruct E as [p0 [p1 [r [_ [_ [_ [_ [SR _]]]]]]]]. destruct (act_ok c sc1 F s1 w1 P ltac:(congruence) SI CA) as [s2 [sc2 [w2 E2]]]. unfold step, action. rewrite A, N, E', E2. do 3 eexists. reflexivity.
Qed.

(** ** what the functions used in the description of the initialization do *)
Theorem blocked_bits c k : (axis c < 3)%nat -> (k < 3)%nat ->
  N.testbit (blocked c) (N.of_nat k) = (k =? axis c)%nat || blockDisplacements c /\ N.testbit (blocked c) (N.of_nat k + 3) = blockRotations c.
Proof. intros A K. unfold blocked. destruct (axis c) as [|[|[|a]]]; [| | |lia]; (destruct k as [|[|[|k]]]; [| | |lia]); destruct (blockDisplacements c), (blockRotations c); split; reflexivity. Qed.
Theorem ends_shares a v : ends a v = match shares a with Some (sp, sn) => Some (- (sn * v), sp * v) | None => None end.
Proof.
  unfold ends, shares. destruct (Z.eqb_spec a (-1)) as [->|N1]; [cbn [Z.eqb]; do 2 f_equal; ring|]. destruct (a =? 0)%Z; [do 2 f_equal; unfold Rdiv; ring|]. destruct (a =? 1)%Z; [do 2 f_equal; ring|]. destruct (Z.eqb_spec a (-1)); [contradiction|reflexivity].
Qed.
Theorem accel_time c sc s w s' sc' w' : init c sc s w = Done s' sc' w' -> crossSectionArea c <> None /\ (setSpeeds c = true -> initAccelTime_s s' = 0) /\
  (setSpeeds c = false -> 0 <= initAccelTime c -> initAccelTime_s s' = initAccelTime c) /\ (setSpeeds c = false -> initAccelTime c < 0 -> initAccelTime_s s' = dt sc * - initAccelTime c).
Proof.
  unfold init. cbv zeta. destruct (block c (posIds c) w) as [wa|]; [|discriminate]. destruct (block c (negIds c) wa) as [wb|]; [|discriminate]. destruct (axisCoord c wb (posIds c)) as [p1|]; [|discriminate]. destruct (axisCoord c wb (negIds c)) as [p0|]; [|discriminate].
  destruct (Rle_dec (p1 - p0) 0); [discriminate|]. cbn [strainRate absSpeed]. destruct (match strainRate s with Some _ => _ | None => _ end) as [[r a]|]; [|discriminate]. destruct (setSpeeds c); [destruct (ends _ _) as [[v0 v1]|]; [|discriminate]|]; (destruct (crossSectionArea c); [|discriminate]); intros I; injection I as <- _ _; cbn [initAccelTime_s]; (split; [discriminate|]).
  - split; [reflexivity|]. split; discriminate.
  - split; [discriminate|]. destruct (Rle_dec 0 (initAccelTime c)); split; intros; lra.
Qed.
