From Coq Require Import Reals List ZArith NArith Bool Lra Lia.
From Verif Require Import Vec_Model Attr_Model Strain_Model Strain_Spec Strain_Proofs.
Import ListNotations.
Local Open Scope R_scope.

Lemma init_prepared c sc s w s' sc' w' : init c sc s w = Done s' sc' w' -> (axis c < 3)%nat -> posIds c <> [] -> negIds c <> [] -> (forall i, In i (posIds c) -> ~ In i (negIds c)) ->
  (asymmetry c = 1%Z -> forall i, In i (negIds c) -> moves c w i 0) -> (asymmetry c = (-1)%Z -> forall i, In i (posIds c) -> moves c w i 0) -> prepared c w'.
Proof.
  intros E A NP NN D H1 H2. apply init_done in E. destruct E as [p0 [p1 [r E]]]. do 13 (destruct E as [_ E]). destruct E as [K _].
  split; [exact A|]. split; [exact NP|]. split; [exact NN|]. split; [exact D|]. split; [|split].
  - intros i I. destruct (K i I) as [b [_ W]]. exists (mkB (bpos b) (bvel b) (blocked c)). split; [exact W|]. apply blocked_axis, A.
  - intros S i I. destruct (K i (or_intror I)) as [b [B W]]. destruct (H1 S i I) as [b' [B' V]]. rewrite B in B'. injection B' as <-. exists (mkB (bpos b) (bvel b) (blocked c)). split; [exact W|exact V].
  - intros S i I. destruct (K i (or_introl I)) as [b [B W]]. destruct (H2 S i I) as [b' [B' V]]. rewrite B in B'. injection B' as <-. exists (mkB (bpos b) (bvel b) (blocked c)). split; [exact W|exact V].
Qed.
(** velocities after one action *)
Lemma act_moves c sc F s w s' sc' w' d reached r p0 p1 sp sn : prepared c w -> shares (asymmetry c) = Some (sp, sn) -> act c sc F s w = Done s' sc' w' ->
  rate sc s = Some r -> axisCoord c w (posIds c) = Some p1 -> axisCoord c w (negIds c) = Some p0 -> limited c s (p1 - p0) (r * originalLength s * dt sc) = (d, reached) ->
  prepared c w' /\ (forall i, In i (posIds c) -> moves c w' i (sp * (d / dt sc))) /\ (forall i, In i (negIds c) -> moves c w' i (- (sn * (d / dt sc)))) /\
  (forall i, match w i, w' i with Some b, Some b' => bpos b' = bpos b /\ dofs b' = dofs b /\ other_coords (axis c) (bvel b') (bvel b) | None, None => True | _, _ => False end) /\
  (forall i, ~ In i (posIds c) -> ~ In i (negIds c) -> w' i = w i).
Proof.
  intros [A [NP [NN [DJ [EX [Z1 Z2]]]]]] SH E R P1 P0 LIM. destruct (act_done c sc F s w s' sc' w' E NP NN) as [r' [p0' [p1' [d' [reached' [R' [P1' [P0' [LIM' REST]]]]]]]]].
  rewrite R in R'. injection R' as <-. rewrite P1 in P1'. injection P1' as <-. rewrite P0 in P0'. injection P0' as <-. rewrite LIM in LIM'. injection LIM' as <- <-. do 8 (destruct REST as [_ REST]). destruct REST as [W _].
  assert (CASES : (asymmetry c = 0%Z /\ sp = 1/2 /\ sn = 1/2) \/ (asymmetry c = 1%Z /\ sp = 1 /\ sn = 0) \/ (asymmetry c = (-1)%Z /\ sp = 0 /\ sn = 1)).
  { unfold shares in SH. destruct (Z.eqb_spec (asymmetry c) 0); [injection SH as <- <-; tauto|]. destruct (Z.eqb_spec (asymmetry c) 1); [injection SH as <- <-; tauto|]. destruct (Z.eqb_spec (asymmetry c) (-1)); [injection SH as <- <-; tauto|discriminate]. }
  assert (MP : forall i, In i (posIds c) -> moves c w' i (sp * (d / dt sc))).
  { intros i I. destruct (EX i (or_introl I)) as [b [B _]]. specialize (W i). rewrite B in W. destruct (in_dec Nat.eq_dec i (posIds c)) as [_|X]; [|contradiction]. destruct CASES as [[C [-> ->]]|[[C [-> ->]]|[C [-> ->]]]]; unfold half in W; rewrite C in W; cbn [Z.eqb] in W.
    - eexists. split; [exact W|]. cbn [bvel]. rewrite coord_set. unfold Rdiv. ring.
    - eexists. split; [exact W|]. cbn [bvel]. rewrite coord_set. ring.
    - destruct (in_dec Nat.eq_dec i (negIds c)) as [X|_]; [destruct (DJ i I X)|]. destruct (Z2 C i I) as [b' [B' V]]. rewrite B in B'. injection B' as <-. exists b. split; [exact W|]. rewrite V. ring. }
  assert (MN : forall i, In i (negIds c) -> moves c w' i (- (sn * (d / dt sc)))).
  { intros i I. destruct (EX i (or_intror I)) as [b [B _]]. specialize (W i). rewrite B in W. destruct (in_dec Nat.eq_dec i (posIds c)) as [X|_]; [destruct (DJ i X I)|]. destruct (in_dec Nat.eq_dec i (negIds c)) as [_|X]; [|contradiction]. destruct CASES as [[C [-> ->]]|[[C [-> ->]]|[C [-> ->]]]]; unfold half in W; rewrite C in W; cbn [Z.eqb] in W.
    - eexists. split; [exact W|]. cbn [bvel]. rewrite coord_set. unfold Rdiv. ring.
    - destruct (Z1 C i I) as [b' [B' V]]. rewrite B in B'. injection B' as <-. exists b. split; [exact W|]. rewrite V. ring.
    - eexists. split; [exact W|]. cbn [bvel]. rewrite coord_set. unfold Rdiv. ring. }
  assert (KEEP : forall i, match w i, w' i with Some b, Some b' => bpos b' = bpos b /\ dofs b' = dofs b /\ other_coords (axis c) (bvel b') (bvel b) | None, None => True | _, _ => False end).
  { intros i. specialize (W i). destruct (w i) as [b|]; [|rewrite W; exact I]. rewrite W. assert (T : forall x, other_coords (axis c) (set_coord (bvel b) (axis c) x) (bvel b)) by (intros; apply coord_set_other, A). assert (T0 : other_coords (axis c) (bvel b) (bvel b)) by (intros k _ _; reflexivity).
    destruct (in_dec Nat.eq_dec i (posIds c)); [destruct (asymmetry c =? -1)%Z; [destruct (in_dec Nat.eq_dec i (negIds c))|]|destruct (in_dec Nat.eq_dec i (negIds c)); [destruct (asymmetry c =? 1)%Z|]]; cbn [bpos dofs bvel]; split; try reflexivity; split; try reflexivity; try apply T; exact T0. }
  split; [|split; [exact MP|split; [exact MN|split; [exact KEEP|]]]].
  - split; [exact A|]. split; [exact NP|]. split; [exact NN|]. split; [exact DJ|]. split; [|split].
    + intros i I. destruct (EX i I) as [b [B D]]. specialize (KEEP i). rewrite B in KEEP. destruct (w' i) as [b'|]; [|destruct KEEP]. exists b'. split; [reflexivity|]. destruct KEEP as [_ [-> _]]. exact D.
    + intros C i I. specialize (MN i I). destruct CASES as [[C' _]|[[C' [_ ->]]|[C' _]]]; try congruence. replace 0 with (- (0 * (d / dt sc))) by ring. exact MN.
    + intros C i I. specialize (MP i I). destruct CASES as [[C' _]|[[C' _]|[C' [-> _]]]]; try congruence. replace 0 with (0 * (d / dt sc)) by ring. exact MP.
  - intros i I J. specialize (W i). destruct (w i) as [b|]; [|exact W]. destruct (in_dec Nat.eq_dec i (posIds c)); [contradiction|]. destruct (in_dec Nat.eq_dec i (negIds c)); [contradiction|exact W].
Qed.
(** the integrator moves the ends by their velocities *)
Lemma newton_moves c dt others w i x v : prepared c w -> In i (posIds c) \/ In i (negIds c) -> at_ c w i x -> moves c w i v -> at_ c (newton c dt others w) i (x + dt * v) /\ moves c (newton c dt others w) i v.
Proof.
  intros [A [_ [_ [_ [EX _]]]]] I [b [B X]] [b' [B' V]]. rewrite B in B'. injection B' as <-. destruct (EX i I) as [b'' [B'' D]]. rewrite B in B''. injection B'' as <-. unfold at_, moves, newton. rewrite B. destruct (N.eqb_spec (N.land (dofs b) (axisDOF (N.of_nat (axis c)) false)) 0) as [Z|_]; [contradiction|]. cbv zeta.
  split; eexists; (split; [reflexivity|]); cbn [bpos bvel]; rewrite coord_set; [rewrite X, V; reflexivity|exact V].
Qed.
Lemma newton_prepared c dt others w : prepared c w -> prepared c (newton c dt others w).
Proof.
  intros P. pose proof P as [A [NP [NN [DJ [EX [Z1 Z2]]]]]]. split; [exact A|]. split; [exact NP|]. split; [exact NN|]. split; [exact DJ|].
  assert (G : forall i, In i (posIds c) \/ In i (negIds c) -> moves c w i 0 -> moves c (newton c dt others w) i 0).
  { intros i I M. destruct (EX i I) as [b [B D]]. destruct (newton_moves c dt others w i (coord (bpos b) (axis c)) 0 P I) as [_ M']; [exists b; split; [exact B|reflexivity]|exact M|exact M']. }
  split; [|split].
  - intros i I. destruct (EX i I) as [b [B D]]. unfold newton. rewrite B. destruct (N.eqb_spec (N.land (dofs b) (axisDOF (N.of_nat (axis c)) false)) 0) as [Z|_]; [contradiction|]. eexists. split; [reflexivity|]. exact D.
  - intros C i I. apply G; [right; exact I|apply Z1; assumption].
  - intros C i I. apply G; [left; exact I|apply Z2; assumption].
Qed.
Lemma axisCoord_at c w ids i x : hd_error ids = Some i -> at_ c w i x -> axisCoord c w ids = Some x.
Proof. destruct ids as [|k ids]; [discriminate|]. intros E [b [B X]]. injection E as ->. cbn [axisCoord]. rewrite B, X. reflexivity. Qed.
Lemma at_fun c w i x y : at_ c w i x -> at_ c w i y -> x = y.
Proof. intros [b [B X]] [b' [B' Y]]. rewrite B in B'. injection B' as <-. congruence. Qed.
Lemma prepared_heads c w : prepared c w -> exists p n x y, hd_error (posIds c) = Some p /\ hd_error (negIds c) = Some n /\ In p (posIds c) /\ In n (negIds c) /\ at_ c w p x /\ at_ c w n y.
Proof.
  intros [A [NP [NN [DJ [EX _]]]]]. destruct (posIds c) as [|p P]; [contradiction|]. destruct (negIds c) as [|n N]; [contradiction|]. destruct (EX p (or_introl (or_introl eq_refl))) as [b [B _]]. destruct (EX n (or_intror (or_introl eq_refl))) as [b' [B' _]].
  exists p, n, (coord (bpos b) (axis c)), (coord (bpos b') (axis c)). split; [reflexivity|]. split; [reflexivity|]. split; [left; reflexivity|]. split; [left; reflexivity|]. split; eexists; (split; [eassumption|reflexivity]).
Qed.
Lemma act_at c sc F s w s' sc' w' i x : prepared c w -> act c sc F s w = Done s' sc' w' -> at_ c w i x -> at_ c w' i x.
Proof.
  intros P E [b [B X]]. destruct P as [A [NP [NN _]]]. destruct (act_done c sc F s w s' sc' w' E NP NN) as [r [p0 [p1 [d [reached H]]]]]. do 12 (destruct H as [_ H]). destruct H as [W _]. specialize (W i). rewrite B in W.
  destruct (in_dec Nat.eq_dec i (posIds c)); [destruct (asymmetry c =? -1)%Z; [destruct (in_dec Nat.eq_dec i (negIds c))|]|destruct (in_dec Nat.eq_dec i (negIds c)); [destruct (asymmetry c =? 1)%Z|]]; (eexists; split; [exact W|exact X]).
Qed.
Lemma shares_sum a sp sn : shares a = Some (sp, sn) -> sp + sn = 1.
Proof. unfold shares. destruct (_ =? 0)%Z; [intros E; injection E as <- <-; lra|]. destruct (_ =? 1)%Z; [intros E; injection E as <- <-; lra|]. destruct (_ =? -1)%Z; [intros E; injection E as <- <-; lra|discriminate]. Qed.

(** ** a step with the engine active *)
Theorem step_active c F others s sc w s' sc' w' sp sn : prepared c w -> shares (asymmetry c) = Some (sp, sn) -> dt sc <> 0 -> active s = true -> needsInit s = false -> step c F others s sc w = Done s' sc' w' ->
  exists r L d reached, rate sc s = Some r /\ length_is c w L /\ limited c s L (r * originalLength s * dt sc) = (d, reached) /\ length_is c w' (L + d) /\ prepared c w' /\
    (forall i x, In i (posIds c) -> at_ c w i x -> at_ c w' i (x + sp * d)) /\ (forall i x, In i (negIds c) -> at_ c w i x -> at_ c w' i (x - sn * d)) /\
    (forall i, In i (posIds c) -> moves c w' i (sp * (d / dt sc))) /\ (forall i, In i (negIds c) -> moves c w' i (- (sn * (d / dt sc)))) /\
    active s' = negb reached /\ stopAtIter sc' = (if reached then iter sc + 1 + idleIterations c else stopAtIter sc)%Z /\ iter sc' = (iter sc + 1)%Z /\ dt sc' = dt sc /\ time sc' = time sc + dt sc /\
    needsInit s' = false /\ originalLength s' = originalLength s /\ strainRate s' = strainRate s /\ (currentStrainRate s' = Some r \/ currentStrainRate s' = Some (r * -1)) /\ initAccelTime_s s' = initAccelTime_s s /\ strain s' = L / originalLength s - 1.
Proof.
  intros P SH D ACT NI E. unfold step, action in E. rewrite ACT, NI in E. destruct (act c sc F s w) as [s1 sc1 w1| | |] eqn:EA; try discriminate. injection E as <- <- <-.
  pose proof P as [A [NP [NN _]]]. destruct (act_done c sc F s w s1 sc1 w1 EA NP NN) as [r [p0 [p1 [d [reached H]]]]]. destruct H as [R [P1 [P0 [LIM [SC [AC [SR [CR [OL [ST [NI' [IA [W _]]]]]]]]]]]]].
  destruct (act_moves c sc F s w s1 sc1 w1 d reached r p0 p1 sp sn P SH EA R P1 P0 LIM) as [P' [MP [MN _]]].
  destruct (prepared_heads c w P) as [p [n [x [y [HP [HN [IP [IN [XP XN]]]]]]]]]. rewrite (axisCoord_at c w _ p x HP XP) in P1. injection P1 as <-. rewrite (axisCoord_at c w _ n y HN XN) in P0. injection P0 as <-.
  exists r, (x - y), d, reached. split; [exact R|]. split; [exists p, n, x, y; tauto|]. split; [exact LIM|].
  assert (DT : dt sc1 = dt sc) by (rewrite SC; destruct reached; reflexivity).
  assert (GP : forall i z, In i (posIds c) -> at_ c w i z -> at_ c (newton c (dt sc1) others w1) i (z + sp * d)).
  { intros i z I Z. replace (z + sp * d) with (z + dt sc1 * (sp * (d / dt sc))) by (rewrite DT; field; exact D). apply newton_moves; [exact P'|left; exact I|exact (act_at c sc F s w s1 sc1 w1 i z P EA Z)|apply MP, I]. }
  assert (GN : forall i z, In i (negIds c) -> at_ c w i z -> at_ c (newton c (dt sc1) others w1) i (z - sn * d)).
  { intros i z I Z. replace (z - sn * d) with (z + dt sc1 * (- (sn * (d / dt sc)))) by (rewrite DT; field; exact D). apply newton_moves; [exact P'|right; exact I|exact (act_at c sc F s w s1 sc1 w1 i z P EA Z)|apply MN, I]. }
  assert (PN : prepared c (newton c (dt sc1) others w1)) by (apply newton_prepared, P').
  split; [exists p, n, (x + sp * d), (y - sn * d); pose proof (shares_sum _ _ _ SH) as SS; repeat (split; [first [assumption|apply GP; assumption|apply GN; assumption]|]); replace (x - y + d) with (x - y + (sp + sn) * d) by (rewrite SS; ring); ring|].
  split; [exact PN|]. split; [exact GP|]. split; [exact GN|].
  assert (AT : forall i, In i (posIds c) \/ In i (negIds c) -> exists z, at_ c w1 i z). { intros i I. destruct P' as [_ [_ [_ [_ [EX _]]]]]. destruct (EX i I) as [b [B _]]. eexists. exists b. split; [exact B|reflexivity]. }
  split; [intros i I; destruct (AT i (or_introl I)) as [z Z]; exact (proj2 (newton_moves c (dt sc1) others w1 i z _ P' (or_introl I) Z (MP i I)))|].
  split; [intros i I; destruct (AT i (or_intror I)) as [z Z]; exact (proj2 (newton_moves c (dt sc1) others w1 i z _ P' (or_intror I) Z (MN i I)))|].
  cbn [stopAtIter iter dt time]. split; [rewrite AC, ACT; reflexivity|]. split; [rewrite SC; destruct reached; reflexivity|]. split; [rewrite SC; destruct reached; reflexivity|]. split; [exact DT|]. split; [rewrite SC; destruct reached; reflexivity|]. split; [congruence|]. split; [exact OL|]. split; [exact SR|]. split; [exact CR|]. split; [exact IA|exact ST].
Qed.
(** a step with the engine inactive: the ends go on *)
Theorem step_idle c F others s sc w : prepared c w -> active s = false -> exists w', step c F others s sc w = Done s (mkS (time sc + dt sc) (dt sc) (iter sc + 1) (stopAtIter sc)) w' /\ prepared c w' /\
  forall i x v, In i (posIds c) \/ In i (negIds c) -> at_ c w i x -> moves c w i v -> at_ c w' i (x + dt sc * v) /\ moves c w' i v.
Proof.
  intros P A. unfold step. rewrite A. exists (newton c (dt sc) others w). split; [reflexivity|]. split; [apply newton_prepared, P|]. intros i x v I X M. apply newton_moves; assumption.
Qed.

(** ** the rate: from the first step on it is the rate given, and it is never turned *)
Lemma rate_fixed sc s r : strainRate s = Some r -> (currentStrainRate s = None \/ currentStrainRate s = Some r \/ currentStrainRate s = Some (r * -1)) -> rate sc s = Some r.
Proof.
  intros S H. unfold rate. rewrite S. destruct H as [->|[->| -> ]]; [reflexivity| |].
  - destruct (Rlt_dec (Rabs r) (Rabs r)) as [L|_]; [lra|reflexivity].
  - destruct (Rlt_dec (Rabs (r * -1)) (Rabs r)) as [L|_]; [|reflexivity]. exfalso. rewrite Rabs_mult in L. replace (Rabs (-1)) with 1 in L by (rewrite Rabs_left; lra). lra.
Qed.
Theorem run_length c F others s sc w sp sn r L : prepared c w -> shares (asymmetry c) = Some (sp, sn) -> dt sc <> 0 -> active s = true -> needsInit s = false -> stopStrain c = None ->
  strainRate s = Some r -> currentStrainRate s = None -> length_is c w L ->
  forall n s' sc' w', run c n F others s sc w = Done s' sc' w' -> length_is c w' (L + INR n * (r * originalLength s * dt sc)) /\
    (forall k s1 sc1 w1, (k < n)%nat -> run c k F others s sc w = Done s1 sc1 w1 -> rate sc1 s1 = Some r) /\
    prepared c w' /\ dt sc' = dt sc /\ active s' = true /\ needsInit s' = false /\ strainRate s' = Some r /\ originalLength s' = originalLength s /\
    (currentStrainRate s' = None \/ currentStrainRate s' = Some r \/ currentStrainRate s' = Some (r * -1)).
Proof.
  intros P SH D A NI ST SR CR HL. induction n as [|n IH]; intros s' sc' w' E.
  - cbn [run] in E. injection E as <- <- <-. split; [cbn [INR]; replace (L + 0 * (r * originalLength s * dt sc)) with L by ring; exact HL|]. split; [intros; lia|]. tauto.
  - cbn [run] in E. destruct (run c n F others s sc w) as [s1 sc1 w1| | |] eqn:E1; try discriminate. destruct (IH s1 sc1 w1 eq_refl) as [HL1 [RK [P1 [D1 [A1 [NI1 [SR1 [OL1 CR1]]]]]]]].
    destruct (step_active c (F n) (others n) s1 sc1 w1 s' sc' w' sp sn P1 SH ltac:(rewrite D1; exact D) A1 NI1 E) as [r' [L' [d [reached H]]]]. destruct H as [R [HL' [LIM [HN [PN [_ [_ [_ [_ [AC [_ [_ [DT [_ [NI' [OL [SR' [CR' _]]]]]]]]]]]]]]]]]].
    assert (RR : rate sc1 s1 = Some r) by (apply rate_fixed; assumption). rewrite R in RR. injection RR as ->.
    unfold limited in LIM. rewrite ST in LIM. injection LIM as <- <-.
    assert (EL : L' = L + INR n * (r * originalLength s * dt sc)).
    { destruct HL' as [p [q [x [y [H1 [H2 [H3 [H4 ->]]]]]]]], HL1 as [p' [q' [x' [y' [H1' [H2' [H3' [H4' ->]]]]]]]]. rewrite H1 in H1'. injection H1' as <-. rewrite H2 in H2'. injection H2' as <-. rewrite (at_fun _ _ _ _ _ H3 H3'), (at_fun _ _ _ _ _ H4 H4'). reflexivity. }
    split; [rewrite S_INR; rewrite EL, OL1, D1 in HN; replace (L + (INR n + 1) * (r * originalLength s * dt sc)) with (L + INR n * (r * originalLength s * dt sc) + r * originalLength s * dt sc) by ring; exact HN|].
    split. { intros k s2 sc2 w2 K E2. destruct (Nat.eq_dec k n) as [->|]; [rewrite E1 in E2; injection E2 as <- <- <-; exact R|apply (RK k s2 sc2 w2); [lia|exact E2]]. }
    split; [exact PN|]. split; [congruence|]. split; [exact AC|]. split; [exact NI'|]. split; [congruence|]. split; [congruence|]. right. exact CR'.
Qed.
