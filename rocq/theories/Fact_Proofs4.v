(** What the factory does not do. *)
From Coq Require Import Reals List ZArith Bool Arith Lra Lia.
From Verif Require Import Vec_Model Vec_Proofs Fact_Model Fact_Spec Fact_Proofs Fact_Proofs2 Fact_Proofs3.
Import ListNotations.
Local Open Scope R_scope.

(** spheres of mass 1 if their diameter is 1, in a row *)
Lemma no_rnd_ok : randoms no_rnd. Proof. intros n. unfold no_rnd. lra. Qed.
Lemma mass_one : sphereVolume (1 / 2) * (6 / PI) = 1.
Proof. unfold sphereVolume. pose proof PI_RGT_0. field. lra. Qed.
Lemma row_dist i j : (i < j)%nat -> 1 <= norm (vsub (V (INR i) 0 0) (V (INR j) 0 0)).
Proof.
  intros H. destruct (coordinate_norm (vsub (V (INR i) 0 0) (V (INR j) 0 0))) as (A & _). unfold vsub in A at 1. cbn [vx] in A.
  apply le_INR in H. rewrite S_INR in H. rewrite Rabs_left1 in A by lra. lra.
Qed.
Definition lined (new : list ball) (sd : nat) : Prop := forall b, In b new -> bradius b = 1 / 2 /\ exists j, (j < sd)%nat /\ bcenter b = V (INR j) 0 0.
Lemma lined_free new sd : lined new sd -> collides new (V (INR sd) 0 0) (1 / 2) = false.
Proof.
  intros H. unfold collides. induction new as [|b new IH]; [reflexivity|]. cbn [existsb]. rewrite IH by (intros b' I; apply H; right; exact I). rewrite orb_false_r.
  destruct (H b (or_introl eq_refl)) as (A & j & J & C). rewrite A, C. pose proof (row_dist j sd J). destruct (Rlt_dec _ _); [lra|reflexivity].
Qed.
Lemma row_place sizes maxp new sd : lined new sd -> place (rowconf sizes maxp) no_rnd nothing new (1 / 2) sd = (Some (V (INR sd) 0 0), S sd).
Proof.
  intros H. unfold place, rowconf. cbn [maxAttempt]. change (1 <? 0)%Z with false. change (Z.to_nat 1) with 1%nat. cbn [attempts pick row nothing negb andb]. rewrite (lined_free _ _ H). reflexivity.
Qed.
Lemma lined_snoc new sd v m : lined new sd -> lined (new ++ [mkBall (V (INR sd) 0 0) (1 / 2) v m]) (S sd).
Proof.
  intros H b [I|[<-|[]]]%in_app_or.
  - destruct (H b I) as (A & j & J & C). split; [exact A|]. exists j. split; [lia|exact C].
  - cbn [bradius bcenter]. split; [reflexivity|]. exists sd. split; [lia|reflexivity].
Qed.

(** the first bin is taken while it lacks most *)
Lemma best_keep rest (zs : list R) : forall k md id, (forall x, In x rest -> x <= md) -> (forall z, In z zs -> z = 0) -> best k (combine rest zs) md id = id.
Proof.
  revert zs. induction rest as [|x rest IH]; intros zs k md id H Z; [reflexivity|]. destruct zs as [|z zs]; [reflexivity|]. cbn [combine best].
  rewrite (Z z (or_introl eq_refl)). pose proof (H x (or_introl eq_refl)). destruct (Rlt_dec _ _); [lra|]. apply IH; intros; [apply H|apply Z]; right; assumption.
Qed.
Definition zeros (l : list R) : list R := map (fun _ => 0) l.
Lemma zeros_in l z : In z (zeros l) -> z = 0.
Proof. unfold zeros. rewrite in_map_iff. intros (x & <- & _). reflexivity. Qed.
Lemma best_first n0 p rest : 0 < n0 - p -> (forall x, In x rest -> x <= n0 - p) -> best 0 (combine (n0 :: rest) (p :: zeros rest)) 0 0 = 0%nat.
Proof. intros A B. cbn [combine best]. destruct (Rlt_dec _ _); [|lra]. apply best_keep; [exact B|apply zeros_in]. Qed.
Lemma zeros_div l q : map (fun m => m / q) (zeros l) = zeros l.
Proof. unfold zeros. rewrite map_map. apply map_ext. intros _. unfold Rdiv. ring. Qed.
Lemma zeros_length l : length (zeros l) = length l. Proof. apply map_length. Qed.

Lemma row_loop maxp sizes n0 rest vel : (maxp < 0)%Z -> forall fuel new s k,
  PSDuse s = true -> length (PSDcum s) = S (length rest) -> PSDNeedProc s = n0 :: rest -> PSDCurMean s = INR k :: zeros rest -> PSDCurProc s = INR k / IZR (numParticles s) :: zeros rest ->
  (forall j, (j < fuel)%nat -> 0 < n0 - INR (k + j) / IZR (numParticles s + Z.of_nat j) /\ (forall x, In x rest -> x <= n0 - INR (k + j) / IZR (numParticles s + Z.of_nat j))) ->
  totalMass s + INR fuel <= goalMass s -> maxMass s < 0 -> lined new (seed s) ->
  exists s' l, outcome (loop (rowconf (1 :: sizes) maxp) no_rnd nothing vel fuel new s) s' /\ made s' = made s ++ l /\ length l = fuel /\ (forall b, In b l -> bradius b = 1 / 2).
Proof.
  intros Mp. induction fuel as [|fuel IH]; intros new s k U Lc N M P H Gm Mm Ln.
  - exists s, []. rewrite app_nil_r. split; [|split; [reflexivity|split; [reflexivity|intros b []]]]. cbn [loop]. destruct (wants _ s); [right; right; left|left]; reflexivity.
  - rewrite S_INR in Gm. pose proof (pos_INR fuel) as Fp. assert (W : wants (rowconf (1 :: sizes) maxp) s = true).
    { apply wants_spec. split; [lra|]. split; [left; exact Mp|left; exact Mm]. }
    cbn [loop]. rewrite W.
    assert (Er : radius (rowconf (1 :: sizes) maxp) no_rnd s = Some (1 / 2, 0%nat, seed s)).
    { unfold radius. rewrite U, Lc, N, P. cbn [length]. rewrite zeros_length, Nat.ltb_irrefl. cbn [orb].
      destruct (H 0%nat ltac:(lia)) as (H1 & H2). rewrite Nat.add_0_r in H1, H2. rewrite Z.add_0_r in H1, H2.
      rewrite firstn_all2 by (rewrite combine_length; cbn [length]; rewrite zeros_length; lia). rewrite (best_first _ _ _ H1 H2). cbv zeta.
      unfold rowconf. cbn [PSDsizes nth_error exactDiam]. reflexivity. }
    rewrite Er. rewrite (row_place _ _ _ _ Ln). change (density (rowconf (1 :: sizes) maxp)) with (Some (6 / PI)). cbv beta iota zeta. rewrite mass_one.
    remember (mkBall (V (INR (seed s)) 0 0) (1 / 2) vel 1) as b eqn:Eb. remember (add (rowconf (1 :: sizes) maxp) s 0 (S (seed s)) b) as s1 eqn:E1.
    assert (Num1 : numParticles s1 = (numParticles s + 1)%Z) by (rewrite E1; reflexivity).
    assert (Mean1 : PSDCurMean s1 = INR (S k) :: zeros rest).
    { rewrite E1. unfold add. cbn [PSDCurMean]. rewrite U, M. unfold rowconf. cbn [PSDcalculateMass addAt]. rewrite S_INR. reflexivity. }
    destruct (IH (new ++ [b]) s1 (S k)) as (s' & l & O & A & B & C).
    + rewrite E1. exact U.
    + rewrite E1. exact Lc.
    + rewrite E1. exact N.
    + exact Mean1.
    + assert (Z : PSDCurProc s1 = map (fun m => m / IZR (numParticles s + 1)) (firstn (S (length rest)) (PSDCurMean s1)) ++ skipn (S (length rest)) (PSDCurProc s)).
      { rewrite E1. unfold add. cbn [PSDCurProc PSDCurMean]. rewrite U, Lc. unfold rowconf. cbn [PSDcalculateMass]. reflexivity. }
      rewrite Z, Mean1, P, Num1. cbn [firstn skipn]. rewrite firstn_all2 by (rewrite zeros_length; lia). rewrite skipn_all2 by (rewrite zeros_length; lia). rewrite app_nil_r. cbn [map]. rewrite zeros_div. reflexivity.
    + intros j J. rewrite Num1. specialize (H (S j) ltac:(lia)). replace (S k + j)%nat with (k + S j)%nat by lia. replace (numParticles s + 1 + Z.of_nat j)%Z with (numParticles s + Z.of_nat (S j))%Z by lia. exact H.
    + rewrite E1, Eb. unfold add. cbn [totalMass goalMass bmass]. lra.
    + rewrite E1. exact Mm.
    + rewrite E1, Eb. unfold add. cbn [seed]. apply lined_snoc. exact Ln.
    + exists s', (b :: l). split; [exact O|]. split; [|split].
      * rewrite A, E1. unfold add. cbn [made]. rewrite <- app_assoc. reflexivity.
      * cbn [length]. rewrite B. reflexivity.
      * intros b' [<-|I]; [rewrite Eb; reflexivity|auto].
Qed.

(** a curve in percent: only the smallest are made *)
Lemma percent_smallest n : exists flow s, outcome (action (rowconf [1; 2; 3] (-1)) no_rnd nothing 0 1 n (fresh flow (-1) percent)) s
  /\ length (made s) = n /\ (forall b, In b (made s) -> bradius b = 1 / 2).
Proof.
  exists (INR n). destruct (action_loop (rowconf [1; 2; 3] (-1)) no_rnd nothing 0 1 n (fresh (INR n) (-1) percent)) as [(E & _)|(s0 & s1 & E & St & C1 & C2 & C3 & C4 & C5 & X)].
  - exfalso. revert E. unfold initPSD, throwing, fresh, percent, rowconf. cbn [PSDuse PSDcum length Nat.eqb orb exactDiam PSDsizes negb andb ascending].
    repeat (destruct (Rlt_dec _ _); [lra|]). repeat (destruct (Rle_dec _ _); [lra|]). cbn [andb negb]. discriminate.
  - assert (E' : s0 = mkS (0 + INR n * 1) 0 0 0 (INR n) (-1) (normalized 0 percent) true (differences 0 (normalized 0 percent)) [0; 0; 0] [0; 0; 0] 0 []).
    { revert E. unfold initPSD, throwing, fresh, percent, rowconf. cbn [PSDuse PSDcum length Nat.eqb orb exactDiam PSDsizes negb andb ascending].
      repeat (destruct (Rlt_dec _ _); [lra|]). repeat (destruct (Rle_dec _ _); [lra|]). cbn [andb negb]. intros E. injection E as <-.
      unfold normalized. destruct (Req_EM_T 0 1); [lra|]. reflexivity. }
    assert (Nm : normalized 0 percent = [10; 50 * (1 / 100); 100 * (1 / 100)]). { unfold normalized, percent. destruct (Req_EM_T 0 1); [lra|]. reflexivity. }
    rewrite Nm in E'. destruct St as (A & B & C & D & F & G' & HM). unfold fresh in A, B, C, D, F, G', HM. cbn [goalMass totalMass totalVolume numParticles massFlowRate made maxMass] in *.
    rewrite E' in C1, C2, C3, C4, C5. cbn [PSDcum PSDuse PSDNeedProc PSDCurMean PSDCurProc differences] in C1, C2, C3, C4, C5.
    rewrite X. destruct (row_loop (-1) [2; 3] (10 - 0) [50 * (1 / 100) - 10; 100 * (1 / 100) - 50 * (1 / 100)] (smul (speed (rowconf [1; 2; 3] (-1)) no_rnd (fresh (INR n) (-1) percent)) (direction (rowconf [1; 2; 3] (-1)))) ltac:(lia) n [] s1 0) as (s' & l & O & A1 & A2 & A3).
    + exact C2.
    + rewrite C1. reflexivity.
    + exact C3.
    + rewrite C4. reflexivity.
    + rewrite C5, D. unfold zeros. cbn [map]. f_equal. cbn [INR]. unfold Rdiv. ring.
    + intros j J. rewrite D, Z.add_0_l, Nat.add_0_l. assert (Q : INR j / IZR (Z.of_nat j) <= 1).
      { rewrite <- INR_IZR_INZ. destruct j as [|j]; [cbn [INR]; unfold Rdiv; rewrite Rmult_0_l; lra|]. pose proof (lt_0_INR (S j) ltac:(lia)). unfold Rdiv. rewrite Rinv_r; lra. }
      split; [lra|]. intros x [<-|[<-|[]]]; lra.
    + rewrite A, B. lra.
    + rewrite HM. destruct (Rlt_dec 0 (-1)); [lra|]. cbn [andb]. lra.
    + intros b [].
    + exists s'. split; [exact O|]. rewrite A1, G'. cbn [app]. auto.
Qed.

(** after loading, material made before is forgotten *)
Lemma reload_forgets N m : (2 * m <= N)%nat -> exists flow, forall mk_, 
  exists s', outcome (action (rowconf [1; 2] (-1)) no_rnd nothing 0 1 m (reload (used N flow mk_))) s' /\ exists l, made s' = mk_ ++ l /\ length l = m /\ (forall b, In b l -> bradius b = 1 / 2).
Proof.
  intros Le. exists (INR m). intros mk_. unfold reload, used. cbn [goalMass totalMass totalVolume numParticles massFlowRate maxMass PSDcum seed made].
  set (s := mkS 0 0 0 (Z.of_nat N) (INR m) (-1) [2 / 3; 1] false [] [] [] 0 mk_).
  destruct (action_loop (rowconf [1; 2] (-1)) no_rnd nothing 0 1 m s) as [(E & _)|(s0 & s1 & E & St & C1 & C2 & C3 & C4 & C5 & X)].
  - exfalso. revert E. unfold initPSD, throwing, s, rowconf. cbn [PSDuse PSDcum length Nat.eqb orb exactDiam PSDsizes negb andb ascending].
    repeat (destruct (Rlt_dec _ _); [lra|]). repeat (destruct (Rle_dec _ _); [lra|]). cbn [andb negb]. discriminate.
  - assert (Nm : normalized 0 [2 / 3; 1] = [2 / 3; 1]) by (apply normalized_id; reflexivity).
    assert (E' : s0 = mkS (0 + INR m * 1) 0 0 (Z.of_nat N) (INR m) (-1) [2 / 3; 1] true [2 / 3 - 0; 1 - 2 / 3] [0; 0] [0; 0] 0 mk_).
    { revert E. unfold initPSD, throwing, s, rowconf. cbn [PSDuse PSDcum length Nat.eqb orb exactDiam PSDsizes negb andb ascending].
      repeat (destruct (Rlt_dec _ _); [lra|]). repeat (destruct (Rle_dec _ _); [lra|]). cbn [andb negb]. intros E. injection E as <-.
      rewrite Nm. reflexivity. }
    destruct St as (A & B & C & D & F & G' & HM). unfold s in A, B, C, D, F, G', HM. cbn [goalMass totalMass totalVolume numParticles massFlowRate made maxMass] in *.
    rewrite E' in C1, C2, C3, C4, C5. cbn [PSDcum PSDuse PSDNeedProc PSDCurMean PSDCurProc] in C1, C2, C3, C4, C5.
    rewrite X. destruct (row_loop (-1) [2] (2 / 3 - 0) [1 - 2 / 3] (smul (speed (rowconf [1; 2] (-1)) no_rnd s) (direction (rowconf [1; 2] (-1)))) ltac:(lia) m [] s1 0) as (s' & l & O & A1 & A2 & A3).
    + exact C2.
    + rewrite C1. reflexivity.
    + exact C3.
    + rewrite C4. reflexivity.
    + rewrite C5, D. unfold zeros. cbn [map]. f_equal. cbn [INR]. unfold Rdiv. ring.
    + intros j J. rewrite D, Nat.add_0_l, <- Nat2Z.inj_add, <- INR_IZR_INZ, plus_INR. assert (Q : INR j / (INR N + INR j) <= 1 / 3).
      { pose proof (pos_INR j). assert (K : 2 * INR j + 2 <= INR N) by (pose proof (le_INR _ _ Le) as Z1; rewrite mult_INR in Z1; cbn [INR] in Z1; pose proof (le_INR (S j) m ltac:(lia)) as Z2; rewrite S_INR in Z2; lra).
        apply (Rmult_le_reg_r (INR N + INR j)); [lra|]. unfold Rdiv. rewrite Rmult_assoc, Rinv_l by lra. lra. }
      split; [lra|]. intros x [<-|[]]; lra.
    + rewrite A, B. lra.
    + rewrite HM. destruct (Rlt_dec 0 (-1)); [lra|]. cbn [andb]. lra.
    + intros b [].
    + exists s'. split; [exact O|]. exists l. rewrite A1, G'. auto.
Qed.

(** a factory that follows its curve can begin *)
Lemma graded_begins : 
  exists s', outcome (action (rowconf [1; 2] (-1)) no_rnd nothing 0 1 1 (fresh (INR 1) (-1) [2 / 3; 1])) s' /\ exists l, made s' = [] ++ l /\ length l = 1%nat /\ (forall b, In b l -> bradius b = 1 / 2).
Proof.
  set (s := fresh (INR 1) (-1) [2 / 3; 1]).
  destruct (action_loop (rowconf [1; 2] (-1)) no_rnd nothing 0 1 1 s) as [(E & _)|(s0 & s1 & E & St & C1 & C2 & C3 & C4 & C5 & X)].
  - exfalso. revert E. unfold initPSD, throwing, s, fresh, rowconf. cbn [PSDuse PSDcum length Nat.eqb orb exactDiam PSDsizes negb andb ascending].
    repeat (destruct (Rlt_dec _ _); [lra|]). repeat (destruct (Rle_dec _ _); [lra|]). cbn [andb negb]. discriminate.
  - assert (Nm : normalized 0 [2 / 3; 1] = [2 / 3; 1]) by (apply normalized_id; reflexivity).
    assert (E' : s0 = mkS (0 + INR 1 * 1) 0 0 0 (INR 1) (-1) [2 / 3; 1] true [2 / 3 - 0; 1 - 2 / 3] [0; 0] [0; 0] 0 []).
    { revert E. unfold initPSD, throwing, s, fresh, rowconf. cbn [PSDuse PSDcum length Nat.eqb orb exactDiam PSDsizes negb andb ascending].
      repeat (destruct (Rlt_dec _ _); [lra|]). repeat (destruct (Rle_dec _ _); [lra|]). cbn [andb negb]. intros E. injection E as <-.
      rewrite Nm. reflexivity. }
    destruct St as (A & B & C & D & F & G' & HM). unfold s, fresh in A, B, C, D, F, G', HM. cbn [goalMass totalMass totalVolume numParticles massFlowRate made maxMass] in *.
    rewrite E' in C1, C2, C3, C4, C5. cbn [PSDcum PSDuse PSDNeedProc PSDCurMean PSDCurProc] in C1, C2, C3, C4, C5.
    rewrite X. destruct (row_loop (-1) [2] (2 / 3 - 0) [1 - 2 / 3] (smul (speed (rowconf [1; 2] (-1)) no_rnd s) (direction (rowconf [1; 2] (-1)))) ltac:(lia) 1%nat [] s1 0) as (s' & l & O & A1 & A2 & A3).
    + exact C2.
    + rewrite C1. reflexivity.
    + exact C3.
    + rewrite C4. reflexivity.
    + rewrite C5, D. unfold zeros. cbn [map]. f_equal. cbn [INR]. unfold Rdiv. ring.
    + intros j J. rewrite D. replace j with 0%nat by lia. cbn [Nat.add INR Z.of_nat Z.add]. unfold Rdiv. rewrite Rmult_0_l. split; [lra|]. intros x [<-|[]]; lra.
    + rewrite A, B. lra.
    + rewrite HM. destruct (Rlt_dec 0 (-1)); [lra|]. cbn [andb]. lra.
    + intros b [].
    + exists s'. split; [exact O|]. exists l. rewrite A1, G'. auto.
Qed.

(** small runs *)
Ltac run := repeat (match goal with |- context [Rlt_dec ?a ?b] => destruct (Rlt_dec a b); try (exfalso; lra) | |- context [Rle_dec ?a ?b] => destruct (Rle_dec a b); try (exfalso; lra) | |- context [Req_EM_T ?a ?b] => destruct (Req_EM_T a b); try (exfalso; lra) end; cbn [andb orb negb]).
Ltac proj := cbn [goalMass totalMass totalVolume numParticles massFlowRate maxMass PSDcum PSDuse PSDNeedProc PSDCurMean PSDCurProc seed made rMin rMax vMin vMax vAngle normal normalVel densities materialId maxParticles maxAttempt silent stopIfFailed exactDiam PSDsizes PSDcalculateMass pick
  length Nat.eqb Nat.ltb Nat.leb orb andb negb app map combine firstn skipn best nth_error existsb bcenter bradius bmass bvel].

(** the result depends on what lies behind the array *)
Lemma junk_counts flow : 1 < flow -> exists s1 s2 b1 b2, outcome (action (rowconf [1; 2; 3] (-1)) no_rnd nothing 0 1 1 (fresh flow (-1) percent)) s1 /\ outcome (action (rowconf [1; 2; 3] (-1)) no_rnd nothing 1 1 1 (fresh flow (-1) percent)) s2
  /\ made s1 = [b1] /\ made s2 = [b2] /\ bradius b1 = 1 / 2 /\ bradius b2 = 3 / 2.
Proof.
  intros Fl. assert (One : forall junk k, (forall s, initPSD (rowconf [1; 2; 3] (-1)) junk s = initPSD (rowconf [1; 2; 3] (-1)) junk s) -> best 0 (combine (differences 0 (normalized junk percent)) [0; 0; 0]) 0 0 = k -> length (normalized junk percent) = 3%nat -> (k < 3)%nat ->
     exists s b, outcome (action (rowconf [1; 2; 3] (-1)) no_rnd nothing junk 1 1 (fresh flow (-1) percent)) s /\ made s = [b] /\ bradius b = item [1; 2; 3] k / 2).
  { intros junk k _ Hk Ln Kl.
    destruct (action_loop (rowconf [1; 2; 3] (-1)) no_rnd nothing junk 1 1 (fresh flow (-1) percent)) as [(E & _)|(s0 & s1 & E & St & C1 & C2 & C3 & C4 & C5 & X)].
    - exfalso. revert E. unfold initPSD, throwing, fresh. cbn [PSDuse PSDcum]. unfold percent, rowconf. cbn [length Nat.eqb orb exactDiam PSDsizes negb andb ascending]. run. discriminate.
    - assert (E' : PSDcum s0 = normalized junk percent /\ PSDuse s0 = true /\ PSDNeedProc s0 = differences 0 (normalized junk percent) /\ PSDCurMean s0 = map (fun _ => 0) (normalized junk percent) /\ PSDCurProc s0 = map (fun _ => 0) (normalized junk percent)).
      { revert E. unfold initPSD, throwing, fresh. cbn [PSDuse PSDcum]. unfold percent, rowconf. cbn [length Nat.eqb orb exactDiam PSDsizes negb andb ascending]. run. intros E. injection E as <-. cbn [PSDcum PSDuse PSDNeedProc PSDCurMean PSDCurProc app]. auto. }
      destruct E' as (F1 & F2 & F3 & F4 & F5). destruct St as (A & B & C & D & F & G' & HM). unfold fresh in A, B, C, D, F, G', HM. cbn [goalMass totalMass totalVolume numParticles massFlowRate made maxMass] in *.
      rewrite X. cbn [loop]. assert (W : wants (rowconf [1; 2; 3] (-1)) s1 = true).
      { apply wants_spec. rewrite A, B, HM. split; [lra|]. split; [left; cbn [rowconf maxParticles]; lia|]. run. left. lra. }
      rewrite W. assert (Er : radius (rowconf [1; 2; 3] (-1)) no_rnd s1 = Some (item [1; 2; 3] k / 2, k, seed s1)).
      { unfold radius. rewrite C1, C2, C3, C5, F1, F2, F3, F5, Ln, differences_length, Ln, map_length, Ln. cbn [Nat.ltb Nat.leb orb].
        rewrite firstn_all2 by (rewrite combine_length, differences_length, map_length, Ln; cbn; lia).
        replace (map (fun _ : R => 0) (normalized junk percent)) with [0; 0; 0] by (destruct (normalized junk percent) as [|a0 [|a1 [|a2 [|a3 l]]]]; try discriminate; reflexivity).
        rewrite Hk. cbv zeta. unfold rowconf. cbn [PSDsizes exactDiam]. destruct k as [|[|[|k]]]; [reflexivity|reflexivity|reflexivity|lia]. }
      rewrite Er. assert (Ep : forall r sd, place (rowconf [1; 2; 3] (-1)) no_rnd nothing [] r sd = (Some (V (INR sd) 0 0), S sd)) by reflexivity. rewrite Ep.
      change (density (rowconf [1; 2; 3] (-1))) with (Some (6 / PI)). cbv beta iota zeta.
      match goal with |- context [if wants ?c ?s then _ else _] => exists s end. eexists. split; [match goal with |- outcome (if wants ?c ?s then _ else _) _ => destruct (wants c s) end; [right; right; left|left]; reflexivity|]. unfold add. cbn [made]. rewrite G'. split; reflexivity. }
  destruct (One 0 0%nat) as (s1 & b1 & O1 & M1 & R1); [reflexivity| | |lia|].
  { unfold normalized, percent. destruct (Req_EM_T 0 1); [lra|]. cbn [map last differences combine best]. run. reflexivity. }
  { unfold normalized, percent. destruct (Req_EM_T 0 1); [lra|]. reflexivity. }
  destruct (One 1 2%nat) as (s2 & b2 & O2 & M2 & R2); [reflexivity| | |lia|].
  { unfold normalized, percent. destruct (Req_EM_T 1 1); [|lra]. cbn [differences combine best]. run. reflexivity. }
  { unfold normalized, percent. destruct (Req_EM_T 1 1); [|lra]. reflexivity. }
  exists s1, s2, b1, b2. split; [exact O1|]. split; [exact O2|]. split; [exact M1|]. split; [exact M2|]. rewrite R1, R2. cbn [item nth]. split; lra.
Qed.

(** a largest mass is forgotten when the largest number has its default, 100 *)
Lemma max_mass_ignored : exists s, action (rowconf [] 100) no_rnd nothing 0 1 2 (fresh 2 1 []) = Done s /\ length (made s) = 2%nat /\ totalMass s = 2 /\ totalMass (fresh 2 1 []) = 0.
Proof.
  destruct (action_loop (rowconf [] 100) no_rnd nothing 0 1 2 (fresh 2 1 [])) as [(E & _)|(s0 & s1 & E & St & C1 & C2 & C3 & C4 & C5 & X)]; [discriminate E|].
  injection E as E. rewrite <- E in C1, C2. unfold throwing, fresh in C1, C2. cbn [PSDcum PSDuse] in C1, C2.
  destruct St as (A & B & C & D & F & G' & HM). unfold fresh in A, B, C, D, F, G', HM. cbn [goalMass totalMass totalVolume numParticles massFlowRate made maxMass] in *.
  change (maxParticles (rowconf [] 100)) with 100%Z in HM. change (0 <? 100)%Z with true in HM. rewrite andb_true_r in HM.
  assert (HM' : maxMass s1 = -1) by (rewrite HM; destruct (Rlt_dec 0 1); [reflexivity|lra]).
  assert (Er : forall s, PSDuse s = false -> radius (rowconf [] 100) no_rnd s = Some (1 / 2, 0%nat, S (seed s))).
  { intros s U. unfold radius. rewrite U. unfold rowconf, no_rnd. cbn [rMin rMax]. f_equal. f_equal. f_equal. lra. }
  rewrite X. cbn [loop]. assert (W : wants (rowconf [] 100) s1 = true).
  { apply wants_spec. rewrite A, B, D, HM'. change (maxParticles (rowconf [] 100)) with 100%Z. split; [lra|]. split; [right; lia|left; lra]. }
  rewrite W, (Er s1 C2). assert (L0 : lined [] (S (seed s1))) by (intros b []). rewrite (row_place _ _ _ _ L0).
  change (density (rowconf [] 100)) with (Some (6 / PI)). cbv beta iota zeta. rewrite mass_one. clear W.
  remember (mkBall (V (INR (S (seed s1))) 0 0) (1 / 2) (smul (speed (rowconf [] 100) no_rnd (fresh 2 1 [])) (direction (rowconf [] 100))) 1) as b eqn:Eb. remember (add (rowconf [] 100) s1 0 (S (S (seed s1))) b) as s2 eqn:E2.
  assert (T2 : totalMass s2 = 1 /\ goalMass s2 = 2 /\ numParticles s2 = 1%Z /\ maxMass s2 = -1 /\ PSDuse s2 = false /\ made s2 = [b] /\ seed s2 = S (S (seed s1))).
  { rewrite E2. unfold add. cbn [totalMass goalMass numParticles maxMass PSDuse made seed]. rewrite A, B, D, HM', C2, G', Eb. cbn [bmass app]. repeat (split; [try lra; reflexivity|]). reflexivity. }
  destruct T2 as (T & Gg & N & Mm & U & Md & Sd). clear E2.
  assert (W : wants (rowconf [] 100) s2 = true).
  { apply wants_spec. rewrite T, Gg, N, Mm. change (maxParticles (rowconf [] 100)) with 100%Z. split; [lra|]. split; [right; lia|left; lra]. }
  rewrite W, (Er s2 U). assert (L1 : lined ([] ++ [b]) (S (seed s2))). { rewrite Eb, Sd. intros b' [<-|[]]. cbn [bradius bcenter]. split; [reflexivity|]. exists (S (seed s1)). split; [lia|reflexivity]. }
  rewrite (row_place _ _ _ _ L1). change (density (rowconf [] 100)) with (Some (6 / PI)). cbv beta iota zeta. rewrite mass_one. clear W.
  match goal with |- context [wants ?c ?s] => remember s as s3 eqn:E3 end.
  assert (W : wants (rowconf [] 100) s3 = false).
  { destruct (wants (rowconf [] 100) s3) eqn:W; [|reflexivity]. apply wants_spec in W. rewrite E3 in W. unfold add in W. cbn [totalMass goalMass bmass] in W. lra. }
  rewrite W. exists s3. split; [reflexivity|]. rewrite E3. unfold add. cbn [made totalMass bmass]. rewrite Md, T. split; [reflexivity|]. unfold fresh. cbn [totalMass]. split; lra.
Qed.

(** a negative number of attempts: spheres at the origin, on top of each other *)
Lemma negative_attempts probe : exists s b b', outcome (action anywhere no_rnd probe 0 1 2 (fresh 2 (-1) [])) s /\ made s = [b; b'] /\ bcenter b = vzero /\ bcenter b' = vzero /\ 0 < bradius b.
Proof.
  destruct (action_loop anywhere no_rnd probe 0 1 2 (fresh 2 (-1) [])) as [(E & _)|(s0 & s1 & E & St & C1 & C2 & C3 & C4 & C5 & X)]; [discriminate E|].
  injection E as E. rewrite <- E in C1, C2. unfold throwing, fresh in C1, C2. cbn [PSDcum PSDuse] in C1, C2.
  destruct St as (A & B & C & D & F & G' & HM). unfold fresh in A, B, C, D, F, G', HM. cbn [goalMass totalMass totalVolume numParticles massFlowRate made maxMass] in *.
  assert (HM' : maxMass s1 = -1) by (rewrite HM; destruct (Rlt_dec 0 (-1)); [lra|reflexivity]).
  assert (Er : forall s, PSDuse s = false -> radius anywhere no_rnd s = Some (1 / 2, 0%nat, S (seed s))).
  { intros s U. unfold radius. rewrite U. unfold anywhere, no_rnd. cbn [rMin rMax]. f_equal. f_equal. f_equal. lra. }
  assert (Ep : forall new r sd, place anywhere no_rnd probe new r sd = (Some vzero, sd)) by reflexivity.
  rewrite X. cbn [loop]. assert (W : wants anywhere s1 = true).
  { apply wants_spec. rewrite A, B, D, HM'. change (maxParticles anywhere) with 2%Z. split; [lra|]. split; [right; lia|left; lra]. }
  rewrite W, (Er s1 C2), Ep. change (density anywhere) with (Some (6 / PI)). cbv beta iota zeta. rewrite mass_one. clear W.
  remember (mkBall vzero (1 / 2) (smul (speed anywhere no_rnd (fresh 2 (-1) [])) (direction anywhere)) 1) as b eqn:Eb. remember (add anywhere s1 0 (S (seed s1)) b) as s2 eqn:E2.
  assert (T2 : totalMass s2 = 1 /\ goalMass s2 = 2 /\ numParticles s2 = 1%Z /\ maxMass s2 = -1 /\ PSDuse s2 = false /\ made s2 = [b]).
  { rewrite E2. unfold add. cbn [totalMass goalMass numParticles maxMass PSDuse made seed]. rewrite A, B, D, HM', C2, G', Eb. cbn [bmass app]. repeat (split; [try lra; reflexivity|]). reflexivity. }
  destruct T2 as (T & Gg & N & Mm & U & Md). clear E2.
  assert (W : wants anywhere s2 = true).
  { apply wants_spec. rewrite T, Gg, N, Mm. change (maxParticles anywhere) with 2%Z. split; [lra|]. split; [right; lia|left; lra]. }
  rewrite W, (Er s2 U), Ep. change (density anywhere) with (Some (6 / PI)). cbv beta iota zeta. clear W.
  match goal with |- context [wants ?c ?s] => exists s, b; eexists; split; [destruct (wants c s); [right; right; left|left]; reflexivity|] end.
  unfold add. cbn [made]. rewrite Md. split; [reflexivity|]. rewrite Eb. cbn [bcenter bradius]. split; [reflexivity|]. split; [reflexivity|lra].
Qed.

(** [silent] does not disable the factory *)
Lemma silent_goes_on : exists s s', action quiet no_rnd (fun _ _ => true) 0 1 1 (fresh 1 (-1) []) = Failed s /\ silent quiet = true /\ massFlowRate s = 1 /\ outcome (action quiet no_rnd nothing 0 1 1 s) s' /\ length (made s') = 1%nat.
Proof.
  assert (Er : forall s, PSDuse s = false -> radius quiet no_rnd s = Some (1 / 2, 0%nat, S (seed s))).
  { intros s U. unfold radius. rewrite U. unfold quiet, no_rnd. cbn [rMin rMax]. f_equal. f_equal. f_equal. lra. }
  destruct (action_loop quiet no_rnd (fun _ _ => true) 0 1 1 (fresh 1 (-1) [])) as [(E & _)|(s0 & s1 & E & St & C1 & C2 & C3 & C4 & C5 & X)]; [discriminate E|].
  injection E as E. rewrite <- E in C1, C2. unfold throwing, fresh in C1, C2. cbn [PSDcum PSDuse] in C1, C2.
  destruct St as (A & B & C & D & F & G' & HM). unfold fresh in A, B, C, D, F, G', HM. cbn [goalMass totalMass totalVolume numParticles massFlowRate made maxMass] in *.
  assert (HM' : maxMass s1 = -1) by (rewrite HM; destruct (Rlt_dec 0 (-1)); [lra|reflexivity]).
  assert (W : wants quiet s1 = true).
  { apply wants_spec. rewrite A, B, D, HM'. change (maxParticles quiet) with (-1)%Z. split; [lra|]. split; [left; lia|left; lra]. }
  rewrite X. cbn [loop]. rewrite W, (Er s1 C2). assert (Ep : forall new r sd, place quiet no_rnd (fun _ _ => true) new r sd = (None, S sd)) by reflexivity. rewrite Ep.
  exists (fail quiet s1 (S (S (seed s1)))). remember (fail quiet s1 (S (S (seed s1)))) as s2 eqn:E2.
  assert (T2 : goalMass s2 = 1 /\ totalMass s2 = 0 /\ massFlowRate s2 = 1 /\ maxMass s2 = -1 /\ PSDuse s2 = false /\ PSDcum s2 = [] /\ made s2 = []).
  { rewrite E2. unfold fail, quiet. cbn [stopIfFailed goalMass totalMass massFlowRate maxMass PSDuse PSDcum made]. rewrite A, B, F, HM', C2, C1, G'. repeat (split; [try lra; reflexivity|]). reflexivity. }
  destruct T2 as (T1 & T2 & T3 & T4 & T5 & T6 & T7). clear E2 X W.
  destruct (action_loop quiet no_rnd nothing 0 1 1 s2) as [(E' & _)|(s3 & s4 & E' & St & D1 & D2 & D3 & D4 & D5 & X)].
  { unfold initPSD, throwing in E'. cbn [PSDuse PSDcum] in E'. rewrite T5, T6 in E'. discriminate. }
  unfold initPSD, throwing in E'. cbn [PSDuse PSDcum] in E'. rewrite T5, T6 in E'. cbn [length Nat.eqb orb] in E'. injection E' as E'. rewrite <- E' in D2. cbn [PSDuse] in D2.
  destruct St as (A' & B' & _ & D' & F' & G2 & HM2). rewrite T1, T3 in A'. rewrite T2 in B'. rewrite T7 in G2.
  assert (HM4 : maxMass s4 = -1) by (rewrite HM2, T4; destruct (Rlt_dec 0 (-1)); [lra|reflexivity]).
  assert (W : wants quiet s4 = true).
  { apply wants_spec. rewrite A', B', HM4. change (maxParticles quiet) with (-1)%Z. split; [lra|]. split; [left; lia|left; lra]. }
  rewrite X. cbn [loop]. rewrite W, (Er s4 D2). assert (Ep' : forall r sd, place quiet no_rnd nothing [] r sd = (Some (V (INR sd) 0 0), S sd)) by reflexivity. rewrite Ep'.
  change (density quiet) with (Some (6 / PI)). cbv beta iota zeta. clear W.
  match goal with |- context [wants ?c ?s] => exists s; split; [reflexivity|split; [reflexivity|split; [exact T3|split; [destruct (wants c s); [right; right; left|left]; reflexivity|]]]] end.
  unfold add. cbn [made]. rewrite G2. reflexivity.
Qed.

(** spheres of radius 0 and no limit on their number: the step does not end *)
Lemma endless fuel : exists s, action dust no_rnd nothing 0 1 fuel (fresh 1 (-1) []) = More s /\ length (made s) = fuel.
Proof.
  destruct (action_loop dust no_rnd nothing 0 1 fuel (fresh 1 (-1) [])) as [(E & _)|(s0 & s1 & E & St & C1 & C2 & C3 & C4 & C5 & X)]; [discriminate E|].
  injection E as E. rewrite <- E in C1, C2. unfold throwing, fresh in C1, C2. cbn [PSDcum PSDuse] in C1, C2.
  destruct St as (A & B & C & D & F & G' & HM). unfold fresh in A, B, C, D, F, G', HM. cbn [goalMass totalMass totalVolume numParticles massFlowRate made maxMass] in *.
  assert (HM' : maxMass s1 = -1) by (rewrite HM; destruct (Rlt_dec 0 (-1)); [lra|reflexivity]). rewrite X.
  remember (smul (speed dust no_rnd (fresh 1 (-1) [])) (direction dust)) as vel. clear Heqvel X.
  assert (Go : forall fuel new s, goalMass s = 1 -> totalMass s = 0 -> maxMass s = -1 -> PSDuse s = false -> (forall b, In b new -> bradius b = 0) ->
    exists s', loop dust no_rnd nothing vel fuel new s = More s' /\ length (made s') = (length (made s) + fuel)%nat).
  { clear. induction fuel as [|fuel IH]; intros new s H1 H2 H3 H4 H5; cbn [loop].
    - assert (W : wants dust s = true) by (apply wants_spec; rewrite H1, H2, H3; change (maxParticles dust) with (-1)%Z; split; [lra|split; [left; lia|left; lra]]).
      rewrite W. exists s. split; [reflexivity|lia].
    - assert (W : wants dust s = true) by (apply wants_spec; rewrite H1, H2, H3; change (maxParticles dust) with (-1)%Z; split; [lra|split; [left; lia|left; lra]]).
      rewrite W. assert (Er : radius dust no_rnd s = Some (0, 0%nat, S (seed s))).
      { unfold radius. rewrite H4. unfold dust, no_rnd. cbn [rMin rMax]. f_equal. f_equal. f_equal. lra. }
      rewrite Er. assert (Ep : forall sd, place dust no_rnd nothing new 0 sd = (Some (V (INR sd) 0 0), S sd)).
      { intros sd. unfold place, dust. cbn [maxAttempt]. change (1 <? 0)%Z with false. change (Z.to_nat 1) with 1%nat. cbn [attempts pick row nothing negb andb].
        replace (collides new (V (INR sd) 0 0) 0) with false; [reflexivity|]. symmetry. unfold collides. clear - H5. induction new as [|b new IH]; [reflexivity|]. cbn [existsb].
        rewrite (H5 b (or_introl eq_refl)), IH by (intros b' I; apply H5; right; exact I). pose proof (norm_pos (vsub (bcenter b) (V (INR sd) 0 0))). destruct (Rlt_dec _ _); [lra|reflexivity]. }
      rewrite Ep. change (density dust) with (Some 1). cbv beta iota zeta.
      destruct (IH (new ++ [mkBall (V (INR (S (seed s))) 0 0) 0 vel (sphereVolume 0 * 1)]) (add dust s 0 (S (S (seed s))) (mkBall (V (INR (S (seed s))) 0 0) 0 vel (sphereVolume 0 * 1)))) as (s' & E1 & E2).
      + exact H1.
      + unfold add. cbn [totalMass bmass]. rewrite H2. unfold sphereVolume. lra.
      + exact H3.
      + exact H4.
      + intros b [I|[<-|[]]]%in_app_or; [auto|reflexivity].
      + exists s'. split; [exact E1|]. rewrite E2. unfold add. cbn [made]. rewrite app_length. cbn [length]. lia. }
  destruct (Go fuel [] s1) as (s' & E1 & E2); [rewrite A; lra|exact B|exact HM'|exact C2|intros b []|]. exists s'. split; [exact E1|]. rewrite E2, G'. reflexivity.
Qed.

(** a sphere of BoxFactory reaches out of the box *)
Lemma boxed_sticks_out : let x := fst (boxed qid vzero (V 1 1 1) no_rnd 0 (1/2)) in vx x - 1/2 < - 1.
Proof. unfold boxed, no_rnd. cbn [fst]. cbv zeta. rewrite qrot_id. unfold vadd, vzero. cbn [vx vy vz]. lra. Qed.
(** a body that moved by more than the margin of its box may not be seen *)
Lemma mover_missed : stands_for mover vzero 1 /\ probeBB [mover] (fst (cube vzero 1)) (snd (cube vzero 1)) = [].
Proof.
  split.
  - unfold stands_for, mover. cbn [isMin hasBB exists_ coord bmin bmax disp sweep vx]. unfold vadd, vsub, vzero. cbn [vx vy vz]. repeat (split; [reflexivity|]). split; f_equal; lra.
  - cbn [probeBB]. unfold mover at 1, cube at 1. cbn [coord snd]. unfold vadd, vzero. cbn [vx]. destruct (Rlt_dec _ _); [reflexivity|lra].
Qed.
(** members of a clump stay as long as its center is inside *)
Lemma member_stays n B l B' l' i b j c : consistent n B -> limit n B l = (B', l') -> B i = Some b -> clumpOf b = Some j -> B j = Some c -> within l (bpos c) -> B' i = Some b.
Proof.
  intros Co E Hb Hc Hj W. destruct (limiter_exact _ _ _ _ _ Co E) as (o & _ & A & C & D & _).
  destruct (B' i) as [b'|] eqn:Eb; [rewrite <- Hb; symmetry; apply D; exact Eb|]. exfalso. apply C in Eb. destruct Eb as [X|[X|(b' & j' & X1 & X2 & X3)]]; [congruence| |].
  - apply A in X. destruct X as (b' & X1 & (_ & X2 & _) & _). congruence.
  - rewrite Hb in X1. injection X1 as <-. rewrite Hc in X2. injection X2 as <-. apply A in X3. destruct X3 as (c' & Y1 & _ & Y2). rewrite Hj in Y1. injection Y1 as <-.
    apply number_left in Y2; [contradiction|]. destruct W as ((x & X & _) & (y & Y & _) & (z & Z & _)). unfold number. rewrite X, Y, Z. split; [discriminate|split; discriminate].
Qed.
