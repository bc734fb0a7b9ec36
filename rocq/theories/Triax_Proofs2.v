(** sizes, strains, stresses; who is touched; work *)
From Coq Require Import Reals List ZArith Bool Arith Lra Lia.
From Verif Require Import Vec_Model Law_Model Triax_Model Triax_Spec Triax_Proofs.
Import ListNotations.
Local Open Scope R_scope.

(** what does not depend on the control of walls or growth *)
Definition same_measures (s s' : tstate) : Prop :=
  first s' = first s /\ wall_id s' = wall_id s /\ stiffness s' = stiffness s /\ strain s' = strain s /\ stress s' = stress s /\ porosity s' = porosity s /\ thickness s' = thickness s /\
  size s' = size s /\ size0 s' = size0 s /\ meanStress s' = meanStress s /\ volumetricStrain s' = volumetricStrain s /\ updatePorosity s' = updatePorosity s.
Lemma same_rest_measures s s' : same_rest s s' -> same_measures s s'.
Proof. intro E. rewrite E. unfold same_measures. repeat split. Qed.
Lemma action_measures c e s W : sane c e W -> exists s' W' g, action c e s W = Done s' W' g /\ same_measures (prepared c e s W) s'.
Proof.
  intro SA. destruct (internalCompaction c) eqn:IC.
  - destruct (action_internal c e s W SA IC) as [W' [_ [_ [_ E]]]]. rewrite E. destruct (_ =? 0)%Z.
    + cbv zeta. destruct (multiplier c _ _) as [mm k]. eexists _, _, _. split; [reflexivity|]. unfold same_measures, setGrowth. repeat split.
    + eexists _, _, _. split; [reflexivity|]. unfold same_measures. repeat split.
  - destruct (action_external c e s W SA IC) as [s' [W' [E [R _]]]]. exists s', W', None. split; [exact E|]. apply same_rest_measures, R.
Qed.
Lemma measures_bool c e : ((iter e mod computeStressStrainInterval c =? 0)%Z || (internalCompaction c && (iter e mod radiusControlInterval c =? 0)%Z)) = true <-> measures c e.
Proof. unfold measures. rewrite Bool.orb_true_iff, Bool.andb_true_iff, !Z.eqb_eq. reflexivity. Qed.
Lemma stiff_bool c e : ((iter e mod stiffnessUpdateInterval c =? 0)%Z || (iter e <? 100)%Z) = true <-> counts_stiffness c e.
Proof. unfold counts_stiffness. rewrite Bool.orb_true_iff, Z.eqb_eq, Z.ltb_lt. reflexivity. Qed.
Lemma prepared_measured c e s W : measures c e -> prepared c e s W = computeStressStrain e (prepared1 c e s W) (box_size c e s W).
Proof. intro M. apply measures_bool in M. unfold prepared. rewrite M. reflexivity. Qed.
Lemma prepared_not c e s W : ~ measures c e -> prepared c e s W = prepared1 c e s W.
Proof. intro M. unfold prepared. destruct (_ || _)%bool eqn:B; [|reflexivity]. apply measures_bool in B. contradiction. Qed.
Lemma prepared1_fields c e s W : let s1 := prepared1 c e s W in
  first s1 = false /\ wall_id s1 = (if first s then ids c else wall_id s) /\ previousTranslation s1 = previousTranslation s /\ strain s1 = strain s /\ stress s1 = stress s /\ particlesVolume s1 = solid_volume e s /\
  thickness s1 = used_thickness e s /\ size s1 = box_size c e s W /\ size0 s1 = size0 s /\ maxMultiplier s1 = maxMultiplier s /\ meanStress s1 = meanStress s /\ volumetricStrain s1 = volumetricStrain s /\ externalWork s1 = externalWork s /\
  updatePorosity s1 = false /\ porosity s1 = (let sz := box_size c e s W in (vx sz * vy sz * vz sz - solid_volume e s) / (vx sz * vy sz * vz sz)).
Proof. cbv zeta. unfold prepared1. destruct (_ || _)%bool; cbv zeta; repeat split. Qed.
Lemma prepared_fields c e s W : let s1 := prepared c e s W in
  first s1 = false /\ wall_id s1 = (if first s then ids c else wall_id s) /\ previousTranslation s1 = previousTranslation s /\ particlesVolume s1 = solid_volume e s /\
  thickness s1 = used_thickness e s /\ size s1 = box_size c e s W /\ maxMultiplier s1 = maxMultiplier s /\ externalWork s1 = externalWork s /\ stiffness s1 = stiffness (prepared1 c e s W) /\
  updatePorosity s1 = false /\ porosity s1 = (let sz := box_size c e s W in (vx sz * vy sz * vz sz - solid_volume e s) / (vx sz * vy sz * vz sz)).
Proof.
  cbv zeta. destruct (prepared1_fields c e s W) as [A1 [A2 [A3 [A4 [A5 [A6 [A7 [A8 [A9 [A10 [A11 [A12 [A13 [A14 A15]]]]]]]]]]]]]].
  unfold prepared. destruct (_ || _)%bool; cbv zeta.
  - unfold computeStressStrain. cbv zeta. cbn [first wall_id previousTranslation particlesVolume thickness size maxMultiplier externalWork stiffness updatePorosity porosity].
    rewrite A1, A2, A3, A6, A7, A10, A13, A14, A15. repeat split.
  - rewrite A1, A2, A3, A6, A7, A8, A10, A13, A14, A15. repeat split.
Qed.

(** C179 *)
Lemma coord_box c e s W a : (a < 3)%nat -> coord a (box_size c e s W) = inner c W (used_thickness e s) a.
Proof. intro H. assert (D : a = 0%nat \/ a = 1%nat \/ a = 2%nat) by lia. destruct D as [-> | [-> | -> ]]; reflexivity. Qed.
Lemma sizes_are_measured c e s W : sane c e W -> exists s' W' g, action c e s W = Done s' W' g /\
  thickness s' = used_thickness e s /\ (forall a, (a < 3)%nat -> coord a (size s') = inner c W (used_thickness e s) a).
Proof.
  intro SA. destruct (action_measures c e s W SA) as [s' [W' [g [E [_ [_ [_ [_ [_ [_ [T [Z _]]]]]]]]]]]]. exists s', W', g. split; [exact E|].
  destruct (prepared_fields c e s W) as [_ [_ [_ [_ [T1 [Z1 _]]]]]]. rewrite T, Z, T1, Z1. split; [reflexivity|]. apply coord_box.
Qed.
Lemma ln_div a b : 0 < a -> 0 < b -> ln (a / b) = ln a - ln b.
Proof. intros A B. unfold Rdiv. rewrite ln_mult; [|exact A|apply Rinv_0_lt_compat, B]. rewrite ln_Rinv by exact B. lra. Qed.
Lemma reference_pos x0 x : 0 <= x0 -> 0 < x -> 0 < reference x0 x.
Proof. intros A B. unfold reference. destruct (Req_EM_T x0 0); lra. Qed.
Lemma strains_are_logarithmic c e s W : sane c e W -> measures c e -> positive_box c e s W -> (forall a, (a < 3)%nat -> 0 <= coord a (size0 s)) ->
  exists s' W' g, action c e s W = Done s' W' g /\
  (forall a, (a < 3)%nat -> (coord a (size0 s) <> 0 -> coord a (size0 s') = coord a (size0 s)) /\ (coord a (size0 s) = 0 -> coord a (size0 s') = coord a (size s'))) /\
  (forall a, (a < 3)%nat -> coord a (size s') = coord a (size0 s') * exp (coord a (strain s'))) /\
  coord 0 (size s') * coord 1 (size s') * coord 2 (size s') = coord 0 (size0 s') * coord 1 (size0 s') * coord 2 (size0 s') * exp (volumetricStrain s').
Proof.
  intros SA M P Z0. destruct (action_measures c e s W SA) as [s' [W' [g [E [_ [_ [_ [ST [_ [_ [_ [SZ [S0 [_ [VS _]]]]]]]]]]]]]]]. exists s', W', g. split; [exact E|].
  rewrite (prepared_measured c e s W M) in *.
  destruct (prepared1_fields c e s W) as [_ [_ [_ [_ [_ [_ [_ [_ [Q0 _]]]]]]]]]. cbv zeta in Q0.
  unfold computeStressStrain in *. cbv zeta in *. cbn [strain size size0 volumetricStrain] in *. rewrite Q0 in *.
  pose proof (P 0%nat ltac:(lia)) as P0. pose proof (P 1%nat ltac:(lia)) as P1. pose proof (P 2%nat ltac:(lia)) as P2.
  rewrite <- (coord_box c e s W) in P0, P1, P2 by lia.
  pose proof (Z0 0%nat ltac:(lia)) as Y0. pose proof (Z0 1%nat ltac:(lia)) as Y1. pose proof (Z0 2%nat ltac:(lia)) as Y2.
  destruct (size0 s) as [y0 y1 y2]. destruct (box_size c e s W) as [x0 x1 x2]. cbn [coord nth vx vy vz] in *.
  pose proof (reference_pos y0 x0 Y0 P0) as R0. pose proof (reference_pos y1 x1 Y1 P1) as R1. pose proof (reference_pos y2 x2 Y2 P2) as R2.
  rewrite ST, SZ, S0, VS. cbn [coord nth vx vy vz].
  assert (EX : forall x y, 0 < x -> 0 < y -> x = y * exp (ln (x / y))).
  { intros x y X Y. rewrite exp_ln; [field; lra|]. apply Rdiv_lt_0_compat; assumption. }
  split; [|split].
  - intros a Ha. assert (D : a = 0%nat \/ a = 1%nat \/ a = 2%nat) by lia. unfold reference. destruct D as [-> | [-> | -> ]]; cbn [coord nth vx vy vz]; (split; intro H; destruct (Req_EM_T _ 0); [contradiction|reflexivity|reflexivity|contradiction]).
  - intros a Ha. assert (D : a = 0%nat \/ a = 1%nat \/ a = 2%nat) by lia. destruct D as [-> | [-> | -> ]]; cbn [coord nth vx vy vz]; apply EX; assumption.
  - rewrite !exp_plus. rewrite (EX x0 (reference y0 x0) P0 R0) at 1. rewrite (EX x1 (reference y1 x1) P1 R1) at 1. rewrite (EX x2 (reference y2 x2) P2 R2) at 1. ring.
Qed.
Lemma between_measures c e s W : sane c e W -> ~ measures c e -> exists s' W' g, action c e s W = Done s' W' g /\
  strain s' = strain s /\ size0 s' = size0 s /\ volumetricStrain s' = volumetricStrain s /\ stress s' = stress s /\ meanStress s' = meanStress s.
Proof.
  intros SA M. destruct (action_measures c e s W SA) as [s' [W' [g [E [_ [_ [_ [ST [SS [_ [_ [SZ [S0 [ME [VS _]]]]]]]]]]]]]]]. exists s', W', g. split; [exact E|].
  rewrite (prepared_not c e s W M) in *. destruct (prepared1_fields c e s W) as [_ [_ [_ [A [B [_ [_ [_ [C [_ [D [F _]]]]]]]]]]]]. cbv zeta in *.
  rewrite ST, S0, VS, SS, ME, A, B, C, D, F. repeat split.
Qed.
Lemma porosity_is c e s W : sane c e W -> positive_box c e s W -> (first s = true \/ updatePorosity s = true) -> exists s' W' g v, action c e s W = Done s' W' g /\ volumes (solids e) = Some v /\
  porosity s' = 1 - v / (inner c W (used_thickness e s) 0 * inner c W (used_thickness e s) 1 * inner c W (used_thickness e s) 2) /\ updatePorosity s' = false.
Proof.
  intros SA P U. destruct (action_measures c e s W SA) as [s' [W' [g [E [_ [_ [_ [_ [_ [PO [_ [_ [_ [_ [_ UP]]]]]]]]]]]]]]]. destruct SA as [_ [_ [v CV]]]. exists s', W', g, v. split; [exact E|]. split; [exact CV|].
  destruct (prepared_fields c e s W) as [_ [_ [_ [_ [_ [_ [_ [_ [_ [UQ PQ]]]]]]]]]]. cbv zeta in *. rewrite PO, UP, UQ, PQ. split; [|reflexivity].
  unfold solid_volume. rewrite CV. replace (first s || updatePorosity s)%bool with true by (destruct U as [-> | -> ]; [reflexivity|symmetry; apply Bool.orb_true_r]).
  unfold box_size. cbn [vx vy vz]. pose proof (P 0%nat ltac:(lia)). pose proof (P 1%nat ltac:(lia)). pose proof (P 2%nat ltac:(lia)). field. repeat split; lra.
Qed.
(** balls: the volume counted is not exactly 4/3 pi r^3, but within a relative error of 25 in 10^9 *)
Lemma ball_counted r v : 0 < r -> volume (Ball r true false) = Some v -> v < ball_volume r /\ ball_volume r - v <= 3 / 100000000 * ball_volume r.
Proof.
  intros P E. injection E as <-. unfold ball_volume.
  assert (Q : 0 < PI * (r * r * r)). { apply Rmult_lt_0_compat; [apply PI_RGT_0|]. repeat apply Rmult_lt_0_compat; exact P. }
  rewrite !Rmult_assoc. rewrite Rmult_assoc in Q. remember (PI * (r * (r * r))) as q. replace (PI * (r * (r * r))) with q in * by exact Heqq. rewrite <- ?Heqq. lra.
Qed.

(** C180 *)
Lemma area_box c e s W a : (a < 3)%nat -> area (box_size c e s W) a = cross c W (used_thickness e s) a.
Proof. intro H. assert (D : a = 0%nat \/ a = 1%nat \/ a = 2%nat) by lia. destruct D as [-> | [-> | -> ]]; reflexivity. Qed.
Lemma known_eq c s w : (if first s then ids c else wall_id s) w = known c s w.
Proof. unfold known. destruct (first s); reflexivity. Qed.
Lemma stresses_are_measured c e s W : sane c e W -> measures c e -> exists s' W' g, action c e s W = Done s' W' g /\
  (forall w, is_wall w -> coord (axis w) (stress s' w) = normal_stress (cross c W (used_thickness e s) (axis w)) w (force e (known c s w))) /\
  meanStress s' = total (map (fun w => normal_stress (cross c W (used_thickness e s) (axis w)) w (force e (known c s w))) (seq 0 6)) / 6.
Proof.
  intros SA M. destruct (action_measures c e s W SA) as [s' [W' [g [E [_ [_ [_ [_ [SS [_ [_ [_ [_ [ME _]]]]]]]]]]]]]]. exists s', W', g. split; [exact E|].
  rewrite (prepared_measured c e s W M) in *. destruct (prepared1_fields c e s W) as [_ [WI _]]. cbv zeta in WI.
  unfold computeStressStrain in *. cbv zeta in *. cbn [stress meanStress] in *. rewrite WI in *.
  split.
  - intros w H. rewrite SS. rewrite known_eq. rewrite (axis_eq w H), (area_box c e s W) by (walls H; cbn; lia). unfold normal_stress.
    walls H; destruct (force e _) as [f1 f2 f3]; unfold axis, dot, smul, inward; cbn [coord nth vx vy vz side Nat.div Nat.divmod fst]; unfold Rdiv; ring.
  - rewrite ME. cbn [fold_left seq map total]. rewrite !known_eq. rewrite !(axis_eq _) by (unfold is_wall; lia). rewrite !(area_box c e s W) by (cbn; lia). unfold normal_stress.
    f_equal. cbn [Nat.even]. rewrite !inward_normal by (unfold is_wall; lia).
    generalize (force e (known c s 0)) (force e (known c s 1)) (force e (known c s 2)) (force e (known c s 3)) (force e (known c s 4)) (force e (known c s 5)).
    intros [a1 a2 a3] [b1 b2 b3] [c1 c2 c3] [d1 d2 d3] [g1 g2 g3] [h1 h2 h3]. unfold dot, smul, inward. cbn [nth vx vy vz side]. unfold Rdiv. ring.
Qed.
Lemma stress_out_of_bounds : getStress fresh 6 = None /\ getStress fresh (-1) = None.
Proof. split; reflexivity. Qed.
Lemma stress_in_bounds s i : (0 <= i < 6)%Z -> getStress s i = Some (stress s (Z.to_nat i)).
Proof. intro H. unfold getStress. replace (0 <=? i)%Z with true by (symmetry; apply Z.leb_le; lia). replace (i <=? 5)%Z with true by (symmetry; apply Z.leb_le; lia). reflexivity. Qed.

(** C187 *)
Lemma only_walls c e s W : sane c e W -> exists s' W' g, action c e s W = Done s' W' g /\
  (forall w, is_wall w -> position c W' w = position c W w) /\ (forall i, (forall w, is_wall w -> ids c w <> i) -> W' i = W i) /\
  (g <> None -> internalCompaction c = true) /\ (internalCompaction c = true -> forall w, is_wall w -> velocity c W' w = vzero) /\ walls_ok c W'.
Proof.
  intro SA. assert (SA' := SA). destruct SA' as [[INJ _] _]. destruct (internalCompaction c) eqn:IC.
  - destruct (action_internal c e s W SA IC) as [W' [_ [VW [OW E]]]].
    assert (G : exists s' g, action c e s W = Done s' W' g). { rewrite E. destruct (_ =? 0)%Z; [|eexists _, _; reflexivity]. cbv zeta. destruct (multiplier c _ _). eexists _, _. reflexivity. }
    destruct G as [s' [g G]]. exists s', W', g. split; [exact G|]. split; [intros w H; unfold position at 1; rewrite (VW w H); reflexivity|]. split; [exact OW|]. split; [reflexivity|].
    split; [intros _ w H; unfold velocity; rewrite (VW w H); reflexivity|]. split; [exact INJ|]. intros w H. rewrite (VW w H). discriminate.
  - destruct (action_external c e s W SA IC) as [s' [W' [E [_ [VW [OW _]]]]]]. exists s', W', None. split; [exact E|]. split; [intros w H; unfold position at 1; rewrite (VW w H); reflexivity|]. split; [exact OW|]. split; [intro N; contradiction|].
    split; [discriminate|]. split; [exact INJ|]. intros w H. rewrite (VW w H). discriminate.
Qed.

(** C186 *)
Lemma dot_smul a b k : dot (smul k a) b = k * dot a b.
Proof. destruct a as [a1 a2 a3], b as [b1 b2 b3]. unfold dot, smul; cbn [vx vy vz]; ring. Qed.
Lemma total_ext {A} (f g : A -> R) l : (forall x, In x l -> f x = g x) -> total (map f l) = total (map g l).
Proof. intro H. rewrite (map_ext_in f g l H). reflexivity. Qed.
Lemma dot_zero a : dot vzero a = 0.
Proof. destruct a as [a1 a2 a3]. unfold dot, vzero; cbn [vx vy vz]; ring. Qed.
Lemma work_done c e s W : sane c e W -> internalCompaction c = false -> dt e <> 0 -> (forall w, is_wall w -> known c s w = ids c w) ->
  exists s' W', action c e s W = Done s' W' None /\ externalWork s' = externalWork s + total (map (fun w => dt e * dot (velocity c W' w) (force e (ids c w))) (seq 0 6)).
Proof.
  intros SA IC D K. destruct (action_external c e s W SA IC) as [s' [W' [E [_ [VW [_ [_ EW]]]]]]]. exists s', W'. split; [exact E|].
  rewrite EW. f_equal.
  assert (S : forall w, is_wall w -> work_of c e (box_size c e s W) (max_vels c (box_size c e s W)) (prepared c e s W) w (velocity c W w) = dt e * dot (velocity c W' w) (force e (ids c w))).
  { intros w H. unfold velocity at 2. rewrite (VW w H). cbn [wvel]. unfold work_of, vel_of.
    destruct (prepared_fields c e s W) as [_ [WI _]]. cbv zeta in WI. rewrite WI, known_eq, (K w H).
    destruct (activated c w); [|rewrite dot_zero; ring]. destruct (bit _ _); [rewrite dot_smul; field; exact D|ring]. }
  unfold order. cbn [map total seq]. rewrite !S by (unfold is_wall; lia). ring.
Qed.
Lemma work_internal c e s W : sane c e W -> internalCompaction c = true -> exists s' W' g, action c e s W = Done s' W' g /\ externalWork s' = externalWork s.
Proof.
  intros SA IC. destruct (action_internal c e s W SA IC) as [W' [_ [_ [_ E]]]]. destruct (prepared_fields c e s W) as [_ [_ [_ [_ [_ [_ [_ [EW _]]]]]]]]. cbv zeta in EW. rewrite E. destruct (_ =? 0)%Z.
  - cbv zeta. destruct (multiplier c _ _). eexists _, _, _. split; [reflexivity|]. exact EW.
  - eexists _, _, _. split; [reflexivity|]. exact EW.
Qed.
