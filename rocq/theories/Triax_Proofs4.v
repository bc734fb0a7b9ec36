(** control of stress: direction, limits *)
From Coq Require Import Reals List ZArith Bool Arith Lra Lia.
From Verif Require Import Vec_Model Law_Model Triax_Model Triax_Spec Triax_Proofs Triax_Proofs2 Triax_Proofs3.
Import ListNotations.
Local Open Scope R_scope.

Lemma sign_pos x : 0 < x -> sign x = 1.
Proof. intro H. unfold sign. destruct (Rlt_dec x 0); [lra|]. destruct (Rlt_dec 0 x); lra. Qed.
Lemma sign_neg x : x < 0 -> sign x = -1.
Proof. intro H. unfold sign. destruct (Rlt_dec x 0); lra. Qed.
Lemma sign_abs x : Rabs (sign x) <= 1.
Proof. unfold sign. destruct (Rlt_dec x 0); [rewrite Rabs_left; lra|]. destruct (Rlt_dec 0 x); [rewrite Rabs_right; lra|rewrite Rabs_R0; lra]. Qed.
Lemma dot_inward w : is_wall w -> dot (inward w) (inward w) = 1.
Proof. intro H. walls H; unfold dot, inward; cbn [nth vx vy vz]; lra. Qed.
Lemma smul_add a b v : vadd (smul a v) (smul b v) = smul (a + b) v.
Proof. destruct v as [x y z]. unfold vadd, smul; cbn [vx vy vz]; f_equal; ring. Qed.
Lemma smul_smul a b v : smul a (smul b v) = smul (a * b) v.
Proof. destruct v as [x y z]. unfold smul; cbn [vx vy vz]; f_equal; ring. Qed.
Lemma smul_0 v : smul 0 v = vzero.
Proof. destruct v as [x y z]. unfold smul, vzero; cbn [vx vy vz]; f_equal; ring. Qed.
Lemma smul_z k : smul k vzero = vzero.
Proof. unfold smul, vzero; cbn [vx vy vz]; f_equal; ring. Qed.
Lemma vadd_z v : vadd v vzero = v.
Proof. destruct v as [x y z]. unfold vadd, vzero; cbn [vx vy vz]; f_equal; ring. Qed.

(** excess of the force on a wall over that wanted *)
Definition excess (c : tconf) (e : tenv) (s : tstate) (W : world) (w : nat) : R :=
  dot (force e (known c s w)) (inward w) - coord (axis w) (goal c) * cross c W (used_thickness e s) (axis w).
Definition vmax (c : tconf) (e : tenv) (s : tstate) (W : world) (a : nat) : R := max_vels c (box_size c e s W) a.
Lemma controlled_eq c e s W w : is_wall w -> controlled c e (prepared c e s W) (box_size c e s W) (max_vels c (box_size c e s W)) w =
  vadd (smul ((1 - stressDamping c) * translation (dt e) (stiffness (prepared1 c e s W) w) (vmax c e s W (axis w)) (excess c e s W w)) (inward w)) (smul (8/10) (previousTranslation s w)).
Proof.
  intro H. unfold controlled. cbv zeta. destruct (prepared_fields c e s W) as [_ [WI [PT [_ [_ [_ [_ [_ [SF _]]]]]]]]]. cbv zeta in *. rewrite WI, PT, SF, known_eq, inward_normal by exact H. rewrite (axis_eq w H).
  pose proof (axis_lt w H) as AL. rewrite (area_box c e s W _ AL), (comp_coord _ _ AL). unfold vmax.
  assert (X : dot (inward w) (vsub (force e (known c s w)) (smul (side w) (with_comp (axis w) vzero (coord (axis w) (goal c) * cross c W (used_thickness e s) (axis w))))) = excess c e s W w).
  { unfold excess. generalize (force e (known c s w)). intros [f1 f2 f3]. generalize (coord (axis w) (goal c)) (cross c W (used_thickness e s) (axis w)). intros q A.
    walls H; unfold axis, dot, vsub, vadd, vopp, smul, inward, with_comp, vzero; cbn [nth vx vy vz side Nat.div Nat.divmod fst]; ring. }
  rewrite X. reflexivity.
Qed.
Lemma stress_wall c e s W : sane c e W -> internalCompaction c = false -> exists s' W', action c e s W = Done s' W' None /\
  stiffness s' = stiffness (prepared1 c e s W) /\
  (forall w, is_wall w -> in_stress c (axis w) -> activated c w = true ->
   previousTranslation s' w = vadd (smul ((1 - stressDamping c) * translation (dt e) (stiffness s' w) (vmax c e s W (axis w)) (excess c e s W w)) (inward w)) (smul (8/10) (previousTranslation s w)) /\
   velocity c W' w = smul (/ dt e) (previousTranslation s' w)) /\
  (forall w, is_wall w -> ~ (in_stress c (axis w) /\ activated c w = true) -> previousTranslation s' w = previousTranslation s w) /\
  (forall w, is_wall w -> activated c w = false -> velocity c W' w = vzero).
Proof.
  intros SA IC. destruct (action_external c e s W SA IC) as [s' [W' [E [R1 [VW [_ [PW _]]]]]]]. exists s', W'. split; [exact E|].
  destruct (same_rest_measures _ _ R1) as [_ [_ [SF _]]]. destruct (prepared_fields c e s W) as [_ [_ [PT [_ [_ [_ [_ [_ [SF1 _]]]]]]]]]. cbv zeta in *. split; [rewrite SF; exact SF1|].
  assert (VV : forall w, is_wall w -> velocity c W' w = vel_of c e (box_size c e s W) (max_vels c (box_size c e s W)) (prepared c e s W) w (velocity c W w)) by (intros w H; unfold velocity at 1; rewrite (VW w H); reflexivity).
  split; [|split].
  - intros w H B A. rewrite (VV w H), (PW w H). unfold vel_of, prev_of. rewrite A, (axis_eq w H). unfold in_stress in B. unfold bit. rewrite B. cbn [andb].
    rewrite (controlled_eq c e s W w H), SF, SF1. split; reflexivity.
  - intros w H N. rewrite (PW w H). unfold prev_of. rewrite (axis_eq w H). unfold in_stress in N. unfold bit. destruct (activated c w); [|cbn [andb]; rewrite PT; reflexivity].
    destruct (Z.testbit (stressMask c) (Z.of_nat (axis w))); [exfalso; apply N; split; reflexivity|cbn [andb]; rewrite PT; reflexivity].
  - intros w H A. rewrite (VV w H). unfold vel_of. rewrite A. reflexivity.
Qed.
Lemma excess_stress c e s W w : cross c W (used_thickness e s) (axis w) <> 0 -> excess c e s W w = (normal_stress (cross c W (used_thickness e s) (axis w)) w (force e (known c s w)) - coord (axis w) (goal c)) * cross c W (used_thickness e s) (axis w).
Proof. intro N. unfold excess, normal_stress. field. exact N. Qed.
Lemma cross_pos c e s W a : positive_box c e s W -> (a < 3)%nat -> 0 < cross c W (used_thickness e s) a.
Proof. intros P Ha. pose proof (P 0%nat ltac:(lia)). pose proof (P 1%nat ltac:(lia)). pose proof (P 2%nat ltac:(lia)). assert (D : a = 0%nat \/ a = 1%nat \/ a = 2%nat) by lia. unfold cross. destruct D as [-> | [-> | -> ]]; apply Rmult_lt_0_compat; assumption. Qed.
Lemma vmax_pos c e s W a : positive_box c e s W -> (a < 3)%nat -> 0 < max_vel c -> 0 < vmax c e s W a /\ vmax c e s W a <= 3 * max_vel c.
Proof.
  intros P Ha M. pose proof (P 0%nat ltac:(lia)) as A. pose proof (P 1%nat ltac:(lia)) as B. pose proof (P 2%nat ltac:(lia)) as C. pose proof (P a Ha) as X. unfold vmax, max_vels. rewrite comp_coord, (coord_box c e s W) by exact Ha.
  unfold box_size. cbn [vx vy vz]. remember (inner c W (used_thickness e s) 0) as x0. remember (inner c W (used_thickness e s) 1) as x1. remember (inner c W (used_thickness e s) 2) as x2. remember (inner c W (used_thickness e s) a) as x.
  assert (LE : x <= x1 + x0 + x2). { assert (D : a = 0%nat \/ a = 1%nat \/ a = 2%nat) by lia. destruct D as [-> | [-> | -> ]]; lra. }
  assert (Q : 0 < x / (x1 + x0 + x2) <= 1). { split; [apply Rdiv_lt_0_compat; lra|]. apply (Rmult_le_reg_r (x1 + x0 + x2)); [lra|]. unfold Rdiv. rewrite Rmult_assoc, Rinv_l by lra. lra. }
  replace (3 * x / (x1 + x0 + x2) * max_vel c) with (3 * (x / (x1 + x0 + x2) * max_vel c)) by (unfold Rdiv; ring).
  destruct Q as [Q1 Q2]. split.
  - pose proof (Rmult_lt_0_compat _ _ Q1 M). lra.
  - pose proof (Rmult_le_compat_r (max_vel c) _ _ (Rlt_le _ _ M) Q2). lra.
Qed.
Lemma translation_pos h k v t : 0 < h -> 0 <= k -> 0 < v -> 0 < t -> 0 < translation h k v t.
Proof.
  intros H K V0 T. unfold translation. destruct (Req_EM_T t 0); [lra|]. pose proof (Rmult_lt_0_compat _ _ V0 H). destruct (Req_EM_T k 0).
  - rewrite (sign_pos t T). lra.
  - assert (0 < t / k) by (apply Rdiv_lt_0_compat; lra). rewrite (sign_pos (t / k)) by assumption. rewrite Rabs_right by lra. rewrite Rmult_1_r. apply Rmin_glb_lt; assumption.
Qed.
Lemma translation_opp h k v t : translation h k v (- t) = - translation h k v t.
Proof.
  unfold translation. destruct (Req_EM_T (- t) 0), (Req_EM_T t 0); try lra.
  assert (SG : forall x, sign (- x) = - sign x). { intro x. unfold sign. destruct (Rlt_dec (- x) 0), (Rlt_dec x 0), (Rlt_dec 0 (- x)), (Rlt_dec 0 x); lra. }
  destruct (Req_EM_T k 0); [rewrite SG; ring|]. replace (- t / k) with (- (t / k)) by (unfold Rdiv; ring). rewrite Rabs_Ropp, SG. ring.
Qed.
Lemma translation_neg h k v t : 0 < h -> 0 <= k -> 0 < v -> t < 0 -> translation h k v t < 0.
Proof. intros H K V0 T. replace t with (- - t) by ring. rewrite translation_opp. pose proof (translation_pos h k v (- t) H K V0 ltac:(lra)). lra. Qed.
Lemma translation_zero h k v : translation h k v 0 = 0.
Proof. unfold translation. destruct (Req_EM_T 0 0); [reflexivity|contradiction]. Qed.
Lemma translation_bound h k v t : 0 < h -> 0 < v -> Rabs (translation h k v t) <= v * h.
Proof.
  intros H V0. pose proof (Rmult_lt_0_compat _ _ V0 H) as P. unfold translation. destruct (Req_EM_T t 0); [rewrite Rabs_R0; lra|]. destruct (Req_EM_T k 0).
  - rewrite !Rabs_mult. rewrite (Rabs_right v), (Rabs_right h) by lra. pose proof (sign_abs t). pose proof (Rmult_le_compat_l (v * h) _ _ (Rlt_le _ _ P) H0). lra.
  - rewrite Rabs_mult. pose proof (sign_abs (t / k)) as S1. pose proof (Rmin_r (Rabs (t / k)) (v * h)) as M. assert (G : 0 <= Rmin (Rabs (t / k)) (v * h)) by (apply Rmin_glb; [apply Rabs_pos|lra]).
    rewrite (Rabs_right (Rmin _ _)) by lra. pose proof (Rmult_le_compat_l _ _ _ G S1). lra.
Qed.

(** C182 *)
Lemma goes_to_goal c e s W : sane c e W -> internalCompaction c = false -> positive_box c e s W -> 0 < dt e -> 0 < max_vel c -> stressDamping c < 1 ->
  exists s' W', action c e s W = Done s' W' None /\
  forall w, is_wall w -> in_stress c (axis w) -> activated c w = true -> previousTranslation s w = vzero -> 0 <= stiffness s' w ->
    exists x, velocity c W' w = smul x (inward w) /\
    let sigma := normal_stress (cross c W (used_thickness e s) (axis w)) w (force e (known c s w)) in
    (coord (axis w) (goal c) < sigma -> 0 < x) /\ (sigma < coord (axis w) (goal c) -> x < 0) /\ (sigma = coord (axis w) (goal c) -> x = 0).
Proof.
  intros SA IC P H M D. destruct (stress_wall c e s W SA IC) as [s' [W' [E [_ [SW _]]]]]. exists s', W'. split; [exact E|]. intros w Hw B A PZ K.
  destruct (SW w Hw B A) as [Q V1]. rewrite V1, Q, PZ, smul_z, vadd_z, smul_smul. eexists. split; [reflexivity|]. cbv zeta.
  pose proof (cross_pos c e s W _ P (axis_lt w Hw)) as CP. destruct (vmax_pos c e s W _ P (axis_lt w Hw) M) as [VP _].
  rewrite (excess_stress c e s W w) by lra. remember (normal_stress _ w _) as sg. remember (coord (axis w) (goal c)) as q. remember (cross c W (used_thickness e s) (axis w)) as A0.
  pose proof (Rinv_0_lt_compat _ H) as IH.
  split; [|split]; intro L.
  - apply Rmult_lt_0_compat; [exact IH|]. apply Rmult_lt_0_compat; [lra|]. apply translation_pos; try assumption. apply Rmult_lt_0_compat; lra.
  - assert (T : translation (dt e) (stiffness s' w) (vmax c e s W (axis w)) ((sg - q) * A0) < 0). { apply translation_neg; try assumption. pose proof (Rmult_lt_0_compat (q - sg) A0 ltac:(lra) CP). lra. }
    pose proof (Rmult_lt_0_compat (1 - stressDamping c) _ ltac:(lra) (Ropp_0_gt_lt_contravar _ T)) as T2. pose proof (Rmult_lt_0_compat _ _ IH T2). lra.
  - rewrite L, Rminus_eq_0, Rmult_0_l, translation_zero. ring.
Qed.
(** without damping nor earlier translation the predicted force is that wanted *)
Lemma perfect_prediction c e s W : sane c e W -> internalCompaction c = false -> dt e <> 0 -> stressDamping c = 0 ->
  exists s' W', action c e s W = Done s' W' None /\
  forall w, is_wall w -> in_stress c (axis w) -> activated c w = true -> previousTranslation s w = vzero -> 0 < stiffness s' w ->
    let f := dot (force e (known c s w)) (inward w) in let A := cross c W (used_thickness e s) (axis w) in let g := coord (axis w) (goal c) in
    Rabs (f - g * A) <= stiffness s' w * (3 * coord (axis w) (size s') / (coord 0 (size s') + coord 1 (size s') + coord 2 (size s')) * max_vel c * dt e) ->
    f - stiffness s' w * (dt e * dot (velocity c W' w) (inward w)) = g * A.
Proof.
  intros SA IC H D. destruct (stress_wall c e s W SA IC) as [s' [W' [E [_ [SW _]]]]].
  destruct (sizes_are_measured c e s W SA) as [s3 [W3 [g3 [E3 [_ SZ]]]]]. destruct (done_eq _ _ _ _ _ _ _ _ _ _ E E3) as [-> [-> _]].
  exists s', W'. split; [exact E|]. intros w Hw B A PZ K. cbv zeta. intro L.
  destruct (SW w Hw B A) as [Q V1]. rewrite V1, Q, PZ, smul_z, vadd_z, smul_smul, dot_smul, (dot_inward w Hw), D.
  fold (excess c e s W w) in L. assert (F : dot (force e (known c s w)) (inward w) = excess c e s W w + coord (axis w) (goal c) * cross c W (used_thickness e s) (axis w)) by (unfold excess; ring).
  assert (VM : 3 * coord (axis w) (size s') / (coord 0 (size s') + coord 1 (size s') + coord 2 (size s')) * max_vel c = vmax c e s W (axis w)).
  { unfold vmax, max_vels. pose proof (axis_lt w Hw) as AL. rewrite !SZ by lia. rewrite comp_coord, (coord_box c e s W) by exact AL. unfold box_size. cbn [vx vy vz].
    replace (inner c W (used_thickness e s) 1 + inner c W (used_thickness e s) 0 + inner c W (used_thickness e s) 2) with (inner c W (used_thickness e s) 0 + inner c W (used_thickness e s) 1 + inner c W (used_thickness e s) 2) by ring. reflexivity. }
  rewrite VM in L. rewrite F. remember (excess c e s W w) as t. remember (stiffness s' w) as k. remember (vmax c e s W (axis w)) as v.
  assert (T : translation (dt e) k v t = t / k).
  { unfold translation. destruct (Req_EM_T t 0) as [->|N]; [unfold Rdiv; ring|]. destruct (Req_EM_T k 0); [lra|].
    assert (MN : Rmin (Rabs (t / k)) (v * dt e) = Rabs (t / k)). { apply Rmin_left. unfold Rdiv. rewrite Rabs_mult, (Rabs_right (/ k)) by (apply Rgt_ge, Rinv_0_lt_compat; lra). apply (Rmult_le_reg_r k); [lra|]. rewrite Rmult_assoc, Rinv_l by lra. lra. }
    rewrite MN. destruct (Rlt_dec 0 t) as [G|G].
    - assert (0 < t / k) by (apply Rdiv_lt_0_compat; lra). rewrite Rabs_right, sign_pos by lra. ring.
    - assert (0 < - t / k) by (apply Rdiv_lt_0_compat; lra). assert (X : t / k < 0) by (unfold Rdiv in *; lra). rewrite Rabs_left, sign_neg by lra. ring. }
  rewrite T. field. split; [lra|exact H].
Qed.
(** at its goal a wall goes on *)
Lemma goes_past_goal c e s W : sane c e W -> internalCompaction c = false -> dt e <> 0 -> exists s' W', action c e s W = Done s' W' None /\
  forall w, is_wall w -> in_stress c (axis w) -> activated c w = true ->
  (dot (force e (known c s w)) (inward w) = coord (axis w) (goal c) * cross c W (used_thickness e s) (axis w) \/ stressDamping c = 1) -> velocity c W' w = smul (8/10 / dt e) (previousTranslation s w).
Proof.
  intros SA IC H. destruct (stress_wall c e s W SA IC) as [s' [W' [E [_ [SW _]]]]]. exists s', W'. split; [exact E|]. intros w Hw B A Z.
  destruct (SW w Hw B A) as [Q V1]. rewrite V1, Q.
  assert (X : (1 - stressDamping c) * translation (dt e) (stiffness s' w) (vmax c e s W (axis w)) (excess c e s W w) = 0).
  { destruct Z as [Z|Z]; [|rewrite Z; ring]. unfold excess. rewrite Z, Rminus_eq_0, translation_zero. ring. }
  rewrite X, smul_0. destruct (previousTranslation s w) as [x y z]. unfold smul, vadd, vzero; cbn [vx vy vz]; f_equal; field; exact H.
Qed.
(** stiffness *)
Lemma fold_stiffness (i : nat) l : forall k0, fold_left (fun k c => if Req_EM_T (cfn c) 0 then k else if touches c i then k + ckn c else k) l k0 =
  k0 + total (map ckn (filter (fun c => if Req_EM_T (cfn c) 0 then false else touches c i) l)).
Proof.
  induction l as [|x l IH]; intro k0; cbn [fold_left filter]; [cbn; lra|]. rewrite IH. destruct (Req_EM_T (cfn x) 0); [reflexivity|]. destruct (touches x i); cbn [map total]; lra.
Qed.
Lemma stiffness_counted c e s W f : sane c e W -> counts_stiffness c e -> (forall i k, f i k = true <-> is_contact_of i k) -> exists s' W' g, action c e s W = Done s' W' g /\
  forall w, is_wall w -> stiffness s' w = total (map ckn (filter (f (known c s w)) (contacts e))).
Proof.
  intros SA C F. destruct (action_measures c e s W SA) as [s' [W' [g [E [_ [_ [SF _]]]]]]]. exists s', W', g. split; [exact E|]. intros w H. rewrite SF.
  destruct (prepared_fields c e s W) as [_ [_ [_ [_ [_ [_ [_ [_ [SF1 _]]]]]]]]]. cbv zeta in SF1. rewrite SF1. unfold prepared1. apply stiff_bool in C. rewrite C. cbv zeta. cbn [stiffness setStiffness]. unfold updateStiffness. rewrite fold_stiffness.
  replace (wall_id (prepared0 c e s W) w) with (known c s w) by (unfold prepared0, known; cbn; destruct (first s); reflexivity). rewrite Rplus_0_l. f_equal. f_equal. apply filter_ext. intro k.
  apply Bool.eq_true_iff_eq. rewrite F. unfold is_contact_of, touches. destruct (Req_EM_T (cfn k) 0) as [Z|N].
  - split; [discriminate|]. intros [X _]; contradiction.
  - rewrite Bool.orb_true_iff, !Nat.eqb_eq. intuition.
Qed.
Lemma stiffness_kept c e s W : sane c e W -> ~ counts_stiffness c e -> exists s' W' g, action c e s W = Done s' W' g /\ stiffness s' = stiffness s.
Proof.
  intros SA C. destruct (action_measures c e s W SA) as [s' [W' [g [E [_ [_ [SF _]]]]]]]. exists s', W', g. split; [exact E|]. rewrite SF.
  destruct (prepared_fields c e s W) as [_ [_ [_ [_ [_ [_ [_ [_ [SF1 _]]]]]]]]]. cbv zeta in SF1. rewrite SF1. unfold prepared1. destruct (_ || _)%bool eqn:Q; [apply stiff_bool in Q; contradiction|reflexivity].
Qed.

(** C183 *)
Lemma isotropic_maxima c sz : 0 < vx sz -> 0 < vy sz -> 0 < vz sz -> forall a b, (a < 3)%nat -> (b < 3)%nat -> 2 * max_vels c sz a / coord a sz = 2 * max_vels c sz b / coord b sz.
Proof.
  intros X Y Z a b Ha Hb. unfold max_vels. rewrite !comp_coord by assumption.
  assert (N : forall k, (k < 3)%nat -> coord k sz <> 0). { intros k Hk. assert (D : k = 0%nat \/ k = 1%nat \/ k = 2%nat) by lia. destruct D as [-> | [-> | -> ]]; unfold coord; cbn [nth]; lra. }
  pose proof (N a Ha). pose proof (N b Hb). field. repeat split; try assumption; lra.
Qed.
Definition bounded_state (c : tconf) (B : R) (s : tstate) : Prop := forall w, is_wall w -> exists x, previousTranslation s w = smul x (inward w) /\ Rabs x <= B.
Lemma step_bound c e s W h : sane c e W -> internalCompaction c = false -> positive_box c e s W -> dt e = h -> 0 < h -> 0 < max_vel c -> 0 <= stressDamping c <= 1 ->
  let B := 15 * (1 - stressDamping c) * max_vel c in bounded_state c (B * h) s -> exists s' W', action c e s W = Done s' W' None /\ bounded_state c (B * h) s' /\
   (forall w, is_wall w -> in_stress c (axis w) -> exists x, velocity c W' w = smul x (inward w) /\ Rabs x <= B).
Proof.
  intros SA IC P Eh H M D B BS. destruct (stress_wall c e s W SA IC) as [s' [W' [E [_ [SW [SO SN]]]]]]. exists s', W'. split; [exact E|].
  assert (B0 : 0 <= B). { unfold B. apply Rmult_le_pos; [lra|lra]. }
  assert (K : forall w, is_wall w -> in_stress c (axis w) -> activated c w = true -> exists x, previousTranslation s' w = smul x (inward w) /\ Rabs x <= B * h).
  { intros w Hw I A. destruct (SW w Hw I A) as [Q _]. destruct (BS w Hw) as [x [X1 X2]]. rewrite Q, X1, smul_smul, smul_add. eexists. split; [reflexivity|].
    destruct (vmax_pos c e s W _ P (axis_lt w Hw) M) as [VP VL]. pose proof (translation_bound (dt e) (stiffness s' w) _ (excess c e s W w) ltac:(lra) VP) as TB. remember (translation _ _ _ _) as t. rewrite Eh in TB.
    eapply Rle_trans; [apply Rabs_triang|]. rewrite !Rabs_mult, (Rabs_right (1 - stressDamping c)), (Rabs_right (8/10)) by lra.
    assert (T3 : Rabs t <= 3 * max_vel c * h). { eapply Rle_trans; [exact TB|]. apply Rmult_le_compat_r; lra. }
    pose proof (Rmult_le_compat_l (1 - stressDamping c) _ _ ltac:(lra) T3). unfold B in *. lra. }
  split.
  - intros w Hw. destruct (activated c w) eqn:A.
    + destruct (Z.testbit (stressMask c) (Z.of_nat (axis w))) eqn:I; [apply K; assumption|]. rewrite SO; [apply BS, Hw|exact Hw|]. unfold in_stress. intros [X _]. congruence.
    + rewrite SO; [apply BS, Hw|exact Hw|]. intros [_ X]. congruence.
  - intros w Hw I. destruct (activated c w) eqn:A.
    + destruct (K w Hw I A) as [x [X1 X2]]. destruct (SW w Hw I A) as [_ V1]. rewrite V1, X1, smul_smul. eexists. split; [reflexivity|]. rewrite Eh, Rabs_mult, (Rabs_right (/ h)) by (apply Rgt_ge, Rinv_0_lt_compat, H).
      apply (Rmult_le_reg_l h); [exact H|]. rewrite <- Rmult_assoc, Rinv_r by lra. lra.
    + exists 0. rewrite (SN w Hw A), smul_0, Rabs_R0. split; [reflexivity|exact B0].
Qed.
Lemma never_faster c h l e s W s' W' : runs c (fun e s W => sane c e W /\ positive_box c e s W /\ dt e = h) l s W s' W' -> internalCompaction c = false -> 0 < h -> 0 < max_vel c -> 0 <= stressDamping c <= 1 ->
  (forall w, is_wall w -> previousTranslation s w = vzero) -> sane c e W' -> positive_box c e s' W' -> dt e = h -> exists s2 W2, action c e s' W' = Done s2 W2 None /\
  (forall w, is_wall w -> in_stress c (axis w) -> exists x, velocity c W2 w = smul x (inward w) /\ Rabs x <= 15 * (1 - stressDamping c) * max_vel c).
Proof.
  intros RN IC H M D PZ SA P Eh.
  assert (B0 : bounded_state c (15 * (1 - stressDamping c) * max_vel c * h) s).
  { intros w Hw. exists 0. rewrite (PZ w Hw), smul_0, Rabs_R0. split; [reflexivity|]. apply Rmult_le_pos; [|lra]. apply Rmult_le_pos; lra. }
  clear PZ. revert SA P B0. induction RN as [s W|e0 l s W s1 W1 g W2 s' W' [SA0 [P0 Eh0]] AC MV RN IH]; intros SA P B0.
  - destruct (step_bound c e s W h SA IC P Eh H M D B0) as [s' [W' [E [_ V1]]]]. exists s', W'. split; [exact E|exact V1].
  - destruct (step_bound c e0 s W h SA0 IC P0 Eh0 H M D B0) as [sx [Wx [E [B1 _]]]]. destruct (done_eq _ _ _ _ _ _ _ _ _ _ AC E) as [-> _]. apply IH; assumption.
Qed.
