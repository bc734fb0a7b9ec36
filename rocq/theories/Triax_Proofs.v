From Coq Require Import Reals List ZArith Bool Arith Lra Lia.
From Verif Require Import Vec_Model Law_Model Triax_Model Triax_Spec.
Import ListNotations.
Local Open Scope R_scope.

Lemma wall_cases w : is_wall w -> w = 0%nat \/ w = 1%nat \/ w = 2%nat \/ w = 3%nat \/ w = 4%nat \/ w = 5%nat.
Proof. unfold is_wall. lia. Qed.
Ltac walls H := destruct (wall_cases _ H) as [-> | [-> | [-> | [-> | [-> | -> ]]]]].
Lemma inward_normal w : is_wall w -> wall_normal w = inward w.
Proof. intro H. walls H; reflexivity. Qed.
Lemma axis_eq w : is_wall w -> axis_of w = axis w.
Proof. intro H. walls H; reflexivity. Qed.
Lemma side_eq w : is_wall w -> side w = dot (inward w) (V 1 1 1).
Proof. intro H. walls H; unfold dot; cbn; lra. Qed.

(** one wall *)
Definition vel_of (c : tconf) (e : tenv) (sz : vec) (vmax : nat -> R) (s : tstate) (w : nat) (v : vec) : vec :=
  if activated c w then
    if bit (stressMask c) (axis_of w) then smul (/ dt e) (controlled c e s sz vmax w)
    else with_comp (axis_of w) v (comp (axis_of w) v + (- side w * (1/2) * comp (axis_of w) (goal c) * comp (axis_of w) sz - comp (axis_of w) v) * (1 - strainDamping c))
  else vzero.
Definition prev_of c e sz vmax s w : vec :=
  if activated c w && bit (stressMask c) (axis_of w) then controlled c e s sz vmax w else previousTranslation s w.
Definition work_of (c : tconf) (e : tenv) (sz : vec) (vmax : nat -> R) (s : tstate) (w : nat) (v : vec) : R :=
  if activated c w then
    if bit (stressMask c) (axis_of w) then dot (controlled c e s sz vmax w) (force e (wall_id s w))
    else dot (vel_of c e sz vmax s w v) (force e (ids c w)) * dt e
  else 0.
Lemma controlled_ext c e sz vm s s' w : wall_id s' = wall_id s -> stiffness s' = stiffness s -> previousTranslation s' w = previousTranslation s w -> controlled c e s' sz vm w = controlled c e s sz vm w.
Proof. intros A B C. unfold controlled. rewrite A, B, C. reflexivity. Qed.
Definition same_rest (s s' : tstate) : Prop := s' = setWork s (previousTranslation s') (externalWork s').
Lemma same_rest_refl s : same_rest s s.
Proof. destruct s; reflexivity. Qed.
Lemma same_rest_trans a b d : same_rest a b -> same_rest b d -> same_rest a d.
Proof. unfold same_rest. intros A B. rewrite B at 1. rewrite A. reflexivity. Qed.
Lemma same_rest_set s p x : same_rest s (setWork s p x).
Proof. reflexivity. Qed.
Lemma same_wall_id s s' : same_rest s s' -> wall_id s' = wall_id s.
Proof. intro A. rewrite A. reflexivity. Qed.
Lemma same_stiffness s s' : same_rest s s' -> stiffness s' = stiffness s.
Proof. intro A. rewrite A. reflexivity. Qed.

Lemma drive_spec c e sz vm w s W b : W (ids c w) = Some b ->
  exists s', drive c e sz vm w (s, W) = Some (s', put W (ids c w) (mkW (wpos b) (vel_of c e sz vm s w (wvel b)))) /\
    same_rest s s' /\ externalWork s' = externalWork s + work_of c e sz vm s w (wvel b) /\
    previousTranslation s' w = prev_of c e sz vm s w /\ (forall v, v <> w -> previousTranslation s' v = previousTranslation s v).
Proof.
  intro E. unfold drive. rewrite E. unfold work_of, vel_of, prev_of. destruct (activated c w); cbn [andb].
  - destruct (bit (stressMask c) (axis_of w)).
    + eexists. split; [reflexivity|]. split; [apply same_rest_set|]. cbn [externalWork setWork previousTranslation]. rewrite Nat.eqb_refl. split; [reflexivity|]. split; [reflexivity|].
      intros v N. apply Nat.eqb_neq in N. rewrite N. reflexivity.
    + eexists. split; [reflexivity|]. split; [apply same_rest_set|]. cbn [externalWork setWork previousTranslation]. split; [reflexivity|]. split; reflexivity.
  - eexists. split; [reflexivity|]. split; [apply same_rest_refl|]. split; [lra|]. split; reflexivity.
Qed.

Lemma vel_of_ext c e sz vm s s' w v : same_rest s s' -> previousTranslation s' w = previousTranslation s w -> vel_of c e sz vm s' w v = vel_of c e sz vm s w v.
Proof. intros A B. unfold vel_of. rewrite (controlled_ext c e sz vm s s' w (same_wall_id _ _ A) (same_stiffness _ _ A) B). reflexivity. Qed.
Lemma prev_of_ext c e sz vm s s' w : same_rest s s' -> previousTranslation s' w = previousTranslation s w -> prev_of c e sz vm s' w = prev_of c e sz vm s w.
Proof. intros A B. unfold prev_of. rewrite (controlled_ext c e sz vm s s' w (same_wall_id _ _ A) (same_stiffness _ _ A) B), B. reflexivity. Qed.
Lemma work_of_ext c e sz vm s s' w v : same_rest s s' -> previousTranslation s' w = previousTranslation s w -> work_of c e sz vm s' w v = work_of c e sz vm s w v.
Proof. intros A B. unfold work_of. rewrite (controlled_ext c e sz vm s s' w (same_wall_id _ _ A) (same_stiffness _ _ A) B), (vel_of_ext c e sz vm s s' w v A B), (same_wall_id _ _ A). reflexivity. Qed.

Lemma drive_list c e sz vm l : forall s W, NoDup l -> (forall v w, In v l -> In w l -> ids c v = ids c w -> v = w) -> (forall w, In w l -> W (ids c w) <> None) ->
  exists s' W', fold_left (fun r w => match r with Some x => drive c e sz vm w x | None => None end) l (Some (s, W)) = Some (s', W') /\
    same_rest s s' /\
    (forall w, In w l -> W' (ids c w) = Some (mkW (position c W w) (vel_of c e sz vm s w (velocity c W w)))) /\
    (forall i, (forall w, In w l -> ids c w <> i) -> W' i = W i) /\
    (forall w, In w l -> previousTranslation s' w = prev_of c e sz vm s w) /\
    (forall w, ~ In w l -> previousTranslation s' w = previousTranslation s w) /\
    externalWork s' = externalWork s + total (map (fun w => work_of c e sz vm s w (velocity c W w)) l).
Proof.
  induction l as [|a l IH]; intros s W ND INJ PR.
  - exists s, W. split; [reflexivity|]. split; [apply same_rest_refl|]. split; [intros w []|]. split; [reflexivity|]. split; [intros w []|]. split; [reflexivity|]. cbn; lra.
  - cbn [fold_left].
    destruct (W (ids c a)) as [b|] eqn:E; [|exfalso; apply (PR a (or_introl eq_refl)); exact E].
    destruct (drive_spec c e sz vm a s W b E) as [s1 [D [R1 [EW [PA PO]]]]]. rewrite D.
    inversion ND as [|? ? NI ND']; subst.
    set (W1 := put W (ids c a) (mkW (wpos b) (vel_of c e sz vm s a (wvel b)))).
    assert (OTH : forall w, In w l -> W1 (ids c w) = W (ids c w)).
    { intros w I. unfold W1, put. destruct (Nat.eqb (ids c w) (ids c a)) eqn:Q; [|reflexivity]. apply Nat.eqb_eq in Q. apply INJ in Q; [|right; exact I|left; reflexivity]. subst. contradiction. }
    destruct (IH s1 W1 ND') as [s2 [W2 [F [R2 [V2 [O2 [P2 [Q2 E2]]]]]]]].
    { intros v w A B. apply INJ; right; assumption. }
    { intros w I. rewrite (OTH w I). apply PR. right; exact I. }
    assert (PV : forall w, In w l -> position c W1 w = position c W w /\ velocity c W1 w = velocity c W w).
    { intros w I. unfold position, velocity. rewrite (OTH w I). split; reflexivity. }
    assert (NA : forall w, In w l -> w <> a) by (intros w I ->; contradiction).
    exists s2, W2. split; [exact F|]. split; [exact (same_rest_trans _ _ _ R1 R2)|].
    split. { intros w [<- | I].
      - rewrite O2. 2:{ intros w I Q. apply INJ in Q; [|right; exact I|left; reflexivity]. subst. contradiction. }
        unfold W1, put. rewrite Nat.eqb_refl. unfold position, velocity. rewrite E. reflexivity.
      - rewrite (V2 w I). destruct (PV w I) as [-> ->]. rewrite (vel_of_ext c e sz vm s s1 w); [reflexivity|exact R1|]. apply PO. apply NA; exact I. }
    split. { intros i H. rewrite O2 by (intros w I; apply H; right; exact I). unfold W1, put. destruct (Nat.eqb i (ids c a)) eqn:Q; [|reflexivity]. apply Nat.eqb_eq in Q. exfalso. apply (H a); [left; reflexivity|congruence]. }
    split. { intros w [<- | I].
      - rewrite (Q2 a NI). exact PA.
      - rewrite (P2 w I). apply prev_of_ext; [exact R1|apply PO, NA, I]. }
    split. { intros w N. rewrite Q2 by (intro I; apply N; right; exact I). apply PO. intros ->. apply N; left; reflexivity. }
    rewrite E2, EW. cbn [map total]. unfold velocity at 2. rewrite E.
    rewrite (map_ext_in (fun w => work_of c e sz vm s1 w (velocity c W1 w)) (fun w => work_of c e sz vm s w (velocity c W w))); [lra|].
    intros w I. destruct (PV w I) as [_ ->]. apply work_of_ext; [exact R1|apply PO, NA, I].
Qed.

Lemma order_in w : is_wall w -> In w order.
Proof. intro H. walls H; cbn; tauto. Qed.
Lemma order_wall w : In w order -> is_wall w.
Proof. unfold is_wall. cbn. intuition lia. Qed.
Lemma order_nodup : NoDup order.
Proof. unfold order. repeat constructor; cbn; intuition lia. Qed.

Lemma walls_ok_list c W : walls_ok c W -> (forall v w, In v order -> In w order -> ids c v = ids c w -> v = w) /\ (forall w, In w order -> W (ids c w) <> None).
Proof. intros [A B]. split; [intros v w I J; apply A; apply order_wall; assumption|intros w I; apply B, order_wall, I]. Qed.

Lemma stop_list c l : forall W, (forall v w, In v l -> In w l -> ids c v = ids c w -> v = w) -> NoDup l -> (forall w, In w l -> W (ids c w) <> None) ->
  exists W', fold_left (fun r w => match r with Some W => match W (ids c w) with Some b => Some (put W (ids c w) (mkW (wpos b) vzero)) | None => None end | None => None end) l (Some W) = Some W' /\
   (forall w, In w l -> W' (ids c w) = Some (mkW (position c W w) vzero)) /\ (forall i, (forall w, In w l -> ids c w <> i) -> W' i = W i).
Proof.
  induction l as [|a l IH]; intros W INJ ND PR.
  - exists W. split; [reflexivity|]. split; [intros w []|reflexivity].
  - cbn [fold_left]. destruct (W (ids c a)) as [b|] eqn:E; [|exfalso; apply (PR a (or_introl eq_refl)); exact E].
    inversion ND as [|? ? NI ND']; subst.
    set (W1 := put W (ids c a) (mkW (wpos b) vzero)).
    assert (OTH : forall w, In w l -> W1 (ids c w) = W (ids c w)).
    { intros w I. unfold W1, put. destruct (Nat.eqb (ids c w) (ids c a)) eqn:Q; [|reflexivity]. apply Nat.eqb_eq in Q. apply INJ in Q; [|right; exact I|left; reflexivity]. subst. contradiction. }
    destruct (IH W1) as [W2 [F [V2 O2]]]; [intros v w A B; apply INJ; right; assumption|exact ND'|intros w I; rewrite (OTH w I); apply PR; right; exact I|].
    exists W2. split; [exact F|]. split.
    + intros w [<- | I].
      * rewrite O2. 2:{ intros w I Q. apply INJ in Q; [|right; exact I|left; reflexivity]. subst. contradiction. }
        unfold W1, put. rewrite Nat.eqb_refl. unfold position. rewrite E. reflexivity.
      * rewrite (V2 w I). unfold position. rewrite (OTH w I). reflexivity.
    + intros i H. rewrite O2 by (intros w I; apply H; right; exact I). unfold W1, put. destruct (Nat.eqb i (ids c a)) eqn:Q; [|reflexivity]. apply Nat.eqb_eq in Q. exfalso. apply (H a); [left; reflexivity|congruence].
Qed.

(** the sizes *)
Lemma sizes_spec c W th : walls_ok c W -> sizes c W th = Some (V (inner c W th 0) (inner c W th 1) (inner c W th 2)).
Proof.
  intros [_ P]. unfold sizes, where_is, inner, position, high, low. cbn [Nat.mul Nat.add].
  destruct (W (ids c 0%nat)) as [b0|] eqn:E0; [|exfalso; apply (P 0%nat); [unfold is_wall; lia|exact E0]].
  destruct (W (ids c 1%nat)) as [b1|] eqn:E1; [|exfalso; apply (P 1%nat); [unfold is_wall; lia|exact E1]].
  destruct (W (ids c 2%nat)) as [b2|] eqn:E2; [|exfalso; apply (P 2%nat); [unfold is_wall; lia|exact E2]].
  destruct (W (ids c 3%nat)) as [b3|] eqn:E3; [|exfalso; apply (P 3%nat); [unfold is_wall; lia|exact E3]].
  destruct (W (ids c 4%nat)) as [b4|] eqn:E4; [|exfalso; apply (P 4%nat); [unfold is_wall; lia|exact E4]].
  destruct (W (ids c 5%nat)) as [b5|] eqn:E5; [|exfalso; apply (P 5%nat); [unfold is_wall; lia|exact E5]].
  rewrite ?E0, ?E1, ?E2, ?E3, ?E4, ?E5. reflexivity.
Qed.

(** the state before walls are driven *)
Definition box_size (c : tconf) (e : tenv) (s : tstate) (W : world) : vec := let th := used_thickness e s in V (inner c W th 0) (inner c W th 1) (inner c W th 2).
Definition solid_volume (e : tenv) (s : tstate) : R := if first s || updatePorosity s then match volumes (solids e) with Some v => v | None => 0 end else particlesVolume s.
Definition prepared0 (c : tconf) (e : tenv) (s : tstate) (W : world) : tstate :=
  let sz := box_size c e s W in let vol := vx sz * vy sz * vz sz in
  setNumbers s (solid_volume e s) ((vol - solid_volume e s) / vol) (used_thickness e s) sz false false (if first s then ids c else wall_id s).
Definition prepared1 c e s W : tstate := let s0 := prepared0 c e s W in
  if (iter e mod stiffnessUpdateInterval c =? 0)%Z || (iter e <? 100)%Z then setStiffness s0 (updateStiffness (contacts e) s0) else s0.
Definition prepared c e s W : tstate := let s1 := prepared1 c e s W in
  if (iter e mod computeStressStrainInterval c =? 0)%Z || (internalCompaction c && (iter e mod radiusControlInterval c =? 0)%Z) then computeStressStrain e s1 (box_size c e s W) else s1.

Lemma action_unfold c e s W : sane c e W -> action c e s W =
  (if internalCompaction c then
        match stop_walls c W with
        | None => UB
        | Some W' =>
          if (iter e mod radiusControlInterval c =? 0)%Z then
            let s' := prepared c e s W in
            let '(mm, k) := multiplier c (maxMultiplier s') (meanStress s') in
            Done (setGrowth s' (match k with Some k => particlesVolume s' * (k * k * k) | None => particlesVolume s' end) mm (meanStress s') k) W' (Some k)
          else Done (prepared c e s W) W' None
        end
      else match driveAll c e (box_size c e s W) (max_vels c (box_size c e s W)) (prepared c e s W) W with Some (s', W') => Done s' W' None | None => UB end).
Proof.
  intros [WO [[I1 [I2 I3]] [v CV]]]. unfold action. fold (used_thickness e s). rewrite (sizes_spec c W _ WO).
  assert (E : (if first s || updatePorosity s then volumes (solids e) else Some (particlesVolume s)) = Some (solid_volume e s)).
  { unfold solid_volume. destruct (first s || updatePorosity s); [rewrite CV|]; reflexivity. }
  rewrite E. clear E.
  apply Z.eqb_neq in I1, I2, I3. rewrite I1, I2, I3. cbn [orb]. cbv beta zeta. reflexivity.
Qed.

Lemma action_external c e s W : sane c e W -> internalCompaction c = false -> exists s' W', action c e s W = Done s' W' None /\
    same_rest (prepared c e s W) s' /\
    (forall w, is_wall w -> W' (ids c w) = Some (mkW (position c W w) (vel_of c e (box_size c e s W) (max_vels c (box_size c e s W)) (prepared c e s W) w (velocity c W w)))) /\
    (forall i, (forall w, is_wall w -> ids c w <> i) -> W' i = W i) /\
    (forall w, is_wall w -> previousTranslation s' w = prev_of c e (box_size c e s W) (max_vels c (box_size c e s W)) (prepared c e s W) w) /\
    externalWork s' = externalWork s + total (map (fun w => work_of c e (box_size c e s W) (max_vels c (box_size c e s W)) (prepared c e s W) w (velocity c W w)) order).
Proof.
  intros SA IC. rewrite (action_unfold c e s W SA), IC. destruct SA as [WO _]. destruct (walls_ok_list c W WO) as [INJ PR].
  destruct (drive_list c e (box_size c e s W) (max_vels c (box_size c e s W)) order (prepared c e s W) W order_nodup INJ PR) as [s' [W' [F [R1 [V1 [O1 [P1 [_ E1]]]]]]]].
  assert (F' : driveAll c e (box_size c e s W) (max_vels c (box_size c e s W)) (prepared c e s W) W = Some (s', W')) by exact F.
  exists s', W'. split; [rewrite F'; reflexivity|]. split; [exact R1|].
  split; [intros w H; apply V1, order_in, H|]. split; [intros i H; apply O1; intros w I; apply H, order_wall, I|]. split; [intros w H; apply P1, order_in, H|].
  rewrite E1. f_equal. unfold prepared, prepared1. destruct (_ || _)%bool; destruct (_ || _)%bool; reflexivity.
Qed.
Lemma action_internal c e s W : sane c e W -> internalCompaction c = true -> exists W',
    stop_walls c W = Some W' /\
    (forall w, is_wall w -> W' (ids c w) = Some (mkW (position c W w) vzero)) /\ (forall i, (forall w, is_wall w -> ids c w <> i) -> W' i = W i) /\
    action c e s W = (if (iter e mod radiusControlInterval c =? 0)%Z then
            let s' := prepared c e s W in
            let '(mm, k) := multiplier c (maxMultiplier s') (meanStress s') in
            Done (setGrowth s' (match k with Some k => particlesVolume s' * (k * k * k) | None => particlesVolume s' end) mm (meanStress s') k) W' (Some k)
          else Done (prepared c e s W) W' None).
Proof.
  intros SA IC. rewrite (action_unfold c e s W SA), IC. destruct SA as [WO _]. destruct (walls_ok_list c W WO) as [INJ PR].
  destruct (stop_list c order W INJ order_nodup PR) as [W' [F [V1 O1]]].
  assert (F' : stop_walls c W = Some W') by exact F.
  exists W'. rewrite F'. split; [reflexivity|]. split; [intros w H; apply V1, order_in, H|]. split; [intros i H; apply O1; intros w I; apply H, order_wall, I|reflexivity].
Qed.
