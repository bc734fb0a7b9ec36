(** control of strain and stress *)
From Coq Require Import Reals List ZArith Bool Arith Lra Lia.
From Verif Require Import Vec_Model Law_Model Triax_Model Triax_Spec Triax_Proofs Triax_Proofs2.
Import ListNotations.
Local Open Scope R_scope.

Lemma low_wall a : (a < 3)%nat -> is_wall (low a). Proof. unfold is_wall, low. lia. Qed.
Lemma high_wall a : (a < 3)%nat -> is_wall (high a). Proof. unfold is_wall, high. lia. Qed.
Lemma axis_low a : axis (low a) = a. Proof. unfold axis, low. rewrite Nat.mul_comm. apply Nat.div_mul. lia. Qed.
Lemma axis_high a : axis (high a) = a. Proof. unfold axis, high. symmetry. apply (Nat.div_unique _ 2 a 1); lia. Qed.
Lemma comp_coord a v : (a < 3)%nat -> comp a v = coord a v.
Proof. intro H. assert (D : a = 0%nat \/ a = 1%nat \/ a = 2%nat) by lia. destruct D as [-> | [-> | -> ]]; reflexivity. Qed.
Lemma coord_with a b v x : (a < 3)%nat -> (b < 3)%nat -> coord a (with_comp b v x) = if Nat.eqb a b then x else coord a v.
Proof. intros H G. assert (D : a = 0%nat \/ a = 1%nat \/ a = 2%nat) by lia. assert (D' : b = 0%nat \/ b = 1%nat \/ b = 2%nat) by lia. destruct D as [-> | [-> | -> ]]; destruct D' as [-> | [-> | -> ]]; reflexivity. Qed.
Lemma side_low a : (a < 3)%nat -> side (low a) = 1.
Proof. intro H. assert (D : a = 0%nat \/ a = 1%nat \/ a = 2%nat) by lia. destruct D as [-> | [-> | -> ]]; reflexivity. Qed.
Lemma side_high a : (a < 3)%nat -> side (high a) = -1.
Proof. intro H. assert (D : a = 0%nat \/ a = 1%nat \/ a = 2%nat) by lia. destruct D as [-> | [-> | -> ]]; reflexivity. Qed.
Lemma axis_lt w : is_wall w -> (axis w < 3)%nat.
Proof. intro H. walls H; cbn; lia. Qed.
Lemma coord_zero a : coord a vzero = 0.
Proof. destruct a as [|[|[|[|a]]]]; reflexivity. Qed.

(** C181 *)
(** relative velocity of opposite walls *)
Lemma strain_wall c e s W : sane c e W -> internalCompaction c = false -> exists s' W', action c e s W = Done s' W' None /\
  forall w, is_wall w -> ~ in_stress c (axis w) ->
    (activated c w = true -> coord (axis w) (velocity c W' w) = strainDamping c * coord (axis w) (velocity c W w) - (1 - strainDamping c) * side w * (coord (axis w) (goal c) / 2 * inner c W (used_thickness e s) (axis w)) /\
       (forall b, (b < 3)%nat -> b <> axis w -> coord b (velocity c W' w) = coord b (velocity c W w))) /\
    (activated c w = false -> velocity c W' w = vzero).
Proof.
  intros SA IC. destruct (action_external c e s W SA IC) as [s' [W' [E [_ [VW _]]]]]. exists s', W'. split; [exact E|].
  intros w H NS.
  assert (VV : velocity c W' w = vel_of c e (box_size c e s W) (max_vels c (box_size c e s W)) (prepared c e s W) w (velocity c W w)) by (unfold velocity at 1; rewrite (VW w H); reflexivity).
  rewrite VV. unfold vel_of. pose proof (axis_lt w H) as AL. rewrite (axis_eq w H).
  assert (B : bit (stressMask c) (axis w) = false). { unfold bit. unfold in_stress in NS. destruct (Z.testbit _ _); [exfalso; apply NS; reflexivity|reflexivity]. }
  rewrite B. split; intro A; rewrite A; [|reflexivity].
  split.
  - rewrite coord_with, Nat.eqb_refl by assumption. rewrite !comp_coord by assumption. rewrite (coord_box c e s W) by assumption. lra.
  - intros b Hb N. rewrite coord_with by assumption. apply Nat.eqb_neq in N. rewrite N. reflexivity.
Qed.
Lemma rate_step c e s W : sane c e W -> internalCompaction c = false -> exists s' W', action c e s W = Done s' W' None /\
  forall a, (a < 3)%nat -> ~ in_stress c a -> activated c (low a) = true -> activated c (high a) = true ->
   coord a (velocity c W' (high a)) - coord a (velocity c W' (low a)) =
   strainDamping c * (coord a (velocity c W (high a)) - coord a (velocity c W (low a))) + (1 - strainDamping c) * (coord a (goal c) * inner c W (used_thickness e s) a).
Proof.
  intros SA IC. destruct (strain_wall c e s W SA IC) as [s' [W' [E H]]]. exists s', W'. split; [exact E|].
  intros a Ha NS AL AH. destruct (H (low a) (low_wall a Ha)) as [L _]; [rewrite axis_low; exact NS|]. destruct (H (high a) (high_wall a Ha)) as [G _]; [rewrite axis_high; exact NS|].
  destruct (L AL) as [L' _]. destruct (G AH) as [G' _]. rewrite axis_low, (side_low a Ha) in L'. rewrite axis_high, (side_high a Ha) in G'. rewrite L', G'. lra.
Qed.
(** the rate shown *)
Lemma shown_rate c s W : walls_ok c W -> exists r, getStrainRate c s W = Some r /\ forall a, (a < 3)%nat -> coord a r = (coord a (velocity c W (high a)) - coord a (velocity c W (low a))) / coord a (size s).
Proof.
  intros [_ P]. unfold getStrainRate, velocity.
  destruct (W (ids c 0%nat)) as [b0|] eqn:E0; [|exfalso; apply (P 0%nat); [unfold is_wall; lia|exact E0]].
  destruct (W (ids c 1%nat)) as [b1|] eqn:E1; [|exfalso; apply (P 1%nat); [unfold is_wall; lia|exact E1]].
  destruct (W (ids c 2%nat)) as [b2|] eqn:E2; [|exfalso; apply (P 2%nat); [unfold is_wall; lia|exact E2]].
  destruct (W (ids c 3%nat)) as [b3|] eqn:E3; [|exfalso; apply (P 3%nat); [unfold is_wall; lia|exact E3]].
  destruct (W (ids c 4%nat)) as [b4|] eqn:E4; [|exfalso; apply (P 4%nat); [unfold is_wall; lia|exact E4]].
  destruct (W (ids c 5%nat)) as [b5|] eqn:E5; [|exfalso; apply (P 5%nat); [unfold is_wall; lia|exact E5]].
  eexists. split; [reflexivity|]. intros a Ha. assert (D : a = 0%nat \/ a = 1%nat \/ a = 2%nat) by lia.
  destruct D as [-> | [-> | -> ]]; unfold high, low; cbn [Nat.mul Nat.add]; rewrite ?E0, ?E1, ?E2, ?E3, ?E4, ?E5; reflexivity.
Qed.
Lemma done_eq c e s W s1 W1 g1 s2 W2 g2 : action c e s W = Done s1 W1 g1 -> action c e s W = Done s2 W2 g2 -> s2 = s1 /\ W2 = W1 /\ g2 = g1.
Proof. intros A B. rewrite A in B. injection B as <- <- <-. repeat split. Qed.
Lemma rate_shown_step c e s W : sane c e W -> internalCompaction c = false -> positive_box c e s W -> exists s' W' r, action c e s W = Done s' W' None /\ getStrainRate c s' W' = Some r /\
  forall a, (a < 3)%nat -> ~ in_stress c a -> activated c (low a) = true -> activated c (high a) = true ->
   coord a r - coord a (goal c) = strainDamping c * ((coord a (velocity c W (high a)) - coord a (velocity c W (low a))) / inner c W (used_thickness e s) a - coord a (goal c)).
Proof.
  intros SA IC P. destruct (rate_step c e s W SA IC) as [s' [W' [E H]]].
  destruct (only_walls c e s W SA) as [s2 [W2 [g2 [E2 [_ [_ [_ [_ WO]]]]]]]]. destruct (done_eq _ _ _ _ _ _ _ _ _ _ E E2) as [-> [-> _]].
  destruct (sizes_are_measured c e s W SA) as [s3 [W3 [g3 [E3 [_ SZ]]]]]. destruct (done_eq _ _ _ _ _ _ _ _ _ _ E E3) as [-> [-> _]].
  destruct (shown_rate c s' W' WO) as [r [G R]]. exists s', W', r. split; [exact E|]. split; [exact G|].
  intros a Ha NS AL AH. rewrite (R a Ha), (H a Ha NS AL AH), (SZ a Ha). pose proof (P a Ha). field. lra.
Qed.
(** no damping: sizes follow the rates exactly, whatever the forces *)
Lemma inner_moves c h W W' th a : moves c h W W' -> (a < 3)%nat -> inner c W' th a = inner c W th a + h * (coord a (velocity c W (high a)) - coord a (velocity c W (low a))).
Proof.
  intros M Ha. unfold inner. unfold position at 1 2. rewrite (M _ (low_wall a Ha)), (M _ (high_wall a Ha)). cbn [wpos].
  assert (L : forall x y, coord a (vadd x (smul h y)) = coord a x + h * coord a y).
  { intros [x1 x2 x3] [y1 y2 y3]. assert (D : a = 0%nat \/ a = 1%nat \/ a = 2%nat) by lia. destruct D as [-> | [-> | -> ]]; reflexivity. }
  rewrite !L. lra.
Qed.
Lemma inner_same_pos c W W' th a : (a < 3)%nat -> (forall w, is_wall w -> position c W' w = position c W w) -> inner c W' th a = inner c W th a.
Proof. intros Ha H. unfold inner. rewrite (H _ (low_wall a Ha)), (H _ (high_wall a Ha)). reflexivity. Qed.
Lemma used_thick e s : 0 <= thickness s -> used_thickness e s = thickness s.
Proof. intro H. unfold used_thickness. destruct (Rlt_dec (thickness s) 0); [lra|reflexivity]. Qed.
Lemma sizes_follow c l s W s' W' a : runs c (fun e _ W => sane c e W) l s W s' W' -> internalCompaction c = false -> strainDamping c = 0 -> 0 <= thickness s ->
  (a < 3)%nat -> ~ in_stress c a -> activated c (low a) = true -> activated c (high a) = true ->
  inner c W' (thickness s) a = product (map (fun e => 1 + coord a (goal c) * dt e) l) * inner c W (thickness s) a.
Proof.
  intros RN IC SD T Ha NS AL AH. revert T. induction RN as [s W|e l s W s1 W1 g W2 s' W' SA AC MV RN IH]; intro T.
  - cbn. lra.
  - destruct (rate_step c e s W SA IC) as [sx [Wx [E H]]]. destruct (done_eq _ _ _ _ _ _ _ _ _ _ AC E) as [-> [-> _]]. specialize (H a Ha NS AL AH).
    destruct (only_walls c e s W SA) as [s2 [Wy [g2 [E2 [PO _]]]]]. destruct (done_eq _ _ _ _ _ _ _ _ _ _ AC E2) as [-> [-> _]].
    destruct (sizes_are_measured c e s W SA) as [s3 [W3 [g3 [E3 [TH _]]]]]. destruct (done_eq _ _ _ _ _ _ _ _ _ _ AC E3) as [-> [-> _]].
    rewrite (used_thick e s T) in TH, H. rewrite TH in IH. rewrite (IH T). rewrite (inner_moves c (dt e) W1 W2 _ a MV Ha), H, SD.
    rewrite (inner_same_pos c W W1 _ a Ha PO). cbn [map product]. ring.
Qed.
(** with damping a rate at its goal leaves it at the next step *)
Lemma rate_leaves_goal c e s W e2 W2 s1 W1 g : sane c e W -> internalCompaction c = false -> 0 <= thickness s -> positive_box c e s W ->
  action c e s W = Done s1 W1 g -> moves c (dt e) W1 W2 -> sane c e2 W2 -> positive_box c e2 s1 W2 ->
  forall a, (a < 3)%nat -> ~ in_stress c a -> activated c (low a) = true -> activated c (high a) = true ->
  coord a (velocity c W (high a)) - coord a (velocity c W (low a)) = coord a (goal c) * inner c W (thickness s) a -> 0 < strainDamping c -> coord a (goal c) <> 0 -> dt e <> 0 ->
  exists s2 W3 r, action c e2 s1 W2 = Done s2 W3 None /\ getStrainRate c s2 W3 = Some r /\ coord a r <> coord a (goal c).
Proof.
  intros SA IC T P AC MV SA2 P2 a Ha NS AL AH EQ D G0 DT.
  destruct (rate_step c e s W SA IC) as [sx [Wx [E H]]]. destruct (done_eq _ _ _ _ _ _ _ _ _ _ AC E) as [-> [-> _]]. specialize (H a Ha NS AL AH).
  destruct (only_walls c e s W SA) as [sy [Wy [g2 [E2 [PO _]]]]]. destruct (done_eq _ _ _ _ _ _ _ _ _ _ AC E2) as [-> [-> _]].
  destruct (sizes_are_measured c e s W SA) as [s3 [W3 [g3 [E3 [TH _]]]]]. destruct (done_eq _ _ _ _ _ _ _ _ _ _ AC E3) as [-> [-> _]].
  destruct (rate_shown_step c e2 s1 W2 SA2 IC P2) as [s2 [W4 [r [E4 [RS RR]]]]]. exists s2, W4, r. split; [exact E4|]. split; [exact RS|].
  specialize (RR a Ha NS AL AH). intro Q. rewrite Q in RR.
  rewrite (used_thick e s T) in TH, H. assert (T1 : 0 <= thickness s1) by lra. specialize (P2 a Ha). rewrite (used_thick e2 s1 T1) in *. rewrite TH in *.
  assert (V2 : coord a (velocity c W2 (high a)) - coord a (velocity c W2 (low a)) = coord a (velocity c W1 (high a)) - coord a (velocity c W1 (low a))).
  { unfold velocity at 1 2. rewrite (MV _ (low_wall a Ha)), (MV _ (high_wall a Ha)). reflexivity. }
  rewrite V2, H, EQ in RR. rewrite (inner_moves c (dt e) W1 W2 _ a MV Ha), H, EQ, (inner_same_pos c W W1 _ a Ha PO) in RR, P2.
  pose proof (P a Ha) as P1. rewrite (used_thick e s T) in P1. remember (inner c W (thickness s) a) as x. remember (coord a (goal c)) as q. remember (dt e) as h. remember (strainDamping c) as d.
  replace (d * (q * x) + (1 - d) * (q * x)) with (q * x) in * by ring.
  assert (Z : d * (q * x / (x + h * (q * x)) - q) = 0) by lra. apply Rmult_integral in Z. destruct Z as [Z|Z]; [lra|].
  assert (Y : q * x = q * (x + h * (q * x))). { apply (Rmult_eq_reg_r (/ (x + h * (q * x)))); [|apply Rinv_neq_0_compat; lra]. rewrite (Rmult_assoc q (x + h * (q * x))), Rinv_r by lra. unfold Rdiv in Z. lra. }
  assert (Y2 : q * (q * (h * x)) = 0) by lra. apply Rmult_integral in Y2. destruct Y2 as [Y2|Y2]; [contradiction|]. apply Rmult_integral in Y2. destruct Y2 as [Y2|Y2]; [contradiction|]. apply Rmult_integral in Y2. destruct Y2; [contradiction|lra].
Qed.
(** only one wall activated: half the rate *)
Lemma one_wall_half c e s W : sane c e W -> internalCompaction c = false -> positive_box c e s W -> strainDamping c = 0 -> exists s' W' r, action c e s W = Done s' W' None /\ getStrainRate c s' W' = Some r /\
  forall a, (a < 3)%nat -> ~ in_stress c a -> activated c (low a) = false -> activated c (high a) = true -> coord a r = coord a (goal c) / 2.
Proof.
  intros SA IC P D. destruct (strain_wall c e s W SA IC) as [s' [W' [E H]]].
  destruct (only_walls c e s W SA) as [s2 [W2 [g2 [E2 [_ [_ [_ [_ WO]]]]]]]]. destruct (done_eq _ _ _ _ _ _ _ _ _ _ E E2) as [-> [-> _]].
  destruct (sizes_are_measured c e s W SA) as [s3 [W3 [g3 [E3 [_ SZ]]]]]. destruct (done_eq _ _ _ _ _ _ _ _ _ _ E E3) as [-> [-> _]].
  destruct (shown_rate c s' W' WO) as [r [G R]]. exists s', W', r. split; [exact E|]. split; [exact G|]. intros a Ha NS AL AH.
  destruct (H (low a) (low_wall a Ha)) as [_ L]; [rewrite axis_low; exact NS|]. destruct (H (high a) (high_wall a Ha)) as [U _]; [rewrite axis_high; exact NS|].
  destruct (U AH) as [U' _]. rewrite axis_high, (side_high a Ha), D in U'. rewrite (R a Ha), U', (L AL), coord_zero, (SZ a Ha). pose proof (P a Ha). field. lra.
Qed.
