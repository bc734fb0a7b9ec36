(** Random packings: radii. *)
From Coq Require Import Reals List ZArith Bool Lra Lia Psatz Sorted.
From Verif Require Import Vec_Model Vec_Proofs Cloud_Model Cloud_Spec Cloud_Proofs.
Import ListNotations.
Local Open Scope R_scope.

(** ** interpolation *)
Lemma sqrt_inv_sq a : 0 < a -> sqrt (/ (a * a)) = / a.
Proof. intros H. rewrite Rinv_mult. apply sqrt_square. left. apply Rinv_0_lt_compat. exact H. Qed.
Lemma inv_sq_le a b : 0 < a -> a <= b -> 0 < / (b * b) /\ / (b * b) <= / (a * a).
Proof. intros H1 H2. split; [apply Rinv_0_lt_compat; apply Rmult_lt_0_compat; lra|]. apply Rinv_le_contravar; [apply Rmult_lt_0_compat; lra|apply Rmult_le_compat; lra]. Qed.
Lemma pow3_mono a b x y : 0 < a -> a <= b -> 0 <= x -> x <= y -> y <= 1 -> pow3Interp x a b <= pow3Interp y a b.
Proof.
  intros A B X Y Z. unfold pow3Interp. destruct (inv_sq_le a b A B) as [U V]. remember (/ (a * a)) as u. remember (/ (b * b)) as v. clear Hequ Heqv.
  pose proof (Rmult_le_compat_r (u - v) x y ltac:(lra) Y). pose proof (Rmult_le_compat_r (u - v) y 1 ltac:(lra) Z).
  apply Rinv_le_contravar; [apply sqrt_lt_R0; lra|]. apply sqrt_le_1_alt. lra.
Qed.
Lemma pow3_0 a b : 0 < a -> pow3Interp 0 a b = a.
Proof. intros A. unfold pow3Interp. rewrite Rmult_0_l, Rplus_0_l, sqrt_inv_sq by exact A. apply Rinv_inv. Qed.
Lemma pow3_1 a b : 0 < b -> pow3Interp 1 a b = b.
Proof. intros A. unfold pow3Interp. replace (1 * (/ (b * b) - / (a * a)) + / (a * a)) with (/ (b * b)) by ring. rewrite sqrt_inv_sq by exact A. apply Rinv_inv. Qed.
Lemma pow3_range a b x : 0 < a -> a <= b -> 0 <= x <= 1 -> a <= pow3Interp x a b <= b.
Proof.
  intros A B X. split.
  - rewrite <- (pow3_0 a b A) at 1. apply pow3_mono; lra.
  - rewrite <- (pow3_1 a b) at 2 by lra. apply pow3_mono; lra.
Qed.
Lemma linear_range a b t : a <= b -> 0 <= t <= 1 -> a <= a + t * (b - a) <= b.
Proof. intros H T. pose proof (Rmult_le_pos t (b - a) ltac:(lra) ltac:(lra)). pose proof (Rmult_le_pos (1 - t) (b - a) ltac:(lra) ltac:(lra)). lra. Qed.

(** ** pieces *)
Lemma upper_spec x l : (upper x l <= length l)%nat /\ (forall i a, (i < upper x l)%nat -> nth_error l i = Some a -> a <= x) /\ (forall a, nth_error l (upper x l) = Some a -> x < a).
Proof.
  induction l as [|b l (A & B & C)]; cbn [upper length]; [split; [lia|]; split; [intros i a H; lia|discriminate]|].
  destruct (leb b x) eqn:E.
  - apply leb_true in E. split; [lia|]. split; [|exact C]. intros [|i] a H N; cbn [nth_error] in N; [injection N as <-; exact E|]. apply (B i); [lia|exact N].
  - apply leb_false in E. split; [lia|]. split; [intros i a H; lia|]. intros a [= <-]. exact E.
Qed.
Lemma upper_mono x y l : x <= y -> (upper x l <= upper y l)%nat.
Proof. intros H. induction l as [|b l IH]; cbn [upper]; [lia|]. destruct (leb b x) eqn:E; [|lia]. apply leb_true in E. assert (F : leb b y = true) by (apply leb_true; lra). rewrite F. lia. Qed.
Lemma piece_spec x l i t : psdGetPiece x l = Some (i, t) -> upper x l = S i /\ exists a b, nth_error l i = Some a /\ nth_error l (S i) = Some b /\ a <= x < b /\ t = (x - a) / (b - a) /\ 0 <= t < 1.
Proof.
  unfold psdGetPiece. destruct (upper_spec x l) as (A & B & C). destruct (upper x l) as [|j]; [discriminate|].
  destruct (nth_error l j) as [a|] eqn:Ea; [|discriminate]. destruct (nth_error l (S j)) as [b|] eqn:Eb; [|discriminate]. intros [= <- <-].
  split; [reflexivity|]. exists a, b. pose proof (B j a ltac:(lia) Ea) as H1. pose proof (C b eq_refl) as H2.
  split; [exact Ea|]. split; [exact Eb|]. split; [lra|]. split; [reflexivity|].
  assert (P : 0 < / (b - a)) by (apply Rinv_0_lt_compat; lra). unfold Rdiv. split; [apply Rmult_le_pos; lra|].
  apply (Rmult_lt_reg_r (b - a)); [lra|]. rewrite Rmult_assoc, Rinv_l by lra. lra.
Qed.
Lemma piece_some x l : hd 1 l <= x -> x < last l 0 -> exists i t, psdGetPiece x l = Some (i, t).
Proof.
  intros H1 H2. unfold psdGetPiece. destruct (upper_spec x l) as (A & B & C).
  destruct l as [|a0 l0]; [cbn [hd last] in *; lra|]. cbn [hd] in H1. cbn [upper] in *. assert (E : leb a0 x = true) by (apply leb_true; exact H1). rewrite E in *.
  assert (L : (S (upper x l0) < length (a0 :: l0))%nat).
  { destruct (Nat.eq_dec (S (upper x l0)) (length (a0 :: l0))) as [Q|]; [|lia]. exfalso.
    assert (N : nth_error (a0 :: l0) (length l0) = Some (last (a0 :: l0) 0)).
    { clear. revert a0. induction l0 as [|b l IH]; intros a0; [reflexivity|]. cbn [length nth_error]. rewrite IH. reflexivity. }
    pose proof (B (length l0) _ ltac:(cbn [length] in Q; lia) N). lra. }
  destruct (nth_error (a0 :: l0) (upper x l0)) as [a|] eqn:Ea; [|apply nth_error_None in Ea; lia].
  destruct (nth_error (a0 :: l0) (S (upper x l0))) as [b|] eqn:Eb; [|apply nth_error_None in Eb; lia]. eauto.
Qed.

(** ** one radius *)
Definition sorted (l : list R) : Prop := StronglySorted Rle l.
Lemma sorted_nth l : sorted l -> forall i j a b, (i <= j)%nat -> nth_error l i = Some a -> nth_error l j = Some b -> a <= b.
Proof.
  intros H. induction H as [|x l H IH F]; intros i j a b L A B; [destruct i; discriminate|].
  destruct i as [|i], j as [|j]; cbn [nth_error] in *; try lia; [injection A as <-; injection B as <-; lra|injection A as <-; exact (proj1 (Forall_forall _ _) F b (nth_error_In _ _ B))|]. apply (IH i j); try assumption; lia.
Qed.
Definition good (q : params) (p : plan) : Prop :=
  match how p with
  | RDIST_PSD => sorted (psdRadii p) /\ (distributeMass q = true -> Forall (fun a => 0 < a) (psdRadii p))
  | _ => 0 < mean p /\ 0 <= rRelFuzz q /\ (distributeMass q = true -> rRelFuzz q < 1)
  end.
Definition lowest (q : params) (p : plan) : R := match how p with RDIST_PSD => hd 0 (psdRadii p) | _ => mean p * (1 - rRelFuzz q) end.
Definition highest (q : params) (p : plan) : R := match how p with RDIST_PSD => last (psdRadii p) 0 | _ => mean p * (1 + rRelFuzz q) end.
Lemma sorted_hd l a : sorted l -> In a l -> hd 0 l <= a.
Proof. intros H I. apply In_nth_error in I as [j N]. destruct l as [|b l]; [destruct j; discriminate|]. exact (sorted_nth _ H 0%nat j b a ltac:(lia) eq_refl N). Qed.
Lemma last_nth (a0 : R) l d : nth_error (a0 :: l) (length l) = Some (last (a0 :: l) d).
Proof. revert a0. induction l as [|b l IH]; intros a0; [reflexivity|]. cbn [length nth_error]. rewrite IH. reflexivity. Qed.
Lemma sorted_last l a : sorted l -> In a l -> a <= last l 0.
Proof. intros H I. apply In_nth_error in I as [j N]. destruct l as [|b l]; [destruct j; discriminate|]. assert (nth_error (b :: l) j <> None) as K by congruence. apply nth_error_Some in K. cbn [length] in K. exact (sorted_nth _ H j (length l) a _ ltac:(lia) N (last_nth b l 0)). Qed.
Lemma fuzz_order q p : 0 < mean p -> 0 <= rRelFuzz q -> mean p * (1 - rRelFuzz q) <= mean p * (1 + rRelFuzz q).
Proof. intros A B. apply Rmult_le_compat_l; lra. Qed.
Lemma radius_mono q p x y a b : good q p -> 0 <= x -> x <= y -> y <= 1 -> radius q p x = Some a -> radius q p y = Some b -> a <= b.
Proof.
  intros G X Y Y1. unfold good in G. unfold radius. destruct (how p) eqn:W.
  1, 2: destruct G as (G1 & G2 & G3); intros [= <-] [= <-]; destruct (distributeMass q) eqn:D;
    [apply pow3_mono; try lra; [apply Rmult_lt_0_compat; [exact G1|specialize (G3 eq_refl); lra]|apply fuzz_order; assumption]
    |apply Rmult_le_compat_l; [lra|]; pose proof (Rmult_le_compat_r (rRelFuzz q) (2 * (x - 1/2)) (2 * (y - 1/2)) G2 ltac:(lra)); lra].
  destruct G as (G1 & G2).
  destruct (psdGetPiece x (cumm p)) as [[i t]|] eqn:P1; [|discriminate]. destruct (psdGetPiece y (cumm p)) as [[j u]|] eqn:P2; [|intros _; discriminate].
  destruct (piece_spec _ _ _ _ P1) as (U1 & a1 & b1 & A1 & B1 & R1 & T1 & T2). destruct (piece_spec _ _ _ _ P2) as (U2 & a2 & b2 & A2 & B2 & R2 & V1 & V2).
  pose proof (upper_mono x y (cumm p) Y) as L. rewrite U1, U2 in L.
  destruct (nth_error (psdRadii p) i) as [p1|] eqn:N1; [|discriminate]. destruct (nth_error (psdRadii p) (S i)) as [p2|] eqn:N2; [|discriminate].
  destruct (nth_error (psdRadii p) j) as [p3|] eqn:N3; [|intros _; discriminate]. destruct (nth_error (psdRadii p) (S j)) as [p4|] eqn:N4; [|intros _; discriminate].
  intros [= <-] [= <-].
  pose proof (sorted_nth _ G1 i (S i) p1 p2 ltac:(lia) N1 N2) as O1. pose proof (sorted_nth _ G1 j (S j) p3 p4 ltac:(lia) N3 N4) as O2.
  assert (Q : forall w, nth_error (psdRadii p) i = Some w -> distributeMass q = true -> 0 < w) by (intros w Nw D; exact (proj1 (Forall_forall _ _) (G2 D) w (nth_error_In _ _ Nw))).
  assert (Q' : forall w, nth_error (psdRadii p) j = Some w -> distributeMass q = true -> 0 < w) by (intros w Nw D; exact (proj1 (Forall_forall _ _) (G2 D) w (nth_error_In _ _ Nw))).
  destruct (Nat.eq_dec i j) as [->|Ne].
  - rewrite N1 in N3. injection N3 as <-. rewrite N2 in N4. injection N4 as <-. rewrite A1 in A2. injection A2 as <-. rewrite B1 in B2. injection B2 as <-.
    assert (T : t <= u). { rewrite T1, V1. unfold Rdiv. apply Rmult_le_compat_r; [left; apply Rinv_0_lt_compat; lra|lra]. }
    destruct (distributeMass q) eqn:D; [apply pow3_mono; try lra; exact (Q p1 N1 eq_refl)|]. pose proof (Rmult_le_compat_r (p2 - p1) t u ltac:(lra) T). lra.
  - pose proof (sorted_nth _ G1 (S i) j p2 p3 ltac:(lia) N2 N3) as O3.
    apply Rle_trans with p2; [|apply Rle_trans with p3; [exact O3|]].
    + destruct (distributeMass q) eqn:D; [apply pow3_range; [exact (Q p1 N1 eq_refl)|lra|lra]|apply linear_range; lra].
    + destruct (distributeMass q) eqn:D; [apply pow3_range; [exact (Q' p3 N3 eq_refl)|lra|lra]|apply linear_range; lra].
Qed.
Lemma radius_range q p x a : good q p -> 0 <= x <= 1 -> radius q p x = Some a -> lowest q p <= a <= highest q p.
Proof.
  intros G X. unfold good in G. unfold radius, lowest, highest. destruct (how p) eqn:W.
  1, 2: destruct G as (G1 & G2 & G3); intros [= <-]; destruct (distributeMass q) eqn:D;
    [apply pow3_range; [apply Rmult_lt_0_compat; [exact G1|specialize (G3 eq_refl); lra]|apply fuzz_order; assumption|exact X]
    |assert (E : mean p * (2 * (x - 1/2) * rRelFuzz q + 1) = mean p * (1 - rRelFuzz q) + x * (mean p * (1 + rRelFuzz q) - mean p * (1 - rRelFuzz q))) by field; rewrite E; apply linear_range; [apply fuzz_order; assumption|exact X]].
  destruct G as (G1 & G2). destruct (psdGetPiece x (cumm p)) as [[i t]|] eqn:P1; [|discriminate].
  destruct (piece_spec _ _ _ _ P1) as (U1 & a1 & b1 & A1 & B1 & R1 & T1 & T2).
  destruct (nth_error (psdRadii p) i) as [p1|] eqn:N1; [|discriminate]. destruct (nth_error (psdRadii p) (S i)) as [p2|] eqn:N2; [|discriminate]. intros [= <-].
  pose proof (sorted_nth _ G1 i (S i) p1 p2 ltac:(lia) N1 N2) as O1.
  pose proof (sorted_hd _ _ G1 (nth_error_In _ _ N1)). pose proof (sorted_last _ _ G1 (nth_error_In _ _ N2)).
  assert (B : p1 <= (if distributeMass q then pow3Interp t p1 p2 else p1 + t * (p2 - p1)) <= p2).
  { destruct (distributeMass q) eqn:D; [apply pow3_range; [exact (proj1 (Forall_forall _ _) (G2 eq_refl) p1 (nth_error_In _ _ N1))|exact O1|lra]|apply linear_range; lra]. }
  lra.
Qed.

(** ** ranks *)
Lemma rank_range q i : (Z.of_nat i < num q)%Z -> 0 <= rank_rand q i < 1.
Proof.
  intros H. unfold rank_rand. rewrite INR_IZR_INZ. apply IZR_lt in H. assert (0 <= IZR (Z.of_nat i)) by (apply (IZR_le 0); lia).
  assert (P : 0 < / (IZR (num q) + 1)) by (apply Rinv_0_lt_compat; lra). unfold Rdiv. split; [apply Rmult_le_pos; lra|].
  apply (Rmult_lt_reg_r (IZR (num q) + 1)); [lra|]. rewrite Rmult_assoc, Rinv_l by lra. lra.
Qed.
Lemma rank_le q i j : (0 < num q)%Z -> (i <= j)%nat -> rank_rand q j <= rank_rand q i.
Proof.
  intros H L. unfold rank_rand, Rdiv. apply IZR_lt in H. apply Rmult_le_compat_r; [left; apply Rinv_0_lt_compat; lra|]. apply le_INR in L. lra.
Qed.
Lemma sorted_ge_intro (l : list R) : (forall i j a b, (i < j)%nat -> nth_error l i = Some a -> nth_error l j = Some b -> a >= b) -> decreasing l.
Proof.
  unfold decreasing. induction l as [|x l IH]; intros H; [constructor|]. constructor.
  - apply IH. intros i j a b L A B. apply (H (S i) (S j)); [lia|exact A|exact B].
  - apply Forall_forall. intros b I. apply In_nth_error in I as [j N]. exact (H 0%nat (S j) x b ltac:(lia) eq_refl N).
Qed.
Section Radii.
Variable rnd : nat -> R.
Hypothesis U : in_unit rnd.
Lemma grows_range q p i l new : good q p -> grows rnd q p i l new -> Forall (fun a => lowest q p <= r a <= highest q p) new.
Proof.
  intros G H. apply Forall_forall. intros a I. apply In_nth_error in I as [j N]. destruct (grows_nth rnd q p new i l j a H N) as (l' & kr & kd & R & _ & _ & _ & M).
  apply (radius_range q p _ _ G) in R; [exact R|]. destruct (0 <? num q)%Z eqn:E; [|apply U]. apply Z.ltb_lt in E. unfold more in M. apply orb_prop in M as [M|M]; [|apply Z.ltb_lt in M; lia]. apply Z.ltb_lt in M.
  pose proof (rank_range q (i + j) M). lra.
Qed.
Lemma grows_decreasing q p l new : good q p -> (0 < num q)%Z -> grows rnd q p 0 l new -> decreasing (map r new).
Proof.
  intros G P H. apply sorted_ge_intro. intros i j a b L A B.
  destruct (nth_error new i) as [x|] eqn:X; [|rewrite nth_error_map, X in A; discriminate]. destruct (nth_error new j) as [y|] eqn:Y; [|rewrite nth_error_map, Y in B; discriminate].
  rewrite nth_error_map, X in A. rewrite nth_error_map, Y in B. cbn [option_map] in A, B. injection A as <-. injection B as <-.
  destruct (grows_nth rnd q p new 0 l i x H X) as (l1 & kr1 & kd1 & R1 & _ & _ & _ & M1). destruct (grows_nth rnd q p new 0 l j y H Y) as (l2 & kr2 & kd2 & R2 & _ & _ & _ & M2).
  apply Z.ltb_lt in P as P'. rewrite P' in *. cbn [Nat.add] in *. unfold more in *.
  apply orb_prop in M1 as [M1|M1]; apply Z.ltb_lt in M1; [|lia]. apply orb_prop in M2 as [M2|M2]; apply Z.ltb_lt in M2; [|lia].
  apply Rle_ge. apply (radius_mono q p (rank_rand q j) (rank_rand q i) (r y) (r x) G); [apply rank_range; exact M2|apply rank_le; lia|pose proof (rank_range q i M1); lra|exact R2|exact R1].
Qed.
End Radii.
