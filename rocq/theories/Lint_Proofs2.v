From Coq Require Import Reals List ZArith Lra Lia Arith.
From Verif Require Import Lint_Model Lint_Spec Lint_Proofs.
Import ListNotations.
Local Open Scope R_scope.

(** ** all points with a given area under a slope *)
Lemma trap_height I x0 y0 x1 y1 t : x0 < x1 -> trapezoid x0 y0 x1 y1 t = I -> on_line x0 y0 x1 y1 t * on_line x0 y0 x1 y1 t = disc I x0 y0 x1 y1.
Proof. intros X <-. unfold trapezoid, on_line, disc. field. lra. Qed.
Lemma on_line_inv x0 y0 x1 y1 t h : x0 < x1 -> y0 <> y1 -> on_line x0 y0 x1 y1 t = h -> t = x0 + (h - y0) / ((y1 - y0) / (x1 - x0)).
Proof. intros X Y <-. pose proof (slope_nz _ _ _ _ X Y) as S. unfold on_line. remember ((y1 - y0) / (x1 - x0)) as s. field. exact S. Qed.
Lemma solutions I x0 y0 x1 y1 t : x0 < x1 -> y0 <> y1 -> trapezoid x0 y0 x1 y1 t = I ->
  0 <= disc I x0 y0 x1 y1 /\ (t = x0 + (sqrt (disc I x0 y0 x1 y1) - y0) / ((y1 - y0) / (x1 - x0)) \/ t = x0 + (- sqrt (disc I x0 y0 x1 y1) - y0) / ((y1 - y0) / (x1 - x0))).
Proof.
  intros X Y E. pose proof (trap_height I x0 y0 x1 y1 t X E) as H. assert (D : 0 <= disc I x0 y0 x1 y1) by (rewrite <- H; apply Rle_0_sqr). split; [exact D|].
  pose proof (sqrt_def _ D) as Q. pose proof (sqrt_pos (disc I x0 y0 x1 y1)) as P. remember (sqrt (disc I x0 y0 x1 y1)) as r. remember (on_line x0 y0 x1 y1 t) as h.
  assert (Z : (h - r) * (h + r) = 0) by (replace ((h - r) * (h + r)) with (h * h - r * r) by ring; lra).
  apply Rmult_integral in Z as [Z|Z]; [left|right]; apply on_line_inv; try assumption; lra.
Qed.
(** for a slope: what is returned is the only point, exceptions are raised if there is none or there are two *)
Lemma rev_exact I x0 y0 x1 y1 : x0 < x1 -> y0 <> y1 ->
  match revIntegrateLinear I x0 y0 x1 y1 with
  | Ret x => x0 <= x <= x1 /\ trapezoid x0 y0 x1 y1 x = I /\ forall t, x0 <= t <= x1 -> trapezoid x0 y0 x1 y1 t = I -> t = x
  | NoRadix => forall t, x0 <= t <= x1 -> trapezoid x0 y0 x1 y1 t <> I
  | BothRadices => exists s t, s <> t /\ x0 <= s <= x1 /\ x0 <= t <= x1 /\ trapezoid x0 y0 x1 y1 s = I /\ trapezoid x0 y0 x1 y1 t = I
  | AssertionFailed => forall t, x0 <= t <= x1 -> trapezoid x0 y0 x1 y1 t = I -> on_line x0 y0 x1 y1 t = 0
  | _ => False
  end.
Proof.
  intros X Y. pose proof (slope_nz _ _ _ _ X Y) as S. pose proof (rev_form I x0 y0 x1 y1 X Y) as F. cbv zeta in F.
  destruct (Rlt_dec 0 (disc I x0 y0 x1 y1)) as [D|D].
  2:{ rewrite F. intros t T E. pose proof (trap_height I x0 y0 x1 y1 t X E) as H. assert (0 <= on_line x0 y0 x1 y1 t * on_line x0 y0 x1 y1 t) by apply Rle_0_sqr. assert (Z : on_line x0 y0 x1 y1 t * on_line x0 y0 x1 y1 t = 0) by lra. apply Rmult_integral in Z as [Z|Z]; exact Z. }
  pose proof (sqrt_lt_R0 _ D) as P. assert (D0 : 0 <= disc I x0 y0 x1 y1) by lra. pose proof (sqrt_def _ D0) as Q. 
  assert (T1 : trapezoid x0 y0 x1 y1 (x0 + (sqrt (disc I x0 y0 x1 y1) - y0) / ((y1 - y0) / (x1 - x0))) = I) by (apply trap_root; assumption).
  assert (T2 : trapezoid x0 y0 x1 y1 (x0 + (- sqrt (disc I x0 y0 x1 y1) - y0) / ((y1 - y0) / (x1 - x0))) = I) by (apply trap_root; try assumption; rewrite <- Q at 3; ring).
  assert (SOL : forall t, trapezoid x0 y0 x1 y1 t = I -> t = x0 + (sqrt (disc I x0 y0 x1 y1) - y0) / ((y1 - y0) / (x1 - x0)) \/ t = x0 + (- sqrt (disc I x0 y0 x1 y1) - y0) / ((y1 - y0) / (x1 - x0))) by (intros t E; apply (solutions I x0 y0 x1 y1 t X Y E)).
  assert (NE : x0 + (sqrt (disc I x0 y0 x1 y1) - y0) / ((y1 - y0) / (x1 - x0)) <> x0 + (- sqrt (disc I x0 y0 x1 y1) - y0) / ((y1 - y0) / (x1 - x0))).
  { remember ((y1 - y0) / (x1 - x0)) as s. remember (sqrt (disc I x0 y0 x1 y1)) as r. intros E. assert (E' : (r - y0) / s * s = (- r - y0) / s * s) by (f_equal; lra). unfold Rdiv in E'. rewrite !Rmult_assoc, Rinv_l in E' by exact S. lra. }
  remember (x0 + (sqrt (disc I x0 y0 x1 y1) - y0) / ((y1 - y0) / (x1 - x0))) as p. remember (x0 + (- sqrt (disc I x0 y0 x1 y1) - y0) / ((y1 - y0) / (x1 - x0))) as q. rewrite F.
  destruct (within x0 p x1) eqn:WP, (within x0 q x1) eqn:WQ.
  - apply within_spec in WP. apply within_spec in WQ. exists p, q. auto.
  - apply within_spec in WP. split; [exact WP|]. split; [exact T1|]. intros t T E. destruct (SOL t E) as [H|H]; [exact H|exfalso]. subst t. apply within_spec in T. congruence.
  - apply within_spec in WQ. split; [exact WQ|]. split; [exact T2|]. intros t T E. destruct (SOL t E) as [H|H]; [exfalso|exact H]. subst t. apply within_spec in T. congruence.
  - intros t T E. apply within_spec in T. destruct (SOL t E) as [H|H]; subst t; congruence.
Qed.
(** ** areas that are not reached *)
Lemma whole_nonneg l : forall x0 y0, increasing x0 l -> nonnegative y0 l -> 0 <= whole x0 y0 l.
Proof.
  induction l as [|[x1 y1] l IH]; intros x0 y0 H (N0 & N); [unfold whole; cbn [end_x under]; lra|]. rewrite whole_cons by exact H. inversion N as [|? ? N1 N2]; subst. cbn [snd] in N1. destruct H as (A & B). specialize (IH x1 y1 B (conj N1 N2)). assert (0 <= (x1 - x0) * (y0 + y1)) by (apply Rmult_le_pos; lra). lra.
Qed.
Lemma search_over l : forall I sum x0 y0, increasing x0 l -> nonnegative y0 l -> whole x0 y0 l <= I - sum -> search I sum x0 y0 (map fst l) (map snd l) = NotReached.
Proof.
  induction l as [|[x1 y1] l IH]; intros I sum x0 y0 H (N0 & N) J; [reflexivity|]. cbn [map fst snd search]. cbv zeta. rewrite whole_cons in J by exact H. inversion N as [|? ? N1 N2]; subst. cbn [snd] in N1. destruct H as (A & B). pose proof (whole_nonneg l x1 y1 B (conj N1 N2)) as W.
  destruct (Rlt_dec I _) as [L|L]; [exfalso; lra|]. apply IH; [exact B|split; assumption|lra].
Qed.
Lemma frac_over I x0 y0 l : increasing x0 l -> nonnegative y0 l -> whole x0 y0 l <= I -> xFractionalFromIntegral I (xs x0 l) (ys y0 l) = NotReached.
Proof. intros H N J. change (xFractionalFromIntegral I (xs x0 l) (ys y0 l)) with (search I 0 x0 y0 (map fst l) (map snd l)). apply search_over; try assumption. lra. Qed.
Lemma integral_lengths (x y : list R) : length x <> length y -> integral x y = AssertionFailed.
Proof. intros H. unfold integral. destruct (Nat.eqb_spec (length x) (length y)); [contradiction|reflexivity]. Qed.
(** ** area is what has the height as derivative *)
Lemma trap_deriv x0 y0 x1 y1 t : derivable_pt_lim (trapezoid x0 y0 x1 y1) t (on_line x0 y0 x1 y1 t).
Proof.
  unfold on_line. remember ((y1 - y0) / (x1 - x0)) as k. apply derivable_pt_lim_ext with (fun u => y0 * (u - x0) + k / 2 * Rsqr (u - x0)).
  - intros z. unfold trapezoid, on_line, Rsqr. rewrite <- Heqk. field.
  - assert (D1 : derivable_pt_lim (fun u => u - x0) t 1) by (replace 1 with (1 - 0) by ring; apply (derivable_pt_lim_minus id (fct_cte x0) t 1 0); [apply derivable_pt_lim_id|apply derivable_pt_lim_const]).
    replace (y0 + k * (t - x0)) with (y0 * 1 + k / 2 * (2 * (t - x0) * 1)) by field.
    apply (derivable_pt_lim_plus (fun u => y0 * (u - x0)) (fun u => k / 2 * Rsqr (u - x0))).
    + apply (derivable_pt_lim_scal (fun u => u - x0) y0 t 1 D1).
    + apply (derivable_pt_lim_scal (fun u => Rsqr (u - x0)) (k / 2) t). apply (derivable_pt_lim_comp (fun u => u - x0) Rsqr t 1 (2 * (t - x0)) D1). apply derivable_pt_lim_Rsqr.
Qed.
Lemma under_deriv l : forall x0 y0 t, increasing x0 l -> x0 < t < end_x x0 l -> ~ In t (map fst l) -> derivable_pt_lim (under x0 y0 l) t (height x0 y0 l t).
Proof.
  induction l as [|[x1 y1] l IH]; intros x0 y0 t H T N; [cbn [end_x] in T; exfalso; lra|]. destruct H as (A & B). cbn [map fst] in N. cbn [end_x] in T.
  assert (NE : x1 <> t) by (intros ->; apply N; left; reflexivity). destruct (Rlt_dec t x1) as [L|L].
  - apply derivable_pt_lim_locally_ext with (trapezoid x0 y0 x1 y1) x0 x1; [lra| |].
    + intros z Z. symmetry. apply under_first; lra.
    + cbn [height]. destruct (Rle_dec t x0); [exfalso; lra|]. destruct (Rle_dec t x1); [|exfalso; lra]. apply trap_deriv.
  - assert (T' : x1 < t < end_x x1 l) by lra. specialize (IH x1 y1 t B T' (fun Q => N (or_intror Q))).
    apply derivable_pt_lim_locally_ext with (fun u => trapezoid x0 y0 x1 y1 x1 + under x1 y1 l u) x1 (t + 1); [lra| |].
    + intros z Z. symmetry. apply under_later; lra.
    + cbn [height]. destruct (Rle_dec t x0); [exfalso; lra|]. destruct (Rle_dec t x1); [exfalso; lra|]. replace (height x1 y1 l t) with (0 + height x1 y1 l t) by ring. apply (derivable_pt_lim_plus (fct_cte (trapezoid x0 y0 x1 y1 x1)) (under x1 y1 l)); [apply derivable_pt_lim_const|exact IH].
Qed.
Lemma trap_cont x0 y0 x1 y1 t : continuity_pt (trapezoid x0 y0 x1 y1) t.
Proof. apply derivable_continuous_pt. exists (on_line x0 y0 x1 y1 t). apply trap_deriv. Qed.
(** the step between two points is the trapezoid of their heights, if there is no corner in between: no jump at corners *)
Lemma under_start_area x0 y0 l : under x0 y0 l x0 = 0. Proof. apply under_start. Qed.
Lemma under_step l : forall x0 y0 s t, increasing x0 l -> x0 <= s -> s <= t -> t <= end_x x0 l -> (forall c, In c (map fst l) -> c <= s \/ t <= c) -> under x0 y0 l t - under x0 y0 l s = (t - s) * (height x0 y0 l s + height x0 y0 l t) / 2.
Proof.
  induction l as [|[x1 y1] l IH]; intros x0 y0 s t H S ST T N; [cbn [end_x under height] in *; assert (t = s) by lra; subst; lra|]. destruct H as (A & B). cbn [map fst end_x] in *.
  assert (HH : forall u, x0 <= u <= x1 -> height x0 y0 ((x1, y1) :: l) u = on_line x0 y0 x1 y1 u) by (intros u U; cbn [height]; destruct (Rle_dec u x0); [assert (u = x0) by lra; subst u; unfold on_line; ring|destruct (Rle_dec u x1); [reflexivity|exfalso; lra]]).
  assert (HL : forall u, x1 <= u -> height x0 y0 ((x1, y1) :: l) u = height x1 y1 l u) by (intros u U; cbn [height]; destruct (Rle_dec u x0); [exfalso; lra|]; destruct (Rle_dec u x1); [|reflexivity]; rewrite height_start by lra; assert (u = x1) by lra; subst u; unfold on_line; field; lra).
  destruct (N x1 (or_introl eq_refl)) as [C|C].
  - rewrite !under_later, !HL by lra. rewrite <- (IH x1 y1 s t B C ST T (fun c Q => N c (or_intror Q))). ring.
  - rewrite !under_first, !HH by lra. unfold trapezoid, on_line. field. lra.
Qed.
(** ** counterexamples *)
Lemma rev_level_refuted : revIntegrateLinear 5 0 1 1 1 = Ret (0 + 5 / 1) /\ ~ (0 <= 0 + 5 / 1 <= 1).
Proof. split; [apply rev_level; lra|lra]. Qed.
Lemma rev_corner_refuted : revIntegrateLinear 0 0 0 1 1 = AssertionFailed /\ trapezoid 0 0 1 1 0 = 0 /\ forall t, 0 <= t <= 1 -> trapezoid 0 0 1 1 t = 0 -> t = 0.
Proof.
  split; [apply rev_corner; lra|]. split; [unfold trapezoid; lra|]. intros t T E. unfold trapezoid, on_line in E. assert (Z : t * t = 0) by lra. apply Rmult_integral in Z. destruct Z; assumption.
Qed.
Lemma rev_zero_refuted I : revIntegrateLinear I 0 0 1 0 = ZeroDivision.
Proof. unfold revIntegrateLinear. cbv zeta. destruct (Req_EM_T (0 - 0) 0) as [_|N]; [|exfalso; lra]. unfold quotient. destruct (Req_EM_T 0 0) as [_|N]; [reflexivity|exfalso; apply N; reflexivity]. Qed.
Lemma frac_end_refuted x0 y0 l : increasing x0 l -> nonnegative y0 l -> xFractionalFromIntegral (under x0 y0 l (end_x x0 l)) (xs x0 l) (ys y0 l) = NotReached.
Proof. intros H N. apply frac_over; try assumption. unfold whole. lra. Qed.
Lemma frac_negative_refuted : xFractionalFromIntegral (-1) (xs 0 [(1, 1)]) (ys 1 [(1, 1)]) = Ret (0 + (-1 - 0) / 1) /\ 0 + (-1 - 0) / 1 < 0.
Proof.
  split; [|lra]. unfold xFractionalFromIntegral, xs, ys. cbn [map fst snd search]. cbv zeta. destruct (Rlt_dec _ _) as [_|N]; [apply rev_level; lra|exfalso; lra].
Qed.
Lemma frac_corner_refuted : xFractionalFromIntegral 0 (xs 0 [(1, 1)]) (ys 0 [(1, 1)]) = AssertionFailed.
Proof.
  unfold xFractionalFromIntegral, xs, ys. cbn [map fst snd search]. cbv zeta. destruct (Rlt_dec _ _) as [_|N]; [|exfalso; lra]. replace (0 - 0) with 0 by ring. apply rev_corner; lra.
Qed.
Lemma periodic_zero_refuted I : xFromIntegral I (xs 0 [(1, 0)]) (ys 0 [(1, 0)]) = ZeroDivision.
Proof.
  unfold xFromIntegral, xs at 1. cbv zeta. rewrite integral_area by (cbn [increasing]; lra). cbn [bind]. assert (W : whole 0 0 [(1, 0)] = 0) by (rewrite whole_cons by (cbn [increasing]; lra); unfold whole; cbn [end_x under]; lra). rewrite W. unfold quotient. destruct (Req_EM_T 0 0) as [_|N]; [reflexivity|exfalso; apply N; reflexivity].
Qed.
Lemma periodic_negative_refuted : under 0 (-1) [(1, -1)] (1/2) = - (1/2) /\ xFromIntegral (- (1/2)) (xs 0 [(1, -1)]) (ys (-1) [(1, -1)]) = NotReached.
Proof.
  split. { rewrite under_first by lra. unfold trapezoid, on_line. lra. }
  unfold xFromIntegral, xs at 1. cbv zeta. rewrite integral_area by (cbn [increasing]; lra). cbn [bind]. assert (W : whole 0 (-1) [(1, -1)] = -1) by (rewrite whole_cons by (cbn [increasing]; lra); unfold whole; cbn [end_x under]; lra). rewrite W. rewrite quotient_ok by lra. cbn [bind].
  rewrite (floor_unique 0) by lra. unfold xFractionalFromIntegral, xs, ys. cbn [map fst snd search]. cbv zeta. destruct (Rlt_dec _ _) as [N|_]; [exfalso; lra|]. reflexivity.
Qed.
Lemma periodic_corner_refuted (n : Z) : xFromIntegral (IZR n) (xs 0 [(1, 1); (2, 0)]) (ys 0 [(1, 1); (2, 0)]) = AssertionFailed.
Proof.
  assert (H : increasing 0 [(1, 1); (2, 0)]) by (cbn [increasing]; lra). unfold xFromIntegral, xs at 1. cbv zeta. rewrite integral_area by exact H. cbn [bind].
  assert (W : whole 0 0 [(1, 1); (2, 0)] = 1). { rewrite whole_cons by exact H. rewrite whole_cons by apply H. unfold whole. cbn [end_x under]. lra. } rewrite W. rewrite quotient_ok by lra. cbn [bind]. rewrite (floor_unique n) by lra. replace (IZR n - IZR n * 1) with 0 by ring.
  unfold xFractionalFromIntegral, xs, ys. cbn [map fst snd search]. cbv zeta. destruct (Rlt_dec _ _) as [_|N]; [|exfalso; lra]. replace (0 - 0) with 0 by ring. rewrite rev_corner by lra. reflexivity.
Qed.
Lemma sanitize_empty y x0 x1 : sanitizeInterpolation [] y x0 x1 = IndexError.
Proof. reflexivity. Qed.
(** sanitizing again changes nothing *)
Lemma sanitize_again xa ya l x0 x1 : xa <= x0 -> x1 <= end_x xa l -> sanitizeInterpolation (xs xa l) (ys ya l) x0 x1 = Ret (xs xa l, ys ya l).
Proof.
  intros A B. unfold sanitizeInterpolation, xs at 1. rewrite last_x. destruct (Rlt_dec x0 xa); [exfalso; lra|]. cbn [bind fst snd app]. destruct (Rlt_dec _ x1); [exfalso; lra|]. reflexivity.
Qed.
