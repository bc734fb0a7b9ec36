From Coq Require Import Reals List ZArith Lra Lia Arith.
From Verif Require Import Lint_Model Lint_Spec.
Import ListNotations.
Local Open Scope R_scope.

Lemma within_spec x0 p x1 : within x0 p x1 = true <-> x0 <= p <= x1.
Proof. unfold within. destruct (Rle_dec x0 p), (Rle_dec p x1); split; intros; try reflexivity; try discriminate; lra. Qed.
Lemma within_false x0 p x1 : ~ (x0 <= p <= x1) -> within x0 p x1 = false.
Proof. intros H. destruct (within x0 p x1) eqn:E; [|reflexivity]. apply within_spec in E. contradiction. Qed.
Lemma quotient_ok a b : b <> 0 -> quotient a b = Ret (a / b).
Proof. intros H. unfold quotient. destruct (Req_EM_T b 0); [contradiction|reflexivity]. Qed.
(** ** one segment *)
Definition disc (I x0 y0 x1 y1 : R) : R := y0 * y0 + 2 * ((y1 - y0) / (x1 - x0)) * I.
Lemma sqrt_4 d : 0 < d -> sqrt (4 * d) = 2 * sqrt d.
Proof. intros H. rewrite sqrt_mult by lra. replace 4 with (2 * 2) by ring. rewrite sqrt_square by lra. reflexivity. Qed.
Lemma rev_form I x0 y0 x1 y1 : x0 < x1 -> y0 <> y1 ->
  let s := (y1 - y0) / (x1 - x0) in let r := sqrt (disc I x0 y0 x1 y1) in let p := x0 + (r - y0) / s in let q := x0 + (- r - y0) / s in
  revIntegrateLinear I x0 y0 x1 y1 =
  if Rlt_dec 0 (disc I x0 y0 x1 y1) then match within x0 p x1, within x0 q x1 with true, true => BothRadices | false, false => NoRadix | true, false => Ret p | false, true => Ret q end else AssertionFailed.
Proof.
  intros X Y s r p q. unfold revIntegrateLinear. cbv zeta. destruct (Req_EM_T (y1 - y0) 0) as [Z|_]; [exfalso; lra|]. rewrite quotient_ok by lra. cbn [bind].
  assert (S : (y1 - y0) / (x1 - x0) <> 0) by (unfold Rdiv; apply Rmult_integral_contrapositive; split; [lra|apply Rinv_neq_0_compat; lra]).
  replace (2 * (y0 - x0 * (y1 - y0) / (x1 - x0)) * (2 * (y0 - x0 * (y1 - y0) / (x1 - x0))) - 4 * ((y1 - y0) / (x1 - x0)) * (x0 * x0 * (y1 - y0) / (x1 - x0) - 2 * x0 * y0 - 2 * I)) with (4 * disc I x0 y0 x1 y1) by (unfold disc; field; lra).
  destruct (Rlt_dec 0 (4 * disc I x0 y0 x1 y1)) as [D|D]; (destruct (Rlt_dec 0 (disc I x0 y0 x1 y1)) as [D'|D']; [|]); try (exfalso; lra); [|reflexivity].
  rewrite !quotient_ok by (apply Rmult_integral_contrapositive; split; [lra|exact S]). cbn [bind]. rewrite sqrt_4 by exact D'. fold r.
  replace ((- (2 * (y0 - x0 * (y1 - y0) / (x1 - x0))) + 2 * r) / (2 * ((y1 - y0) / (x1 - x0)))) with p by (subst p s; field; lra).
  replace ((- (2 * (y0 - x0 * (y1 - y0) / (x1 - x0))) - 2 * r) / (2 * ((y1 - y0) / (x1 - x0)))) with q by (subst q s; field; lra). reflexivity.
Qed.
Lemma slope_nz x0 y0 x1 y1 : x0 < x1 -> y0 <> y1 -> (y1 - y0) / (x1 - x0) <> 0.
Proof. intros. unfold Rdiv. apply Rmult_integral_contrapositive. split; [lra|apply Rinv_neq_0_compat; lra]. Qed.
Lemma trap_root I x0 y0 x1 y1 r : x0 < x1 -> y0 <> y1 -> r * r = disc I x0 y0 x1 y1 -> trapezoid x0 y0 x1 y1 (x0 + (r - y0) / ((y1 - y0) / (x1 - x0))) = I.
Proof.
  intros X Y E. pose proof (slope_nz _ _ _ _ X Y) as S. unfold trapezoid, on_line. unfold disc in E. remember ((y1 - y0) / (x1 - x0)) as s.
  replace ((x0 + (r - y0) / s - x0) * (y0 + (y0 + s * (x0 + (r - y0) / s - x0))) / 2) with ((r * r - y0 * y0) / (2 * s)) by (field; exact S). rewrite E. field. exact S.
Qed.
(** what is returned for a slope is right *)
Lemma rev_sound I x0 y0 x1 y1 x : x0 < x1 -> y0 <> y1 -> revIntegrateLinear I x0 y0 x1 y1 = Ret x -> x0 <= x <= x1 /\ trapezoid x0 y0 x1 y1 x = I.
Proof.
  intros X Y. rewrite rev_form by assumption. cbv zeta. destruct (Rlt_dec 0 _) as [D|]; [|discriminate]. assert (Q : sqrt (disc I x0 y0 x1 y1) * sqrt (disc I x0 y0 x1 y1) = disc I x0 y0 x1 y1) by (apply sqrt_def; lra).
  remember (sqrt (disc I x0 y0 x1 y1)) as r. destruct (within x0 (x0 + (r - y0) / _) x1) eqn:P, (within x0 (x0 + (- r - y0) / _) x1) eqn:P'; try discriminate; intros E; injection E as <-; apply within_spec in P || apply within_spec in P'.
  - split; [exact P|]. apply trap_root; assumption.
  - split; [exact P'|]. apply trap_root; try assumption. rewrite <- Q. ring.
Qed.
Lemma rev_level I x0 y0 x1 : y0 <> 0 -> revIntegrateLinear I x0 y0 x1 y0 = Ret (x0 + I / y0).
Proof. intros H. unfold revIntegrateLinear. cbv zeta. destruct (Req_EM_T (y0 - y0) 0) as [_|N]; [|exfalso; apply N; ring]. rewrite quotient_ok by exact H. f_equal. field. exact H. Qed.
Lemma trap_level x0 y0 x1 t : trapezoid x0 y0 x1 y0 t = (t - x0) * y0.
Proof. unfold trapezoid, on_line. rewrite (Rminus_diag_eq y0 y0) by reflexivity. unfold Rdiv. rewrite !Rmult_0_l. field. Qed.
Lemma trap_end x0 y0 x1 y1 : x0 < x1 -> trapezoid x0 y0 x1 y1 x1 = (x1 - x0) * (y0 + y1) / 2.
Proof. intros H. unfold trapezoid, on_line. field. lra. Qed.
Lemma sqr_le a b : 0 <= b -> a * a <= b * b -> a <= b.
Proof. intros B H. destruct (Rle_dec a b) as [|N]; [assumption|exfalso]. assert (b * b < a * a) by (apply Rmult_le_0_lt_compat; lra). lra. Qed.
(** for functions which are not negative the point is found *)
Lemma rev_complete I x0 y0 x1 y1 : x0 < x1 -> 0 <= y0 -> 0 <= y1 -> 0 <= I <= trapezoid x0 y0 x1 y1 x1 -> 0 < y0 \/ 0 < I -> 0 < y1 \/ I < trapezoid x0 y0 x1 y1 x1 ->
  exists x, revIntegrateLinear I x0 y0 x1 y1 = Ret x /\ x0 <= x <= x1 /\ trapezoid x0 y0 x1 y1 x = I.
Proof.
  intros X Y0 Y1 (I0 & I1) H H'. destruct (Req_EM_T y0 y1) as [<-|N].
  - rewrite trap_level in *. assert (P : 0 < y0). { destruct H as [H|H]; [exact H|]. destruct (Req_EM_T y0 0) as [E|E]; [|lra]. rewrite E, Rmult_0_r in I1. lra. }
    exists (x0 + I / y0). split; [apply rev_level; lra|]. split; [|rewrite trap_level; field; lra]. split.
    + assert (0 <= I / y0) by (apply Rmult_le_pos; [lra|left; apply Rinv_0_lt_compat; exact P]). lra.
    + assert (I / y0 <= x1 - x0); [|lra]. apply Rmult_le_reg_r with y0; [exact P|]. unfold Rdiv. rewrite Rmult_assoc, Rinv_l by lra. lra.
  - rewrite trap_end in * by exact X. assert (ID : 0 < / (x1 - x0)) by (apply Rinv_0_lt_compat; lra).
    set (s := (y1 - y0) / (x1 - x0)). assert (DE : disc I x0 y0 x1 y1 = y0 * y0 + 2 * s * I) by reflexivity.
    assert (SD : s * (x1 - x0) = y1 - y0) by (unfold s; field; lra).
    assert (LE : y0 * y0 - y1 * y1 = - (2 * s * ((x1 - x0) * (y0 + y1) / 2))). { replace (2 * s * ((x1 - x0) * (y0 + y1) / 2)) with (s * (x1 - x0) * (y0 + y1)) by field. rewrite SD. ring. }
    assert (B : (0 < s /\ y0 < y1) \/ (s < 0 /\ y1 < y0)).
    { destruct (Rtotal_order y0 y1) as [L|[L|L]]; [left|contradiction|right]; (split; [|exact L]); unfold s, Rdiv; [apply Rmult_lt_0_compat; lra|]. assert (0 < (y0 - y1) * / (x1 - x0)) by (apply Rmult_lt_0_compat; lra). lra. }
    remember ((x1 - x0) * (y0 + y1) / 2) as T.
    assert (D : 0 < disc I x0 y0 x1 y1).
    { rewrite DE. destruct B as [(S & L)|(S & L)].
      - destruct H as [H|H]; [assert (0 < y0 * y0) by (apply Rmult_lt_0_compat; lra); assert (0 <= s * I) by (apply Rmult_le_pos; lra); lra|]. assert (0 <= y0 * y0) by (apply Rmult_le_pos; lra). assert (0 < s * I) by (apply Rmult_lt_0_compat; lra). lra.
      - destruct H' as [H'|H'].
        + assert (0 < y1 * y1) by (apply Rmult_lt_0_compat; lra). assert (0 <= - s * (T - I)) by (apply Rmult_le_pos; lra). lra.
        + assert (0 <= y1 * y1) by (apply Rmult_le_pos; lra). assert (0 < - s * (T - I)) by (apply Rmult_lt_0_compat; lra). lra. }
    rewrite rev_form by assumption. cbv zeta. fold s. destruct (Rlt_dec 0 _) as [_|]; [|contradiction].
    assert (Q : sqrt (disc I x0 y0 x1 y1) * sqrt (disc I x0 y0 x1 y1) = disc I x0 y0 x1 y1) by (apply sqrt_def; lra). assert (RP : 0 < sqrt (disc I x0 y0 x1 y1)) by (apply sqrt_lt_R0; exact D).
    assert (TR : trapezoid x0 y0 x1 y1 (x0 + (sqrt (disc I x0 y0 x1 y1) - y0) / s) = I) by (apply trap_root; [exact X|exact N|exact Q]).
    remember (sqrt (disc I x0 y0 x1 y1)) as r. rewrite DE in Q.
    assert (SN : s <> 0) by lra. assert (SI : s * / s = 1) by (apply Rinv_r; exact SN).
    assert (IN : x0 <= x0 + (r - y0) / s <= x1 /\ ~ (x0 <= x0 + (- r - y0) / s <= x1)).
    { remember ((r - y0) / s) as u. remember ((- r - y0) / s) as w. assert (U : s * u = r - y0) by (subst u; field; exact SN). assert (W : s * w = - r - y0) by (subst w; field; exact SN).
      destruct B as [(S & L)|(S & L)].
      - assert (A1 : y0 <= r) by (apply sqr_le; [lra|]; assert (0 <= s * I) by (apply Rmult_le_pos; lra); lra).
        assert (A2 : r <= y1) by (apply sqr_le; [lra|]; assert (0 <= s * (T - I)) by (apply Rmult_le_pos; lra); lra).
        split.
        + split; [assert (0 <= u); [apply Rmult_le_reg_l with s; lra|lra]|]. assert (u <= x1 - x0); [apply Rmult_le_reg_l with s; lra|lra].
        + intros (W1 & _). assert (0 <= s * w) by (apply Rmult_le_pos; lra). lra.
      - assert (A1 : r <= y0) by (apply sqr_le; [lra|]; assert (0 <= - s * I) by (apply Rmult_le_pos; lra); lra).
        assert (A2 : y1 <= r) by (apply sqr_le; [lra|]; assert (0 <= - s * (T - I)) by (apply Rmult_le_pos; lra); lra).
        split.
        + split; [assert (0 <= u); [apply Rmult_le_reg_l with (- s); lra|lra]|]. assert (u <= x1 - x0); [apply Rmult_le_reg_l with (- s); lra|lra].
        + intros (_ & W1). assert (0 <= - s * (x1 - x0 - w)) by (apply Rmult_le_pos; lra). lra. }
    destruct IN as (IN & OUT). apply within_spec in IN as IN'. rewrite IN', (within_false _ _ _ OUT). eexists. split; [reflexivity|]. split; [exact IN|exact TR].
Qed.
Lemma rev_corner x0 x1 y1 : x0 < x1 -> 0 < y1 -> revIntegrateLinear 0 x0 0 x1 y1 = AssertionFailed.
Proof. intros X Y. rewrite rev_form by lra. cbv zeta. destruct (Rlt_dec 0 _) as [D|]; [|reflexivity]. exfalso. unfold disc in D. rewrite !Rmult_0_r in D. lra. Qed.
(** ** areas *)
Lemma under_start x0 y0 l : under x0 y0 l x0 = 0.
Proof. destruct l as [|[x1 y1] l]; cbn [under]; [reflexivity|]. destruct (Rle_dec x0 x0); [reflexivity|exfalso; lra]. Qed.
Lemma end_after x0 l : increasing x0 l -> x0 <= end_x x0 l.
Proof. revert x0. induction l as [|[x1 y1] l IH]; intros x0 H; cbn [increasing end_x] in *; [lra|]. destruct H as (A & B). specialize (IH _ B). lra. Qed.
Lemma under_later x0 y0 x1 y1 l t : x0 < x1 -> x1 <= t -> under x0 y0 ((x1, y1) :: l) t = trapezoid x0 y0 x1 y1 x1 + under x1 y1 l t.
Proof.
  intros A B. cbn [under]. destruct (Rle_dec t x0); [exfalso; lra|]. destruct (Rle_dec t x1); [|reflexivity]. assert (t = x1) by lra. subst t. rewrite under_start. ring.
Qed.
Lemma under_first x0 y0 x1 y1 l t : x0 < x1 -> x0 <= t <= x1 -> under x0 y0 ((x1, y1) :: l) t = trapezoid x0 y0 x1 y1 t.
Proof. intros A B. cbn [under]. destruct (Rle_dec t x0). - assert (t = x0) by lra. subst t. unfold trapezoid. rewrite Rminus_diag_eq by reflexivity. unfold Rdiv. ring. - destruct (Rle_dec t x1); [reflexivity|exfalso; lra]. Qed.
Lemma whole_cons x0 y0 x1 y1 l : increasing x0 ((x1, y1) :: l) -> whole x0 y0 ((x1, y1) :: l) = (x1 - x0) * (y0 + y1) / 2 + whole x1 y1 l.
Proof. intros (A & B). unfold whole. cbn [end_x]. rewrite under_later by (try exact A; apply end_after; exact B). rewrite trap_end by exact A. reflexivity. Qed.
Lemma sum_from_whole l : forall sum x0 y0, increasing x0 l -> sum_from sum x0 y0 (map fst l) (map snd l) = Ret (sum + whole x0 y0 l).
Proof.
  induction l as [|[x1 y1] l IH]; intros sum x0 y0 H.
  - unfold whole. cbn [map sum_from end_x under]. f_equal. ring.
  - cbn [map fst snd sum_from]. rewrite IH by apply H. rewrite whole_cons by exact H. f_equal. field.
Qed.
Lemma integral_area x0 y0 l : increasing x0 l -> integral (xs x0 l) (ys y0 l) = Ret (whole x0 y0 l).
Proof. intros H. unfold integral, xs, ys. cbn [length]. rewrite !map_length, Nat.eqb_refl. rewrite sum_from_whole by exact H. f_equal. ring. Qed.
(** ** searching *)
Lemma search_complete l : forall I sum x0 y0, increasing x0 l -> nonnegative y0 l -> 0 <= I - sum < whole x0 y0 l ->
  (exists x, search I sum x0 y0 (map fst l) (map snd l) = Ret x /\ x0 <= x <= end_x x0 l /\ under x0 y0 l x = I - sum) \/
  (search I sum x0 y0 (map fst l) (map snd l) = AssertionFailed /\ exists x, zero_corner x0 y0 l x /\ x0 <= x <= end_x x0 l /\ under x0 y0 l x = I - sum).
Proof.
  induction l as [|[x1 y1] l IH]; intros I sum x0 y0 H N (I0 & I1).
  - exfalso. unfold whole in I1. cbn [under] in I1. lra.
  - rewrite whole_cons in I1 by exact H. destruct H as (A & B). destruct N as (N0 & N). inversion N as [|? ? N1 N2]; subst. cbn [snd] in N1. cbn [map fst snd search]. cbv zeta. pose proof (end_after _ _ B) as EA.
    replace ((x1 - x0) * (1 / 2) * (y1 + y0)) with (trapezoid x0 y0 x1 y1 x1) by (rewrite trap_end by exact A; field). pose proof (trap_end x0 y0 x1 y1 A) as TE.
    destruct (Rlt_dec I (sum + trapezoid x0 y0 x1 y1 x1)) as [L|L].
    + destruct (Rle_dec (I - sum) 0) as [Z|Z].
      * destruct (Rle_dec y0 0) as [Y|Y].
        -- right. assert (y0 = 0) by lra. subst y0. replace (I - sum) with 0 by lra. assert (Y1 : 0 < y1). { destruct (Rle_dec y1 0) as [Q|]; [|lra]. assert (y1 = 0) by lra. subst y1. rewrite TE in L. lra. }
           split; [apply rev_corner; assumption|]. exists x0. split; [left; reflexivity|]. cbn [end_x]. split; [lra|]. apply under_start.
        -- left. destruct (rev_complete (I - sum) x0 y0 x1 y1 A N0 N1) as (x & E & X & T); [lra|left; lra|right; lra|]. exists x. split; [exact E|]. cbn [end_x]. split; [lra|]. rewrite under_first by assumption. exact T.
      * left. destruct (rev_complete (I - sum) x0 y0 x1 y1 A N0 N1) as (x & E & X & T); [lra|right; lra|right; lra|]. exists x. split; [exact E|]. cbn [end_x]. split; [lra|]. rewrite under_first by assumption. exact T.
    + destruct (IH I (sum + trapezoid x0 y0 x1 y1 x1) x1 y1 B) as [(x & E & X & T)|(E & x & C & X & T)]; [split; assumption|lra| |].
      * left. exists x. split; [exact E|]. cbn [end_x]. split; [lra|]. rewrite under_later by lra. lra.
      * right. split; [exact E|]. exists x. split; [right; exact C|]. cbn [end_x]. split; [lra|]. rewrite under_later by lra. lra.
Qed.
Lemma frac_complete I x0 y0 l : increasing x0 l -> nonnegative y0 l -> 0 <= I < whole x0 y0 l ->
  (exists x, xFractionalFromIntegral I (xs x0 l) (ys y0 l) = Ret x /\ x0 <= x <= end_x x0 l /\ under x0 y0 l x = I) \/
  (xFractionalFromIntegral I (xs x0 l) (ys y0 l) = AssertionFailed /\ exists x, zero_corner x0 y0 l x /\ x0 <= x <= end_x x0 l /\ under x0 y0 l x = I).
Proof. intros H N J. change (xFractionalFromIntegral I (xs x0 l) (ys y0 l)) with (search I 0 x0 y0 (map fst l) (map snd l)). destruct (search_complete l I 0 x0 y0 H N) as [D|D]; [rewrite Rminus_0_r; exact J| |]; rewrite Rminus_0_r in D; auto. Qed.
Lemma positive_nonneg y0 l : positive y0 l -> nonnegative y0 l.
Proof. intros (A & B). split; [lra|]. eapply Forall_impl; [|exact B]. cbv beta. intros; lra. Qed.
Lemma positive_corner x0 y0 l x : positive y0 l -> ~ zero_corner x0 y0 l x.
Proof. intros (A & B) [C|C]; [injection C as _ C; lra|]. rewrite Forall_forall in B. specialize (B _ C). cbn [snd] in B. lra. Qed.
Lemma frac_found I x0 y0 l : increasing x0 l -> positive y0 l -> 0 <= I < whole x0 y0 l ->
  exists x, xFractionalFromIntegral I (xs x0 l) (ys y0 l) = Ret x /\ x0 <= x <= end_x x0 l /\ under x0 y0 l x = I.
Proof. intros H P J. destruct (frac_complete I x0 y0 l H (positive_nonneg _ _ P) J) as [D|(_ & x & C & _)]; [exact D|]. exfalso. exact (positive_corner _ _ _ _ P C). Qed.
Lemma trap_mono x0 y0 x1 y1 s t : x0 < x1 -> 0 < y0 -> 0 < y1 -> x0 <= s -> s < t -> t <= x1 -> trapezoid x0 y0 x1 y1 s < trapezoid x0 y0 x1 y1 t.
Proof.
  intros X Y0 Y1 A B C. unfold trapezoid, on_line. remember ((y1 - y0) / (x1 - x0)) as k. assert (K : k * (x1 - x0) = y1 - y0) by (subst k; field; lra).
  assert (D : 0 < (t - s) * (2 * y0 + k * ((s - x0) + (t - x0)))).
  { apply Rmult_lt_0_compat; [lra|]. destruct (Rle_dec 0 k) as [P|P]; [assert (0 <= k * (s - x0 + (t - x0))) by (apply Rmult_le_pos; lra); lra|].
    assert (0 <= - k * ((x1 - x0) - (s - x0))) by (apply Rmult_le_pos; lra). assert (0 <= - k * ((x1 - x0) - (t - x0))) by (apply Rmult_le_pos; lra). lra. }
  lra.
Qed.
Lemma under_mono l : forall x0 y0 s t, increasing x0 l -> positive y0 l -> x0 <= s -> s < t -> t <= end_x x0 l -> under x0 y0 l s < under x0 y0 l t.
Proof.
  induction l as [|[x1 y1] l IH]; intros x0 y0 s t H P A B C; cbn [end_x] in C; [exfalso; lra|]. destruct H as (X & H). destruct P as (Y0 & P). inversion P as [|? ? Y1 P']; subst. cbn [snd] in Y1.
  destruct (Rle_dec t x1) as [T|T]; [rewrite !under_first by lra; apply trap_mono; assumption|]. rewrite (under_later x0 y0 x1 y1 l t) by lra.
  assert (G : 0 < under x1 y1 l t) by (rewrite <- (under_start x1 y1 l); apply IH; [exact H|split; assumption|lra|lra|exact C]).
  destruct (Rle_dec s x1) as [S|S].
  - rewrite under_first by lra. destruct (Rle_dec x1 s) as [Q|Q]; [replace s with x1 by lra; lra|]. pose proof (trap_mono x0 y0 x1 y1 s x1 X Y0 Y1 A ltac:(lra) ltac:(lra)). lra.
  - rewrite under_later by lra. pose proof (IH x1 y1 s t H (conj Y1 P') ltac:(lra) B C). lra.
Qed.
Lemma under_inj l x0 y0 s t : increasing x0 l -> positive y0 l -> x0 <= s <= end_x x0 l -> x0 <= t <= end_x x0 l -> under x0 y0 l s = under x0 y0 l t -> s = t.
Proof.
  intros H P S T E. destruct (Rtotal_order s t) as [L|[L|L]]; [|exact L|]; exfalso; [pose proof (under_mono l x0 y0 s t H P ltac:(lra) L ltac:(lra))|pose proof (under_mono l x0 y0 t s H P ltac:(lra) L ltac:(lra))]; lra.
Qed.
(** searching is the inverse of area *)
Lemma frac_inverse x0 y0 l t : increasing x0 l -> positive y0 l -> x0 <= t < end_x x0 l -> xFractionalFromIntegral (under x0 y0 l t) (xs x0 l) (ys y0 l) = Ret t.
Proof.
  intros H P T. destruct (frac_found (under x0 y0 l t) x0 y0 l H P) as (x & E & X & U).
  - split; [|apply under_mono; try assumption; lra]. destruct (Rle_dec t x0) as [Q|Q]; [replace t with x0 by lra; rewrite under_start; lra|]. left. rewrite <- (under_start x0 y0 l). apply under_mono; try assumption; lra.
  - rewrite E. f_equal. apply (under_inj l x0 y0); try assumption; lra.
Qed.
Lemma floor_unique n r : IZR n <= r < IZR n + 1 -> Int_part r = n.
Proof.
  intros (A & B). unfold Int_part. assert (U : (n + 1)%Z = up r); [|rewrite <- U; lia]. apply tech_up; rewrite plus_IZR; lra.
Qed.
Lemma floor_spec r : IZR (Int_part r) <= r < IZR (Int_part r) + 1.
Proof. destruct (base_Int_part r) as (A & B). lra. Qed.
Lemma last_cons (m : list R) a d : last (a :: m) d = last m a.
Proof. revert a d. induction m as [|b m IH]; intros a d; [reflexivity|]. change (last (a :: b :: m) d) with (last (b :: m) d). rewrite (IH b d), (IH b a). reflexivity. Qed.
Lemma last_x l x0 : last (map fst l) x0 = end_x x0 l.
Proof. revert x0. induction l as [|[x1 y1] l IH]; intros x0; [reflexivity|]. cbn [map fst end_x]. rewrite last_cons. apply IH. Qed.
Lemma last_y l y0 : last (map snd l) y0 = end_y y0 l.
Proof. revert y0. induction l as [|[x1 y1] l IH]; intros y0; [reflexivity|]. cbn [map snd end_y]. rewrite last_cons. apply IH. Qed.
Lemma whole_pos x0 y0 l : increasing x0 l -> positive y0 l -> l <> [] -> 0 < whole x0 y0 l.
Proof. intros H P N. unfold whole. rewrite <- (under_start x0 y0 l). apply under_mono; try assumption; try lra. destruct l as [|[x1 y1] l]; [contradiction|]. destruct H as (A & B). cbn [end_x]. pose proof (end_after _ _ B). lra. Qed.
(** the periodic function: the inverse of area for any number of periods, negative ones too *)
Lemma periodic_inverse x0 y0 l (n : Z) t : increasing x0 l -> positive y0 l -> x0 <= t < end_x x0 l ->
  xFromIntegral (IZR n * whole x0 y0 l + under x0 y0 l t) (xs x0 l) (ys y0 l) = Ret ((end_x x0 l - x0) * IZR n + t).
Proof.
  intros H P T. assert (NE : l <> []) by (intros ->; cbn [end_x] in T; lra). pose proof (whole_pos x0 y0 l H P NE) as W. unfold xFromIntegral. unfold xs at 1. cbv zeta. rewrite last_x. rewrite integral_area by exact H. cbn [bind]. rewrite quotient_ok by lra. cbn [bind].
  assert (U0 : 0 <= under x0 y0 l t) by (destruct (Rle_dec t x0) as [Q|Q]; [replace t with x0 by lra; rewrite under_start; lra|left; rewrite <- (under_start x0 y0 l); apply under_mono; try assumption; lra]).
  assert (U1 : under x0 y0 l t < whole x0 y0 l) by (apply under_mono; try assumption; lra).
  assert (F : Int_part ((IZR n * whole x0 y0 l + under x0 y0 l t) / whole x0 y0 l) = n).
  { apply floor_unique. remember (under x0 y0 l t) as u. remember (whole x0 y0 l) as w. replace ((IZR n * w + u) / w) with (IZR n + u / w) by (field; lra). assert (0 <= u / w) by (apply Rmult_le_pos; [lra|left; apply Rinv_0_lt_compat; lra]). assert (u / w < 1) by (apply Rmult_lt_reg_r with w; [lra|]; unfold Rdiv; rewrite Rmult_assoc, Rinv_l by lra; lra). lra. }
  rewrite F. replace (IZR n * whole x0 y0 l + under x0 y0 l t - IZR n * whole x0 y0 l) with (under x0 y0 l t) by ring. rewrite frac_inverse by assumption. reflexivity.
Qed.
Lemma periodic_total x0 y0 l I : increasing x0 l -> positive y0 l -> l <> [] -> exists (n : Z) t, x0 <= t < end_x x0 l /\ I = IZR n * whole x0 y0 l + under x0 y0 l t.
Proof.
  intros H P NE. pose proof (whole_pos x0 y0 l H P NE) as W. pose proof (floor_spec (I / whole x0 y0 l)) as (A & B). remember (Int_part (I / whole x0 y0 l)) as n. remember (whole x0 y0 l) as w.
  assert (E : I / w * w = I) by (field; lra). assert (J : 0 <= I - IZR n * w < w).
  { split; [assert (IZR n * w <= I / w * w) by (apply Rmult_le_compat_r; lra); lra|]. assert (I / w * w < (IZR n + 1) * w) by (apply Rmult_lt_compat_r; lra). lra. }
  destruct (frac_found (I - IZR n * w) x0 y0 l H P) as (x & _ & X & U); [rewrite <- Heqw; exact J|]. exists n, x. split; [|lra]. split; [lra|]. destruct (Rlt_dec x (end_x x0 l)) as [Q|Q]; [exact Q|exfalso]. replace x with (end_x x0 l) in U by lra. fold (whole x0 y0 l) in U. lra.
Qed.
(** ** sanitizing *)
Definition pad_head (x0 a ya : R) (l : list (R * R)) : R * R * list (R * R) := if Rlt_dec x0 a then (x0, ya, (a, ya) :: l) else (a, ya, l).
Definition pad_tail (x1 a ya : R) (l : list (R * R)) : list (R * R) := if Rlt_dec (end_x a l) x1 then l ++ [(x1, end_y ya l)] else l.
Lemma end_x_app l x0 p : end_x x0 (l ++ [p]) = fst p.
Proof. revert x0. induction l as [|[x1 y1] l IH]; intros x0; cbn [app end_x]; [destruct p; reflexivity|apply IH]. Qed.
Lemma end_y_app l y0 p : end_y y0 (l ++ [p]) = snd p.
Proof. revert y0. induction l as [|[x1 y1] l IH]; intros y0; cbn [app end_y]; [destruct p; reflexivity|apply IH]. Qed.
Lemma increasing_app l x0 p : increasing x0 l -> end_x x0 l < fst p -> increasing x0 (l ++ [p]).
Proof. revert x0. induction l as [|[x1 y1] l IH]; intros x0 H E; cbn [app increasing end_x] in *; [destruct p; split; [exact E|exact I]|]. split; [apply H|]. apply IH; [apply H|exact E]. Qed.
Lemma height_app l : forall x0 y0 x1 t, increasing x0 l -> end_x x0 l < x1 -> height x0 y0 (l ++ [(x1, end_y y0 l)]) t = height x0 y0 l t.
Proof.
  induction l as [|[xa ya] l IH]; intros x0 y0 x1 t H E.
  - cbn [app height end_y]. destruct (Rle_dec t x0); [reflexivity|]. destruct (Rle_dec t x1); [|reflexivity]. unfold on_line. rewrite Rminus_diag_eq by reflexivity. unfold Rdiv. ring.
  - cbn [app height end_y]. destruct (Rle_dec t x0); [reflexivity|]. destruct (Rle_dec t xa); [reflexivity|]. apply IH; [apply H|exact E].
Qed.
Lemma height_start x0 y0 l t : t <= x0 -> height x0 y0 l t = y0.
Proof. intros T. destruct l as [|[x1 y1] l]; cbn [height]; [reflexivity|]. destruct (Rle_dec t x0); [reflexivity|contradiction]. Qed.
Lemma height_head x0 xa ya l t : x0 < xa -> height x0 ya ((xa, ya) :: l) t = height xa ya l t.
Proof.
  intros A. cbn [height]. destruct (Rle_dec t x0) as [Q|Q]; [rewrite height_start by lra; reflexivity|]. destruct (Rle_dec t xa) as [Q'|Q']; [|reflexivity]. rewrite height_start by exact Q'. unfold on_line. rewrite Rminus_diag_eq by reflexivity. unfold Rdiv. ring.
Qed.
Lemma end_y_height l : forall x0 y0 t, increasing x0 l -> end_x x0 l <= t -> height x0 y0 l t = end_y y0 l.
Proof.
  induction l as [|[xa ya] l IH]; intros x0 y0 t H E; [reflexivity|]. cbn [height end_y end_x] in *. destruct H as (A & B). pose proof (end_after _ _ B). destruct (Rle_dec t x0); [exfalso; lra|]. destruct (Rle_dec t xa) as [Q|Q]; [|apply IH; assumption].
  assert (t = xa) by lra. subst t. replace (on_line x0 y0 xa ya xa) with ya by (unfold on_line; field; lra). rewrite <- (IH xa ya xa B ltac:(lra)). symmetry. apply height_start. lra.
Qed.
Lemma whole_app l : forall x0 y0 p, increasing x0 l -> end_x x0 l < fst p -> whole x0 y0 (l ++ [p]) = whole x0 y0 l + (fst p - end_x x0 l) * (end_y y0 l + snd p) / 2.
Proof.
  induction l as [|[xa ya] l IH]; intros x0 y0 [xp yp] H E.
  - cbn [app end_x end_y fst snd] in *. rewrite whole_cons by (split; [exact E|exact I]). unfold whole. cbn [end_x under]. lra.
  - cbn [app end_x end_y]. rewrite whole_cons by (split; [apply H|apply increasing_app; [apply H|exact E]]). rewrite (whole_cons x0 y0 xa ya l) by exact H. rewrite IH by (try apply H; exact E). cbn [fst snd]. lra.
Qed.
Lemma sanitize_form xa ya l x0 x1 : increasing xa l ->
  exists h l', sanitizeInterpolation (xs xa l) (ys ya l) x0 x1 = Ret (xs h l', ys ya l') /\ increasing h l' /\ h = Rmin x0 xa /\ end_x h l' = Rmax (end_x xa l) x1 /\
  (forall t, height h ya l' t = height xa ya l t) /\ whole h ya l' = whole xa ya l + (xa - h) * ya + (end_x h l' - end_x xa l) * end_y ya l.
Proof.
  intros H. unfold sanitizeInterpolation, xs at 1, ys at 1. rewrite last_x. pose proof (end_after _ _ H) as EA. destruct (Rlt_dec x0 xa) as [A|A]; cbn [bind fst snd app]; (destruct (Rlt_dec (end_x xa l) x1) as [B|B]); try (unfold ys; cbn [app]; rewrite last_y).
  - exists x0, (((xa, ya) :: l) ++ [(x1, end_y ya l)]). split; [unfold xs, ys; cbn [app map fst snd]; rewrite !map_app; reflexivity|]. split; [cbn [app increasing]; split; [exact A|apply increasing_app; assumption]|]. split; [rewrite Rmin_left by lra; reflexivity|]. rewrite end_x_app. cbn [fst]. split; [rewrite Rmax_right by lra; reflexivity|].
    split. { intros t. rewrite <- (height_head x0 xa ya l t A). apply (height_app ((xa, ya) :: l) x0 ya x1 t); [split; assumption|exact B]. }
    rewrite whole_app by (cbn [fst end_x]; try split; assumption). rewrite whole_cons by (split; assumption). cbn [fst snd end_x end_y]. lra.
  - exists x0, ((xa, ya) :: l). split; [reflexivity|]. split; [split; assumption|]. split; [rewrite Rmin_left by lra; reflexivity|]. cbn [end_x]. split; [rewrite Rmax_left by lra; reflexivity|]. split; [intros t; apply height_head; exact A|]. rewrite whole_cons by (split; assumption). lra.
  - exists xa, (l ++ [(x1, end_y ya l)]). split; [unfold xs, ys; cbn [app map fst snd]; rewrite !map_app; reflexivity|]. split; [apply increasing_app; assumption|]. split; [rewrite Rmin_right by lra; reflexivity|]. rewrite end_x_app. cbn [fst]. split; [rewrite Rmax_right by lra; reflexivity|].
    split; [intros t; apply height_app; assumption|]. rewrite whole_app by (try exact H; exact B). cbn [fst snd]. lra.
  - exists xa, l. split; [reflexivity|]. split; [exact H|]. split; [rewrite Rmin_right by lra; reflexivity|]. split; [rewrite Rmax_left by lra; reflexivity|]. split; [reflexivity|]. lra.
Qed.
