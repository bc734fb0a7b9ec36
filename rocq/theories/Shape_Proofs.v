From Coq Require Import Reals List ZArith Bool Lra Lia.
From Verif Require Import Vec_Model Vec_Proofs Rigid_Model Law_Model Shape_Model Shape_Spec.
Local Open Scope R_scope.

(** ** vectors *)
Lemma dot_add_l a b c : dot (vadd a b) c = dot a c + dot b c. Proof. vring. Qed.
Lemma dot_add_r a b c : dot a (vadd b c) = dot a b + dot a c. Proof. vring. Qed.
Lemma dot_sub_l a b c : dot (vsub a b) c = dot a c - dot b c. Proof. vring. Qed.
Lemma dot_sub_r a b c : dot a (vsub b c) = dot a b - dot a c. Proof. vring. Qed.
Lemma dot_smul_l k a b : dot (smul k a) b = k * dot a b. Proof. vring. Qed.
Lemma dot_smul_r k a b : dot a (smul k b) = k * dot a b. Proof. vring. Qed.
Lemma dot_sym a b : dot a b = dot b a. Proof. vring. Qed.
Lemma dot_opp_l a b : dot (vopp a) b = - dot a b. Proof. vring. Qed.
Lemma norm2_smul k a : norm2 (smul k a) = k * k * norm2 a. Proof. vring. Qed.
Lemma norm_pos a : 0 <= norm a. Proof. apply sqrt_pos. Qed.
Lemma norm_zero a : norm a = 0 -> a = vzero.
Proof. intros H. apply norm2_zero. rewrite <- norm_sq, H. ring. Qed.
Lemma norm_nz a : norm a <> 0 -> 0 < norm a.
Proof. pose proof (norm_pos a). lra. Qed.
Lemma unit_of a : norm a <> 0 -> norm2 (smul (/ norm a) a) = 1.
Proof. intros N. rewrite norm2_smul, <- norm_sq. field. exact N. Qed.
Lemma norm_unit a : norm2 a = 1 -> norm a = 1.
Proof. unfold norm. intros ->. apply sqrt_1. Qed.
Lemma norm_smul k a : 0 <= k -> norm (smul k a) = k * norm a.
Proof. intros K. unfold norm. rewrite norm2_smul, sqrt_mult, sqrt_square by (try apply norm2_pos; try exact K; apply Rle_0_sqr). reflexivity. Qed.
Lemma norm_le a b : norm2 a <= norm2 b -> norm a <= norm b.
Proof. intros H. apply sqrt_le_1; [apply norm2_pos|apply norm2_pos|exact H]. Qed.
(** obtuse angle at x: x is nearer than y *)
Lemma obtuse c x y : dot (vsub c x) (vsub y x) <= 0 -> distance c x <= distance c y.
Proof.
  intros H. apply norm_le. replace (norm2 (vsub c y)) with (norm2 (vsub c x) + norm2 (vsub y x) - 2 * dot (vsub c x) (vsub y x)) by vring. pose proof (norm2_pos (vsub y x)). lra.
Qed.
(** coordinates in the basis a, b, a x b *)
Lemma cramer a b w : smul (norm2 (cross a b)) w =
  vadd (vadd (smul (dot w a * norm2 b - dot w b * dot a b) a) (smul (dot w b * norm2 a - dot w a * dot a b) b)) (smul (dot w (cross a b)) (cross a b)).
Proof. vring. Qed.
Lemma in_plane u n w : norm2 u = 1 -> norm2 n = 1 -> dot u n = 0 -> dot w n = 0 -> w = vadd (smul (dot w u) u) (smul (dot w (cross u n)) (cross u n)).
Proof.
  intros U N O W. pose proof (cramer u n w) as C. rewrite lagrange, U, N, O, W in C. replace (1 * 1 - 0 * 0) with 1 in C by ring. rewrite smul_1 in C. rewrite C at 1. replace (dot w u * 1 - 0 * 0) with (dot w u) by ring. replace (0 * 1 - dot w u * 0) with 0 by ring. generalize (dot w u), (dot w (cross u n)), (cross u n). clear. intros x y [z1 z2 z3]. destruct u as [u1 u2 u3], n as [n1 n2 n3]. unfold vadd, smul. cbn [vx vy vz]. f_equal; ring.
Qed.
(** ** edges of a triangle in a plane *)
Section Corner.
(** u: direction of the edge; n: normal of the plane *)
Variables (u n : vec).
Hypotheses (U : norm2 u = 1) (N : norm2 n = 1) (O : dot u n = 0).
Lemma out_unit : norm2 (cross u n) = 1.
Proof. rewrite lagrange, U, N, O. ring. Qed.
Lemma out_u : dot (cross u n) u = 0.
Proof. clear. destruct u as [u1 u2 u3], n as [n1 n2 n3]. unfold dot, cross. cbn [vx vy vz]. ring. Qed.
Lemma out_n : dot (cross u n) n = 0.
Proof. clear. destruct u as [u1 u2 u3], n as [n1 n2 n3]. unfold dot, cross. cbn [vx vy vz]. ring. Qed.
End Corner.
Lemma scalar_corner x s si c : si * si + c * c = 1 -> 0 <= s -> 0 < x * si -> x * si + s * c <= s -> (c * x - si * s) * si <= 0.
Proof.
  intros Q S0 X A. assert (C1 : c <= 1). { apply Rnot_lt_le. intros H. pose proof (Rle_0_sqr si) as P. unfold Rsqr in P. assert (1 < c * c) by (apply Rlt_trans with c; [exact H|]; rewrite <- (Rmult_1_r c) at 1; apply Rmult_lt_compat_l; lra). lra. }
  assert (C2 : -1 <= c). { apply Rnot_lt_le. intros H. pose proof (Rle_0_sqr si) as P. unfold Rsqr in P. assert (1 < (-c) * (-c)) by (apply Rlt_trans with (-c); [lra|]; rewrite <- (Rmult_1_r (-c)) at 1; apply Rmult_lt_compat_l; lra). lra. }
  replace ((c * x - si * s) * si) with (c * (x * si) - si * si * s) by ring. replace (si * si) with ((1 - c) * (1 + c)) by lra. destruct (Rle_lt_dec 0 c) as [P|P].
  - assert (c * (x * si) <= c * ((1 - c) * s)) by (apply Rmult_le_compat_l; lra). assert (0 <= (1 - c) * s) by (apply Rmult_le_pos; lra). replace ((1 - c) * (1 + c) * s) with ((1 - c) * s + c * ((1 - c) * s)) by ring. lra.
  - assert (0 <= (1 - c) * (1 + c) * s) by (apply Rmult_le_pos; [apply Rmult_le_pos|]; lra). assert (0 <= (- c) * (x * si)) by (apply Rmult_le_pos; lra). lra.
Qed.
(** two unit directions u and u' in the plane, outward normals; D: a point relative to the
    corner they share *)
Lemma corner u u' n D : norm2 u = 1 -> norm2 u' = 1 -> norm2 n = 1 -> dot u n = 0 -> dot u' n = 0 -> dot D n = 0 ->
  let w := cross u n in let w' := cross u' n in let s := dot D w in
  0 <= s -> dot D w' <= s -> 0 < dot (vsub D (smul s w)) w' ->
  0 < dot D u * dot w' u /\ dot D u' * dot w' u <= 0.
Proof.
  intros U U' N O O' DN w w' s S0 SM B. assert (W' : w' = vadd (smul (dot w' u) u) (smul (dot w' w) w)) by (apply in_plane; try assumption; apply out_n). assert (DD : D = vadd (smul (dot D u) u) (smul s w)) by (apply in_plane; assumption).
  assert (WW : norm2 w = 1) by (apply out_unit; assumption). assert (WU : dot w u = 0) by apply out_u. assert (W1 : norm2 w' = 1) by (apply out_unit; assumption).
  remember (dot w' u) as si. remember (dot w' w) as c. remember (dot D u) as x.
  assert (Q : si * si + c * c = 1). { rewrite W' in W1. rewrite <- W1. unfold norm2. rewrite !dot_add_l, !dot_add_r, !dot_smul_l, !dot_smul_r, (dot_sym u w), WU. fold (norm2 u) (norm2 w). rewrite U, WW. ring. }
  assert (DW : dot D w' = x * si + s * c). { rewrite W', dot_add_r, !dot_smul_r, <- Heqx. fold s. ring. }
  assert (BB : dot (vsub D (smul s w)) w' = x * si). { rewrite dot_sub_l, dot_smul_l, DW, (dot_sym w w'), <- Heqc. ring. }
  assert (U2 : u' = vsub (smul c u) (smul si w)).
  { assert (R : u' = cross n w'). { unfold w'. replace (cross n (cross u' n)) with (vsub (smul (norm2 n) u') (smul (dot u' n) n)) by (clear; destruct u' as [a1 a2 a3], n as [n1 n2 n3]; unfold vsub, smul, cross, norm2, dot; cbn [vx vy vz]; f_equal; ring). rewrite N, O', smul_1. clear. destruct u' as [a1 a2 a3], n as [n1 n2 n3]. unfold vsub, smul. cbn [vx vy vz]. f_equal; ring. }
    assert (R2 : u = cross n w). { unfold w. replace (cross n (cross u n)) with (vsub (smul (norm2 n) u) (smul (dot u n) n)) by (clear; destruct u as [a1 a2 a3], n as [n1 n2 n3]; unfold vsub, smul, cross, norm2, dot; cbn [vx vy vz]; f_equal; ring). rewrite N, O, smul_1. clear. destruct u as [a1 a2 a3], n as [n1 n2 n3]. unfold vsub, smul. cbn [vx vy vz]. f_equal; ring. }
    rewrite R, W'. replace (cross n (vadd (smul si u) (smul c w))) with (vadd (smul si (cross n u)) (smul c (cross n w))) by (clear; destruct u as [a1 a2 a3], n as [n1 n2 n3], w as [w1 w2 w3]; unfold vadd, smul, cross; cbn [vx vy vz]; f_equal; ring). rewrite <- R2. unfold w. clear. destruct u as [a1 a2 a3], n as [n1 n2 n3]. unfold vadd, vsub, smul, cross. cbn [vx vy vz]. f_equal; ring. }
  rewrite BB in B. split; [exact B|]. assert (DU : dot D u' = c * x - si * s). { rewrite U2, dot_sub_r, !dot_smul_r, <- Heqx. fold s. ring. }
  rewrite DU. apply scalar_corner; [exact Q|exact S0|exact B|]. rewrite <- DW. exact SM.
Qed.
