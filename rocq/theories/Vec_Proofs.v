From Coq Require Import Reals Lra Psatz.
From Verif Require Import Vec_Model.
Local Open Scope R_scope.

Ltac vunfold := cbv beta iota zeta delta [vzero vadd vsub vopp smul dot cross norm2 vprod mzero diag mid madd msub mscale col0 col1 col2 transpose columns mulv rowmul mmul outer det qid qconj qmul qnorm2 qscale qadd qrot qmat vx vy vz r0 r1 r2 qw qv] in *.
Ltac vgoal := cbv beta iota zeta delta [vzero vadd vsub vopp smul dot cross norm2 vprod mzero diag mid madd msub mscale col0 col1 col2 transpose columns mulv rowmul mmul outer det qid qconj qmul qnorm2 qscale qadd qrot qmat vx vy vz r0 r1 r2 qw qv].
Ltac vdes := repeat match goal with v : vec |- _ => destruct v | q : quat |- _ => destruct q | m : mat |- _ => destruct m end.
Ltac vring := intros; vdes; vgoal; repeat match goal with |- V _ _ _ = V _ _ _ => f_equal | |- M _ _ _ = M _ _ _ => f_equal | |- Q _ _ = Q _ _ => f_equal end; try ring.

(** ** vectors *)
Lemma vadd_comm a b : vadd a b = vadd b a. Proof. vring. Qed.
Lemma vadd_assoc a b c : vadd a (vadd b c) = vadd (vadd a b) c. Proof. vring. Qed.
Lemma vadd_0_l a : vadd vzero a = a. Proof. vring. Qed.
Lemma vadd_0_r a : vadd a vzero = a. Proof. vring. Qed.
Lemma vsub_self a : vsub a a = vzero. Proof. vring. Qed.
Lemma vadd_sub a b : vadd a (vsub b a) = b. Proof. vring. Qed.
Lemma vsub_add a b : vsub (vadd a b) a = b. Proof. vring. Qed.
Lemma vsub_adds a b c : vsub (vadd a b) (vadd a c) = vsub b c. Proof. vring. Qed.
Lemma cross_self a : cross a a = vzero. Proof. vring. Qed.
Lemma norm2_pos a : 0 <= norm2 a. Proof. destruct a. vunfold. nra. Qed.
Lemma norm2_zero a : norm2 a = 0 -> a = vzero.
Proof. destruct a as [x y z]. vunfold. intros H. assert (x = 0) by nra. assert (y = 0) by nra. assert (z = 0) by nra. subst. reflexivity. Qed.
Lemma norm_sq a : norm a * norm a = norm2 a. Proof. unfold norm. apply sqrt_def. apply norm2_pos. Qed.
Lemma lagrange a b : norm2 (cross a b) = norm2 a * norm2 b - dot a b * dot a b. Proof. vring. Qed.

(** ** quaternions *)
Lemma qnorm2_pos q : 0 <= qnorm2 q. Proof. destruct q as [w v]. unfold qnorm2. cbn [qw qv]. pose proof (norm2_pos v). nra. Qed.
Lemma qmul_assoc p q r : qmul p (qmul q r) = qmul (qmul p q) r. Proof. vring. Qed.
Lemma qmul_id_l q : qmul qid q = q. Proof. vring. Qed.
Lemma qmul_id_r q : qmul q qid = q. Proof. vring. Qed.
Lemma qconj_conj q : qconj (qconj q) = q. Proof. vring. Qed.
Lemma qnorm2_conj q : qnorm2 (qconj q) = qnorm2 q. Proof. vring. Qed.
Lemma qnorm2_mul p q : qnorm2 (qmul p q) = qnorm2 p * qnorm2 q. Proof. vring. Qed.
Lemma qmul_conj_r q : qmul q (qconj q) = Q (qnorm2 q) vzero. Proof. vring. Qed.
Lemma qmul_conj_l q : qmul (qconj q) q = Q (qnorm2 q) vzero. Proof. vring. Qed.
Lemma qnorm2_scale k q : qnorm2 (qscale k q) = k * k * qnorm2 q. Proof. vring. Qed.
Lemma qnormalize_unit q : qnorm2 q <> 0 -> qnorm2 (qnormalize q) = 1.
Proof.
  intros H. unfold qnormalize. rewrite qnorm2_scale. pose proof (qnorm2_pos q). pose proof (sqrt_def (qnorm2 q) H0) as E. assert (sqrt (qnorm2 q) <> 0) by (intros Z; rewrite Z in E; lra). rewrite <- E at 3. field. exact H1.
Qed.
Lemma qnormalize_id q : qnorm2 q = 1 -> qnormalize q = q.
Proof. intros H. unfold qnormalize. rewrite H, sqrt_1. destruct q as [w [x y z]]. vunfold. rewrite Rinv_1, !Rmult_1_l. reflexivity. Qed.
Lemma qrot_mat q v : qrot q v = mulv (qmat q) v. Proof. vring. Qed.
Lemma qrot_lin q a b : qrot q (vadd a b) = vadd (qrot q a) (qrot q b). Proof. vring. Qed.
Lemma qrot_sub q a b : qrot q (vsub a b) = vsub (qrot q a) (qrot q b). Proof. vring. Qed.
Lemma qrot_smul q k a : qrot q (smul k a) = smul k (qrot q a). Proof. vring. Qed.
Lemma qrot_zero q : qrot q vzero = vzero. Proof. vring. Qed.
Lemma qrot_id v : qrot qid v = v. Proof. vring. Qed.
(** the homogeneous form *)
Definition hrot (q : quat) (v : vec) : vec :=
  vadd (vadd (smul (qw q * qw q - norm2 (qv q)) v) (smul (2 * dot (qv q) v) (qv q))) (smul (2 * qw q) (cross (qv q) v)).
Lemma qrot_hrot q v : qrot q v = vadd (hrot q v) (smul (1 - qnorm2 q) v). Proof. unfold hrot. vring. Qed.
Lemma qrot_unit q v : qnorm2 q = 1 -> qrot q v = hrot q v.
Proof. intros H. rewrite qrot_hrot, H. generalize (hrot q v). vring. Qed.
Lemma hrot_mul p q v : hrot (qmul p q) v = hrot p (hrot q v). Proof. unfold hrot. vring. Qed.
Lemma qrot_mul p q v : qnorm2 p = 1 -> qnorm2 q = 1 -> qrot (qmul p q) v = qrot p (qrot q v).
Proof. intros Hp Hq. rewrite !qrot_unit; [apply hrot_mul|assumption|assumption|]. rewrite qnorm2_mul, Hp, Hq. ring. Qed.
Lemma hrot_norm q v : norm2 (hrot q v) = qnorm2 q * qnorm2 q * norm2 v. Proof. unfold hrot. vring. Qed.
Lemma hrot_dot q a b : dot (hrot q a) (hrot q b) = qnorm2 q * qnorm2 q * dot a b. Proof. unfold hrot. vring. Qed.
Lemma hrot_cross q a b : smul (qnorm2 q) (hrot q (cross a b)) = cross (hrot q a) (hrot q b). Proof. unfold hrot. vring. Qed.
Lemma qrot_dot q a b : qnorm2 q = 1 -> dot (qrot q a) (qrot q b) = dot a b.
Proof. intros H. rewrite !qrot_unit by exact H. rewrite hrot_dot, H. ring. Qed.
Lemma qrot_norm q v : qnorm2 q = 1 -> norm2 (qrot q v) = norm2 v.
Proof. intros H. apply qrot_dot. exact H. Qed.
Lemma smul_1 v : smul 1 v = v. Proof. vring. Qed.
Lemma qrot_cross q a b : qnorm2 q = 1 -> qrot q (cross a b) = cross (qrot q a) (qrot q b).
Proof. intros H. rewrite !qrot_unit by exact H. rewrite <- hrot_cross, H, smul_1. reflexivity. Qed.
Lemma qrot_conj_l q v : qnorm2 q = 1 -> qrot (qconj q) (qrot q v) = v.
Proof. intros H. rewrite <- qrot_mul by (rewrite ?qnorm2_conj; exact H). rewrite qmul_conj_l, H. apply qrot_id. Qed.
Lemma qrot_conj_r q v : qnorm2 q = 1 -> qrot q (qrot (qconj q) v) = v.
Proof. intros H. rewrite <- qrot_mul by (rewrite ?qnorm2_conj; exact H). rewrite qmul_conj_r, H. apply qrot_id. Qed.
Lemma angle_axis_unit a ax : norm2 ax = 1 -> qnorm2 (angle_axis a ax) = 1.
Proof.
  intros H. unfold angle_axis, qnorm2. cbn [qw qv]. replace (norm2 (smul (sin (a / 2)) ax)) with (sin (a/2) * sin (a/2) * norm2 ax) by vring. rewrite H. pose proof (sin2_cos2 (a/2)) as E. unfold Rsqr in E. lra.
Qed.

(** ** matrices *)
Lemma mmul_assoc A B C : mmul A (mmul B C) = mmul (mmul A B) C. Proof. vring. Qed.
Lemma mmul_id_l A : mmul mid A = A. Proof. vring. Qed.
Lemma mmul_id_r A : mmul A mid = A. Proof. vring. Qed.
Lemma mulv_mmul A B v : mulv (mmul A B) v = mulv A (mulv B v). Proof. vring. Qed.
Lemma mulv_id v : mulv mid v = v. Proof. vring. Qed.
Lemma mulv_add A a b : mulv A (vadd a b) = vadd (mulv A a) (mulv A b). Proof. vring. Qed.
Lemma mulv_sub A a b : mulv A (vsub a b) = vsub (mulv A a) (mulv A b). Proof. vring. Qed.
Lemma transpose_mmul A B : transpose (mmul A B) = mmul (transpose B) (transpose A). Proof. vring. Qed.
Lemma transpose_transpose A : transpose (transpose A) = A. Proof. vring. Qed.
Lemma det_mmul A B : det (mmul A B) = det A * det B. Proof. vring. Qed.
Lemma det_transpose A : det (transpose A) = det A. Proof. vring. Qed.
Lemma minv_r A : det A <> 0 -> mmul A (minv A) = mid.
Proof. intros H. unfold minv. destruct A as [[a b c] [d e f] [g h i]]. vunfold. f_equal; f_equal; field; exact H. Qed.
Lemma minv_l A : det A <> 0 -> mmul (minv A) A = mid.
Proof. intros H. unfold minv. destruct A as [[a b c] [d e f] [g h i]]. vunfold. f_equal; f_equal; field; exact H. Qed.
Lemma qmat_conj q : qmat (qconj q) = transpose (qmat q). Proof. vring. Qed.
Definition orthogonal (A : mat) : Prop := mmul (transpose A) A = mid.
Lemma mat_ext A B : (forall v, mulv A v = mulv B v) -> A = B.
Proof.
  intros H. pose proof (H (V 1 0 0)) as Hx. pose proof (H (V 0 1 0)) as Hy. pose proof (H (V 0 0 1)) as Hz. destruct A as [[a b c] [d e f] [g h i]], B as [[a' b' c'] [d' e' f'] [g' h' i']]. vunfold. injection Hx as ? ? ?. injection Hy as ? ? ?. injection Hz as ? ? ?. f_equal; f_equal; lra.
Qed.
Lemma qmat_orthogonal q : qnorm2 q = 1 -> orthogonal (qmat q).
Proof.
  intros H. apply mat_ext. intros v. rewrite mulv_mmul, mulv_id, <- qmat_conj, <- !qrot_mat. apply qrot_conj_l. exact H.
Qed.
Lemma qmat_orthogonal_r q : qnorm2 q = 1 -> mmul (qmat q) (transpose (qmat q)) = mid.
Proof.
  intros H. apply mat_ext. intros v. rewrite mulv_mmul, mulv_id, <- qmat_conj, <- !qrot_mat. apply qrot_conj_r. exact H.
Qed.
