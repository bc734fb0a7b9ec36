(** Concrete clumps. *)
From Coq Require Import Reals Lra List.
From Verif Require Import Vec_Model Vec_Proofs Rigid_Model Rigid_Spec Rigid_Proofs.
Import ListNotations.
Local Open Scope R_scope.

(** two spheres of radius 1 and mass 1 on the y axis *)
Definition ball (i : nat) (y : R) : member := mkM i (Some 1) (3 / (4 * PI)) (mkR (V 0 y 0) qid vzero vzero 1 (V (2/5) (2/5) (2/5))).
Definition two_balls : list member := [ball 0 2; ball 1 (-2)].
Lemma ball_mass i y : member_mass (ball i y) = 1.
Proof. unfold member_mass, ball. cbn [sphere density]. pose proof PI_RGT_0. field. lra. Qed.
Lemma two_balls_sums : apart two_balls = (2, vzero, diag (V (44/5) (4/5) (44/5))).
Proof.
  rewrite apart_sums. unfold two_balls. cbn [map rsum vsum msum fold_right]. unfold member_inertia. rewrite !ball_mass. unfold inertiaTensorTranslate, rsum, vsum, msum, ball. cbn [sphere m_state pos fold_right]. f_equal; [f_equal; [ring|vgoal; f_equal; ring]|]. vgoal. f_equal; f_equal; field.
Qed.
Lemma two_balls_central : central_inertia (apart two_balls) = diag (V (44/5) (4/5) (44/5)).
Proof. rewrite two_balls_sums. unfold central_inertia, inertiaTensorTranslate, symmetrize. vgoal. f_equal; f_equal; field. Qed.
(** eigenvectors in the order of increasing eigenvalues *)
Definition lam2 : vec := V (4/5) (44/5) (44/5).
Definition eig_right : mat -> mat * vec := fun _ => (columns (V 0 1 0) (V (-1) 0 0) (V 0 0 1), lam2).
Definition eig_left : mat -> mat * vec := fun _ => (columns (V 0 1 0) (V 1 0 0) (V 0 0 1), lam2).
Lemma eig_right_ok : decomposes eig_right (central_inertia (apart two_balls)) /\ right_handed eig_right (central_inertia (apart two_balls)).
Proof. rewrite two_balls_central. unfold decomposes, right_handed, eig_right, lam2. cbn [fst]. split; [split|]; vgoal; [f_equal; f_equal; ring|f_equal; f_equal; field|ring]. Qed.
Lemma eig_left_ok : decomposes eig_left (central_inertia (apart two_balls)).
Proof. rewrite two_balls_central. unfold decomposes, eig_left, lam2. split; vgoal; [f_equal; f_equal; ring|f_equal; f_equal; field]. Qed.
Lemma two_balls_plain b : In b two_balls -> plain_member b.
Proof. intros [<-|[<-|[]]]; left; discriminate. Qed.
Lemma two_balls_parts : map part_of two_balls = [mkPart 1 (V 0 2 0) (mscale (2/5) mid); mkPart 1 (V 0 (-2) 0) (mscale (2/5) mid)].
Proof.
  unfold two_balls. cbn [map]. unfold part_of, ball. cbn [sphere density m_state pos]. cbv zeta. replace (3 / (4 * PI) * (4 / 3 * PI * 1 ^ 3)) with 1 by (pose proof PI_RGT_0; field; lra). replace (2 / 5 * 1 * 1 ^ 2) with (2/5) by field. reflexivity.
Qed.
Lemma two_balls_mass : total_mass (map part_of two_balls) = 2.
Proof. rewrite two_balls_parts. unfold total_mass. cbn [map rsum fold_right p_mass]. ring. Qed.

(** two bodies that are not spheres, turned about the z axis, on the z axis *)
Definition qz : quat := Q (4/5) (V 0 0 (3/5)).
Definition rod (i : nat) (z : R) : member := mkM i None 1 (mkR (V 0 0 z) qz vzero vzero 1 (V 1 2 3)).
Definition two_rods : list member := [rod 0 1; rod 1 (-1)].
Lemma two_rods_parts : map part_of two_rods = [mkPart 1 (V 0 0 1) (turned qz (V 1 2 3)); mkPart 1 (V 0 0 (-1)) (turned qz (V 1 2 3))].
Proof. reflexivity. Qed.
Lemma two_rods_central : central_inertia (apart two_rods) = mmul (mmul (transpose (qmat qz)) (diag (V 4 6 6))) (qmat qz).
Proof.
  rewrite apart_sums. unfold two_rods. cbn [map rsum vsum msum fold_right]. unfold member_inertia, member_mass, rod, rsum, vsum, msum, inertiaTensorTranslate, inertiaTensorRotateQ, inertiaTensorRotate, central_inertia, inertiaTensorTranslate, symmetrize, qz. cbn [sphere m_state pos mass inertia ori fold_right]. vgoal. f_equal; f_equal; field.
Qed.
Definition eig_rods : mat -> mat * vec := fun _ => (transpose (qmat qz), V 4 6 6).
Lemma eig_rods_ok : decomposes eig_rods (central_inertia (apart two_rods)) /\ right_handed eig_rods (central_inertia (apart two_rods)).
Proof. rewrite two_rods_central. unfold decomposes, right_handed, eig_rods, qz. cbn [fst]. split; [split|]; vgoal; [f_equal; f_equal; field|f_equal; f_equal; field|field]. Qed.
Lemma mat_quat_swap : mat_quat (columns (V 0 1 0) (V 1 0 0) (V 0 0 1)) = Q (1/2 * sqrt 2) vzero.
Proof.
  unfold mat_quat. vgoal. destruct (Rlt_dec 0 (0 + 0 + 1)) as [H|H]; [|lra]. replace (0 + 0 + 1 + 1) with 2 by ring. f_equal. f_equal; ring.
Qed.
Lemma normalize_real a : 0 < a -> qnormalize (Q a vzero) = qid.
Proof.
  intros H. unfold qnormalize, qscale, qnorm2. cbn [qw qv]. replace (a * a + norm2 vzero) with (a * a) by (vgoal; ring). rewrite sqrt_square by lra. unfold qid. f_equal; [field; lra|vgoal; f_equal; ring].
Qed.
Lemma half_root2 : 0 < 1/2 * sqrt 2.
Proof. pose proof (sqrt_lt_R0 2 ltac:(lra)). lra. Qed.

(** a body without neighbours for the grid of one point *)
Definition lone : member := mkM 0 (Some 1) 1 (mkR vzero qid vzero vzero 1 (V 1 1 1)).
Lemma lone_central k : k <> 0 -> central_inertia (overlapping [vzero] 1 (map (denser k) [lone; lone])) = diag (V (1/6) (1/6) (1/6)).
Proof.
  intros Hk. unfold overlapping. cbn [fold_left map at_point denser lone sphere m_state pos density]. destruct (Rlt_dec _ _) as [H|H]; [|exfalso; apply H; vgoal; lra].
  unfold no_sums, central_inertia, inertiaTensorTranslate, symmetrize. vgoal. f_equal; f_equal; field; exact Hk.
Qed.
Lemma lone_central1 : central_inertia (overlapping [vzero] 1 [lone; lone]) = diag (V (1/6) (1/6) (1/6)).
Proof.
  unfold overlapping. cbn [fold_left map at_point lone sphere m_state pos density]. destruct (Rlt_dec _ _) as [H|H]; [|exfalso; apply H; vgoal; lra].
  unfold no_sums, central_inertia, inertiaTensorTranslate, symmetrize. vgoal. f_equal; f_equal; field.
Qed.
Lemma lone_mass : fst (fst (overlapping [vzero] 1 [lone; lone])) = 1.
Proof.
  unfold overlapping. cbn [fold_left at_point lone sphere m_state pos density]. destruct (Rlt_dec _ _) as [H|H]; [|exfalso; apply H; vgoal; lra]. unfold no_sums. cbn [fst]. ring.
Qed.
(** a clump at rest and the same clump turned and moved *)
Definition at_rest : rstate := mkR vzero qid vzero vzero 2 (V 1 1 1).
Definition turned_state : rstate := mkR (V 5 6 7) qz (V 1 0 0) (V 0 0 3) 2 (V 1 1 1).
Definition two_members : list (nat * se3) := [(0%nat, mkSe3 (V 0 2 0) qid); (1%nat, mkSe3 (V 0 (-2) 0) qid)].
Definition two_bodies : bodies := fun i => if Nat.ltb i 2 then Some (mkR vzero qid vzero vzero 1 (V 1 1 1)) else None.
