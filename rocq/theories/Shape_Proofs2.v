From Coq Require Import Reals List ZArith Bool Lra Lia.
From Verif Require Import Vec_Model Vec_Proofs Rigid_Model Law_Model Shape_Model Shape_Spec Shape_Proofs.
Local Open Scope R_scope.

Lemma cross_edges v i : (i < 3)%nat -> cross (edge v i) (edge v (nx i)) = cross (edge v 0) (edge v 1).
Proof. intros I. destruct i as [|[|[|i]]]; [| | |lia]; unfold edge; cbn [nx]; generalize (v 0%nat), (v 1%nat), (v 2%nat); clear; intros [a1 a2 a3] [b1 b2 b3] [c1 c2 c3]; unfold cross, vsub; cbn [vx vy vz]; f_equal; ring. Qed.
Definition p_of (v : nat -> vec) : R := norm (edge v 0) + norm (edge v 1) + norm (edge v 2).
Record facts (v : nat -> vec) (f : facet) : Prop := {
  f_vert : vert f = v;
  f_nz : 0 < norm (cross (edge v 0) (edge v 1));
  f_area : farea f = 1/2 * norm (cross (edge v 0) (edge v 1));
  f_normal : cross (edge v 0) (edge v 1) = smul (2 * farea f) (fnormal f);
  f_unit : norm2 (fnormal f) = 1;
  f_plane : forall i, (i < 3)%nat -> dot (edge v i) (fnormal f) = 0;
  f_len : forall i, (i < 3)%nat -> 0 < norm (edge v i);
  f_ne : forall i, (i < 3)%nat -> ne f i = cross (smul (/ norm (edge v i)) (edge v i)) (fnormal f);
  f_icr : icr f = 2 * farea f / p_of v;
  f_vl : forall i, vl f i = norm (v i);
  f_vu : forall i, vu f i = smul (/ norm (v i)) (v i) }.
Lemma postLoad_facts v f : postLoad v = Some f -> facts v f.
Proof.
  unfold postLoad. cbv zeta. destruct (Req_EM_T _ 0) as [|NZ]; [discriminate|]. intros E. injection E as <-. apply norm_nz in NZ. remember (cross (edge v 0) (edge v 1)) as N. assert (K : 2 * (1/2 * norm N) = norm N) by lra. rewrite K. remember (smul (/ norm N) N) as n.
  assert (UN : norm2 n = 1) by (rewrite Heqn; apply unit_of; lra).
  assert (PL : forall i, (i < 3)%nat -> dot (edge v i) n = 0). { intros i I. rewrite Heqn, dot_smul_r, HeqN, <- (cross_edges v i I). replace (dot (edge v i) (cross (edge v i) (edge v (nx i)))) with 0; [ring|]. generalize (edge v i), (edge v (nx i)). clear. vring. }
  assert (LE : forall i, (i < 3)%nat -> 0 < norm (edge v i)). { intros i I. apply norm_nz. intros Z. apply norm_zero in Z. apply (Rlt_irrefl 0). assert (N = vzero) as ->; [|unfold norm, norm2, dot, vzero in NZ; cbn [vx vy vz] in NZ; replace (0 * 0 + 0 * 0 + 0 * 0) with 0 in NZ by ring; rewrite sqrt_0 in NZ; exact NZ]. rewrite HeqN, <- (cross_edges v i I), Z. generalize (edge v (nx i)). clear. vring. }
  assert (NE : forall i, (i < 3)%nat -> smul (/ norm (cross (edge v i) n)) (cross (edge v i) n) = cross (smul (/ norm (edge v i)) (edge v i)) n).
  { intros i I. assert (norm (cross (edge v i) n) = norm (edge v i)) as ->. { unfold norm. f_equal. rewrite lagrange, UN, PL by exact I. ring. } generalize (/ norm (edge v i)), (edge v i). clear. vring. }
  split; cbn [vert farea fnormal ne icr vl vu]; rewrite <- ?HeqN.
  - reflexivity.
  - exact NZ.
  - reflexivity.
  - rewrite K, Heqn. destruct N as [a1 a2 a3]. unfold smul. cbn [vx vy vz]. f_equal; field; lra.
  - exact UN.
  - exact PL.
  - exact LE.
  - exact NE.
  - rewrite K. unfold p_of. f_equal. rewrite NE by lia. assert (D : dot (cross (edge v 0) n) (edge v 2) = norm N).
    { replace (edge v 2) with (vopp (vadd (edge v 0) (edge v 1))) by (unfold edge; cbn [nx]; generalize (v 0%nat), (v 1%nat), (v 2%nat); clear; vring). rewrite dot_sym, dot_opp_l. replace (dot (vadd (edge v 0) (edge v 1)) (cross (edge v 0) n)) with (- dot N n) by (rewrite HeqN; generalize (edge v 0), (edge v 1), n; clear; vring). rewrite Heqn, dot_smul_r. fold (norm2 N). rewrite <- norm_sq. field. lra. }
    replace (dot (cross (smul (/ norm (edge v 0)) (edge v 0)) n) (edge v 2)) with (/ norm (edge v 0) * dot (cross (edge v 0) n) (edge v 2)) by (generalize (/ norm (edge v 0)), (edge v 0), (edge v 2), n; clear; vring). rewrite D. field. specialize (LE 0%nat ltac:(lia)). lra.
  - reflexivity.
  - reflexivity.
Qed.
(** identities *)
Lemma id_edge k a b : dot (cross (smul k a) b) a = 0. Proof. vring. Qed.
Lemma id_plane a b : dot (cross a b) b = 0. Proof. vring. Qed.
Lemma id_height k a b n : dot (cross (smul k a) n) b = - k * dot n (cross a b). Proof. vring. Qed.
Lemma id_end a b : b = vadd a (vsub b a). Proof. vring. Qed.
Lemma id_out k a n y : dot (cross (smul k a) n) y = k * dot (cross a n) y. Proof. vring. Qed.
Lemma id_out2 k a n y : dot (cross a (smul k n)) y = k * dot (cross a n) y. Proof. vring. Qed.
Lemma id_bary k s t w a b c : smul k (vadd (vadd (smul s a) (smul t b)) (smul w c)) = vadd (vadd (smul (s * k) a) (smul (t * k) b)) (smul (w * k) c). Proof. vring. Qed.
Section Facet.
Variables (v : nat -> vec) (f : facet).
Hypothesis F : facts v f.
Lemma area_pos : 0 < farea f.
Proof. rewrite (f_area _ _ F). pose proof (f_nz _ _ F). lra. Qed.
Lemma p_pos : 0 < p_of v.
Proof. unfold p_of. pose proof (f_len _ _ F 0%nat ltac:(lia)). pose proof (f_len _ _ F 1%nat ltac:(lia)). pose proof (f_len _ _ F 2%nat ltac:(lia)). lra. Qed.
Lemma icr_pos : 0 < icr f.
Proof. rewrite (f_icr _ _ F). unfold Rdiv. apply Rmult_lt_0_compat; [pose proof area_pos; lra|apply Rinv_0_lt_compat, p_pos]. Qed.
Lemma ne_unit i : (i < 3)%nat -> norm2 (ne f i) = 1.
Proof. intros I. rewrite (f_ne _ _ F) by exact I. apply out_unit; [apply unit_of; pose proof (f_len _ _ F i I); lra|apply (f_unit _ _ F)|]. rewrite dot_smul_l, (f_plane _ _ F) by exact I. ring. Qed.
Lemma ne_edge i : (i < 3)%nat -> dot (ne f i) (edge v i) = 0.
Proof. intros I. rewrite (f_ne _ _ F) by exact I. apply id_edge. Qed.
Lemma ne_plane i : (i < 3)%nat -> dot (ne f i) (fnormal f) = 0.
Proof. intros I. rewrite (f_ne _ _ F) by exact I. apply id_plane. Qed.
(** heights *)
Lemma ne_height i : (i < 3)%nat -> dot (ne f i) (edge v (nx i)) = - (2 * farea f / norm (edge v i)).
Proof.
  intros I. rewrite (f_ne _ _ F) by exact I. rewrite id_height.
  rewrite cross_edges, (f_normal _ _ F), dot_smul_r by exact I. fold (norm2 (fnormal f)). rewrite (f_unit _ _ F). pose proof (f_len _ _ F i I). field. lra.
Qed.
Lemma height_pos i : (i < 3)%nat -> 0 < 2 * farea f / norm (edge v i).
Proof. intros I. unfold Rdiv. apply Rmult_lt_0_compat; [pose proof area_pos; lra|apply Rinv_0_lt_compat, (f_len _ _ F), I]. Qed.
Lemma nx_end i : v (nx i) = vadd (v i) (edge v i).
Proof. apply id_end. Qed.
Lemma nx_nx i : (i < 3)%nat -> nx (nx i) = pv i.
Proof. destruct i as [|[|[|i]]]; [reflexivity|reflexivity|reflexivity|lia]. Qed.
Lemma nx_pv i : (i < 3)%nat -> nx (pv i) = i.
Proof. destruct i as [|[|[|i]]]; [reflexivity|reflexivity|reflexivity|lia]. Qed.
Lemma pv_nx i : (i < 3)%nat -> pv (nx i) = i.
Proof. destruct i as [|[|[|i]]]; [reflexivity|reflexivity|reflexivity|lia]. Qed.
Lemma nx_lt i : (nx i < 3)%nat.
Proof. destruct i as [|[|i]]; cbn [nx]; lia. Qed.
Lemma pv_lt i : (pv i < 3)%nat.
Proof. destruct i as [|[|i]]; cbn [pv]; lia. Qed.
Lemma ne_next i : (i < 3)%nat -> dot (ne f i) (v (nx i)) = dot (ne f i) (v i).
Proof. intros I. rewrite nx_end, dot_add_r, ne_edge by exact I. ring. Qed.
Lemma ne_third i : (i < 3)%nat -> dot (ne f i) (v (pv i)) = dot (ne f i) (v i) - 2 * farea f / norm (edge v i).
Proof. intros I. rewrite <- nx_nx by exact I. rewrite (nx_end (nx i)), dot_add_r, ne_next, ne_height by exact I. ring. Qed.
Lemma plane_all x : in_triangle (v 0%nat) (v 1%nat) (v 2%nat) x -> dot (fnormal f) x = dot (fnormal f) (v 0%nat).
Proof.
  intros [s [t [w [S0 [T0 [W0 [E ->]]]]]]]. rewrite !dot_add_r, !dot_smul_r. pose proof (f_plane _ _ F 0%nat ltac:(lia)) as P0. pose proof (f_plane _ _ F 1%nat ltac:(lia)) as P1. rewrite dot_sym in P0, P1. unfold edge in P0, P1. cbn [nx] in P0, P1. rewrite dot_sub_r in P0, P1. replace (dot (fnormal f) (v 2%nat)) with (dot (fnormal f) (v 0%nat)) by lra. replace (dot (fnormal f) (v 1%nat)) with (dot (fnormal f) (v 0%nat)) by lra. replace s with (1 - t - w) by lra. ring.
Qed.
(** points of the triangle are inside of all edges *)
Lemma inside_edges x i : (i < 3)%nat -> in_triangle (v 0%nat) (v 1%nat) (v 2%nat) x -> dot (ne f i) x <= dot (ne f i) (v i).
Proof.
  intros I [s [t [w [S0 [T0 [W0 [E ->]]]]]]]. rewrite !dot_add_r, !dot_smul_r. pose proof (ne_next i I) as A. pose proof (ne_third i I) as B. pose proof (height_pos i I) as H. remember (2 * farea f / norm (edge v i)) as h. destruct i as [|[|[|i]]]; [| | |lia]; cbn [nx pv] in A, B; rewrite ?A, ?B.
  - replace (s * dot (ne f 0) (v 0%nat) + t * dot (ne f 0) (v 0%nat) + w * (dot (ne f 0) (v 0%nat) - h)) with ((s + t + w) * dot (ne f 0) (v 0%nat) - w * h) by ring. rewrite E. assert (0 <= w * h) by (apply Rmult_le_pos; lra). lra.
  - replace (s * (dot (ne f 1) (v 1%nat) - h) + t * dot (ne f 1) (v 1%nat) + w * dot (ne f 1) (v 1%nat)) with ((s + t + w) * dot (ne f 1) (v 1%nat) - s * h) by ring. rewrite E. assert (0 <= s * h) by (apply Rmult_le_pos; lra). lra.
  - replace (s * dot (ne f 2) (v 2%nat) + t * (dot (ne f 2) (v 2%nat) - h) + w * dot (ne f 2) (v 2%nat)) with ((s + t + w) * dot (ne f 2) (v 2%nat) - t * h) by ring. rewrite E. assert (0 <= t * h) by (apply Rmult_le_pos; lra). lra.
Qed.
(** and the other way round *)
Lemma barycentric a b c x : let N := cross (vsub b a) (vsub c b) in
  vadd (vadd (smul (dot (cross (vsub c b) N) (vsub b x)) a) (smul (dot (cross (vsub a c) N) (vsub c x)) b)) (smul (dot (cross (vsub b a) N) (vsub a x)) c) = vsub (smul (norm2 N) x) (smul (dot N (vsub x a)) N) /\
  dot (cross (vsub c b) N) (vsub b x) + dot (cross (vsub a c) N) (vsub c x) + dot (cross (vsub b a) N) (vsub a x) = norm2 N.
Proof. clear. cbv zeta. destruct a as [a1 a2 a3], b as [b1 b2 b3], c as [c1 c2 c3], x as [x1 x2 x3]. unfold vadd, vsub, smul, cross, norm2, dot. cbn [vx vy vz]. split; [f_equal; ring|ring]. Qed.
Lemma edges_inside x : dot (fnormal f) x = dot (fnormal f) (v 0%nat) -> (forall i, (i < 3)%nat -> dot (ne f i) x <= dot (ne f i) (v i)) -> in_triangle (v 0%nat) (v 1%nat) (v 2%nat) x.
Proof.
  intros P H. destruct (barycentric (v 0%nat) (v 1%nat) (v 2%nat) x) as [B S1]. pose proof (f_nz _ _ F) as NZ. pose proof (f_normal _ _ F) as FN. change (vsub (v 1%nat) (v 0%nat)) with (edge v 0) in B, S1. change (vsub (v 2%nat) (v 1%nat)) with (edge v 1) in B, S1. change (vsub (v 0%nat) (v 2%nat)) with (edge v 2) in B, S1. remember (cross (edge v 0) (edge v 1)) as N. assert (N2 : 0 < norm2 N) by (rewrite <- norm_sq; apply Rmult_lt_0_compat; exact NZ).
  assert (PN : dot N (vsub x (v 0%nat)) = 0) by (rewrite FN, dot_smul_l, dot_sub_r, P; ring). rewrite PN in B.
  assert (C : forall i, (i < 3)%nat -> 0 <= dot (cross (edge v i) N) (vsub (v i) x)).
  { intros i I. specialize (H i I). rewrite (f_ne _ _ F) in H by exact I. pose proof (f_len _ _ F i I) as LE. assert (K : 0 <= dot (cross (smul (/ norm (edge v i)) (edge v i)) (fnormal f)) (vsub (v i) x)) by (rewrite dot_sub_r; lra). rewrite FN. replace (dot (cross (edge v i) (smul (2 * farea f) (fnormal f))) (vsub (v i) x)) with (2 * farea f * norm (edge v i) * dot (cross (smul (/ norm (edge v i)) (edge v i)) (fnormal f)) (vsub (v i) x)).
    - apply Rmult_le_pos; [|exact K]. pose proof area_pos. apply Rmult_le_pos; lra.
    - assert (E : norm (edge v i) * / norm (edge v i) = 1) by (apply Rinv_r; lra). generalize (vsub (v i) x). intros y. rewrite id_out, id_out2. rewrite <- Rmult_assoc, (Rmult_assoc (2 * farea f)), E. ring. }
  pose proof (C 0%nat ltac:(lia)) as C0. pose proof (C 1%nat ltac:(lia)) as C1. pose proof (C 2%nat ltac:(lia)) as C2. remember (dot (cross (edge v 1) N) (vsub (v 1%nat) x)) as s. remember (dot (cross (edge v 2) N) (vsub (v 2%nat) x)) as t. remember (dot (cross (edge v 0) N) (vsub (v 0%nat) x)) as w. assert (IP : 0 < / norm2 N) by (apply Rinv_0_lt_compat, N2).
  exists (s * / norm2 N), (t * / norm2 N), (w * / norm2 N). split; [apply Rmult_le_pos; lra|]. split; [apply Rmult_le_pos; lra|]. split; [apply Rmult_le_pos; lra|]. split; [rewrite <- !Rmult_plus_distr_r, S1; apply Rinv_r; lra|].
  apply (f_equal (smul (/ norm2 N))) in B. replace (smul (/ norm2 N) (vsub (smul (norm2 N) x) (smul 0 N))) with x in B by (destruct x as [x1 x2 x3], N as [q1 q2 q3]; unfold smul, vsub; cbn [vx vy vz]; f_equal; field; lra). rewrite <- B. apply id_bary.
Qed.
End Facet.
