(** Proofs about the automatic time step: what the stiffnesses of bodies say about contacts. *)
From Coq Require Import List ZArith Bool Arith Reals Lra Lia.
From Verif Require Import Vec_Model Vec_Proofs Tstep_Model Tstep_Spec Tstep_Proofs.
Import ListNotations.
Local Open Scope R_scope.

Lemma sqr_pos x : 0 <= x * x. Proof. pose proof (Rle_0_sqr x) as H. exact H. Qed.
(** parts of a relative displacement *)
Lemma dot_bound n v : dot v n * dot v n <= 3 * wsq (normal2 n) v.
Proof.
  destruct n as [a b c], v as [x y z]. unfold wsq, normal2, sq. vgoal. pose proof (sqr_pos (x * a - y * b)). pose proof (sqr_pos (x * a - z * c)). pose proof (sqr_pos (y * b - z * c)). lra.
Qed.
Definition other2 (n : vec) : vec := V (sq (vy n) + sq (vz n)) (sq (vx n) + sq (vz n)) (sq (vx n) + sq (vy n)).
Lemma cross_bound n v : norm2 (cross v n) <= 2 * wsq (other2 n) v.
Proof.
  destruct n as [a b c], v as [x y z]. unfold wsq, other2, sq. vgoal. pose proof (sqr_pos (y * c + z * b)). pose proof (sqr_pos (z * a + x * c)). pose proof (sqr_pos (x * b + y * a)). lra.
Qed.
Lemma linear_form n k t d : norm2 n = 1 -> dot (linear n k t d) d = k * (dot d n * dot d n) + t * norm2 (cross d n).
Proof.
  intros H. rewrite lagrange, H. unfold linear. transitivity (k * (dot d n * dot d n) + t * (norm2 d - dot d n * dot d n)); [vring|ring].
Qed.
Lemma norm2_two a b : norm2 (vsub a b) <= 2 * norm2 a + 2 * norm2 b.
Proof. replace (norm2 (vsub a b)) with (2 * norm2 a + 2 * norm2 b - norm2 (vadd a b)) by vring. pose proof (norm2_pos (vadd a b)). lra. Qed.
Lemma norm2_add a b : norm2 (vadd a b) <= 2 * norm2 a + 2 * norm2 b.
Proof. replace (norm2 (vadd a b)) with (2 * norm2 a + 2 * norm2 b - norm2 (vsub a b)) by vring. pose proof (norm2_pos (vsub a b)). lra. Qed.
Lemma two_sq a b : (a - b) * (a - b) <= 2 * (a * a) + 2 * (b * b). Proof. pose proof (sqr_pos (a + b)). lra. Qed.

(** the diagonal the engine sums up *)
Lemma wsq_diag n k t v : norm2 n = 1 -> wsq (diag_stiffness n k t) v = k * wsq (normal2 n) v + t * wsq (other2 n) v.
Proof.
  intros H. assert (E : forall s, s * norm2 n = s) by (intros; rewrite H; ring). unfold norm2, dot in H. destruct n as [a b c], v as [x y z]. unfold wsq, diag_stiffness, normal2, other2, sq in *. cbn [vx vy vz vadd smul] in *.
  replace ((k - t) * (a * a) + t * 1) with (k * (a * a) + t * (b * b + c * c)) by (rewrite <- H; ring). replace ((k - t) * (b * b) + t * 1) with (k * (b * b) + t * (a * a + c * c)) by (rewrite <- H; ring). replace ((k - t) * (c * c) + t * 1) with (k * (c * c) + t * (a * a + b * b)) by (rewrite <- H; ring). ring.
Qed.
Lemma wsq_rot n r t k k' v : norm2 n = 1 -> wsq (vadd (smul (sq r) (diag_Rstiffness n t)) (diag_stiffness n k k')) v = t * (r * r) * wsq (other2 n) v + (k * wsq (normal2 n) v + k' * wsq (other2 n) v).
Proof. intros H. rewrite wsq_add, (wsq_diag n k k' v H). f_equal. unfold wsq, diag_Rstiffness, other2, sq. cbn [smul vx vy vz]. ring. Qed.
Lemma wsq_normal2_pos n v : 0 <= wsq (normal2 n) v.
Proof. pose proof (dot_bound n v). pose proof (sqr_pos (dot v n)). lra. Qed.
Lemma wsq_other2_pos n v : 0 <= wsq (other2 n) v.
Proof. pose proof (cross_bound n v). pose proof (norm2_pos (cross v n)). lra. Qed.

Definition diag_of (c : contact) (f : field) : R :=
  wsq (stiff_of c 1) (tr f (c1 c)) + wsq (Rstiff_of c 1) (ro f (c1 c)) + (wsq (stiff_of c 2) (tr f (c2 c)) + wsq (Rstiff_of c 2) (ro f (c2 c))).
Definition okc (c : contact) : Prop := norm2 (nrm c) = 1 /\ 0 <= kn c /\ 0 <= ks c /\ 0 <= ktw c /\ 0 <= kroll c.
Lemma slip_dot c f : dot (slip c f) (nrm c) = dot (tr f (c2 c)) (nrm c) - dot (tr f (c1 c)) (nrm c).
Proof. unfold slip. generalize (tr f (c2 c)) (tr f (c1 c)) (ro f (c2 c)) (ro f (c1 c)) (nrm c). vring. Qed.
Lemma slip_cross c f : norm2 (nrm c) = 1 -> norm2 (cross (slip c f) (nrm c)) <=
  4 * (norm2 (cross (tr f (c1 c)) (nrm c)) + norm2 (cross (tr f (c2 c)) (nrm c)) + rad1 c * rad1 c * norm2 (cross (ro f (c1 c)) (nrm c)) + rad2 c * rad2 c * norm2 (cross (ro f (c2 c)) (nrm c))).
Proof.
  intros H. unfold slip. generalize (tr f (c2 c)) (tr f (c1 c)) (ro f (c2 c)) (ro f (c1 c)) (rad1 c) (rad2 c). intros u2 u1 w2 w1 a b. set (n := nrm c) in *.
  replace (cross (vsub (vsub u2 u1) (vadd (smul b (cross w2 n)) (smul a (cross w1 n)))) n) with (vsub (vsub (cross u2 n) (cross u1 n)) (vadd (smul b (cross (cross w2 n) n)) (smul a (cross (cross w1 n) n)))) by (clear; vring).
  assert (N : forall w, norm2 (cross (cross w n) n) = norm2 (cross w n)) by (intros w; rewrite (lagrange (cross w n) n), H; replace (dot (cross w n) n) with 0 by (clear; vring); ring).
  assert (S : forall k v, norm2 (smul k v) = k * k * norm2 v) by (clear; intros; vring).
  eapply Rle_trans; [apply norm2_two|]. pose proof (norm2_two (cross u2 n) (cross u1 n)) as Q1. pose proof (norm2_add (smul b (cross (cross w2 n) n)) (smul a (cross (cross w1 n) n))) as Q2. rewrite !S, !N in Q2. lra.
Qed.
Lemma work_le c f : okc c -> work c f f <= 8 * diag_of c f.
Proof.
  intros (N & Hk & Ht & Hw & Hr). unfold work, force, moment, diag_of, stiff_of, Rstiff_of. cbn [radius]. rewrite !(linear_form _ _ _ _ N), !(wsq_diag _ _ _ _ N), !(wsq_rot _ _ _ _ _ _ N).
  rewrite slip_dot. pose proof (slip_cross c f N) as Q. unfold turn. set (n := nrm c) in *. set (u1 := tr f (c1 c)) in *. set (u2 := tr f (c2 c)) in *. set (w1 := ro f (c1 c)) in *. set (w2 := ro f (c2 c)) in *.
  replace (dot (vsub w2 w1) n) with (dot w2 n - dot w1 n) by (clear; vring). replace (cross (vsub w2 w1) n) with (vsub (cross w2 n) (cross w1 n)) by (clear; vring).
  pose proof (two_sq (dot u2 n) (dot u1 n)) as A1. pose proof (two_sq (dot w2 n) (dot w1 n)) as A2. pose proof (norm2_two (cross w2 n) (cross w1 n)) as A3.
  pose proof (dot_bound n u1) as D1. pose proof (dot_bound n u2) as D2. pose proof (dot_bound n w1) as D3. pose proof (dot_bound n w2) as D4. pose proof (cross_bound n u1) as C1. pose proof (cross_bound n u2) as C2. pose proof (cross_bound n w1) as C3. pose proof (cross_bound n w2) as C4.
  pose proof (wsq_normal2_pos n u1) as P1. pose proof (wsq_normal2_pos n u2) as P2. pose proof (wsq_normal2_pos n w1) as P3. pose proof (wsq_normal2_pos n w2) as P4. pose proof (wsq_other2_pos n u1) as O1. pose proof (wsq_other2_pos n u2) as O2. pose proof (wsq_other2_pos n w1) as O3. pose proof (wsq_other2_pos n w2) as O4.
  pose proof (sqr_pos (rad1 c)) as R1. pose proof (sqr_pos (rad2 c)) as R2. set (ra := rad1 c * rad1 c) in *. set (rb := rad2 c * rad2 c) in *.
  assert (R1' : ra * norm2 (cross w1 n) <= ra * (2 * wsq (other2 n) w1)) by (apply Rmult_le_compat_l; assumption). assert (R2' : rb * norm2 (cross w2 n) <= rb * (2 * wsq (other2 n) w2)) by (apply Rmult_le_compat_l; assumption).
  assert (L1 : kn c * ((dot u2 n - dot u1 n) * (dot u2 n - dot u1 n)) <= kn c * (6 * (wsq (normal2 n) u1 + wsq (normal2 n) u2))) by (apply Rmult_le_compat_l; lra).
  assert (L2 : ks c * norm2 (cross (slip c f) n) <= ks c * (8 * (wsq (other2 n) u1 + wsq (other2 n) u2 + ra * wsq (other2 n) w1 + rb * wsq (other2 n) w2))) by (apply Rmult_le_compat_l; lra).
  assert (L3 : ktw c * ((dot w2 n - dot w1 n) * (dot w2 n - dot w1 n)) <= ktw c * (6 * (wsq (normal2 n) w1 + wsq (normal2 n) w2))) by (apply Rmult_le_compat_l; lra).
  assert (L4 : kroll c * norm2 (vsub (cross w2 n) (cross w1 n)) <= kroll c * (4 * (wsq (other2 n) w1 + wsq (other2 n) w2))) by (apply Rmult_le_compat_l; lra).
  assert (M1 : 0 <= kn c * (wsq (normal2 n) u1 + wsq (normal2 n) u2)) by (apply Rmult_le_pos; lra). assert (M2 : 0 <= ktw c * (wsq (normal2 n) w1 + wsq (normal2 n) w2)) by (apply Rmult_le_pos; lra). assert (M3 : 0 <= kroll c * (wsq (other2 n) w1 + wsq (other2 n) w2)) by (apply Rmult_le_pos; lra). lra.
Qed.
Lemma work_frictionless c f : okc c -> frictionless c -> work c f f = kn c * ((dot (tr f (c2 c)) (nrm c) - dot (tr f (c1 c)) (nrm c)) * (dot (tr f (c2 c)) (nrm c) - dot (tr f (c1 c)) (nrm c))) /\
  diag_of c f = kn c * (wsq (normal2 (nrm c)) (tr f (c1 c)) + wsq (normal2 (nrm c)) (tr f (c2 c))).
Proof.
  intros (N & _) (F1 & F2 & F3). unfold work, force, moment, diag_of, stiff_of, Rstiff_of. cbn [radius]. rewrite !(linear_form _ _ _ _ N), !(wsq_diag _ _ _ _ N), !(wsq_rot _ _ _ _ _ _ N), slip_dot, F1, F2, F3. split; ring.
Qed.
Lemma work_le6 c f : okc c -> frictionless c -> work c f f <= 6 * diag_of c f.
Proof.
  intros K F. destruct (work_frictionless c f K F) as (-> & ->). destruct K as (N & Hk & _). set (n := nrm c) in *. set (u1 := tr f (c1 c)) in *. set (u2 := tr f (c2 c)) in *.
  pose proof (two_sq (dot u2 n) (dot u1 n)) as A1. pose proof (dot_bound n u1) as D1. pose proof (dot_bound n u2) as D2.
  assert (L1 : kn c * ((dot u2 n - dot u1 n) * (dot u2 n - dot u1 n)) <= kn c * (6 * (wsq (normal2 n) u1 + wsq (normal2 n) u2))) by (apply Rmult_le_compat_l; lra). lra.
Qed.
Lemma dot_aligned n v : vx n * vy n = 0 -> vy n * vz n = 0 -> vx n * vz n = 0 -> dot v n * dot v n = wsq (normal2 n) v.
Proof.
  destruct n as [a b c], v as [x y z]. unfold wsq, normal2, sq, dot. cbn [vx vy vz]. intros H1 H2 H3.
  transitivity (a * a * (x * x) + b * b * (y * y) + c * c * (z * z) + 2 * x * y * (a * b) + 2 * y * z * (b * c) + 2 * x * z * (a * c)); [ring|]. rewrite H1, H2, H3. ring.
Qed.
Lemma work_le2 c f : okc c -> frictionless c -> aligned c -> work c f f <= 2 * diag_of c f.
Proof.
  intros K F (A1 & A2 & A3). destruct (work_frictionless c f K F) as (-> & ->). destruct K as (N & Hk & _). set (n := nrm c) in *. set (u1 := tr f (c1 c)) in *. set (u2 := tr f (c2 c)) in *.
  rewrite <- !(dot_aligned n _ A1 A2 A3). pose proof (two_sq (dot u2 n) (dot u1 n)) as T.
  assert (L1 : kn c * ((dot u2 n - dot u1 n) * (dot u2 n - dot u1 n)) <= kn c * (2 * (dot u1 n * dot u1 n + dot u2 n * dot u2 n))) by (apply Rmult_le_compat_l; lra). lra.
Qed.

(** ** sums over bodies *)
Definition diag_body (cs : list contact) (f : field) (i : nat) : R := wsq (total stiff_of cs i) (tr f i) + wsq (total Rstiff_of cs i) (ro f i).
Lemma diag_sum n cs f : (forall c, In c cs -> (c1 c < n)%nat /\ (c2 c < n)%nat /\ fn2 c <> 0) -> Rs (map (fun c => diag_of c f) cs) = Rs (map (diag_body cs f) (seq 0 n)).
Proof.
  intros H. rewrite (Rs_ext (diag_body cs f) (fun i => Rs (map (fun c => (if (c1 c =? i)%nat then wsq (stiff_of c 1) (tr f i) + wsq (Rstiff_of c 1) (ro f i) else 0) + (if (c2 c =? i)%nat then wsq (stiff_of c 2) (tr f i) + wsq (Rstiff_of c 2) (ro f i) else 0)) cs))).
  2:{ intros i _. unfold diag_body, total. fold (vsum (map (fun c => contribution stiff_of c i) cs)). fold (vsum (map (fun c => contribution Rstiff_of c i) cs)). rewrite !wsq_vsum, <- Rs_plus. apply Rs_ext. intros c Hc. destruct (H c Hc) as (_ & _ & F). unfold contribution, isZ. destruct (Req_EM_T (fn2 c) 0) as [|_]; [contradiction|].
      rewrite !wsq_add, !wsq_when. destruct (c1 c =? i)%nat, (c2 c =? i)%nat; ring. }
  rewrite Rs_swap. apply Rs_ext. intros c Hc. destruct (H c Hc) as (H1 & H2 & _). rewrite Rs_plus.
  rewrite (Rs_seq 0 n (c1 c) (fun i => wsq (stiff_of c 1) (tr f i) + wsq (Rstiff_of c 1) (ro f i))) by lia. rewrite (Rs_seq 0 n (c2 c) (fun i => wsq (stiff_of c 2) (tr f i) + wsq (Rstiff_of c 2) (ro f i))) by lia. reflexivity.
Qed.
(** a criterion for each body gives stability *)
Definition meets (dt2 mu s : R) (m : R) (J k r : vec) : Prop :=
  dt2 * vx k * s <= mu * m /\ dt2 * vy k * s <= mu * m /\ dt2 * vz k * s <= mu * m /\ dt2 * vx r * s <= mu * vx J /\ dt2 * vy r * s <= mu * vy J /\ dt2 * vz r * s <= mu * vz J.
Lemma stable_bodies ds dt bs cs mu phi : (forall i b, free_body bs i = Some b -> positive_body b /\ 0 < factor ds b) -> (forall c, In c cs -> loaded (length bs) c) -> (forall c f, In c cs -> work c f f <= phi * diag_of c f) -> 0 <= phi -> phi * mu < 4 ->
  (forall i b, free_body bs i = Some b -> meets (dt * dt) mu (factor ds b) (mass b) (inertia b) (total stiff_of cs i) (total Rstiff_of cs i)) -> stable ds dt bs cs.
Proof.
  intros Hp Hl Hw Hphi Hmu Hm. apply (stable_if ds dt bs cs Hp) with (g := phi * mu / 4); [intros c Hc; destruct (Hl c Hc) as (A & C & _); auto|lra| |].
  - intros c Hc. destruct (Hl c Hc) as (_ & _ & N & K1 & K2 & K3 & K4 & _). repeat split; auto; lra.
  - intros v Hv. replace (4 * (phi * mu / 4) * kin ds bs v) with (phi * (mu * kin ds bs v)) by field.
    assert (Q : B cs v v <= phi * Rs (map (diag_body cs v) (seq 0 (length bs)))). { rewrite <- (diag_sum (length bs)); [|intros c Hc; destruct (Hl c Hc) as (A & C & _ & _ & _ & _ & _ & F); auto]. rewrite <- Rs_scal. apply Rs_le. intros c Hc. apply Hw. exact Hc. }
    apply Rle_trans with (phi * (dt * dt * Rs (map (diag_body cs v) (seq 0 (length bs))))). { replace (phi * (dt * dt * Rs (map (diag_body cs v) (seq 0 (length bs))))) with (dt * dt * (phi * Rs (map (diag_body cs v) (seq 0 (length bs))))) by ring. apply Rmult_le_compat_l; [apply sqr_pos|exact Q]. }
    apply Rmult_le_compat_l; [exact Hphi|]. unfold kin. rewrite <- !Rs_scal. apply Rs_le. intros i _. unfold diag_body, kin_of. destruct (free_body bs i) as [b|] eqn:E.
    + destruct (Hp i b E) as (_ & F). destruct (Hm i b E) as (A1 & A2 & A3 & A4 & A5 & A6). set (s := factor ds b) in *. set (k := total stiff_of cs i) in *. set (r := total Rstiff_of cs i) in *. set (J := inertia b) in *. set (m := mass b) in *. clearbody k r J m.
      apply (Rmult_le_reg_r s); [exact F|]. replace (mu * ((m * norm2 (tr v i) + wsq J (ro v i)) / s) * s) with (mu * (m * norm2 (tr v i) + wsq J (ro v i))) by (field; lra).
      unfold wsq, norm2, dot. destruct (tr v i) as [x y z], (ro v i) as [x' y' z']. cbn [vx vy vz].
      assert (G : forall a b q, a <= b -> a * (q * q) <= b * (q * q)) by (intros; apply Rmult_le_compat_r; [apply sqr_pos|assumption]).
      pose proof (G _ _ x A1). pose proof (G _ _ y A2). pose proof (G _ _ z A3). pose proof (G _ _ x' A4). pose proof (G _ _ y' A5). pose proof (G _ _ z' A6). lra.
    + destruct (Hv i E) as (-> & ->). unfold wsq. cbn [vx vy vz vzero]. lra.
Qed.
