From Coq Require Import Reals Lra Psatz List Arith.
From Verif Require Import Vec_Model Vec_Proofs Rigid_Model Rigid_Spec.
Import ListNotations.
Local Open Scope R_scope.

(** ** quaternion of a matrix *)
Lemma inv_left_right A : mmul (transpose A) A = mid -> mmul A (transpose A) = mid.
Proof.
  intros H. assert (D : det A <> 0). { intros Z. pose proof (f_equal det H) as E. rewrite det_mmul, Z, Rmult_0_r in E. revert E. vunfold. lra. }
  assert (E : transpose A = minv A). { rewrite <- (mmul_id_r (transpose A)), <- (minv_r A D), mmul_assoc, H, mmul_id_l. reflexivity. }
  rewrite E. apply minv_r. exact D.
Qed.
Lemma rotation_cofactors A : mmul (transpose A) A = mid -> det A = 1 -> A = M (cross (r1 A) (r2 A)) (cross (r2 A) (r0 A)) (cross (r0 A) (r1 A)).
Proof.
  intros H D. assert (N : det A <> 0) by lra. assert (E : transpose A = minv A). { rewrite <- (mmul_id_r (transpose A)), <- (minv_r A N), mmul_assoc, H, mmul_id_l. reflexivity. }
  rewrite <- (transpose_transpose A) at 1. rewrite E. unfold minv. rewrite D, Rinv_1. destruct A as [[a b c] [d e f] [g h i]]. clear. vring.
Qed.
Lemma kk s p q r : s <> 0 -> p * q = r * (s * s) -> (p * (1/2/s)) * (q * (1/2/s)) = r / 4.
Proof. intros H E. replace ((p * (1/2/s)) * (q * (1/2/s))) with (p * q / (4 * (s * s))) by (field; exact H). rewrite E. field. exact H. Qed.
Lemma sk s p : s <> 0 -> (1/2 * s) * (p * (1/2/s)) = p / 4.
Proof. intros H. field. exact H. Qed.
Lemma pos_root t : 0 < t -> sqrt t <> 0 /\ sqrt t * sqrt t = t.
Proof. intros H. split; [|apply sqrt_def; lra]. pose proof (sqrt_lt_R0 t H). lra. Qed.
Lemma mat_quat_nonzero A : 0 < qnorm2 (mat_quat A).
Proof.
  assert (G : forall s a b c, 0 < s -> 0 < 1/2 * sqrt s * (1/2 * sqrt s) + (a*a + b*b + c*c)). { intros s a b c H. destruct (pos_root s H). nra. }
  destruct A as [[a b c] [d e f] [g h i]]. unfold mat_quat. cbv zeta. cbn [r0 r1 r2 vx vy vz].
  destruct (Rlt_dec 0 (a + e + i)) as [T|T]; [|destruct (Rlt_dec a e) as [T1|T1]; [destruct (Rlt_dec e i) as [T2|T2]|destruct (Rlt_dec a i) as [T2|T2]]].
  - refine (Rlt_le_trans _ _ _ (G (a + e + i + 1) _ _ _ _) (Req_le _ _ _)); [lra|vunfold; reflexivity].
  - eapply Rlt_le_trans; [|apply Req_le]. { apply (G (i - a - e + 1)); lra. } vunfold. instantiate (1 := (f + h) * (1/2 / sqrt (i - a - e + 1))). instantiate (1 := (c + g) * (1/2 / sqrt (i - a - e + 1))). instantiate (1 := (d - b) * (1/2 / sqrt (i - a - e + 1))). ring.
  - eapply Rlt_le_trans; [|apply Req_le]. { apply (G (e - i - a + 1)); lra. } vunfold. instantiate (1 := (f + h) * (1/2 / sqrt (e - i - a + 1))). instantiate (1 := (b + d) * (1/2 / sqrt (e - i - a + 1))). instantiate (1 := (c - g) * (1/2 / sqrt (e - i - a + 1))). ring.
  - eapply Rlt_le_trans; [|apply Req_le]. { apply (G (i - a - e + 1)); lra. } vunfold. instantiate (1 := (f + h) * (1/2 / sqrt (i - a - e + 1))). instantiate (1 := (c + g) * (1/2 / sqrt (i - a - e + 1))). instantiate (1 := (d - b) * (1/2 / sqrt (i - a - e + 1))). ring.
  - eapply Rlt_le_trans; [|apply Req_le]. { apply (G (a - e - i + 1)); lra. } vunfold. instantiate (1 := (c + g) * (1/2 / sqrt (a - e - i + 1))). instantiate (1 := (b + d) * (1/2 / sqrt (a - e - i + 1))). instantiate (1 := (h - f) * (1/2 / sqrt (a - e - i + 1))). ring.
Qed.
Lemma mat_quat_rotation A : mmul (transpose A) A = mid -> det A = 1 -> qnorm2 (mat_quat A) = 1 /\ qmat (mat_quat A) = A.
Proof.
  intros H D. pose proof (inv_left_right A H) as H'. pose proof (rotation_cofactors A H D) as C. clear D. destruct A as [[a b c] [d e f] [g h i]]. vunfold.
  injection H as A1 A2 A3 A4 A5 A6 A7 A8 A9. injection H' as B1 B2 B3 B4 B5 B6 B7 B8 B9. injection C as C1 C2 C3 C4 C5 C6 C7 C8 C9. unfold mat_quat. cbv zeta. cbn [r0 r1 r2 vx vy vz].
  destruct (Rlt_dec 0 (a + e + i)) as [T|T]; [|destruct (Rlt_dec a e) as [T1|T1]; [destruct (Rlt_dec e i) as [T2|T2]|destruct (Rlt_dec a i) as [T2|T2]]].
  - destruct (pos_root (a + e + i + 1) ltac:(lra)) as [N E]. set (s := sqrt (a + e + i + 1)) in *.
    pose proof (kk s (h - f) (h - f) (1 + a - e - i) N ltac:(rewrite E; lra)). pose proof (kk s (c - g) (c - g) (1 - a + e - i) N ltac:(rewrite E; lra)). pose proof (kk s (d - b) (d - b) (1 - a - e + i) N ltac:(rewrite E; lra)).
    pose proof (kk s (h - f) (c - g) (b + d) N ltac:(rewrite E; lra)). pose proof (kk s (h - f) (d - b) (c + g) N ltac:(rewrite E; lra)). pose proof (kk s (c - g) (d - b) (f + h) N ltac:(rewrite E; lra)).
    pose proof (sk s (h - f) N). pose proof (sk s (c - g) N). pose proof (sk s (d - b) N). assert (1/2 * s * (1/2 * s) = (a + e + i + 1) / 4) by (rewrite <- E; field). set (k := 1/2/s) in *. clearbody k s. vunfold.
    split; [lra|]. f_equal; f_equal; lra.
  - destruct (pos_root (i - a - e + 1) ltac:(lra)) as [N E]. set (s := sqrt (i - a - e + 1)) in *.
    pose proof (kk s (d - b) (d - b) (1 + a + e + i) N ltac:(rewrite E; lra)). pose proof (kk s (g + c) (g + c) (1 + a - e - i) N ltac:(rewrite E; lra)). pose proof (kk s (h + f) (h + f) (1 - a + e - i) N ltac:(rewrite E; lra)).
    pose proof (kk s (d - b) (g + c) (h - f) N ltac:(rewrite E; lra)). pose proof (kk s (d - b) (h + f) (c - g) N ltac:(rewrite E; lra)). pose proof (kk s (g + c) (h + f) (b + d) N ltac:(rewrite E; lra)).
    pose proof (sk s (d - b) N). pose proof (sk s (g + c) N). pose proof (sk s (h + f) N). assert (1/2 * s * (1/2 * s) = (i - a - e + 1) / 4) by (rewrite <- E; field). set (k := 1/2/s) in *. clearbody k s. vunfold.
    split; [lra|]. f_equal; f_equal; lra.
  - destruct (pos_root (e - i - a + 1) ltac:(lra)) as [N E]. set (s := sqrt (e - i - a + 1)) in *.
    pose proof (kk s (c - g) (c - g) (1 + a + e + i) N ltac:(rewrite E; lra)). pose proof (kk s (b + d) (b + d) (1 + a - e - i) N ltac:(rewrite E; lra)). pose proof (kk s (h + f) (h + f) (1 - a - e + i) N ltac:(rewrite E; lra)).
    pose proof (kk s (c - g) (b + d) (h - f) N ltac:(rewrite E; lra)). pose proof (kk s (c - g) (h + f) (d - b) N ltac:(rewrite E; lra)). pose proof (kk s (b + d) (h + f) (c + g) N ltac:(rewrite E; lra)).
    pose proof (sk s (c - g) N). pose proof (sk s (b + d) N). pose proof (sk s (h + f) N). assert (1/2 * s * (1/2 * s) = (e - i - a + 1) / 4) by (rewrite <- E; field). set (k := 1/2/s) in *. clearbody k s. vunfold.
    split; [lra|]. f_equal; f_equal; lra.
  - destruct (pos_root (i - a - e + 1) ltac:(lra)) as [N E]. set (s := sqrt (i - a - e + 1)) in *.
    pose proof (kk s (d - b) (d - b) (1 + a + e + i) N ltac:(rewrite E; lra)). pose proof (kk s (g + c) (g + c) (1 + a - e - i) N ltac:(rewrite E; lra)). pose proof (kk s (h + f) (h + f) (1 - a + e - i) N ltac:(rewrite E; lra)).
    pose proof (kk s (d - b) (g + c) (h - f) N ltac:(rewrite E; lra)). pose proof (kk s (d - b) (h + f) (c - g) N ltac:(rewrite E; lra)). pose proof (kk s (g + c) (h + f) (b + d) N ltac:(rewrite E; lra)).
    pose proof (sk s (d - b) N). pose proof (sk s (g + c) N). pose proof (sk s (h + f) N). assert (1/2 * s * (1/2 * s) = (i - a - e + 1) / 4) by (rewrite <- E; field). set (k := 1/2/s) in *. clearbody k s. vunfold.
    split; [lra|]. f_equal; f_equal; lra.
  - destruct (pos_root (a - e - i + 1) ltac:(lra)) as [N E]. set (s := sqrt (a - e - i + 1)) in *.
    pose proof (kk s (h - f) (h - f) (1 + a + e + i) N ltac:(rewrite E; lra)). pose proof (kk s (d + b) (d + b) (1 - a + e - i) N ltac:(rewrite E; lra)). pose proof (kk s (g + c) (g + c) (1 - a - e + i) N ltac:(rewrite E; lra)).
    pose proof (kk s (h - f) (d + b) (c - g) N ltac:(rewrite E; lra)). pose proof (kk s (h - f) (g + c) (d - b) N ltac:(rewrite E; lra)). pose proof (kk s (d + b) (g + c) (f + h) N ltac:(rewrite E; lra)).
    pose proof (sk s (h - f) N). pose proof (sk s (d + b) N). pose proof (sk s (g + c) N). assert (1/2 * s * (1/2 * s) = (a - e - i + 1) / 4) by (rewrite <- E; field). set (k := 1/2/s) in *. clearbody k s. vunfold.
    split; [lra|]. f_equal; f_equal; lra.
Qed.

(** ** moving members *)
Lemma update_same w i s : update w i s i = Some s.
Proof. unfold update. rewrite Nat.eqb_refl. reflexivity. Qed.
Lemma update_other w i s j : j <> i -> update w i s j = w j.
Proof. intros H. unfold update. apply Nat.eqb_neq in H. rewrite H. reflexivity. Qed.
Lemma moveMembers_spec c ms : NoDup (map fst ms) -> forall w, (forall i, In i (map fst ms) -> w i <> None) ->
  exists w', moveMembers c ms w = Some w' /\ (forall i l, In (i, l) ms -> exists s, w i = Some s /\ w' i = Some (place c s l)) /\ (forall j, ~ In j (map fst ms) -> w' j = w j).
Proof.
  induction ms as [|[i l] ms IH]; intros Hd w Hw; [exists w; repeat split; intros; try contradiction; reflexivity|]. cbn [moveMembers map fst] in *. inversion Hd as [|x xs Hx Hd']; subst.
  destruct (w i) as [s|] eqn:Ei; [|destruct (Hw i (or_introl eq_refl) Ei)]. destruct (IH Hd' (update w i (place c s l))) as (w' & E & A & B).
  { intros j Hj. unfold update. destruct (Nat.eqb j i); [discriminate|]. apply Hw. right. exact Hj. }
  exists w'. split; [exact E|]. split.
  - intros j l' [H|H].
    + injection H as <- <-. exists s. split; [exact Ei|]. rewrite B by exact Hx. apply update_same.
    + destruct (A j l' H) as (s' & E1 & E2). assert (N : j <> i) by (intros ->; apply Hx; apply in_map_iff; exists (i, l'); auto). rewrite update_other in E1 by exact N. exists s'. auto.
  - intros j Hj. rewrite B by (intros H; apply Hj; right; exact H). apply update_other. intros ->. apply Hj. left. reflexivity.
Qed.
Lemma moveMembers_inv c ms w w' : NoDup (map fst ms) -> moveMembers c ms w = Some w' ->
  (forall i l, In (i, l) ms -> exists s, w i = Some s /\ w' i = Some (place c s l)) /\ (forall j, ~ In j (map fst ms) -> w' j = w j).
Proof.
  intros Hd E. assert (Hw : forall i, In i (map fst ms) -> w i <> None).
  { clear Hd. revert w E. induction ms as [|[i l] ms IH]; intros w E j Hj; [destruct Hj|]. cbn [moveMembers map fst] in *. destruct (w i) as [s|] eqn:Ei; [|discriminate]. destruct (Nat.eq_dec j i) as [->|N]; [congruence|]. destruct Hj as [->|Hj]; [congruence|]. specialize (IH _ E j Hj). rewrite update_other in IH by exact N. exact IH. }
  destruct (moveMembers_spec c ms Hd w Hw) as (w1 & E1 & A & B). rewrite E in E1. injection E1 as <-. auto.
Qed.
Lemma clump_unit eig a : unit_ori (clump_state eig a).
Proof. destruct a as [[m s] i]. unfold unit_ori, clump_state. destruct (eig (central_inertia (m, s, i))) as [ev lam]. cbn [ori]. apply qnormalize_unit. pose proof (mat_quat_nonzero ev). lra. Qed.
Lemma place_local c s : unit_ori c -> pos (place c s (local c s)) = pos s /\ ori (place c s (local c s)) = ori s.
Proof.
  intros H. unfold place, local. cbn [pos ori s_pos s_ori]. rewrite qrot_conj_r by exact H. split; [apply vadd_sub|]. rewrite qmul_assoc, qmul_conj_r, H. apply qmul_id_l.
Qed.
Theorem round_trip eig sums_of ms c ls w : updateProperties eig sums_of ms = Some (c, ls) -> NoDup (map m_id ms) -> (forall b, In b ms -> w (m_id b) = Some (m_state b)) ->
  map fst ls = map m_id ms /\ exists w', moveMembers c ls w = Some w' /\
    (forall b, In b ms -> exists s, w' (m_id b) = Some s /\ pos s = pos (m_state b) /\ ori s = ori (m_state b) /\ mass s = mass (m_state b) /\ inertia s = inertia (m_state b)) /\
    (forall j, ~ In j (map m_id ms) -> w' j = w j).
Proof.
  intros E Hd Hw. assert (F : exists ls', ls = map (fun b => (m_id b, ls' b)) ms /\ forall b, In b ms -> pos (place c (m_state b) (ls' b)) = pos (m_state b) /\ ori (place c (m_state b) (ls' b)) = ori (m_state b)).
  { destruct ms as [|b [|b2 ms]]; cbn [updateProperties] in E; [discriminate| |].
    - injection E as <- <-. exists (fun _ => mkSe3 vzero qid). split; [reflexivity|]. intros b' [<-|[]]. unfold place. cbn [pos ori s_pos s_ori]. rewrite qrot_zero, vadd_0_r, qmul_id_r. auto.
    - injection E as <- <-. exists (fun x => local (clump_state eig (sums_of (b :: b2 :: ms))) (m_state x)). split; [reflexivity|]. intros x _. apply place_local. apply clump_unit. }
  destruct F as (ls' & -> & F). assert (Ef : map fst (map (fun b => (m_id b, ls' b)) ms) = map m_id ms) by (rewrite map_map; reflexivity). split; [exact Ef|].
  destruct (moveMembers_spec c (map (fun b => (m_id b, ls' b)) ms)) with (w := w) as (w' & E1 & A & B); [rewrite Ef; exact Hd| |].
  { intros i Hi. rewrite Ef in Hi. apply in_map_iff in Hi. destruct Hi as (b & <- & Hb). rewrite (Hw b Hb). discriminate. }
  exists w'. split; [exact E1|]. split.
  - intros b Hb. destruct (A (m_id b) (ls' b)) as (s & Es & Es'); [apply in_map_iff; exists b; auto|]. rewrite (Hw b Hb) in Es. injection Es as <-. exists (place c (m_state b) (ls' b)). split; [exact Es'|]. destruct (F b Hb). auto.
  - intros j Hj. apply B. rewrite Ef. exact Hj.
Qed.
Theorem rigid ms w c1 c2 w1 w2 : NoDup (map fst ms) -> unit_ori c1 -> unit_ori c2 -> moveMembers c1 ms w = Some w1 -> moveMembers c2 ms w = Some w2 ->
  forall i j, In i (map fst ms) -> In j (map fst ms) -> exists si sj ti tj, w1 i = Some si /\ w1 j = Some sj /\ w2 i = Some ti /\ w2 j = Some tj /\
    norm (vsub (pos ti) (pos tj)) = norm (vsub (pos si) (pos sj)) /\ qmul (qconj (ori ti)) (ori tj) = qmul (qconj (ori si)) (ori sj) /\
    vsub (vel ti) (vel tj) = cross (angVel c2) (vsub (pos ti) (pos tj)) /\ angVel ti = angVel c2 /\ vsub (vel ti) (vel c2) = cross (angVel c2) (vsub (pos ti) (pos c2)).
Proof.
  intros Hd U1 U2 E1 E2 i j Hi Hj. apply moveMembers_inv in E1, E2; try exact Hd. destruct E1 as [A1 _], E2 as [A2 _]. apply in_map_iff in Hi, Hj. destruct Hi as ([i' li] & <- & Hi), Hj as ([j' lj] & <- & Hj). cbn [fst].
  destruct (A1 _ _ Hi) as (a & Ea & ->), (A1 _ _ Hj) as (b & Eb & ->), (A2 _ _ Hi) as (a' & Ea' & ->), (A2 _ _ Hj) as (b' & Eb' & ->).
  do 4 eexists. do 4 (split; [reflexivity|]). unfold place. cbn [pos ori vel angVel]. split; [|split; [|split; [|split; [reflexivity|]]]].
  - rewrite !vsub_adds, <- !qrot_sub. unfold norm. rewrite !qrot_norm by assumption. reflexivity.
  - assert (G : forall c l m, unit_ori c -> qmul (qconj (qmul (ori c) l)) (qmul (ori c) m) = qmul (qconj l) m).
    { intros c l m Hc. replace (qconj (qmul (ori c) l)) with (qmul (qconj l) (qconj (ori c))) by (destruct (ori c); vring). rewrite <- qmul_assoc, (qmul_assoc (qconj (ori c))), qmul_conj_l, Hc. f_equal. apply qmul_id_l. }
    rewrite !G by assumption. reflexivity.
  - generalize (qrot (ori c2) (s_pos li)), (qrot (ori c2) (s_pos lj)), (pos c2), (vel c2), (angVel c2). intros. vring.
  - generalize (qrot (ori c2) (s_pos li)), (pos c2), (vel c2), (angVel c2). intros. vring.
Qed.

(** ** forces on the clump *)
Lemma moment_step o x y f0 t0 f t : moment o x (vadd f0 f) (vadd t0 (vadd t (cross (vsub y x) f))) = vadd (moment o x f0 t0) (moment o y f t).
Proof. unfold moment. vring. Qed.
Theorem collected c w F T o ms : forall f0 t0 f t, addForceTorqueFromMembers c ms w F T f0 t0 = Some (f, t) ->
  f = vadd f0 (vsum (map (fun p => F (fst p)) ms)) /\ moment o (pos c) f t = vadd (moment o (pos c) f0 t0) (vsum (map (fun p => moment_of w F T o (fst p)) ms)).
Proof.
  induction ms as [|[i l] ms IH]; intros f0 t0 f t E; cbn [addForceTorqueFromMembers map fst vsum fold_right] in *.
  - injection E as <- <-. rewrite !vadd_0_r. auto.
  - destruct (w i) as [s|] eqn:Ei; [|discriminate]. apply IH in E. destruct E as [-> ->]. unfold moment_of at 2. rewrite Ei. fold (vsum (map (fun p => F (fst p)) ms)) (vsum (map (fun p => moment_of w F T o (fst p)) ms)). split; [rewrite vadd_assoc; reflexivity|].
    rewrite moment_step, <- vadd_assoc. reflexivity.
Qed.
Lemma collected_some c w F T ms : (forall i, In i (map fst ms) -> w i <> None) -> forall f0 t0, exists f t, addForceTorqueFromMembers c ms w F T f0 t0 = Some (f, t).
Proof.
  induction ms as [|[i l] ms IH]; intros H f0 t0; [exists f0, t0; reflexivity|]. cbn [addForceTorqueFromMembers]. destruct (w i) as [s|] eqn:Ei; [|destruct (H i (or_introl eq_refl) Ei)]. apply IH. intros j Hj. apply H. right. exact Hj.
Qed.

(** ** mass and inertia *)
Definition off_centre (c : vec) : mat := msub (mscale (dot c c) mid) (outer c c).
Definition first_moment (l : list part) : vec := vsum (map (fun p => smul (p_mass p) (p_pos p)) l).
Lemma apart_fold ms : forall m s i, fold_left add_member ms (m, s, i) =
  (m + rsum (map member_mass ms), vadd s (vsum (map (fun b => smul (member_mass b) (pos (m_state b))) ms)), madd i (msum (map member_inertia ms))).
Proof.
  induction ms as [|b ms IH]; intros m s i; cbn [fold_left map rsum vsum msum fold_right].
  - f_equal; [f_equal; [ring|symmetry; apply vadd_0_r]|]. destruct i as [[? ? ?] [? ? ?] [? ? ?]]. vring.
  - cbn [add_member]. rewrite IH. f_equal; [f_equal|]; [unfold rsum; ring|rewrite vadd_assoc; reflexivity|].
    unfold msum. generalize (member_inertia b), (fold_right madd mzero (map member_inertia ms)). intros. vring.
Qed.
Lemma apart_sums ms : apart ms = (rsum (map member_mass ms), vsum (map (fun b => smul (member_mass b) (pos (m_state b))) ms), msum (map member_inertia ms)).
Proof.
  unfold apart, no_sums. rewrite apart_fold, Rplus_0_l, vadd_0_l. f_equal. generalize (msum (map member_inertia ms)). intros. vring.
Qed.
Lemma turned_id i : turned qid i = diag i. Proof. unfold turned. vring. Qed.
Lemma rotate_id i : inertiaTensorRotateQ (diag i) qid = diag i. Proof. unfold inertiaTensorRotateQ, inertiaTensorRotate. vring. Qed.
Lemma diag_same k : diag (V k k k) = mscale k mid. Proof. vring. Qed.
Lemma mmul_scale A k B : mmul (mmul A (mscale k mid)) B = mscale k (mmul A B). Proof. vring. Qed.
Lemma member_part b : plain_member b -> member_mass b = p_mass (part_of b) /\ pos (m_state b) = p_pos (part_of b) /\ member_inertia b = about vzero (part_of b).
Proof.
  intros H. unfold member_inertia, part_of, member_mass in *. destruct (sphere b) as [r|] eqn:Es; cbn [p_mass p_pos p_inertia].
  - split; [reflexivity|]. split; [reflexivity|]. unfold about, inertiaTensorTranslate. cbn [p_mass p_pos p_inertia]. generalize (pos (m_state b)), (density b * (4/3 * PI * r^3)), (r^2). intros. vring.
  - split; [reflexivity|]. split; [reflexivity|]. unfold plain_member in H. destruct H as [H|[H|[U [k H]]]]; [congruence| |]; rewrite H.
    + rewrite rotate_id, turned_id. unfold about, inertiaTensorTranslate. cbn [p_mass p_pos p_inertia]. generalize (pos (m_state b)), (mass (m_state b)), (inertia (m_state b)). intros. vring.
    + unfold turned, inertiaTensorRotateQ, inertiaTensorRotate. rewrite diag_same, !mmul_scale, (qmat_orthogonal _ U), (qmat_orthogonal_r _ U). unfold about, inertiaTensorTranslate. cbn [p_mass p_pos p_inertia]. generalize (pos (m_state b)), (mass (m_state b)). intros. vring.
Qed.
(** the theorem of Steiner for a list *)
Lemma steiner l c : inertia_about l c = madd (inertia_about l vzero) (msub (mscale (total_mass l) (off_centre c)) (let s := first_moment l in msub (mscale (2 * dot s c) mid) (madd (outer s c) (outer c s)))).
Proof.
  unfold inertia_about, total_mass, first_moment. induction l as [|p l IH]; cbn [map msum rsum vsum fold_right].
  - unfold off_centre. vring.
  - unfold msum, rsum, vsum in *. rewrite IH. generalize (fold_right madd mzero (map (about vzero) l)), (fold_right Rplus 0 (map p_mass l)), (fold_right vadd vzero (map (fun p => smul (p_mass p) (p_pos p)) l)). intros. unfold about, off_centre. generalize (p_mass p), (p_pos p), (p_inertia p). intros. cbv zeta. vring.
Qed.
Definition symmetric (A : mat) : Prop := transpose A = A.
Lemma symmetrize_id A : symmetric A -> symmetrize A = A.
Proof. destruct A as [[a b c] [d e f] [g h i]]. unfold symmetric, symmetrize. vunfold. intros H. injection H as <- <- _ <- _ _. reflexivity. Qed.
Lemma about_symmetric c p : symmetric (p_inertia p) -> symmetric (about c p).
Proof. destruct p as [m [x y z] [[a b e] [d f g] [h i j]]], c as [u v w]. unfold symmetric, about. cbn [p_mass p_pos p_inertia]. vunfold. intros H. injection H; intros; subst. f_equal; f_equal; ring. Qed.
Lemma inertia_symmetric l c : (forall p, In p l -> symmetric (p_inertia p)) -> symmetric (inertia_about l c).
Proof.
  unfold inertia_about. induction l as [|p l IH]; intros H; [reflexivity|]. cbn [map msum fold_right]. assert (A : symmetric (about c p)) by (apply about_symmetric; apply H; left; reflexivity). assert (B : symmetric (msum (map (about c) l))) by (apply IH; intros q Hq; apply H; right; exact Hq).
  unfold symmetric, msum in *. rewrite <- A, <- B at 2. generalize (about c p), (fold_right madd mzero (map (about c) l)). intros. vring.
Qed.
Lemma part_symmetric b : symmetric (p_inertia (part_of b)).
Proof.
  unfold part_of. destruct (sphere b); cbn [p_inertia]; [unfold symmetric; vring|]. unfold symmetric, turned. rewrite !transpose_mmul, transpose_transpose, mmul_assoc. f_equal.
Qed.
Lemma lists_agree ms : (forall b, In b ms -> plain_member b) -> apart ms = (total_mass (map part_of ms), first_moment (map part_of ms), inertia_about (map part_of ms) vzero).
Proof.
  intros H. rewrite apart_sums. unfold total_mass, first_moment, inertia_about. rewrite !map_map. f_equal; [f_equal|]; f_equal; apply map_ext_in; intros b Hb; destruct (member_part b (H b Hb)) as (A & B & C); [exact A|rewrite A, B; reflexivity|exact C].
Qed.
Theorem central ms : (forall b, In b ms -> plain_member b) -> total_mass (map part_of ms) <> 0 ->
  let c := smul (/ total_mass (map part_of ms)) (first_moment (map part_of ms)) in central_inertia (apart ms) = inertia_about (map part_of ms) c /\ is_centre (map part_of ms) c.
Proof.
  intros H N c. assert (Hc : smul (total_mass (map part_of ms)) c = first_moment (map part_of ms)) by (subst c; generalize (first_moment (map part_of ms)); intros [x y z]; vunfold; f_equal; field; exact N). split; [|exact Hc].
  rewrite (lists_agree ms H). cbn [central_inertia]. fold c. replace (inertiaTensorTranslate (inertia_about (map part_of ms) vzero) (- total_mass (map part_of ms)) c) with (inertia_about (map part_of ms) c).
  - apply symmetrize_id. apply inertia_symmetric. intros p Hp. apply in_map_iff in Hp. destruct Hp as (b & <- & _). apply part_symmetric.
  - rewrite (steiner _ c), <- Hc. unfold inertiaTensorTranslate, off_centre. cbv zeta. generalize (inertia_about (map part_of ms) vzero), (total_mass (map part_of ms)), c. intros. vring.
Qed.
Theorem clump_properties eig ms c ls : (2 <= length ms)%nat -> (forall b, In b ms -> plain_member b) -> total_mass (map part_of ms) <> 0 ->
  decomposes eig (central_inertia (apart ms)) -> right_handed eig (central_inertia (apart ms)) -> updateProperties eig apart ms = Some (c, ls) ->
  mass c = total_mass (map part_of ms) /\ is_centre (map part_of ms) (pos c) /\ turned (ori c) (inertia c) = inertia_about (map part_of ms) (pos c).
Proof.
  intros L H N D Rh E. assert (Ec : c = clump_state eig (apart ms)). { destruct ms as [|b [|b2 ms]]; cbn [length] in L; [exfalso; inversion L|exfalso; inversion L as [|? L2]; inversion L2|]. cbn [updateProperties] in E. injection E as <- _. reflexivity. }
  destruct (central ms H N) as [C1 C2]. cbv zeta in C1, C2. subst c. unfold decomposes, right_handed in D, Rh. rewrite (lists_agree ms H) in *. unfold clump_state. destruct (eig (central_inertia _)) as [ev lam]. cbn [fst] in Rh. destruct D as [D1 D2]. cbn [mass pos ori inertia].
  split; [reflexivity|]. split; [exact C2|]. destruct (mat_quat_rotation ev D1 Rh) as [U Q]. unfold turned. rewrite (qnormalize_id _ U), Q, <- D2. exact C1.
Qed.

(** ** densities *)
Definition scaled (k : R) (a : sums) : sums := let '(m, s, i) := a in (k * m, smul k s, mscale k i).
Lemma denser_mass k b : member_mass (denser k b) = k * member_mass b.
Proof. unfold member_mass, denser. cbn [sphere density m_state mass]. destruct (sphere b); ring. Qed.
Lemma denser_inertia k b : member_inertia (denser k b) = mscale k (member_inertia b).
Proof.
  unfold member_inertia. rewrite denser_mass. unfold denser. cbn [sphere density m_state mass pos inertia ori]. destruct (sphere b) as [r|].
  - unfold inertiaTensorTranslate. generalize (member_mass b), (pos (m_state b)), (r^2). intros. vring.
  - unfold inertiaTensorTranslate, inertiaTensorRotateQ, inertiaTensorRotate. generalize (member_mass b), (pos (m_state b)), (qmat (ori (m_state b))), (inertia (m_state b)). intros. vring.
Qed.
Lemma apart_scaled k ms : apart (map (denser k) ms) = scaled k (apart ms).
Proof.
  rewrite !apart_sums. cbn [scaled]. induction ms as [|b ms IH]; cbn [map rsum vsum msum fold_right]; [f_equal; [f_equal; [ring|vring]|vring]|]. injection IH as A B C. unfold rsum, vsum, msum in *. rewrite A, B, C, denser_mass, denser_inertia. cbn [denser m_state pos].
  generalize (fold_right Rplus 0 (map member_mass ms)), (fold_right vadd vzero (map (fun b0 => smul (member_mass b0) (pos (m_state b0))) ms)), (fold_right madd mzero (map member_inertia ms)), (member_inertia b), (member_mass b), (pos (m_state b)). intros. f_equal; [f_equal; [ring|vring]|vring].
Qed.
Lemma central_scaled k a : k <> 0 -> fst (fst a) <> 0 -> central_inertia (scaled k a) = mscale k (central_inertia a).
Proof.
  intros Hk Hm. destruct a as [[m [x y z]] [[a b c] [d e f] [g h i]]]. cbn [fst] in Hm. unfold central_inertia, scaled, symmetrize, inertiaTensorTranslate. vunfold. f_equal; f_equal; field; auto.
Qed.
Lemma at_point_scaled k dv dx x ms : forall a b, fst (fst b) = k * fst (fst a) -> snd (fst b) = smul k (snd (fst a)) ->
  fst (fst (at_point dv dx x (map (denser k) ms) b)) = k * fst (fst (at_point dv dx x ms a)) /\ snd (fst (at_point dv dx x (map (denser k) ms) b)) = smul k (snd (fst (at_point dv dx x ms a))).
Proof.
  induction ms as [|p ms IH]; intros a b A B; [auto|]. cbn [map at_point denser sphere m_state pos density]. destruct (sphere p) as [r|]; [|apply IH; assumption]. destruct (Rlt_dec (norm2 (vsub x (pos (m_state p)))) (r^2)); [|apply IH; assumption].
  destruct a as [[m s] i], b as [[m' s'] i']. cbn [fst snd] in *. subst. split; [ring|]. generalize (density p). intros. vring.
Qed.
Lemma overlapping_scaled k grid dx ms : fst (fst (overlapping grid dx (map (denser k) ms))) = k * fst (fst (overlapping grid dx ms)) /\ snd (fst (overlapping grid dx (map (denser k) ms))) = smul k (snd (fst (overlapping grid dx ms))).
Proof.
  unfold overlapping. assert (G : forall a b, fst (fst b) = k * fst (fst a) -> snd (fst b) = smul k (snd (fst a)) ->
    fst (fst (fold_left (fun a x => at_point (dx^3) dx x (map (denser k) ms) a) grid b)) = k * fst (fst (fold_left (fun a x => at_point (dx^3) dx x ms a) grid a)) /\ snd (fst (fold_left (fun a x => at_point (dx^3) dx x (map (denser k) ms) a) grid b)) = smul k (snd (fst (fold_left (fun a x => at_point (dx^3) dx x ms a) grid a)))).
  { induction grid as [|x grid IH]; intros a b A B; [auto|]. cbn [fold_left]. destruct (at_point_scaled k (dx^3) dx x ms a b A B) as [A1 B1]. apply IH; assumption. }
  apply G; cbn [fst snd no_sums]; [ring|vring].
Qed.
Theorem density_scales k ms : k <> 0 -> total_mass (map part_of ms) <> 0 -> (forall b, In b ms -> plain_member b) ->
  forall eig, (forall A, exists ev lam, eig A = (ev, lam) /\ eig (mscale k A) = (ev, smul k lam)) ->
  forall c ls c' ls', (2 <= length ms)%nat -> updateProperties eig apart ms = Some (c, ls) -> updateProperties eig apart (map (denser k) ms) = Some (c', ls') ->
  mass c' = k * mass c /\ pos c' = pos c /\ ori c' = ori c /\ inertia c' = smul k (inertia c) /\ ls' = ls.
Proof.
  intros Hk N Pl eig He c ls c' ls' L E E'. pose proof (lists_agree ms Pl) as La. pose proof (apart_scaled k ms) as Sc.
  assert (Hm : fst (fst (apart ms)) <> 0) by (rewrite La; exact N). pose proof (central_scaled k (apart ms) Hk Hm) as Cs. rewrite <- Sc in Cs.
  destruct ms as [|b [|b2 ms]]; cbn [length] in L; [exfalso; inversion L|exfalso; inversion L as [|? L2]; inversion L2|]. remember (b :: b2 :: ms) as l eqn:El.
  assert (Es : updateProperties eig apart l = let c0 := clump_state eig (apart l) in Some (c0, map (fun b => (m_id b, local c0 (m_state b))) l)) by (subst l; reflexivity).
  assert (Es' : updateProperties eig apart (map (denser k) l) = let c0 := clump_state eig (apart (map (denser k) l)) in Some (c0, map (fun b => (m_id b, local c0 (m_state b))) (map (denser k) l))) by (subst l; reflexivity).
  rewrite Es in E. rewrite Es' in E'. clear Es Es'. cbv zeta in E, E'. injection E as <- <-. injection E' as <- <-.
  assert (G : let c := clump_state eig (apart l) in let c' := clump_state eig (apart (map (denser k) l)) in mass c' = k * mass c /\ pos c' = pos c /\ ori c' = ori c /\ inertia c' = smul k (inertia c)).
  { cbv zeta. unfold clump_state. rewrite Cs. destruct (He (central_inertia (apart l))) as (ev & lam & A & B). rewrite A, B, Sc. destruct (apart l) as [[m s] i]. cbn [fst scaled] in *. cbn [mass pos ori inertia].
    split; [reflexivity|]. split; [|split; reflexivity]. destruct s as [x y z]. vgoal. f_equal; field; auto. }
  cbv zeta in G. destruct G as (A & B & C & D). split; [exact A|]. split; [exact B|]. split; [exact C|]. split; [exact D|]. rewrite map_map. apply map_ext. intros x. cbn [denser m_id m_state]. unfold local. cbn [pos ori]. rewrite B, C. reflexivity.
Qed.
Theorem density_scales_overlap k grid dx ms : k <> 0 -> forall eig c ls c' ls', (2 <= length ms)%nat -> fst (fst (overlapping grid dx ms)) <> 0 ->
  updateProperties eig (overlapping grid dx) ms = Some (c, ls) -> updateProperties eig (overlapping grid dx) (map (denser k) ms) = Some (c', ls') ->
  mass c' = k * mass c /\ pos c' = pos c.
Proof.
  intros Hk eig c ls c' ls' L N E E'. destruct (overlapping_scaled k grid dx ms) as [A B].
  destruct ms as [|b [|b2 ms]]; cbn [length] in L; [exfalso; inversion L|exfalso; inversion L as [|? L2]; inversion L2|]. cbn [updateProperties map] in E, E'. injection E as <- _. injection E' as <- _.
  change (denser k b :: denser k b2 :: map (denser k) ms) with (map (denser k) (b :: b2 :: ms)). unfold clump_state. destruct (overlapping grid dx (map (denser k) (b :: b2 :: ms))) as [[m' s'] i'] eqn:E1. destruct (overlapping grid dx (b :: b2 :: ms)) as [[m s] i] eqn:E2. cbn [fst snd] in *. subst.
  destruct (eig _) as [ev lam]. destruct (eig _) as [ev' lam']. cbn [mass pos]. split; [reflexivity|]. destruct s as [x y z]. vgoal. f_equal; field; auto.
Qed.

(** ** any list of parts, and the integration over a grid *)
Definition sums_of_parts (l : list part) : sums := (total_mass l, first_moment l, inertia_about l vzero).
Lemma assembly eig sums_of ms l c ls : (2 <= length ms)%nat -> sums_of ms = sums_of_parts l -> (forall p, In p l -> symmetric (p_inertia p)) -> total_mass l <> 0 ->
  decomposes eig (central_inertia (sums_of ms)) -> right_handed eig (central_inertia (sums_of ms)) -> updateProperties eig sums_of ms = Some (c, ls) ->
  mass c = total_mass l /\ is_centre l (pos c) /\ turned (ori c) (inertia c) = inertia_about l (pos c).
Proof.
  intros L Es Hs N D Rh E. assert (Ec : c = clump_state eig (sums_of ms)). { destruct ms as [|b [|b2 ms]]; cbn [length] in L; [exfalso; inversion L|exfalso; inversion L as [|? L2]; inversion L2|]. cbn [updateProperties] in E. injection E as <- _. reflexivity. }
  subst c. rewrite Es in *. unfold sums_of_parts in *. set (c := smul (/ total_mass l) (first_moment l)).
  assert (Hc : smul (total_mass l) c = first_moment l) by (subst c; generalize (first_moment l); intros [x y z]; vunfold; f_equal; field; exact N).
  assert (C1 : central_inertia (total_mass l, first_moment l, inertia_about l vzero) = inertia_about l c).
  { cbn [central_inertia]. fold c. replace (inertiaTensorTranslate (inertia_about l vzero) (- total_mass l) c) with (inertia_about l c).
    - apply symmetrize_id. apply inertia_symmetric. exact Hs.
    - rewrite (steiner _ c), <- Hc. unfold inertiaTensorTranslate, off_centre. cbv zeta. generalize (inertia_about l vzero), (total_mass l), c. intros. vring. }
  unfold decomposes, right_handed in D, Rh. unfold clump_state. destruct (eig (central_inertia _)) as [ev lam]. cbn [fst] in Rh. destruct D as [D1 D2]. cbn [mass pos ori inertia]. fold c.
  split; [reflexivity|]. split; [exact Hc|]. destruct (mat_quat_rotation ev D1 Rh) as [U Q]. unfold turned. rewrite (qnormalize_id _ U), Q, <- D2. exact C1.
Qed.
Lemma at_point_cube dx x ms : (forall b, In b ms -> density b = 1) -> forall a, at_point (dx^3) dx x ms a =
  fold_left (fun a p => let '(m, s, i) := a in (m + p_mass p, vadd s (smul (p_mass p) (p_pos p)), madd i (about vzero p))) (cube dx ms x) a.
Proof.
  induction ms as [|b ms IH]; intros Hd a; [reflexivity|]. cbn [at_point]. unfold cube. cbn [find]. unfold inside at 1.
  assert (IH' := IH (fun b' Hb => Hd b' (or_intror Hb))). unfold cube in IH'. destruct (sphere b) as [r|]; [|apply IH']. destruct (Rlt_dec _ _) as [C|C]; [|apply IH'].
  rewrite (Hd b (or_introl eq_refl)). cbn [fold_left p_mass p_pos]. destruct a as [[m s] i]. f_equal. unfold about. cbn [p_mass p_pos p_inertia]. f_equal. clear. destruct x as [x0 x1 x2]. vgoal. f_equal; f_equal; field.
Qed.
Lemma fold_parts l : forall m s i, fold_left (fun a p => let '(m, s, i) := a in (m + p_mass p, vadd s (smul (p_mass p) (p_pos p)), madd i (about vzero p))) l (m, s, i) =
  (m + total_mass l, vadd s (first_moment l), madd i (inertia_about l vzero)).
Proof.
  unfold total_mass, first_moment, inertia_about. induction l as [|p l IH]; intros m s i; cbn [fold_left map rsum vsum msum fold_right].
  - f_equal; [f_equal; [ring|symmetry; apply vadd_0_r]|]. destruct i as [[? ? ?] [? ? ?] [? ? ?]]. vring.
  - rewrite IH. f_equal; [f_equal|]; [unfold rsum; ring|rewrite vadd_assoc; reflexivity|].
    unfold msum. generalize (about vzero p), (fold_right madd mzero (map (about vzero) l)). intros. vring.
Qed.
Lemma overlapping_cubes grid dx ms : (forall b, In b ms -> density b = 1) -> overlapping grid dx ms = sums_of_parts (flat_map (cube dx ms) grid).
Proof.
  intros Hd. unfold overlapping.
  assert (G : forall a, fold_left (fun a x => at_point (dx^3) dx x ms a) grid a = fold_left (fun a p => let '(m, s, i) := a in (m + p_mass p, vadd s (smul (p_mass p) (p_pos p)), madd i (about vzero p))) (flat_map (cube dx ms) grid) a).
  { induction grid as [|x grid IH]; intros a; [reflexivity|]. cbn [fold_left flat_map]. rewrite fold_left_app, <- at_point_cube by exact Hd. apply IH. }
  rewrite G. unfold no_sums. rewrite fold_parts. unfold sums_of_parts. rewrite Rplus_0_l, vadd_0_l. f_equal. generalize (inertia_about (flat_map (cube dx ms) grid) vzero). intros. vring.
Qed.
Theorem clump_overlap eig grid dx ms c ls : let l := flat_map (cube dx ms) grid in
  (2 <= length ms)%nat -> (forall b, In b ms -> density b = 1) -> total_mass l <> 0 ->
  decomposes eig (central_inertia (overlapping grid dx ms)) -> right_handed eig (central_inertia (overlapping grid dx ms)) -> updateProperties eig (overlapping grid dx) ms = Some (c, ls) ->
  mass c = total_mass l /\ is_centre l (pos c) /\ turned (ori c) (inertia c) = inertia_about l (pos c).
Proof.
  intros l L Hd N D Rh E. apply (assembly eig (overlapping grid dx) ms l c ls L); try assumption; [apply overlapping_cubes; exact Hd|].
  intros p Hp. apply in_flat_map in Hp. destruct Hp as (x & _ & Hp). unfold cube in Hp. destruct (find _ _); [|destruct Hp]. destruct Hp as [<- |[]]. cbn [p_inertia]. unfold symmetric. vring.
Qed.
Lemma clump_single eig sums_of b c ls : updateProperties eig sums_of [b] = Some (c, ls) ->
  mass c = mass (m_state b) /\ pos c = pos (m_state b) /\ ori c = ori (m_state b) /\ inertia c = inertia (m_state b).
Proof. intros E. injection E as <- _. auto. Qed.
