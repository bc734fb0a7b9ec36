(** Proofs about energy, momentum, damping and the mask. *)
From Coq Require Import Reals Lra Lia List NArith ZArith Bool.
From Verif Require Import Vec_Model Vec_Proofs Rigid_Model Rigid_Spec Rigid_Proofs Attr_Model Newton_Model Newton_Spec Newton_Proofs Newton_Proofs2.
Import ListNotations.
Local Open Scope R_scope.

(** ** kinetic energy *)
Lemma turned_equal q k : qnorm2 q = 1 -> turned q (V k k k) = mscale k mid.
Proof. intros U. unfold turned. rewrite diag_same, mmul_scale, (qmat_orthogonal_r _ U). reflexivity. Qed.
Lemma diag_mulv i v : mulv (diag i) v = vprod i v. Proof. vring. Qed.
Lemma spherical_energy r : ori r = qid \/ (unit_ori r /\ exists k, inertia r = V k k k) -> dot (angVel r) (mulv (turned (ori r) (inertia r)) (angVel r)) = dot (angVel r) (vprod (inertia r) (angVel r)).
Proof.
  intros [E|[U [k E]]].
  - rewrite E, turned_id, diag_mulv. reflexivity.
  - rewrite E, turned_equal by exact U. generalize (angVel r). intros. vring.
Qed.
Lemma shop_body_exact b : flag_right b -> shop_kinetic_body b = kinetic b.
Proof.
  intros H. unfold shop_kinetic_body, kinetic, flag_right in *. destruct (aspherical b).
  - unfold turned. rewrite Rmult_assoc. reflexivity.
  - rewrite spherical_energy; [rewrite Rmult_assoc; reflexivity|]. destruct H as [H|H]; [discriminate|exact H].
Qed.
Lemma fold_sum {A} (f : A -> R) (sel : A -> bool) l : forall x, fold_left (fun ret p => if negb (sel p) then ret else ret + f p) l x = x + rsum (map f (filter sel l)).
Proof.
  induction l as [|a l IH]; intros x; cbn [fold_left filter map rsum fold_right]; [ring|]. rewrite IH. destruct (sel a); cbn [negb map fold_right rsum]; unfold rsum; ring.
Qed.
Lemma fold_left_ext {A B} (f g : A -> B -> A) l : (forall a b, In b l -> f a b = g a b) -> forall a, fold_left f l a = fold_left g l a.
Proof. induction l as [|b l IH]; intros H a; [reflexivity|]. cbn [fold_left]. rewrite H by (left; reflexivity). apply IH. intros; apply H; right; assumption. Qed.
Theorem shop_kinetic_exact ids w : (forall i b, nb w i = Some b -> flag_right b) -> shop_kinetic ids w = total_kinetic (existing ids w).
Proof.
  intros H. unfold shop_kinetic, total_kinetic. set (sel := fun p : nat * nbody => whole p && negb (blockedDOFs (st (snd p)) =? 63)%N).
  rewrite (fold_left_ext _ (fun ret p => if negb (sel p) then ret else ret + shop_kinetic_body (snd p))).
  - rewrite fold_sum, Rplus_0_l. f_equal. apply map_ext_in. intros [i b] Hp. apply filter_In in Hp. destruct Hp as [Hp _]. unfold existing in Hp. apply in_flat_map in Hp. destruct Hp as (j & _ & Hj). destruct (nb w j) as [b'|] eqn:Ej; [|destruct Hj]. destruct Hj as [Hj|[]]. injection Hj as <- <-. apply shop_body_exact. exact (H j b' Ej).
  - intros ret [i b] _. unfold sel, whole, isDynamic. cbn [fst snd]. change DOF_ALL with 63%N. destruct (_ =? 63)%N, (isClumpMember i b); reflexivity.
Qed.
Lemma tracked_exact c b : isPeriodic c = false -> (aspherical b = true -> ori (rs (st b)) = qid \/ (unit_ori (rs (st b)) /\ exists k, inertia (rs (st b)) = V k k k)) -> flag_right b -> tracked_kinetic c b = kinetic b.
Proof.
  intros P A F. unfold tracked_kinetic, kinetic, fluctVel. rewrite P. unfold flag_right in F. destruct (aspherical b).
  - rewrite (spherical_energy _ (A eq_refl)). f_equal. f_equal. destruct (A eq_refl) as [E|[U [k E]]]; rewrite E.
    + f_equal. change (mmul (mmul (transpose (qmat qid)) (diag (inertia (rs (st b))))) (qmat qid)) with (inertiaTensorRotateQ (diag (inertia (rs (st b)))) qid). rewrite rotate_id. apply diag_mulv.
    + rewrite diag_same, mmul_scale, (qmat_orthogonal _ U). generalize (angVel (rs (st b))). intros. vring.
  - rewrite spherical_energy; [reflexivity|]. destruct F as [F|F]; [discriminate|exact F].
Qed.

(** ** momentum *)
Lemma fold_vsum {A} (f : A -> vec) l : forall x, fold_left (fun ret p => vadd ret (f p)) l x = vadd x (vsum (map f l)).
Proof. induction l as [|a l IH]; intros x; cbn [fold_left map vsum fold_right]; [symmetry; apply vadd_0_r|]. rewrite IH. unfold vsum. rewrite vadd_assoc. reflexivity. Qed.
Lemma filter_all {A} (f : A -> bool) l : (forall x, In x l -> f x = true) -> filter f l = l.
Proof. induction l as [|a l IH]; intros H; cbn [filter]; [reflexivity|]. rewrite H by (left; reflexivity). f_equal. apply IH. intros; apply H; right; assumption. Qed.
Lemma no_clumps_whole ids w : (forall i b, nb w i = Some b -> clumpId b = None) -> filter whole (existing ids w) = existing ids w.
Proof.
  intros H. apply filter_all. intros [i b] Hp. unfold existing in Hp. apply in_flat_map in Hp. destruct Hp as (j & _ & Hj). destruct (nb w j) as [b'|] eqn:Ej; [|destruct Hj]. destruct Hj as [Hj|[]]. injection Hj as <- <-. unfold whole, isClumpMember. cbn [fst snd]. rewrite (H j b' Ej). reflexivity.
Qed.
Theorem shop_momentum_exact ids w : (forall i b, nb w i = Some b -> clumpId b = None) -> shop_momentum ids w = total_momentum (existing ids w).
Proof.
  intros H. unfold shop_momentum, total_momentum. rewrite (fold_vsum (fun p : nat * nbody => smul (mass (rs (st (snd p)))) (vel (rs (st (snd p)))))), vadd_0_l, (no_clumps_whole ids w H). reflexivity.
Qed.
Theorem shop_angular_exact o ids w : (forall i b, nb w i = Some b -> clumpId b = None /\ angMom (st b) = mulv (turned (ori (rs (st b))) (inertia (rs (st b)))) (angVel (rs (st b)))) ->
  shop_angularMomentum o ids w = total_angular_momentum o (existing ids w).
Proof.
  intros H. unfold shop_angularMomentum, total_angular_momentum. rewrite (no_clumps_whole ids w) by (intros; apply (H i b); assumption).
  rewrite (fold_left_ext _ (fun ret p => vadd ret (let r := rs (st (snd p)) in vadd (cross (vsub (pos r) o) (smul (mass r) (vel r))) (mulv (turned (ori r) (inertia r)) (angVel r))))).
  - rewrite fold_vsum, vadd_0_l. reflexivity.
  - intros a [i b] Hp. unfold existing in Hp. apply in_flat_map in Hp. destruct Hp as (j & _ & Hj). destruct (nb w j) as [b'|] eqn:Ej; [|destruct Hj]. destruct Hj as [Hj|[]]. injection Hj as <- <-. destruct (H j b' Ej) as [_ E]. cbn [snd]. cbv zeta. rewrite E, vadd_assoc. reflexivity.
Qed.
(** the spherical integrator never touches angMom *)
Lemma spherical_angMom c i b f m : useAspherical c b = false -> angMom (advance c i b f m) = angMom (st b).
Proof. intros U. unfold advance. destruct (accelerate c b f m). rewrite U. reflexivity. Qed.

(** ** damping *)
Lemma damp2_power d h v a : damp2 d h v a * (v + 1/2 * h * a) = a * (v + 1/2 * h * a) - d * Rabs (a * (v + 1/2 * h * a)).
Proof.
  unfold damp2. set (x := a * (v + 1/2 * h * a)). replace (a * (1 - d * Sign x) * (v + 1/2 * h * a)) with (x - d * (Sign x * x)) by (subst x; ring). f_equal. f_equal. unfold Rabs, Sign. destruct (Rcase_abs x), (Rlt_dec x 0), (Rlt_dec 0 x); lra.
Qed.
Lemma damp2_energy d h v a : 0 <= d <= 1 -> 0 <= h -> 0 <= v * (v + h * ((1 + d) * a)) -> (v + h * damp2 d h v a) * (v + h * damp2 d h v a) <= (v + h * a) * (v + h * a).
Proof.
  intros Hd Hh Hs. unfold damp2. set (u := v + 1/2 * h * a) in *. set (y := h * a). assert (Ey : h * a = y) by reflexivity. assert (Eu : u = v + 1/2 * y) by (subst u y; ring). replace (v + h * ((1 + d) * a)) with (v + (1 + d) * y) in Hs by (subst y; ring).
  assert (K : forall s, v + h * (a * (1 - d * s)) = v + y * (1 - d * s)) by (intros s; subst y; ring).
  assert (Hq : forall p q, p * p - q * q = (p - q) * (p + q)) by (intros; ring).
  destruct (Sign_cases (a * u)) as [[S ->]|[[S ->]|[S ->]]]; rewrite K; fold y.
  - (* the velocity is opposed to the acceleration *)
    assert (Hu : h * (a * u) <= 0) by (apply Ropp_le_cancel; rewrite Ropp_0, Ropp_mult_distr_r; apply Rmult_le_pos; lra). replace (h * (a * u)) with (y * (v + 1/2 * y)) in Hu by (rewrite Eu; subst y; ring).
    assert (G : d * y * (2 * (v + y) + d * y) <= 0); [|nra]. assert (G2 : y * (2 * (v + y) + d * y) <= 0); [|nra].
    (* y and v + (1+d) y have opposite signs *)
    assert (G3 : y * (v + (1 + d) * y) <= 0).
    { destruct (Rle_dec (v * v) 0) as [Hv|Hv]; [assert (v = 0) by nra; subst v; assert (y * y <= 0) by nra; assert (y = 0) by nra; subst y; rewrite H0; lra|].
      assert (Hyv : y * v <= 0) by nra. assert (0 <= (v * v) * - (y * (v + (1 + d) * y))) by (replace (v * v * - (y * (v + (1 + d) * y))) with (- (y * v) * (v * (v + (1 + d) * y))) by ring; apply Rmult_le_pos; lra).
      destruct (Rle_dec (y * (v + (1 + d) * y)) 0) as [|Hn]; [assumption|]. exfalso. assert (0 < v * v) by lra. assert (0 < v * v * (y * (v + (1 + d) * y))) by (apply Rmult_lt_0_compat; lra). lra. }
    nra.
  - replace (v + y * (1 - d * 0)) with (v + y) by ring. lra.
  - assert (Hu : 0 <= h * (a * u)) by (apply Rmult_le_pos; lra). replace (h * (a * u)) with (y * (v + 1/2 * y)) in Hu by (rewrite Eu; subst y; ring).
    assert (G : 0 <= d * y * (2 * (v + y) - d * y)); [|nra]. assert (G2 : 0 <= y * (2 * (v + y) - d * y)) by nra. replace (d * y * (2 * (v + y) - d * y)) with (d * (y * (2 * (v + y) - d * y))) by ring. apply Rmult_le_pos; lra.
Qed.
Lemma norm2_comp v : norm2 v = comp 0 v * comp 0 v + comp 1 v * comp 1 v + comp 2 v * comp 2 v. Proof. reflexivity. Qed.
Lemma undamped_accel c b f : densityScaling c = false -> lin_accel c (undamped b) f = computeAccel (gravity c) f (mass (rs (st b))) (blockedDOFs (st b)).
Proof. intros S. unfold lin_accel, damped, scaled_by. rewrite S. reflexivity. Qed.
Theorem damping_energy c i b f m : isPeriodic c = false -> densityScaling c = false -> 0 <= damping c <= 1 -> 0 <= dt c ->
  (forall a, (a < 3)%N -> let v := comp a (vel (rs (st b))) in let v' := comp a (vel (rs (advance c i (undamped b) f m))) in 0 <= v * (v + (1 + damping c) * (v' - v))) ->
  norm2 (vel (rs (advance c i b f m))) <= norm2 (vel (rs (advance c i (undamped b) f m))).
Proof.
  intros P S D T H. rewrite !norm2_comp. assert (G : forall a, (a < 3)%N -> comp a (vel (rs (advance c i b f m))) * comp a (vel (rs (advance c i b f m))) <= comp a (vel (rs (advance c i (undamped b) f m))) * comp a (vel (rs (advance c i (undamped b) f m)))).
  { intros a Ha. specialize (H a Ha). cbv zeta in H. rewrite !advance_vel in *. rewrite (mean_field_none c i b P) in *. rewrite (mean_field_none c i (undamped b) P) in *. rewrite !vadd_0_r in *. rewrite undamped_accel in * by exact S. change (blockedDOFs (st (undamped b))) with (blockedDOFs (st b)) in *. change (rs (st (undamped b))) with (rs (st b)) in *.
    destruct (blockedDOFs (st b) =? DOF_ALL)%N; [rewrite !vadd_0_r; lra|]. rewrite !comp_add, !comp_smul in *. unfold lin_accel, damped, scaled_by, fluctVel. rewrite S, P. destruct (isDamped (st b)); [|lra]. rewrite comp_damp2. apply damp2_energy; [exact D|exact T|].
    set (x := comp a (computeAccel _ _ _ _)) in *. set (v := comp a (vel (rs (st b)))) in *. replace (v + dt c * ((1 + damping c) * x)) with (v + (1 + damping c) * (v + dt c * x - v)) by ring. exact H. }
  pose proof (G 0%N ltac:(lia)). pose proof (G 1%N ltac:(lia)). pose proof (G 2%N ltac:(lia)). lra.
Qed.

(** ** mask *)
Theorem masked_in_false c b :
  masked_in c b = false <-> (0 < mask c)%Z /\ forall n, N.testbit (groupMask b) n = true -> Z.testbit (mask c) (Z.of_N n) = false.
Proof.
  unfold masked_in. destruct (Z.leb_spec (mask c) 0) as [H|H]; cbn [orb].
  - split; [discriminate|]. intros [K _]. lia.
  - rewrite (proj2 (Z.ltb_lt 0 (mask c))) by exact H. cbn [andb]. rewrite Bool.negb_false_iff, N.eqb_eq. split.
    + intros E. split; [exact H|]. intros n Hn. apply (f_equal (fun x => N.testbit x n)) in E. rewrite N.land_spec, Hn, N.bits_0 in E. cbn [andb] in E.
      replace (mask c) with (Z.of_N (Z.to_N (mask c))) by lia. rewrite Z.testbit_of_N. exact E.
    + intros [_ E]. apply N.bits_inj. intros n. rewrite N.land_spec, N.bits_0. destruct (N.testbit (groupMask b) n) eqn:B; [|reflexivity]. cbn [andb].
      specialize (E n B). replace (mask c) with (Z.of_N (Z.to_N (mask c))) in E by lia. rewrite Z.testbit_of_N in E. exact E.
Qed.

Theorem masked_out c i b f m : masked_in c b = false -> moveRotUsed c = false -> useAspherical c b = false -> unit_ori (rs (st b)) ->
  pos (rs (advance c i b f m)) = pos (rs (st b)) /\ ori (rs (advance c i b f m)) = ori (rs (st b)).
Proof.
  intros K R A U. split; [rewrite advance_pos, K, R, vadd_0_r; reflexivity|]. unfold advance. pose proof (accelerate_pos c b f m) as (_ & Eo & _). destruct (accelerate c b f m) as [r1 m1]. cbn [fst] in Eo. rewrite A. cbn [with_rs rs]. unfold leapfrogSphericalRotate. rewrite K. cbn [ori]. unfold leapfrogTranslate. cbn [ori]. rewrite Eo.
  destruct (Req_EM_T _ 0); apply qnormalize_id; exact U.
Qed.

(** ** angular velocity of the aspherical integrator *)
Theorem aspherical_angVel c i b f m : useAspherical c b = true -> densityScaling c = false -> moveRotUsed c = false -> unit_ori (rs (st b)) ->
  exists k, let s' := advance c i b f m in let w := local_angVel b (angMom s') in
  angVel (rs s') = vadd (qrot (ori (rs s')) w) (smul k (vsub w (qrot (ori (rs s')) w))).
Proof.
  intros A S R U. unfold advance. pose proof (accelerate_pos c b f m) as (_ & Eo & _ & Ei). destruct (accelerate c b f m) as [r1 m1]. cbn [fst] in Eo, Ei. rewrite A. unfold leapfrogAsphericalRotate. cbv zeta. cbn [rs angMom angVel ori].
  unfold scaled_by, local_angVel. rewrite S, <- qmat_conj. unfold impose_rot. rewrite R. unfold leapfrogTranslate. cbn [ori inertia]. rewrite Eo, Ei. set (w := vquot _ _). set (q1 := qadd _ _).
  assert (N : qnorm2 q1 <> 0) by (subst q1; apply aspherical_nonzero; exact U). exists (1 - qnorm2 q1). rewrite (qrot_unit (qnormalize q1)) by (apply qnormalize_unit; exact N). rewrite (qrot_hrot q1).
  assert (E : hrot q1 w = smul (qnorm2 q1) (hrot (qnormalize q1) w)).
  { assert (Hs : forall k q v, hrot (qscale k q) v = smul (k * k) (hrot q v)) by (intros; unfold hrot; vring). unfold qnormalize. rewrite Hs. pose proof (qnorm2_pos q1) as P. assert (0 < qnorm2 q1) by lra. assert (Q1 : sqrt (qnorm2 q1) * sqrt (qnorm2 q1) = qnorm2 q1) by (apply sqrt_def; lra). pose proof (sqrt_lt_R0 (qnorm2 q1) H) as Sp.
    replace (/ sqrt (qnorm2 q1) * / sqrt (qnorm2 q1)) with (/ qnorm2 q1) by (rewrite <- Q1 at 1; field; lra). generalize (hrot q1 w). intros [x y z]. vgoal. f_equal; field; exact N. }
  rewrite E. generalize (qnorm2 q1), (hrot (qnormalize q1) w), w. intros. vring.
Qed.
