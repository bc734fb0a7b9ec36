(** Proofs about the motion of one body. *)
From Coq Require Import Reals Lra Lia List NArith ZArith Bool.
From Verif Require Import Vec_Model Vec_Proofs Rigid_Model Rigid_Spec Rigid_Proofs Attr_Model Newton_Model Newton_Spec Newton_Proofs.
Import ListNotations.
Local Open Scope R_scope.

(** ** bits *)
Lemma bit_spec d a r : (a < 3)%N -> bit d a r = N.testbit d (a + if r then 3 else 0).
Proof.
  intros H. unfold bit, axisDOF. set (k := (a + (if r then 3 else 0))%N). destruct (N.eqb_spec (N.land d (N.shiftl 1 k)) 0) as [E|E]; cbn [negb].
  - assert (X : N.testbit (N.land d (N.shiftl 1 k)) k = false) by (rewrite E; apply N.bits_0). rewrite N.land_spec, N.shiftl_spec_high', N.sub_diag in X by lia. cbn [N.testbit] in X. rewrite andb_true_r in X. symmetry. exact X.
  - symmetry. destruct (N.testbit d k) eqn:Eb; [reflexivity|]. exfalso. apply E. apply N.bits_inj_0. intros n. rewrite N.land_spec. destruct (N.eq_dec n k) as [->|Hn]; [rewrite Eb; reflexivity|].
    rewrite N.shiftl_1_l. rewrite N.pow2_bits_false by congruence. apply andb_false_r.
Qed.
Definition at_axis (a : N) (v : vec) : R := comp a v.
Lemma comp_add a u v : comp a (vadd u v) = comp a u + comp a v. Proof. destruct a as [|[p|p|]]; reflexivity. Qed.
Lemma comp_smul a k v : comp a (smul k v) = k * comp a v. Proof. destruct a as [|[p|p|]]; reflexivity. Qed.
Lemma comp_zero a : comp a vzero = 0. Proof. destruct a as [|[p|p|]]; reflexivity. Qed.
Lemma axes a : (a < 3)%N -> a = 0%N \/ a = 1%N \/ a = 2%N. Proof. lia. Qed.
Lemma comp_damp2 a d dt v x : comp a (cundallDamp2nd d dt v x) = damp2 d dt (comp a v) (comp a x). Proof. destruct a as [|[p|p|]]; reflexivity. Qed.
Lemma comp_accel a g f m d : (a < 3)%N -> comp a (computeAccel g f m d) = if N.testbit d a then 0 else comp a f / m + comp a g.
Proof.
  intros H. unfold computeAccel. destruct (N.eqb_spec d 0) as [->|Hd].
  - rewrite N.bits_0, comp_add, comp_smul. unfold Rdiv. ring.
  - assert (B : forall k, (k < 3)%N -> bit d k false = N.testbit d k) by (intros k Hk; rewrite bit_spec by exact Hk; rewrite N.add_0_r; reflexivity). destruct (axes a H) as [-> | [-> | -> ]]; cbn [comp vx vy vz]; rewrite B by lia; (destruct (N.testbit d _); [reflexivity|ring]).
Qed.
Lemma comp_angaccel a t i d : (a < 3)%N -> comp a (computeAngAccel t i d) = if N.testbit d (a + 3) then 0 else comp a t / comp a i.
Proof.
  intros H. unfold computeAngAccel. destruct (N.eqb_spec d 0) as [->|Hd].
  - rewrite N.bits_0. destruct a as [|[p|p|]]; reflexivity.
  - destruct (axes a H) as [-> | [-> | -> ]]; cbn [comp vx vy vz]; rewrite bit_spec by lia; cbv iota; (destruct (N.testbit d _); [reflexivity|ring]).
Qed.
Lemma rot_bits d a : (a < 3)%N -> N.land d DOF_RXRYRZ = DOF_NONE -> N.testbit d (a + 3) = false.
Proof.
  intros H E. assert (X : N.testbit (N.land d DOF_RXRYRZ) (a + 3) = false) by (rewrite E; apply N.bits_0). rewrite N.land_spec in X. destruct (N.testbit d (a + 3)); [|reflexivity]. cbn [andb] in X. destruct (axes a H) as [-> | [-> | -> ]]; discriminate X.
Qed.
Lemma all_bits d a : (a < 6)%N -> d = DOF_ALL -> N.testbit d a = true.
Proof. intros H ->. assert (a = 0 \/ a = 1 \/ a = 2 \/ a = 3 \/ a = 4 \/ a = 5)%N by lia. repeat match goal with H : _ \/ _ |- _ => destruct H end; subst; reflexivity. Qed.

(** ** Sign and damping *)
Lemma damp2_zero d dt v : damp2 d dt v 0 = 0. Proof. unfold damp2. ring. Qed.
Lemma Sign_cases x : x < 0 /\ Sign x = -1 \/ x = 0 /\ Sign x = 0 \/ 0 < x /\ Sign x = 1.
Proof. unfold Sign. destruct (Rlt_dec x 0); [left; auto|]. destruct (Rlt_dec 0 x); [right; right; auto|]. right. left. split; [lra|reflexivity]. Qed.
Lemma damp2_factor d dt v a : 0 <= d -> exists k, damp2 d dt v a = k * a /\ 1 - d <= k <= 1 + d.
Proof. intros H. unfold damp2. exists (1 - d * Sign (a * (v + 1/2 * dt * a))). split; [ring|]. destruct (Sign_cases (a * (v + 1/2 * dt * a))) as [[_ ->]|[[_ ->]|[_ ->]]]; lra. Qed.

(** ** velocities *)
Definition lin_accel (c : conf) (b : nbody) (f : vec) : vec :=
  damped c (st b) (fluctVel c (rs (st b))) (scaled_by c (st b) (computeAccel (gravity c) f (mass (rs (st b))) (blockedDOFs (st b)))).
Definition ang_accel (c : conf) (b : nbody) (m : vec) : vec :=
  damped c (st b) (angVel (rs (st b))) (scaled_by c (st b) (computeAngAccel m (inertia (rs (st b))) (blockedDOFs (st b)))).
Lemma accelerate_pos c b f m : pos (fst (accelerate c b f m)) = pos (rs (st b)) /\ ori (fst (accelerate c b f m)) = ori (rs (st b)) /\ mass (fst (accelerate c b f m)) = mass (rs (st b)) /\ inertia (fst (accelerate c b f m)) = inertia (rs (st b)).
Proof. unfold accelerate. destruct (_ =? DOF_ALL)%N; [destruct (_ && _); auto|]. destruct (useAspherical c b); auto. Qed.
Lemma advance_vel c i b f m : vel (rs (advance c i b f m)) =
  vadd (vadd (vel (rs (st b))) (if (blockedDOFs (st b) =? DOF_ALL)%N then vzero else smul (dt c) (lin_accel c b f))) (mean_field c i b).
Proof.
  assert (A : vel (rs (advance c i b f m)) = vel (leapfrogTranslate c i b (fst (accelerate c b f m)))). { unfold advance. destruct (accelerate c b f m) as [r1 m1]. cbn [fst]. destruct (useAspherical c b); reflexivity. }
  rewrite A. unfold leapfrogTranslate. cbn [vel]. destruct (accelerate_pos c b f m) as (-> & _). unfold mean_field.
  assert (B : vel (fst (accelerate c b f m)) = vadd (vadd (vel (rs (st b))) (if (blockedDOFs (st b) =? DOF_ALL)%N then vzero else smul (dt c) (lin_accel c b f))) (if isPeriodic c && (1 <? homoDeform c)%Z then smul (dt c) (mulv (prevVelGrad c) (vel (rs (st b)))) else vzero)).
  { unfold accelerate, lin_accel. destruct (_ =? DOF_ALL)%N.
    - destruct (isPeriodic c && (1 <? homoDeform c)%Z); cbn [fst]; rewrite ?vadd_0_r; [|reflexivity]. cbn [set_vel vel]. generalize (vel (rs (st b))), (dt c), (prevVelGrad c). intros. vring.
    - match goal with |- context[damped ?x ?y ?z ?t] => generalize (damped x y z t) end. intros u. destruct (isPeriodic c && (1 <? homoDeform c)%Z), (useAspherical c b); cbn [fst set_vel set_angVel vel]; rewrite ?vadd_0_r; try reflexivity; generalize (vel (rs (st b))), (dt c), (prevVelGrad c); intros; vring. }
  rewrite B. destruct (isPeriodic c && negb (homoDeform c =? 0)%Z); rewrite ?vadd_0_r; [rewrite !vadd_assoc|]; reflexivity.
Qed.
Lemma advance_pos c i b f m : pos (rs (advance c i b f m)) =
  vadd (if moveRotUsed c then vadd (pos (rs (st b))) (move c i) else pos (rs (st b))) (if masked_in c b then smul (dt c) (vel (rs (advance c i b f m))) else vzero).
Proof.
  assert (A : pos (rs (advance c i b f m)) = pos (leapfrogTranslate c i b (fst (accelerate c b f m))) /\ vel (rs (advance c i b f m)) = vel (leapfrogTranslate c i b (fst (accelerate c b f m)))). { unfold advance. destruct (accelerate c b f m) as [r1 m1]. cbn [fst]. destruct (useAspherical c b); split; reflexivity. }
  destruct A as [-> ->]. unfold leapfrogTranslate. cbn [vel pos]. destruct (accelerate_pos c b f m) as (-> & _). destruct (masked_in c b); rewrite ?vadd_0_r; reflexivity.
Qed.
Lemma advance_angVel c i b f m : useAspherical c b = false -> angVel (rs (advance c i b f m)) =
  vadd (vadd (angVel (rs (st b))) (if (blockedDOFs (st b) =? DOF_ALL)%N then vzero else smul (dt c) (ang_accel c b m))) (if isPeriodic c && negb (homoDeform c =? 0)%Z then dSpin c else vzero).
Proof.
  intros U. unfold advance. destruct (accelerate c b f m) as [r1 m1] eqn:E. rewrite U. cbn [with_rs rs]. unfold leapfrogSphericalRotate. cbn [angVel]. unfold leapfrogTranslate. cbn [angVel].
  assert (B : angVel r1 = vadd (angVel (rs (st b))) (if (blockedDOFs (st b) =? DOF_ALL)%N then vzero else smul (dt c) (ang_accel c b m))).
  { unfold accelerate in E. rewrite U in E. unfold ang_accel. destruct (_ =? DOF_ALL)%N.
    - injection E as <- <-. rewrite vadd_0_r. destruct (_ && _); reflexivity.
    - injection E as <- <-. reflexivity. }
  rewrite B. destruct (_ && _); rewrite ?vadd_0_r; reflexivity.
Qed.
Lemma lin_blocked c b f a : (a < 3)%N -> blocked_trans b a -> comp a (lin_accel c b f) = 0.
Proof.
  intros H B. unfold lin_accel, damped, scaled_by. unfold blocked_trans in B. assert (A : comp a (computeAccel (gravity c) f (mass (rs (st b))) (blockedDOFs (st b))) = 0) by (rewrite comp_accel, B by exact H; reflexivity).
  destruct (isDamped (st b)), (densityScaling c); rewrite ?comp_damp2, ?comp_smul, A, ?Rmult_0_r, ?damp2_zero; reflexivity.
Qed.
Lemma ang_blocked c b m a : (a < 3)%N -> blocked_rot b a -> comp a (ang_accel c b m) = 0.
Proof.
  intros H B. unfold ang_accel, damped, scaled_by. unfold blocked_rot in B. assert (A : comp a (computeAngAccel m (inertia (rs (st b))) (blockedDOFs (st b))) = 0) by (rewrite comp_angaccel, B by exact H; reflexivity).
  destruct (isDamped (st b)), (densityScaling c); rewrite ?comp_damp2, ?comp_smul, A, ?Rmult_0_r, ?damp2_zero; reflexivity.
Qed.
Lemma blocked_rot_spherical c b a : (a < 3)%N -> blocked_rot b a -> useAspherical c b = false.
Proof.
  intros H B. unfold useAspherical. destruct (N.eqb_spec (N.land (blockedDOFs (st b)) DOF_RXRYRZ) DOF_NONE) as [E|E]; [|apply andb_false_r]. unfold blocked_rot in B. rewrite (rot_bits _ a H E) in B. discriminate.
Qed.
Theorem blocked_axis c i b f m a : (a < 3)%N ->
  (blocked_trans b a -> comp a (vel (rs (advance c i b f m))) = comp a (vel (rs (st b))) + comp a (mean_field c i b)) /\
  (blocked_rot b a -> comp a (angVel (rs (advance c i b f m))) = comp a (angVel (rs (st b))) + comp a (if isPeriodic c && negb (homoDeform c =? 0)%Z then dSpin c else vzero)).
Proof.
  intros H. split; intros B.
  - rewrite advance_vel, !comp_add. destruct (_ =? DOF_ALL)%N; rewrite ?comp_zero, ?comp_smul, ?(lin_blocked c b f a H B); ring.
  - rewrite advance_angVel, !comp_add by exact (blocked_rot_spherical c b a H B). destruct (_ =? DOF_ALL)%N; rewrite ?comp_zero, ?comp_smul, ?(ang_blocked c b m a H B); ring.
Qed.
Lemma mean_field_none c i b : isPeriodic c = false -> mean_field c i b = vzero.
Proof. intros H. unfold mean_field. rewrite H. cbn [andb]. apply vadd_0_r. Qed.
Lemma damped_undamped c s v a : (isDamped s = false \/ damping c = 0) -> damped c s v a = a.
Proof. intros [H|H]; unfold damped; [rewrite H; reflexivity|]. destruct (isDamped s); [|reflexivity]. rewrite H. destruct a as [x y z]. unfold cundallDamp2nd, damp2. cbn [vx vy vz]. f_equal; ring. Qed.
Theorem free_axis c i b f m a : (a < 3)%N -> isPeriodic c = false -> densityScaling c = false -> 0 <= damping c ->
  (~ blocked_trans b a -> exists k, comp a (vel (rs (advance c i b f m))) = comp a (vel (rs (st b))) + dt c * (k * (comp a f / mass (rs (st b)) + comp a (gravity c))) /\
     1 - damping c <= k <= 1 + damping c /\ (isDamped (st b) = false -> k = 1)) /\
  (~ blocked_rot b a -> useAspherical c b = false -> exists k, comp a (angVel (rs (advance c i b f m))) = comp a (angVel (rs (st b))) + dt c * (k * (comp a m / comp a (inertia (rs (st b))))) /\
     1 - damping c <= k <= 1 + damping c /\ (isDamped (st b) = false -> k = 1)).
Proof.
  intros H P S D. assert (G : forall v x, exists k, comp a (damped c (st b) v (scaled_by c (st b) x)) = k * comp a x /\ 1 - damping c <= k <= 1 + damping c /\ (isDamped (st b) = false -> k = 1)).
  { intros v x. unfold damped, scaled_by. rewrite S. destruct (isDamped (st b)).
    - rewrite comp_damp2. destruct (damp2_factor (damping c) (dt c) (comp a v) (comp a x) D) as (k & E & K). exists k. split; [exact E|]. split; [exact K|discriminate].
    - exists 1. split; [ring|]. split; [lra|reflexivity]. }
  split.
  - intros B. rewrite advance_vel, (mean_field_none c i b P), vadd_0_r, comp_add. destruct (N.eqb_spec (blockedDOFs (st b)) DOF_ALL) as [E|_]; [exfalso; apply B; unfold blocked_trans; apply all_bits; [lia|exact E]|].
    rewrite comp_smul. unfold lin_accel. destruct (G (fluctVel c (rs (st b))) (computeAccel (gravity c) f (mass (rs (st b))) (blockedDOFs (st b)))) as (k & -> & K). exists k. split; [|exact K]. rewrite comp_accel by exact H. unfold blocked_trans in B. apply not_true_is_false in B. rewrite B. reflexivity.
  - intros B U. rewrite advance_angVel by exact U. rewrite P. cbn [andb]. rewrite vadd_0_r, comp_add. destruct (N.eqb_spec (blockedDOFs (st b)) DOF_ALL) as [E|_]; [exfalso; apply B; unfold blocked_rot; apply all_bits; [lia|exact E]|].
    rewrite comp_smul. unfold ang_accel. destruct (G (angVel (rs (st b))) (computeAngAccel m (inertia (rs (st b))) (blockedDOFs (st b)))) as (k & -> & K). exists k. split; [|exact K]. rewrite comp_angaccel by exact H. unfold blocked_rot in B. apply not_true_is_false in B. rewrite B. reflexivity.
Qed.

(** ** orientation stays normalized *)
Lemma unit_dir v : norm2 v <> 0 -> norm2 (smul (/ norm v) v) = 1.
Proof.
  intros H. assert (N : norm v <> 0). { intros E. apply H. rewrite <- norm_sq, E. ring. } replace (norm2 (smul (/ norm v) v)) with (/ norm v * / norm v * norm2 v) by vring. rewrite <- norm_sq. field. exact N.
Qed.
Lemma impose_rot_norm c i q : qnorm2 (impose_rot c i q) = qnorm2 q.
Proof.
  unfold impose_rot. destruct (moveRotUsed c); [|reflexivity]. destruct (vec_eq_dec (rot c i) vzero) as [|Hn]; [reflexivity|]. rewrite qnorm2_mul, angle_axis_unit; [ring|]. apply unit_dir. intros E. apply Hn, norm2_zero, E.
Qed.
Lemma spherical_unit c i b r : qnorm2 (ori r) = 1 -> qnorm2 (ori (leapfrogSphericalRotate c i b r)) = 1.
Proof.
  intros U. unfold leapfrogSphericalRotate. cbn [ori]. apply qnormalize_unit. set (w := if _ && _ then vadd (angVel r) (dSpin c) else angVel r). set (q1 := if Req_EM_T _ _ then _ else _).
  assert (E : qnorm2 q1 = 1). { subst q1. destruct (Req_EM_T (norm2 w) 0) as [|Hn]; [exact U|]. destruct (masked_in c b); [|exact U]. rewrite qnorm2_mul, U, angle_axis_unit; [ring|]. apply unit_dir, Hn. }
  destruct (masked_in c b); rewrite ?impose_rot_norm, E; lra.
Qed.
(** the derivative is a product of quaternions *)
Lemma DotQ_mul w q : DotQ w q = qscale (1/2) (qmul q (Q 0 w)).
Proof. destruct w, q as [? []]. unfold DotQ. vgoal. f_equal; [|f_equal]; field. Qed.
Lemma norm2_nonneg_zero a : norm2 a <= 0 -> norm2 a = 0. Proof. pose proof (norm2_pos a). lra. Qed.
Lemma aspherical_nonzero h q w1 w2 : qnorm2 q = 1 -> qnorm2 (qadd q (qscale h (DotQ w2 (qadd q (qscale (h / 2) (DotQ w1 q)))))) <> 0.
Proof.
  intros U. replace (qadd q (qscale h (DotQ w2 (qadd q (qscale (h / 2) (DotQ w1 q)))))) with (qmul q (qadd qid (qscale (h / 2) (qmul (qadd qid (qscale (h / 4) (Q 0 w1))) (Q 0 w2))))).
  2:{ rewrite !DotQ_mul. destruct q as [a [x y z]], w1 as [p1 p2 p3], w2 as [s1 s2 s3]. vgoal. f_equal; [field|f_equal; field]. }
  rewrite qnorm2_mul, U, Rmult_1_l. intros E.
  assert (X : let u := vadd w2 (smul (h / 4) (cross w1 w2)) in 1 - h / 2 * (h / 4 * dot w1 w2) = 0 /\ (h / 2) * (h / 2) * norm2 u = 0).
  { cbv zeta. assert (F : (1 - h / 2 * (h / 4 * dot w1 w2)) * (1 - h / 2 * (h / 4 * dot w1 w2)) + h / 2 * (h / 2) * norm2 (vadd w2 (smul (h / 4) (cross w1 w2))) = 0) by (rewrite <- E; destruct w1 as [p1 p2 p3], w2 as [s1 s2 s3]; vgoal; field).
    pose proof (norm2_pos (vadd w2 (smul (h / 4) (cross w1 w2)))) as P. pose proof (Rle_0_sqr (h / 2)) as S2. pose proof (Rle_0_sqr (1 - h / 2 * (h / 4 * dot w1 w2))) as S1. unfold Rsqr in S1, S2. pose proof (Rmult_le_pos _ _ S2 P) as S3.
    split; [apply Rsqr_0_uniq; unfold Rsqr; lra|lra]. }
  cbv zeta in X. destruct X as [X1 X2].
  assert (Y : norm2 (vadd w2 (smul (h / 4) (cross w1 w2))) = norm2 w2 + (h/4)*(h/4) * norm2 (cross w1 w2)) by vring. rewrite Y in X2. pose proof (norm2_pos w2) as P2. pose proof (norm2_pos (cross w1 w2)) as P3.
  assert (Z : h * h * norm2 w2 = 0).
  { pose proof (Rle_0_sqr (h / 2)) as S2. pose proof (Rle_0_sqr (h / 4)) as S4. unfold Rsqr in S2, S4. pose proof (Rmult_le_pos _ _ S2 P2) as A1. pose proof (Rmult_le_pos _ _ S2 (Rmult_le_pos _ _ S4 P3)) as A2.
    rewrite Rmult_plus_distr_l in X2. assert (A : h / 2 * (h / 2) * norm2 w2 = 0) by lra. lra. }
  apply Rmult_integral in Z. destruct Z as [Z|Z]; [assert (h = 0) by nra; subst h; lra|]. apply norm2_zero in Z. subst w2. replace (dot w1 vzero) with 0 in X1 by vring. lra.
Qed.
Lemma aspherical_unit c i s r T : qnorm2 (ori r) = 1 -> qnorm2 (ori (fst (leapfrogAsphericalRotate c i s r T))) = 1.
Proof.
  intros U. unfold leapfrogAsphericalRotate. cbn [fst ori]. apply qnormalize_unit. rewrite impose_rot_norm. apply aspherical_nonzero. exact U.
Qed.
Lemma advance_unit c i b f m : unit_ori (rs (st b)) -> unit_ori (rs (advance c i b f m)).
Proof.
  unfold unit_ori. intros U. unfold advance. pose proof (accelerate_pos c b f m) as (_ & Eo & _). destruct (accelerate c b f m) as [r1 m1]. cbn [fst] in Eo. assert (U2 : qnorm2 (ori (leapfrogTranslate c i b r1)) = 1) by (unfold leapfrogTranslate; cbn [ori]; rewrite Eo; exact U).
  destruct (useAspherical c b).
  - pose proof (aspherical_unit c i (st b) (leapfrogTranslate c i b r1) m1 U2) as A. destruct (leapfrogAsphericalRotate _ _ _ _ _) as [r3 L]. exact A.
  - apply spherical_unit. exact U2.
Qed.
Lemma moved_body_same c w i b b' : clumps_ok w -> nb w i = Some b -> moved_body c w i = Some b' -> clumpId b' = clumpId b /\ members b' = members b /\ subdomain b' = subdomain b /\ isSubdomain b' = isSubdomain b.
Proof. intros K E H. destruct (moved_body_shape c w i b K E) as (s & X). rewrite X in H. injection H as <-. auto. Qed.
Definition same_clumps (w w' : nworld) : Prop := forall i, match nb w i, nb w' i with
  | Some b, Some b' => clumpId b' = clumpId b /\ members b' = members b /\ subdomain b' = subdomain b /\ isSubdomain b' = isSubdomain b
  | None, None => True | _, _ => False end.
Lemma same_clumps_ok w w' : same_clumps w w' -> clumps_ok w -> clumps_ok w'.
Proof.
  intros S [K1 K2]. assert (F : forall i b', nb w' i = Some b' -> exists b, nb w i = Some b /\ clumpId b' = clumpId b /\ members b' = members b). { intros i b' E. specialize (S i). rewrite E in S. destruct (nb w i) as [b|]; [|contradiction]. exists b. tauto. }
  assert (G : forall i b, nb w i = Some b -> exists b', nb w' i = Some b' /\ clumpId b' = clumpId b /\ members b' = members b). { intros i b E. specialize (S i). rewrite E in S. destruct (nb w' i) as [b'|]; [|contradiction]. exists b'. tauto. }
  split.
  - intros i b' E Ec. destruct (F i b' E) as (b & Eb & Ec' & Em). rewrite Em. destruct (K1 i b Eb) as [A B]; [congruence|]. split; [exact A|]. intros j Hj. destruct (B j Hj) as (C & bj & Ej & Ek). split; [exact C|]. destruct (G j bj Ej) as (bj' & X & Y & _). exists bj'. split; [exact X|congruence].
  - intros i b' k E Ek Hn. destruct (F i b' E) as (b & Eb & Ec' & Em). destruct (K2 i b k Eb) as (bk & A & B & C); [congruence|exact Hn|]. destruct (G k bk A) as (bk' & X & Y & Z). exists bk'. split; [exact X|]. split; [congruence|rewrite Z; exact C].
Qed.
Lemma action_unit c ids w : clumps_ok w -> NoDup ids -> (forall i b, nb w i = Some b -> In i ids) -> unit_world w ->
  exists w', action c ids w = Some w' /\ unit_world w' /\ clumps_ok w' /\ (forall i, nb w' i = None <-> nb w i = None).
Proof.
  intros K Hd Ha U. destruct (action_exact c w ids K Hd Ha) as (w' & E & H). exists w'. split; [exact E|].
  assert (S : same_clumps w w').
  { intros i. rewrite H. destruct (nb w i) as [b|] eqn:Eb; [|unfold owner; rewrite Eb; exact I]. destruct (match owner w i with Some s => Nat.eqb s (process c) | None => false end); [|auto]. destruct (moved_body_shape c w i b K Eb) as (s & ->). cbn. auto. }
  split; [|split; [exact (same_clumps_ok w w' S K)|]].
  - intros i b' Ei. pose proof (S i) as Si. rewrite Ei in Si. destruct (nb w i) as [b|] eqn:Eb; [|contradiction]. destruct (U i b Eb) as [U1 U2]. split; [|intros p Hp; apply U2; destruct Si as (_ & <- & _); exact Hp].
    rewrite H in Ei. destruct (match owner w i with Some s => Nat.eqb s (process c) | None => false end); [|congruence]. unfold moved_body in Ei. rewrite Eb in Ei. destruct (Nat.eqb (mover w i) i).
    + injection Ei as <-. cbn [with_st st]. unfold moved. destruct (load w i b) as [f m]. apply advance_unit, U1.
    + destruct (nb w (mover w i)) as [k|] eqn:Ek; [|discriminate]. unfold local_of in Ei. destruct (find _ (members k)) as [p|] eqn:Ef; [|discriminate]. injection Ei as <-. cbn [with_st with_rs st rs]. unfold unit_ori, place. cbn [ori].
      apply find_some in Ef. destruct (U _ _ Ek) as [V1 V2]. rewrite qnorm2_mul, (V2 p (proj1 Ef)), Rmult_1_r. unfold moved. destruct (load w (mover w i) k) as [f m]. apply advance_unit, V1.
  - intros i. specialize (S i). destruct (nb w i), (nb w' i); split; intros; try discriminate; try contradiction; reflexivity.
Qed.
Theorem always_unit : forall l w, clumps_ok w -> unit_world w -> (forall s, In s l -> NoDup (s_ids s) /\ forall i b, nb w i = Some b -> In i (s_ids s)) ->
  exists w', steps l w = Some w' /\ unit_world w'.
Proof.
  induction l as [|s l IH]; intros w K U Hs; cbn [steps]; [exists w; auto|]. destruct (Hs s (or_introl eq_refl)) as [H1 H2].
  destruct (action_unit (s_conf s) (s_ids s) (mkW (nb w) (s_force s) (s_torque s)) K H1 H2 U) as (w' & E & U' & K' & D). rewrite E. apply IH; [exact K'|exact U'|]. intros s' Hs'. destruct (Hs s' (or_intror Hs')) as [A B]. split; [exact A|]. intros i b' Ei. destruct (nb w i) as [b|] eqn:Eb; [exact (B i b Eb)|]. exfalso. assert (nb w' i = None) by (apply D; exact Eb). congruence.
Qed.
