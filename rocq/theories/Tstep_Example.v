(** Scenes for the properties of the automatic time step. *)
From Coq Require Import List ZArith Bool Arith Reals Lra Lia.
From Verif Require Import Vec_Model Vec_Proofs Tstep_Model Tstep_Spec Tstep_Proofs Tstep_Proofs2 Tstep_Proofs3.
Import ListNotations.
Local Open Scope R_scope.

(** the engine as it is created; safety coefficient as given *)
Definition engine_with (s : R) : engine := mkE (-1) MAX_REAL MAX_REAL s false 1 false true 1 false 0 0.
Definition ball : body := mkB true false None 1 (V 1 1 1) true (Some (1, 1)) (-1).
Definition pair : list (option body) := [Some ball; Some ball].
Definition touch (n : vec) : contact := mkC 0 1 n 1 0 0 0 1 1 1 0 0.
Definition third : R := sqrt (1 / 3).
Definition diagonal : vec := V third third third.
Lemma third2 : third * third = 1 / 3. Proof. apply sqrt_sqrt. lra. Qed.
Lemma diagonal1 : norm2 diagonal = 1. Proof. unfold norm2, dot, diagonal. cbn [vx vy vz]. rewrite third2. lra. Qed.
Lemma pair_plain : plain pair.
Proof.
  intros i b H. assert (b = ball) as ->. { destruct i as [|[|i]]; cbn in H; try congruence. destruct i; discriminate. }
  unfold positive_body, solid, ball. cbn. repeat split; lra.
Qed.
Lemma touch_loaded n : norm2 n = 1 -> forall c, In c [touch n] -> loaded (length pair) c.
Proof. intros N c [<-|[]]. unfold loaded, touch. cbn [c1 c2 nrm kn ks ktw kroll fn2 length pair]. repeat split; try lra; try lia; exact N. Qed.
Lemma engine_sane s : 0 < s -> sane (engine_with s).
Proof. intros S. unfold sane, engine_with. cbn [maxDt previousDt safety targetDt defaultDt viscEl]. pose proof MAX_REAL_pos. repeat split; lra. Qed.
Lemma MAX_REAL_big : 1024 <= MAX_REAL.
Proof. unfold MAX_REAL. replace 1023%nat with (10 + 1013)%nat by reflexivity. rewrite pow_add. assert (1 <= 2 ^ 1013) by (apply pow_R1_Rle; lra). replace (2 ^ 10) with 1024 by ring. lra. Qed.

Lemma norm_part x : 0 <= x -> x * x <= 1 -> x <= 1.
Proof. intros A H. destruct (Rle_lt_dec x 1) as [L|L]; [exact L|]. assert (1 * 1 < x * x) by (apply Rmult_le_0_lt_compat; lra). lra. Qed.
(** the stiffness of the two balls *)
Lemma touch_stiff n i : (i < 2)%nat -> total stiff_of [touch n] i = normal2 n.
Proof.
  intros I. unfold total. cbn [map fold_right]. unfold contribution, touch. cbn [fn2 c1 c2]. rewrite (isZ_of_false 1) by lra. unfold stiff_of, diag_stiffness. cbn [nrm kn ks]. destruct i as [|[|i]]; [| |lia]; cbn [Nat.eqb when]; destruct (normal2 n) as [x y z]; vring.
Qed.
Lemma touch_Rstiff n i : total Rstiff_of [touch n] i = vzero.
Proof.
  unfold total. cbn [map fold_right]. unfold contribution, touch. cbn [fn2 c1 c2]. rewrite (isZ_of_false 1) by lra. unfold Rstiff_of, diag_stiffness, diag_Rstiffness. cbn [nrm ks ktw kroll radius rad1 rad2]. unfold sq. destruct n as [x y z]. destruct i as [|[|i]]; cbn [Nat.eqb when normal2]; vring.
Qed.
Definition dt_of (s : R) (n : vec) : R := 141044 / 100000 * s * sqrt (1 / maxc (normal2 n)).
Lemma normal2_nn n : vnn (normal2 n). Proof. unfold vnn, normal2, sq. cbn [vx vy vz]. pose proof (sqr_pos (vx n)). pose proof (sqr_pos (vy n)). pose proof (sqr_pos (vz n)). auto. Qed.
Lemma unit_max n : norm2 n = 1 -> 1 / 3 <= maxc (normal2 n).
Proof. intros N. destruct (unit_parts n N) as (_ & _ & _ & S). destruct (maxc_le (normal2 n)) as (A & C & D). cbn [normal2 vx vy vz] in *. lra. Qed.
Lemma unit_period n : norm2 n = 1 -> period 1 (V 1 1 1) (normal2 n) vzero = 1 / maxc (normal2 n) /\ 0 < 1 / maxc (normal2 n) <= 3.
Proof.
  intros N. pose proof (unit_max n N) as M. assert (Q : 0 < 1 / maxc (normal2 n) <= 3). { split; [apply Rdiv_lt_0_compat; lra|]. apply (Rmult_le_reg_r (maxc (normal2 n))); [lra|]. unfold Rdiv. rewrite Rmult_assoc, Rinv_l by lra. lra. }
  split; [|exact Q]. unfold period, quot. cbn [vx vy vz vzero]. rewrite (isZ_of_false (maxc _)) by lra. rewrite (isZ_of_true 0 eq_refl). pose proof MAX_REAL_big. rewrite (Rmin_left MAX_REAL MAX_REAL), (Rmin_left MAX_REAL MAX_REAL) by lra. apply Rmin_left. lra.
Qed.
Lemma isZv_unit n : norm2 n = 1 -> isZv (normal2 n) = false.
Proof. intros N. destruct (isZv (normal2 n)) eqn:E; [|reflexivity]. apply isZv_true in E. pose proof (unit_max n N) as M. rewrite E in M. unfold maxc in M. cbn [vx vy vz vzero] in M. repeat rewrite (Rmax_left 0 0) in M by lra. lra. Qed.
Lemma ball_same : set_scaling ball (scaling ball) = ball. Proof. reflexivity. Qed.
Lemma find_ball E n i nd som : (i < 2)%nat -> norm2 n = 1 -> viscEl E = false -> densityScaling E = false -> findTimeStepFromBody E [touch n] i ball (nd, som) = Done (Rmin (dt_of (safety E) n) nd, true, -1).
Proof.
  intros I N VE DS. unfold findTimeStepFromBody. unfold with_members, ball. cbn [clump mass inertia scaling]. rewrite (touch_stiff n i I), (touch_Rstiff n i), (isZv_unit n N), VE, DS. cbn [bind fst snd]. destruct (unit_period n N) as (-> & Q). unfold something. pose proof (unit_max n N). rewrite (isZ_of_false (maxc _)) by lra. cbn [negb orb]. rewrite orb_true_r. reflexivity.
Qed.
Lemma one_ball E n i nd som out : (i < 2)%nat -> norm2 n = 1 -> viscEl E = false -> densityScaling E = false -> one E [touch n] (nd, som, out) (i, Some ball) = Done (Rmin (dt_of (safety E) n) nd, true, out ++ [Some ball]).
Proof. intros I N VE DS. unfold one. cbn [snd fst]. rewrite (find_ball E n i nd som I N VE DS). reflexivity. Qed.
Lemma pair_compute s n dt : 0 < s <= 1 -> norm2 n = 1 -> exists E', computeTimeStep (engine_with s) dt pair [touch n] = Done (E', dt_of s n, pair).
Proof.
  intros S N. unfold computeTimeStep. set (d := if Rlt_dec _ 0 then _ else _). cbn [length pair]. unfold resize, engine_with. cbn [nStiff viscEl nVisc Nat.ltb Nat.leb andb bind fst snd maxDt previousDt safety densityScaling targetDt active interval computedOnce].
  set (E1 := mkE d _ _ _ _ _ _ _ _ _ _ _). change (combine (seq 0 2) pair) with [(0%nat, Some ball); (1%nat, Some ball)]. cbn [foldM]. rewrite (one_ball E1 n 0) by (auto; lia). cbn [bind]. rewrite (one_ball E1 n 1) by (auto; lia). cbn [bind app orb]. fold pair.
  destruct (unit_period n N) as (_ & P). assert (Q : dt_of s n <= 1024). { unfold dt_of. assert (sqrt (1 / maxc (normal2 n)) <= 2). { rewrite <- (sqrt_Rsqr 2) by lra. apply sqrt_le_1_alt. unfold Rsqr. lra. } assert (0 <= sqrt (1 / maxc (normal2 n))) by apply sqrt_pos. apply Rle_trans with (141044 / 100000 * 1 * 2); [|lra]. apply Rmult_le_compat; lra. }
  pose proof MAX_REAL_big. subst E1. cbn [safety]. rewrite (Rmin_left (dt_of s n) MAX_REAL) by lra. rewrite (Rmin_left (dt_of s n) (dt_of s n)) by lra. rewrite (Rmin_left (dt_of s n) MAX_REAL) by lra. rewrite (Rmin_left (dt_of s n)) by lra. eexists. reflexivity.
Qed.

(** ** two balls, one contact, along no axis *)
Definition default : engine := engine_with (8 / 10).
Definition dt0 : R := dt_of (8 / 10) diagonal.
Lemma dt0_value : 7 <= 2 * (dt0 * dt0) <= 8 /\ 0 < dt0.
Proof.
  unfold dt0, dt_of. assert (M : maxc (normal2 diagonal) = 1 / 3). { unfold maxc, normal2, diagonal, sq. cbn [vx vy vz]. rewrite third2. rewrite (Rmax_left (1 / 3) (1 / 3)) by lra. rewrite (Rmax_left (1 / 3) (1 / 3)) by lra. reflexivity. }
  rewrite M. replace (1 / (1 / 3)) with 3 by field. pose proof (sqrt_sqrt 3 ltac:(lra)) as Q. pose proof (sqrt_lt_R0 3 ltac:(lra)) as Q0. set (x := sqrt 3) in *.
  replace (2 * (141044 / 100000 * (8 / 10) * x * (141044 / 100000 * (8 / 10) * x))) with (2 * (141044 / 100000 * (8 / 10) * (141044 / 100000 * (8 / 10))) * (x * x)) by ring. rewrite Q. lra.
Qed.
Lemma INR_beyond A : exists k, A < INR k.
Proof. exists (Z.to_nat (Z.max 0 (up A))). rewrite INR_IZR_INZ, Z2Nat.id by lia. destruct (archimed A) as (H & _). apply Rlt_le_trans with (IZR (up A)); [exact H|]. apply IZR_le. lia. Qed.
(** balls displaced by -u, u along the normal, with velocities -t u/dt, t u/dt *)
Definition shape (n : vec) (dt : R) (xv : field * field) (u t : R) : Prop :=
  tr (fst xv) 0 = smul (- u) n /\ tr (fst xv) 1 = smul u n /\ ro (fst xv) 0 = vzero /\ ro (fst xv) 1 = vzero /\
  tr (snd xv) 0 = smul (- (t * u / dt)) n /\ tr (snd xv) 1 = smul (t * u / dt) n /\ ro (snd xv) 0 = vzero /\ ro (snd xv) 1 = vzero.
Lemma touch_force n f u : norm2 n = 1 -> tr f 0 = smul (- u) n -> tr f 1 = smul u n -> ro f 0 = vzero -> ro f 1 = vzero -> force (touch n) f = smul (2 * u) n.
Proof.
  intros N H1 H2 H3 H4. unfold force. assert (S : slip (touch n) f = smul (2 * u) n). { unfold slip, touch. cbn [c1 c2 rad1 rad2 nrm]. rewrite H1, H2, H3, H4. clear. vring. }
  rewrite S. unfold linear, touch. cbn [nrm kn ks]. assert (E : dot (smul (2 * u) n) n = 2 * u) by (transitivity (2 * u * norm2 n); [clear; vring|rewrite N; ring]). rewrite E. clear. vring.
Qed.
Lemma touch_force_on n f u : norm2 n = 1 -> tr f 0 = smul (- u) n -> tr f 1 = smul u n -> ro f 0 = vzero -> ro f 1 = vzero ->
  force_on [touch n] f 0 = smul (2 * u) n /\ force_on [touch n] f 1 = smul (- (2 * u)) n /\ torque_on [touch n] f 0 = vzero /\ torque_on [touch n] f 1 = vzero.
Proof.
  intros N H1 H2 H3 H4. unfold force_on, torque_on. cbn [map vsum fold_right]. rewrite (touch_force n f u N H1 H2 H3 H4). unfold touch at 1 2 3 4. cbn [c1 c2 Nat.eqb when]. unfold moment, linear, touch. cbn [rad1 rad2 nrm ktw kroll turn c1 c2]. unfold turn. cbn [c1 c2]. rewrite H3, H4. cbn [c1 c2 Nat.eqb when]. clear. repeat split; vring.
Qed.
Lemma shape_step n dt xv u t : norm2 n = 1 -> 7 <= 2 * (dt * dt) <= 8 -> 0 < dt -> 1 <= t <= 2 -> u <> 0 -> shape n dt xv u t -> exists u' t', shape n dt (newton false dt pair [touch n] xv) u' t' /\ 1 <= t' <= 2 /\ u' <> 0 /\ 9 * (u * u) <= u' * u'.
Proof.
  intros N Dt D0 Ht U. destruct xv as [x v]. unfold shape. cbn [fst snd]. intros (X0 & X1 & X2 & X3 & V0 & V1 & V2 & V3). set (q := 2 * (dt * dt)) in *. exists ((1 + t - q) * u), ((t - q) / (1 + t - q)).
  destruct (touch_force_on n x u N X0 X1 X2 X3) as (F0 & F1 & T0 & T1). unfold newton. cbn [fst snd tr ro]. unfold accel, spin, free_body, pair. cbn [nth_error ball dynamic mass inertia factor vx vy vz]. rewrite F0, F1, T0, T1, X0, X1, X2, X3, V0, V1, V2, V3.
  assert (W : 1 + t - q <> 0) by lra. assert (Dn : dt <> 0) by lra.
  assert (K : t * u / dt - dt * (1 / 1) * (2 * u) = (t - q) / (1 + t - q) * ((1 + t - q) * u) / dt). { unfold q. field. split; assumption. }
  assert (K2 : u + dt * ((t - q) / (1 + t - q) * ((1 + t - q) * u) / dt) = (1 + t - q) * u) by (field; split; assumption).
  split.
  - assert (A0 : vadd (smul (- (t * u / dt)) n) (smul dt (smul (1 / 1) (smul (2 * u) n))) = smul (- ((t - q) / (1 + t - q) * ((1 + t - q) * u) / dt)) n). { rewrite <- K. generalize (t * u / dt) (1 / 1). clear. intros. vring. }
    assert (A1 : vadd (smul (t * u / dt) n) (smul dt (smul (1 / 1) (smul (- (2 * u)) n))) = smul ((t - q) / (1 + t - q) * ((1 + t - q) * u) / dt) n). { rewrite <- K. generalize (t * u / dt) (1 / 1). clear. intros. vring. }
    rewrite A0, A1. revert K2. generalize ((t - q) / (1 + t - q) * ((1 + t - q) * u) / dt). intros y K2. rewrite <- K2. cbn [vzero vx vy vz]. generalize (1 / 1). clear. intros. repeat split; vring.
  - assert (Ed : (t - q) / (1 + t - q) = 1 + 1 / (q - t - 1)) by (field; lra). assert (P : 0 < 1 / (q - t - 1) <= 1). { split; [apply Rdiv_lt_0_compat; lra|]. apply (Rmult_le_reg_r (q - t - 1)); [lra|]. unfold Rdiv. rewrite Rmult_assoc, Rinv_l by lra. lra. }
    split; [lra|]. split; [apply Rmult_integral_contrapositive_currified; [exact W|exact U]|]. replace ((1 + t - q) * u * ((1 + t - q) * u)) with ((q - t - 1) * (q - t - 1) * (u * u)) by ring. apply Rmult_le_compat_r; [apply sqr_pos|]. replace 9 with (3 * 3) by ring. apply Rmult_le_compat; lra.
Qed.
Lemma shape_steps n dt k : norm2 n = 1 -> 7 <= 2 * (dt * dt) <= 8 -> 0 < dt -> forall xv u t, 1 <= t <= 2 -> u <> 0 -> shape n dt xv u t -> exists u' t', shape n dt (steps false dt pair [touch n] k xv) u' t' /\ 1 <= t' <= 2 /\ 9 ^ k * (u * u) <= u' * u'.
Proof.
  intros N Dt D0. induction k as [|k IH]; intros xv u t Ht U S; [exists u, t; cbn [steps pow]; repeat split; try apply S; lra|]. cbn [steps]. destruct (shape_step n dt xv u t N Dt D0 Ht U S) as (u1 & t1 & S1 & T1 & U1 & G1). destruct (IH _ u1 t1 T1 U1 S1) as (u2 & t2 & S2 & T2 & G2). exists u2, t2. split; [exact S2|]. split; [exact T2|]. eapply Rle_trans; [|exact G2]. cbn [pow]. replace (9 * 9 ^ k * (u * u)) with (9 ^ k * (9 * (u * u))) by ring. apply Rmult_le_compat_l; [apply pow_le; lra|exact G1].
Qed.
Lemma grows n dt : norm2 n = 1 -> 7 <= 2 * (dt * dt) <= 8 -> 0 < dt -> ~ stable false dt pair [touch n].
Proof.
  intros N Dt D0 St. set (x := mkF (fun i => match i with O => smul (- (1)) n | 1%nat => smul 1 n | _ => vzero end) (fun _ => vzero)). set (v := mkF (fun i => match i with O => smul (- (1 * 1 / dt)) n | 1%nat => smul (1 * 1 / dt) n | _ => vzero end) (fun _ => vzero)).
  destruct (St x v) as (C & HC). { intros i Hi. destruct i as [|[|i]]; [discriminate Hi|discriminate Hi|split; reflexivity]. }
  assert (Sh : shape n dt (x, v) 1 1) by (unfold shape, x, v; cbn; repeat split; reflexivity).
  destruct (INR_beyond (dt * dt * (Rabs C + 1))) as (k & Hk). destruct (shape_steps n dt k N Dt D0 (x, v) 1 1 ltac:(lra) ltac:(lra) Sh) as (u & t & S & T & G). specialize (HC k 1%nat ltac:(cbn; lia)). cbn zeta in HC. destruct HC as (HC & _). unfold speed2 in HC. destruct S as (_ & _ & _ & _ & _ & S & _). rewrite S in HC.
  assert (E : norm2 (smul (t * u / dt) n) = t * u / dt * (t * u / dt)). { transitivity (t * u / dt * (t * u / dt) * norm2 n); [clear; generalize (t * u / dt); intros; vring|rewrite N; ring]. }
  rewrite E in HC. assert (P9 : 1 + INR k * 8 <= 9 ^ k) by (replace 9 with (1 + 8) by ring; apply poly; lra). assert (IK : 0 <= INR k) by apply pos_INR.
  assert (L : u * u / (dt * dt) <= C). { eapply Rle_trans; [|exact HC]. replace (t * u / dt * (t * u / dt)) with (t * t * (u * u / (dt * dt))) by (field; lra). assert (0 <= u * u / (dt * dt)) by (apply Rmult_le_pos; [apply sqr_pos|apply Rlt_le, Rinv_0_lt_compat, Rmult_lt_0_compat; exact D0]). assert (1 <= t * t) by (replace 1 with (1 * 1) by ring; apply Rmult_le_compat; lra). replace (u * u / (dt * dt)) with (1 * (u * u / (dt * dt))) at 1 by ring. apply Rmult_le_compat_r; assumption. }
  assert (DD : 0 < dt * dt) by (apply Rmult_lt_0_compat; exact D0). assert (L2 : u * u <= C * (dt * dt)). { apply (Rmult_le_compat_r (dt * dt)) in L; [|lra]. replace (u * u / (dt * dt) * (dt * dt)) with (u * u) in L by (field; lra). exact L. }
  pose proof (RRle_abs C) as AC. assert (C * (dt * dt) <= Rabs C * (dt * dt)) by (apply Rmult_le_compat_r; lra). lra.
Qed.
Lemma default_unstable dt : exists E' dt', computeTimeStep default dt pair [touch diagonal] = Done (E', dt', pair) /\ ~ stable false dt' pair [touch diagonal].
Proof. destruct (pair_compute (8 / 10) diagonal dt ltac:(lra) diagonal1) as (E' & H). exists E', dt0. split; [exact H|]. destruct dt0_value as (A & C). apply grows; [exact diagonal1|exact A|exact C]. Qed.

(** ** hypotheses of the stable cases *)
Lemma half_case : exists E' dt', computeTimeStep (engine_with (1 / 2)) 1 pair [touch diagonal] = Done (E', dt', pair).
Proof. destruct (pair_compute (1 / 2) diagonal 1 ltac:(lra) diagonal1) as (E' & H). eauto. Qed.
Definition ex : vec := V 1 0 0.
Lemma ex1 : norm2 ex = 1. Proof. unfold norm2, dot, ex. cbn [vx vy vz]. ring. Qed.
Lemma aligned_case : (forall c, In c [touch ex] -> loaded (length pair) c /\ frictionless c /\ aligned c) /\ exists E' dt', computeTimeStep (engine_with 1) 1 pair [touch ex] = Done (E', dt', pair).
Proof.
  split; [intros c Hc; split; [exact (touch_loaded ex ex1 c Hc)|]; destruct Hc as [<-|[]]; split; [repeat split|unfold aligned, touch, ex; cbn [nrm vx vy vz]; lra]|]. destruct (pair_compute 1 ex 1 ltac:(lra) ex1) as (E' & H). eauto.
Qed.

(** ** engines that go wrong *)
(** a negative maximum *)
Definition negative_max : engine := mkE (-1) (-1) MAX_REAL (8 / 10) false 1 false true 1 false 0 0.
Lemma negative_dt : exists E' dt', computeTimeStep negative_max 1 pair [touch ex] = Done (E', dt', pair) /\ dt' < 0.
Proof.
  unfold computeTimeStep. set (d := if Rlt_dec _ 0 then _ else _). cbn [length pair]. unfold resize, negative_max. cbn [nStiff viscEl nVisc Nat.ltb Nat.leb andb bind fst snd maxDt previousDt safety densityScaling targetDt active interval computedOnce].
  set (E1 := mkE d _ _ _ _ _ _ _ _ _ _ _). change (combine (seq 0 2) pair) with [(0%nat, Some ball); (1%nat, Some ball)]. cbn [foldM]. rewrite (one_ball E1 ex 0) by (auto using ex1; lia). cbn [bind]. rewrite (one_ball E1 ex 1) by (auto using ex1; lia). cbn [bind app orb]. fold pair.
  eexists. eexists. split; [reflexivity|]. eapply Rle_lt_trans; [apply Rmin_l|]. eapply Rle_lt_trans; [apply Rmin_r|]. lra.
Qed.
(** viscous contacts, a body that touches nothing *)
Definition viscous (n m : nat) : engine := mkE 1 MAX_REAL MAX_REAL (8 / 10) false 1 true true 1 false n m.
Lemma find_unassigned E b i st : clump b = None -> viscEl E = true -> densityScaling E = false -> findTimeStepFromBody E [] i b st = UB.
Proof. intros C VE DS. unfold findTimeStepFromBody, with_members. rewrite C. change (total stiff_of [] i) with vzero. rewrite isZv_zero, VE, DS. reflexivity. Qed.
Lemma find_null E b i st : clump b = None -> complete b = true -> elastic b = None -> densityScaling E = true -> findTimeStepFromBody E [] i b st = UB.
Proof. intros C Co El DS. unfold findTimeStepFromBody, with_members. rewrite C. change (total stiff_of [] i) with vzero. rewrite isZv_zero, DS. unfold free_dt. rewrite Co, El. reflexivity. Qed.
Lemma unassigned dt : computeTimeStep (viscous 0 0) dt [Some ball] [] = UB.
Proof.
  unfold computeTimeStep. set (d := if Rlt_dec _ 0 then _ else _). change (resize (viscous 0 0) (length [Some ball])) with (Done (1%nat, 1%nat)). cbn [bind fst snd]. set (E1 := mkE d _ _ _ _ _ _ _ _ _ _ _). change (combine (seq 0 (length [Some ball])) [Some ball]) with [(0%nat, Some ball)]. cbn [foldM]. unfold one. cbn [fst snd]. rewrite find_unassigned by reflexivity. reflexivity.
Qed.
Lemma not_resized dt : computeTimeStep (viscous 2 0) dt pair [touch ex] = UB.
Proof. reflexivity. Qed.
Definition boxes : list (option body) := [Some (mkB true false None 1 (V 1 1 1) true None (-1))].
Definition scaled : engine := mkE 1 MAX_REAL MAX_REAL (8 / 10) true 1 false true 1 false 0 0.
Lemma null_sphere dt : computeTimeStep scaled dt boxes [] = UB.
Proof.
  unfold computeTimeStep. set (d := if Rlt_dec _ 0 then _ else _). change (resize scaled (length boxes)) with (Done (1%nat, 0%nat)). cbn [bind fst snd]. set (E1 := mkE d _ _ _ _ _ _ _ _ _ _ _). unfold boxes. set (b := mkB true false None 1 (V 1 1 1) true None (-1)). change (combine (seq 0 (length [Some b])) [Some b]) with [(0%nat, Some b)]. cbn [foldM]. unfold one. cbn [fst snd]. rewrite find_null by reflexivity. reflexivity.
Qed.
(** ** contacts which carry no force *)
Definition idle (n : vec) : contact := mkC 0 1 n 1 0 0 0 1 1 0 0 0.
Definition start : engine := mkE (27 / 14) MAX_REAL MAX_REAL (1 / 2) false 1 false true 1 false 0 0.
Lemma idle_stiff n i : total stiff_of [idle n] i = vzero.
Proof. unfold total. cbn [map fold_right]. unfold contribution, idle. cbn [fn2]. rewrite (isZ_of_true 0 eq_refl). vring. Qed.
Lemma one_idle E n i nd som out : viscEl E = false -> densityScaling E = false -> one E [idle n] (nd, som, out) (i, Some ball) = Done (nd, som, out ++ [Some ball]).
Proof. intros VE DS. unfold one, findTimeStepFromBody, with_members. cbn [snd fst ball clump]. rewrite idle_stiff, isZv_zero, VE, DS. reflexivity. Qed.
Lemma idle_compute n dt : exists E', computeTimeStep start dt pair [idle n] = Done (E', 27 / 14, pair).
Proof.
  unfold computeTimeStep. change (defaultDt start) with (27 / 14). destruct (Rlt_dec (27 / 14) 0) as [L|_]; [lra|]. change (resize start (length pair)) with (Done (2%nat, 0%nat)). cbn [bind fst snd]. set (E1 := mkE _ _ _ _ _ _ _ _ _ _ _ _).
  change (combine (seq 0 (length pair)) pair) with [(0%nat, Some ball); (1%nat, Some ball)]. cbn [foldM]. rewrite (one_idle E1) by reflexivity. cbn [bind]. rewrite (one_idle E1) by reflexivity. cbn [bind app]. eexists. reflexivity.
Qed.
Lemma steps_idle ds dt bs n k : forall xv, steps ds dt bs [idle n] k xv = steps ds dt bs [touch n] k xv.
Proof. induction k as [|k IH]; intros xv; [reflexivity|]. cbn [steps]. rewrite IH. reflexivity. Qed.
Lemma idle_unstable n : norm2 n = 1 -> ~ stable false (27 / 14) pair [idle n].
Proof.
  intros N S. apply (grows n (27 / 14) N ltac:(lra) ltac:(lra)). intros x v Hv. destruct (S x v Hv) as (C & H). exists C. intros k i Hi. specialize (H k i Hi). rewrite steps_idle in H. exact H.
Qed.
