(** Motion of bodies: C29, C39, C61-C67. *)
From Coq Require Import Reals Lra Lia List NArith ZArith Bool Permutation.
From Verif Require Import Vec_Model Vec_Proofs Rigid_Model Rigid_Spec Rigid_Example Newton_Model Newton_Spec Newton_Proofs Newton_Proofs2 Newton_Proofs3 Newton_Example.
Import ListNotations.
Local Open Scope R_scope.

(** C29: the integrator of a process moves exactly the bodies the process is in charge
    of (a member of a clump belongs to the process of the clump): these get the state
    given by the equations of motion, all others are left untouched.  As [owner] is a
    function, no body is moved by two processes *)
Theorem C29_one_process : forall c w ids, clumps_ok w -> NoDup ids -> (forall i b, nb w i = Some b -> In i ids) ->
  exists w', action c ids w = Some w' /\
  (forall i, owner w i = Some (process c) -> nb w' i = moved_body c w i) /\
  (forall i, owner w i <> Some (process c) -> nb w' i = nb w i).
Proof.
  intros c w ids K Hd Ha. destruct (action_exact c w ids K Hd Ha) as (w' & E & H). exists w'. split; [exact E|]. split; intros i Ho; rewrite H.
  - rewrite Ho, Nat.eqb_refl. reflexivity.
  - destruct (owner w i) as [s|]; [|reflexivity]. destruct (Nat.eqb_spec s (process c)) as [->|_]; [exfalso; apply Ho; reflexivity|reflexivity].
Qed.
Print Assumptions C29_one_process.
(** every body that is not a subdomain has an owner *)
Theorem C29_every_body_owned : forall w i b, clumps_ok w -> nb w i = Some b ->
  (exists s, owner w i = Some s) \/ (exists k bk, mover w i = k /\ nb w k = Some bk /\ isSubdomain bk = true).
Proof.
  intros w i b [K1 K2] E. unfold owner. rewrite E. assert (X : exists bk, nb w (mover w i) = Some bk).
  { unfold mover. rewrite E. destruct (clumpId b) as [k|] eqn:Ek; [|eauto]. destruct (Nat.eq_dec k i) as [->|Hn]; [eauto|]. destruct (K2 i b k E Ek Hn) as (bk & A & _). eauto. }
  destruct X as [bk Ek]. rewrite Ek. destruct (isSubdomain bk) eqn:S; [right; exists (mover w i), bk; auto|left; eauto].
Qed.
Print Assumptions C29_every_body_owned.
Example C29_one_process_ex : clumps_ok scene0 /\ NoDup [3; 1; 0; 5; 4; 2]%nat /\ (forall i b, nb scene0 i = Some b -> In i [3; 1; 0; 5; 4; 2]%nat) /\
  map (owner scene0) [0; 1; 2; 3; 4; 5]%nat = [Some 1; Some 1; Some 1; Some 1; Some 2; None]%nat /\ process conf0 = 1%nat.
Proof.
  split; [exact scene0_ok|]. split; [repeat (constructor; [cbn [In]; lia|]); constructor|]. split; [|split; reflexivity]. intros i b E. apply scene0_ids in E. cbn [In]. lia.
Qed.

(** C65: the result does not depend on the order in which the threads treat the bodies *)
Theorem C65_order_irrelevant : forall c w ids1 ids2, clumps_ok w -> NoDup ids1 -> (forall i b, nb w i = Some b -> In i ids1) -> Permutation ids1 ids2 ->
  exists w1 w2, action c ids1 w = Some w1 /\ action c ids2 w = Some w2 /\ forall i, nb w1 i = nb w2 i.
Proof.
  intros c w ids1 ids2 K Hd Ha P. destruct (action_exact c w ids1 K Hd Ha) as (w1 & E1 & H1). destruct (action_exact c w ids2 K) as (w2 & E2 & H2).
  - exact (Permutation_NoDup P Hd).
  - intros i b E. exact (Permutation_in i P (Ha i b E)).
  - exists w1, w2. split; [exact E1|]. split; [exact E2|]. intros i. rewrite H1, H2. reflexivity.
Qed.
Print Assumptions C65_order_irrelevant.
Example C65_order_irrelevant_ex : clumps_ok scene0 /\ NoDup [0; 1; 2; 3; 4; 5]%nat /\ (forall i b, nb scene0 i = Some b -> In i [0; 1; 2; 3; 4; 5]%nat) /\ Permutation [0; 1; 2; 3; 4; 5]%nat [1; 0; 2; 3; 4; 5]%nat.
Proof. split; [exact scene0_ok|]. split; [repeat (constructor; [cbn [In]; lia|]); constructor|]. split; [exact scene0_listed|]. apply perm_swap. Qed.

(** C39: in a scene that is not periodic blocked components of the velocities stay the
    same, whatever acts on the body *)
Theorem C39_blocked_axis : forall c i b f m a, (a < 3)%N -> isPeriodic c = false ->
  (blocked_trans b a -> comp a (vel (rs (advance c i b f m))) = comp a (vel (rs (st b)))) /\
  (blocked_rot b a -> comp a (angVel (rs (advance c i b f m))) = comp a (angVel (rs (st b)))).
Proof.
  intros c i b f m a Ha P. destruct (blocked_axis c i b f m a Ha) as [A B]. split; intros X.
  - rewrite (A X), (mean_field_none c i b P), comp_zero. ring.
  - rewrite (B X), P. cbn [andb]. rewrite comp_zero. ring.
Qed.
Print Assumptions C39_blocked_axis.
Example C39_blocked_axis_ex : let b := mkB (state0 vzero 37) false 1 None [] 1 false in blocked_trans b 0 /\ ~ blocked_trans b 1 /\ blocked_trans b 2 /\ ~ blocked_rot b 0 /\ ~ blocked_rot b 1 /\ blocked_rot b 2 /\ isPeriodic conf0 = false.
Proof. cbv zeta. unfold blocked_trans, blocked_rot. cbn. intuition discriminate. Qed.

(** C39: free components follow force/mass plus gravity (torque/inertia), up to the
    factor of the numerical damping *)
Theorem C39_free_axis : forall c i b f m a, (a < 3)%N -> isPeriodic c = false -> densityScaling c = false -> 0 <= damping c ->
  (~ blocked_trans b a -> exists k, comp a (vel (rs (advance c i b f m))) = comp a (vel (rs (st b))) + dt c * (k * (comp a f / mass (rs (st b)) + comp a (gravity c))) /\
     1 - damping c <= k <= 1 + damping c /\ (isDamped (st b) = false -> k = 1)) /\
  (~ blocked_rot b a -> useAspherical c b = false -> exists k, comp a (angVel (rs (advance c i b f m))) = comp a (angVel (rs (st b))) + dt c * (k * (comp a m / comp a (inertia (rs (st b))))) /\
     1 - damping c <= k <= 1 + damping c /\ (isDamped (st b) = false -> k = 1)).
Proof. exact free_axis. Qed.
Print Assumptions C39_free_axis.
Example C39_free_axis_ex : isPeriodic conf0 = false /\ densityScaling conf0 = false /\ 0 <= damping conf0 /\ ~ blocked_trans falling 2 /\ ~ blocked_rot falling 2 /\ useAspherical conf0 falling = false.
Proof. cbn [conf0 isPeriodic densityScaling damping]. split; [reflexivity|]. split; [reflexivity|]. split; [lra|]. unfold blocked_trans, blocked_rot. cbn. split; [discriminate|]. split; [discriminate|reflexivity]. Qed.

(** C39: positions follow velocities *)
Theorem C39_position : forall c i b f m, masked_in c b = true -> moveRotUsed c = false ->
  pos (rs (advance c i b f m)) = vadd (pos (rs (st b))) (smul (dt c) (vel (rs (advance c i b f m)))).
Proof. intros c i b f m K R. rewrite advance_pos, K, R. reflexivity. Qed.
Print Assumptions C39_position.
Example C39_position_ex : masked_in conf0 falling = true /\ moveRotUsed conf0 = false. Proof. split; reflexivity. Qed.

(** C39: in a periodic scene blocked components change with the motion of the cell only *)
Theorem C39_blocked_periodic : forall c i b f m a, (a < 3)%N ->
  (blocked_trans b a -> comp a (vel (rs (advance c i b f m))) = comp a (vel (rs (st b))) + comp a (mean_field c i b)) /\
  (blocked_rot b a -> comp a (angVel (rs (advance c i b f m))) = comp a (angVel (rs (st b))) + comp a (if isPeriodic c && negb (homoDeform c =? 0)%Z then dSpin c else vzero)).
Proof. exact blocked_axis. Qed.
Print Assumptions C39_blocked_periodic.

(** C61: utils.kineticEnergy() is the kinetic energy of all bodies that are not blocked,
    if bodies with different moments of inertia are flagged as aspherical *)
Theorem C61_kinetic_partial : forall ids w, (forall i b, nb w i = Some b -> flag_right b) -> shop_kinetic ids w = total_kinetic (existing ids w).
Proof. exact shop_kinetic_exact. Qed.
Print Assumptions C61_kinetic_partial.
Example C61_kinetic_ex : flag_right brick /\ forall i b, nb scene0 i = Some b -> flag_right b.
Proof.
  split; [left; reflexivity|]. intros i b E. right. left. pose proof (scene0_ids i b E) as L. destruct i as [|[|[|[|[|[|i]]]]]]; [| | | | | |lia]; cbn [scene0 nb] in E; injection E as <-; reflexivity.
Qed.
(** C61: O.energy['kinetic'], if the body is spherical or not turned *)
Theorem C61_tracked_partial : forall c b, isPeriodic c = false -> (aspherical b = true -> ori (rs (st b)) = qid \/ (unit_ori (rs (st b)) /\ exists k, inertia (rs (st b)) = V k k k)) -> flag_right b ->
  tracked_kinetic c b = kinetic b.
Proof. exact tracked_exact. Qed.
Print Assumptions C61_tracked_partial.
Example C61_tracked_ex : isPeriodic conf0 = false /\ aspherical falling = false /\ flag_right falling.
Proof. split; [reflexivity|]. split; [reflexivity|]. right. left. reflexivity. Qed.
(** C61 refuted: O.energy['kinetic'] differs from the kinetic energy, and from
    utils.kineticEnergy(), for a turned aspherical body *)
Theorem C61_tracked_refuted : exists c b, isPeriodic c = false /\ flag_right b /\ unit_ori (rs (st b)) /\ tracked_kinetic c b <> kinetic b /\ shop_kinetic_body b = kinetic b.
Proof.
  exists conf0, brick. split; [reflexivity|]. split; [left; reflexivity|]. split; [unfold unit_ori, brick, qz; cbn [st rs ori]; vgoal; field|]. split; [|apply shop_body_exact; left; reflexivity].
  unfold tracked_kinetic, kinetic, turned, brick, fluctVel, qz. cbn [st rs aspherical ori vel angVel mass inertia isPeriodic conf0]. vgoal. lra.
Qed.
Print Assumptions C61_tracked_refuted.

(** C62: orientations stay unit quaternions, for any number of steps with any forces,
    time steps, imposed displacements and orders of the bodies *)
Theorem C62_unit_orientations : forall l w, clumps_ok w -> unit_world w -> (forall s, In s l -> NoDup (s_ids s) /\ forall i b, nb w i = Some b -> In i (s_ids s)) ->
  exists w', steps l w = Some w' /\ unit_world w'.
Proof. exact always_unit. Qed.
Print Assumptions C62_unit_orientations.
Example C62_unit_orientations_ex : clumps_ok scene0 /\ unit_world scene0 /\ NoDup [0; 1; 2; 3; 4; 5]%nat /\ (forall i b, nb scene0 i = Some b -> In i [0; 1; 2; 3; 4; 5]%nat).
Proof. split; [exact scene0_ok|]. split; [exact scene0_unit|]. split; [repeat (constructor; [cbn [In]; lia|]); constructor|exact scene0_listed]. Qed.

(** C63: the damped force does less work by damping*|force*velocity| *)
Theorem C63_damping_power_partial : forall d h v a, damp2 d h v a * (v + 1/2 * h * a) = a * (v + 1/2 * h * a) - d * Rabs (a * (v + 1/2 * h * a)).
Proof. exact damp2_power. Qed.
Print Assumptions C63_damping_power_partial.
(** C63: damping does not add kinetic energy if no component of the velocity changes its
    sign within the step *)
Theorem C63_damping_partial : forall c i b f m, isPeriodic c = false -> densityScaling c = false -> 0 <= damping c <= 1 -> 0 <= dt c ->
  (forall a, (a < 3)%N -> let v := comp a (vel (rs (st b))) in let v' := comp a (vel (rs (advance c i (undamped b) f m))) in 0 <= v * (v + (1 + damping c) * (v' - v))) ->
  norm2 (vel (rs (advance c i b f m))) <= norm2 (vel (rs (advance c i (undamped b) f m))).
Proof. exact damping_energy. Qed.
Print Assumptions C63_damping_partial.
Example C63_damping_ex : let b := mkB (mkS (mkR vzero qid (V 0 0 (-1)) vzero 1 (V 1 1 1)) vzero 0 true 1) false 1 None [] 1 false in isPeriodic conf0 = false /\ densityScaling conf0 = false /\ 0 <= damping conf0 <= 1 /\ 0 <= dt conf0 /\
  forall a, (a < 3)%N -> let v := comp a (vel (rs (st b))) in let v' := comp a (vel (rs (advance conf0 0 (undamped b) vzero vzero))) in 0 <= v * (v + (1 + damping conf0) * (v' - v)).
Proof.
  cbv zeta. cbn [conf0 isPeriodic densityScaling damping dt]. split; [reflexivity|]. split; [reflexivity|]. split; [lra|]. split; [lra|]. intros a Ha. rewrite advance_vel, mean_field_none by reflexivity. rewrite vadd_0_r, comp_add. cbn [undamped with_st st blockedDOFs rs vel]. change ((0 =? Attr_Model.DOF_ALL)%N) with false. cbv iota. unfold lin_accel, damped, scaled_by, computeAccel, conf0, undamped. cbn [with_st st isDamped rs mass blockedDOFs gravity densityScaling isPeriodic damping dt vel N.eqb].
  destruct (axes a Ha) as [-> | [-> | -> ]]; cbn [comp]; vgoal; lra.
Qed.
(** C63 refuted: a body that turns round within the step gets faster by damping *)
Theorem C63_damping_refuted : exists c b, isPeriodic c = false /\ 0 <= damping c <= 1 /\ 0 < dt c /\
  norm2 (vel (rs (advance c 0 (undamped b) vzero vzero))) < norm2 (vel (rs (advance c 0 b vzero vzero))).
Proof.
  exists conf0, falling. split; [reflexivity|]. cbn [conf0 damping dt]. split; [lra|]. split; [lra|]. pose proof (falling_vel true) as A. pose proof (falling_vel false) as B. unfold undamped, with_st, falling in *. cbn [st rs angMom blockedDOFs dscale aspherical groupMask clumpId members subdomain isSubdomain] in *. rewrite A, B. vgoal. lra.
Qed.
Print Assumptions C63_damping_refuted.

(** C64: how far the angular velocity of an aspherical body is from the one that belongs
    to its angular momentum (w, in local axes) *)
Theorem C64_angular_velocity_partial : forall c i b f m, useAspherical c b = true -> densityScaling c = false -> moveRotUsed c = false -> unit_ori (rs (st b)) ->
  exists k, let s' := advance c i b f m in let w := local_angVel b (angMom s') in
  angVel (rs s') = vadd (qrot (ori (rs s')) w) (smul k (vsub w (qrot (ori (rs s')) w))).
Proof. exact aspherical_angVel. Qed.
Print Assumptions C64_angular_velocity_partial.
Example C64_angular_velocity_ex : useAspherical (conf2 (-1)) brick = true /\ densityScaling (conf2 (-1)) = false /\ moveRotUsed (conf2 (-1)) = false /\ unit_ori (rs (st brick)).
Proof. split; [reflexivity|]. split; [reflexivity|]. split; [reflexivity|]. unfold unit_ori, brick, qz; cbn [st rs ori]; vgoal; field. Qed.
(** C64 refuted: it is not the local angular velocity turned into global axes: its
    length is different *)
Theorem C64_angular_velocity_refuted : exists c b, useAspherical c b = true /\ densityScaling c = false /\ unit_ori (rs (st b)) /\
  let s' := advance c 0 b vzero vzero in norm2 (angVel (rs s')) <> norm2 (local_angVel b (angMom s')).
Proof.
  exists (conf2 (-1)), (spinning (Q 0 (V 0 0 1)) (V (-1) 0 0)). split; [reflexivity|]. split; [reflexivity|]. split; [unfold unit_ori, spinning; cbn [st rs ori]; vgoal; ring|]. cbv zeta.
  destruct (spinning_advance (-1) (Q 0 (V 0 0 1)) (V (-1) 0 0)) as (A & B & _). cbv zeta in A, B. rewrite A, B. unfold local_angVel, spinning. cbn [st rs ori inertia]. rewrite !DotQ_mul. unfold vquot. vgoal. lra.
Qed.
Print Assumptions C64_angular_velocity_refuted.

(** C66: utils.momentum() and utils.angularMomentum() are the totals over all bodies in
    scenes without clumps, the latter if angMom is up to date *)
Theorem C66_momentum_partial : forall ids w, (forall i b, nb w i = Some b -> clumpId b = None) -> shop_momentum ids w = total_momentum (existing ids w).
Proof. exact shop_momentum_exact. Qed.
Print Assumptions C66_momentum_partial.
Theorem C66_angular_momentum_partial : forall o ids w,
  (forall i b, nb w i = Some b -> clumpId b = None /\ angMom (st b) = mulv (turned (ori (rs (st b))) (inertia (rs (st b)))) (angVel (rs (st b)))) ->
  shop_angularMomentum o ids w = total_angular_momentum o (existing ids w).
Proof. exact shop_angular_exact. Qed.
Print Assumptions C66_angular_momentum_partial.
(** C66 refuted: a clump counts once by itself and once through its members *)
Theorem C66_momentum_refuted : exists ids w, clumps_ok w /\ NoDup ids /\ shop_momentum ids w <> total_momentum (existing ids w).
Proof.
  exists [0; 1; 2; 3; 4; 5]%nat, scene0. split; [exact scene0_ok|]. split; [repeat (constructor; [cbn [In]; lia|]); constructor|]. unfold shop_momentum, total_momentum. cbn. vgoal. intros E. injection E. lra.
Qed.
Print Assumptions C66_momentum_refuted.
(** C66 refuted: the rotation of bodies handled by the spherical integrator is missing,
    as it never updates angMom *)
Theorem C66_angular_momentum_refuted : exists ids w, (forall i b, nb w i = Some b -> clumpId b = None /\ angMom (st b) = vzero) /\
  shop_angularMomentum vzero ids w <> total_angular_momentum vzero (existing ids w) /\
  (forall c i b f m, useAspherical c b = false -> angMom (advance c i b f m) = angMom (st b)).
Proof.
  exists [0%nat], (mkW (fun i => match i with O => Some (body0 vzero None [] 1 false) | _ => None end) (fun _ => vzero) (fun _ => vzero)). split; [intros [|i] b E; [injection E as <-; split; reflexivity|discriminate]|]. split; [|exact spherical_angMom].
  unfold shop_angularMomentum, total_angular_momentum, turned. cbn. vgoal. intros E. injection E. lra.
Qed.
Print Assumptions C66_angular_momentum_refuted.

(** C67: a body excluded by the mask is neither moved nor turned, unless it is handled
    by the aspherical integrator *)
Theorem C67_mask_partial : forall c i b f m, masked_in c b = false -> moveRotUsed c = false -> useAspherical c b = false -> unit_ori (rs (st b)) ->
  pos (rs (advance c i b f m)) = pos (rs (st b)) /\ ori (rs (advance c i b f m)) = ori (rs (st b)).
Proof. exact masked_out. Qed.
Print Assumptions C67_mask_partial.
Example C67_mask_ex : let c := mkC (1/10) (1/5) (V 0 0 (-10)) 6 false true false 2 mzero mzero false (fun _ => vzero) (fun _ => vzero) 1 in masked_in c falling = false /\ useAspherical c falling = false /\ unit_ori (rs (st falling)).
Proof. cbv zeta. split; [reflexivity|]. split; [reflexivity|]. unfold unit_ori, falling. cbn [st rs ori]. vgoal. ring. Qed.
(** C67: a mask that is zero or negative excludes nothing; a positive one excludes the
    bodies whose group mask has no bit in common with it *)
Theorem C67_mask_meaning : forall c b,
  masked_in c b = false <-> (0 < mask c)%Z /\ forall n, N.testbit (groupMask b) n = true -> Z.testbit (mask c) (Z.of_N n) = false.
Proof. exact masked_in_false. Qed.
Print Assumptions C67_mask_meaning.
Example C67_mask_meaning_ex : let c := mkC (1/10) (1/5) (V 0 0 (-10)) 6 false true false 2 mzero mzero false (fun _ => vzero) (fun _ => vzero) 1 in masked_in c falling = false.
Proof. reflexivity. Qed.
(** C67 refuted: the aspherical integrator ignores the mask *)
Theorem C67_mask_refuted : exists c b, masked_in c b = false /\ moveRotUsed c = false /\ unit_ori (rs (st b)) /\ ori (rs (advance c 0 b vzero vzero)) <> ori (rs (st b)).
Proof.
  exists (conf2 2), (spinning qid (V 0 0 3)). split; [reflexivity|]. split; [reflexivity|]. split; [unfold unit_ori, spinning; cbn [st rs ori]; vgoal; ring|]. destruct (spinning_advance 2 qid (V 0 0 3)) as (_ & _ & E). cbv zeta in E. rewrite E. cbn [spinning st rs ori]. intros X.
  match type of X with qnormalize ?q = _ => set (q1 := q) in * end. assert (Z : vz (qv q1) = 1) by (subst q1; rewrite !DotQ_mul; unfold vquot; vgoal; field). assert (Y : vz (qv (qnormalize q1)) = 0) by (rewrite X; reflexivity).
  unfold qnormalize in Y. cbn [qscale qv smul vz] in Y. rewrite Z, Rmult_1_r in Y. assert (N : 0 < qnorm2 q1). { unfold qnorm2. unfold norm2, dot. rewrite Z. nra. } pose proof (Rinv_0_lt_compat _ (sqrt_lt_R0 _ N)). lra.
Qed.
Print Assumptions C67_mask_refuted.
