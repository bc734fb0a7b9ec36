(** Iteration over bodies and engines of fields: C154-C159. *)
From Coq Require Import List ZArith Bool Reals Sorted.
From Coq Require Lra Lia.
From Verif Require Interp_Model Newton_Model Rigid_Model.
From Verif Require Import Vec_Model Vec_Proofs Field_Model Field_Spec Field_Proofs Field_Proofs2 Field_Proofs3.
Import ListNotations.
Local Open Scope R_scope.

(** * C154: a loop over the bodies meets each body once, in the order of their numbers, and no slot of an erased one *)
Theorem C154_each : forall (A : Type) (c : list (option A)), StronglySorted lt (fst (foreach c)) /\ forall i, In i (fst (foreach c)) <-> is_body c i.
Proof. intros A c. pose proof (foreach_spec A c) as H. destruct (foreach c) as [vs rs]. split; apply H. Qed.
Print Assumptions C154_each.
(** it reads the slots of the container, and one behind them unless there are none *)
Theorem C154_reads_partial : forall (A : Type) (c : list (option A)) i, In i (snd (foreach c)) <-> (i <= length c)%nat /\ c <> [].
Proof. intros A c i. pose proof (foreach_spec A c) as H. destruct (foreach c) as [vs rs]. apply H. Qed.
Print Assumptions C154_reads_partial.
Example C154_case : foreach [None; Some 5%nat; None; Some 7%nat; None] = ([1%nat; 3%nat], [0; 1; 1; 2; 3; 3; 4; 5]%nat).
Proof. reflexivity. Qed.
(** the slot behind the last one is read: undefined behaviour, though it does not change which bodies are met *)
Theorem C154_behind_refuted : forall (A : Type) (b : A), In (length [Some b]) (snd (foreach [Some b])).
Proof. intros A b. apply C154_reads_partial. split; [apply le_n|discriminate]. Qed.
Print Assumptions C154_behind_refuted.

(** * C155: homogeneous gravity *)
Theorem C155_forces : forall g m c F i,
  (forall b, body c i = Some b -> affected m b -> gravityEngine g m c F i = add1 (F i) (Some (smul (fmass b) g))) /\
  ((forall b, body c i = Some b -> ~ affected m b) -> gravityEngine g m c F i = F i).
Proof. intros g m c F i. split; [intros b; apply gravity_forces|apply gravity_others]. Qed.
Print Assumptions C155_forces.
Theorem C155_work : forall g m dt c, gravWork g m dt c = - dt * rsum (fun b => fmass b * dot g (fvel b)) (affected_bodies m c).
Proof. exact work_sum. Qed.
Print Assumptions C155_work.
(** all bodies fall freely for a step: kinetic energy and booked work do not balance *)
Theorem C155_balance_partial : forall g m dt c, let l := affected_bodies m c in
  rsum (fun b => kinetic (fmass b) (vadd (fvel b) (smul dt g))) l - rsum (fun b => kinetic (fmass b) (fvel b)) l + gravWork g m dt c = 1/2 * (dt * dt) * norm2 g * rsum fmass l.
Proof. exact work_kinetic. Qed.
Print Assumptions C155_balance_partial.
Theorem C155_balance_refuted : exists g c, rsum (fun b => kinetic (fmass b) (vadd (fvel b) (smul 1 g))) (affected_bodies 0 c) - rsum (fun b => kinetic (fmass b) (fvel b)) (affected_bodies 0 c) + gravWork g 0 1 c <> 0.
Proof.
  exists (V 0 0 (-1)), [Some (mkF vzero vzero 1 1 false None)]. intros H. pose proof (C155_balance_partial (V 0 0 (-1)) 0 1 [Some (mkF vzero vzero 1 1 false None)]) as E. cbv zeta in E. rewrite H in E. revert E.
  unfold affected_bodies, affected_dec. cbn [flat_map fclump negb andb orb Z.eqb app rsum fmass]. unfold norm2, dot. cbn [vx vy vz]. Lra.lra.
Qed.
Print Assumptions C155_balance_refuted.
(** a clump is moved by the gravity of its members: its acceleration is g times the sum of their masses over its own mass *)
Theorem C155_clump_partial : forall g cst ms w (F : nat -> vec) T f t (mass_of : nat -> R), Rigid_Model.addForceTorqueFromMembers cst ms w F T vzero vzero = Some (f, t) ->
  (forall i l, In (i, l) ms -> F i = smul (mass_of i) g) ->
  Newton_Model.computeAccel vzero f (Rigid_Model.mass cst) 0%N = smul (rsum (fun il => mass_of (fst il)) ms / Rigid_Model.mass cst) g /\
  Newton_Model.computeAccel g vzero (Rigid_Model.mass cst) 0%N = g.
Proof. intros g cst ms w F T f t mass_of E H. split; [exact (clump_fall g cst ms w F T f t mass_of E H)|apply newton_fall]. Qed.
Print Assumptions C155_clump_partial.
(** members that overlap: it does not fall like everything else *)
Theorem C155_clump_refuted : forall eig c ms, Rigid_Model.updateProperties eig (Rigid_Model.overlapping [vzero] 2) [twin 0; twin 1] = Some (c, ms) -> forall g, g <> vzero ->
  smul (rsum (fun il => Rigid_Model.mass (Rigid_Model.m_state (twin (fst il)))) ms / Rigid_Model.mass c) g <> g.
Proof. exact twins_fall. Qed.
Print Assumptions C155_clump_refuted.
Example C155_case : affected 2 (mkF vzero vzero 1 3 false None) /\ ~ affected 4 (mkF vzero vzero 1 3 false None) /\ ~ affected 0 (mkF vzero vzero 1 3 true None).
Proof. unfold affected. cbn [fclump fmask Z.land Pos.land]. split; [split; [reflexivity|right; discriminate]|]. split; [intros [_ [H|H]]; [discriminate|destruct H; reflexivity]|]. intros [H _]. discriminate. Qed.

(** * C156: gravity towards a body *)
Theorem C156_forces_partial : forall central a rec m c F F' cb i b, centralGravityEngine central a rec m c F = Some F' -> body c central = Some cb -> body c i = Some b -> i <> central -> affected m b ->
  (fpos b <> fpos cb -> exists d u, leads (fpos b) d u (fpos cb) /\ F' i = add1 (F i) (Some (smul (a * fmass b) u))) /\ (fpos b = fpos cb -> F' i = F i).
Proof. exact central_forces. Qed.
Print Assumptions C156_forces_partial.
Theorem C156_others_partial : forall central a rec m c F F' i, centralGravityEngine central a rec m c F = Some F' -> (i = central /\ rec = false) \/ (i <> central /\ forall b, body c i = Some b -> ~ affected m b) -> F' i = F i.
Proof. exact central_others. Qed.
Print Assumptions C156_others_partial.
(** reciprocal: no force from outside *)
Theorem C156_total_partial : forall central a m c F F', centralGravityEngine central a true m c F = Some F' -> total F' (length c) = total F (length c).
Proof. exact central_total. Qed.
Print Assumptions C156_total_partial.
(** no central body, as before one is chosen or after it was erased: undefined *)
Theorem C156_undefined_refuted : forall central a rec m c F, centralGravityEngine central a rec m c F = None <-> ~ is_body c central.
Proof. exact central_defined. Qed.
Print Assumptions C156_undefined_refuted.
Example C156_case : exists F', centralGravityEngine 0 2 true 0 [Some (mkF vzero vzero 5 1 false None); Some (mkF (V 3 0 0) vzero 1 1 false None)] (fun _ => Some vzero) = Some F'.
Proof. eexists. reflexivity. Qed.

(** * C157: towards an axis and away from it *)
Theorem C157_axial_partial : forall p d a m c F i b, norm2 d <> 0 -> body c i = Some b -> affected m b ->
  (~ on_line p d (fpos b) -> exists r u q, leads (fpos b) r u q /\ on_line p d q /\ dot u d = 0 /\ axialGravityEngine p d a m c F i = add1 (F i) (Some (smul (a * fmass b) u))) /\
  (on_line p d (fpos b) -> axialGravityEngine p d a m c F i = F i).
Proof. exact axial_forces. Qed.
Print Assumptions C157_axial_partial.
Theorem C157_axial_others : forall p d a m c F i, (forall b, body c i = Some b -> ~ affected m b) -> axialGravityEngine p d a m c F i = F i.
Proof. exact axial_others. Qed.
Print Assumptions C157_axial_others.
Theorem C157_axial_nan_refuted : forall p a m c F i b, body c i = Some b -> affected m b -> axialGravityEngine p vzero a m c F i = None.
Proof. exact axial_nan. Qed.
Print Assumptions C157_axial_nan_refuted.
Theorem C157_radial_partial : forall p d k ids c F i b a, norm2 d = 1 -> body c i = Some b -> F i = Some a ->
  (~ on_line p d (fpos b) -> exists r u q, leads q r u (fpos b) /\ on_line p d q /\ dot u d = 0 /\ radialForceEngine p d k ids c F i = Some (given (smul k u) ids i a)) /\
  (on_line p d (fpos b) -> radialForceEngine p d k ids c F i = F i).
Proof. exact radial_forces. Qed.
Print Assumptions C157_radial_partial.
Theorem C157_radial_others : forall p d k ids c F i, ~ is_body c i \/ ~ In (Z.of_nat i) ids -> radialForceEngine p d k ids c F i = F i.
Proof. exact radial_others. Qed.
Print Assumptions C157_radial_others.
Example C157_case : norm2 (V 0 0 1) = 1 /\ on_line vzero (V 0 0 1) (V 0 0 7) /\ ~ on_line vzero (V 0 0 1) (V 2 0 7).
Proof. split; [vring|]. split; [exists 7; vring|]. intros [s E]. apply (f_equal vx) in E. revert E. unfold vadd, smul, vzero. cbn [vx vy vz]. Lra.lra. Qed.

(** * C158: a force given to bodies by their numbers *)
Theorem C158_force : forall f ids c F i, (forall a, is_body c i -> F i = Some a -> forceEngine f ids c F i = Some (given f ids i a)) /\ (~ is_body c i \/ ~ In (Z.of_nat i) ids -> forceEngine f ids c F i = F i).
Proof. intros f ids c F i. split; [intros a; apply force_given|apply force_others]. Qed.
Print Assumptions C158_force.
Theorem C158_interpolated_partial : forall times mags dir w time st ids c F F' d st', interpolatingForceEngine times mags dir w time st ids c F = Interp_Model.Done (F', d, st') -> dir <> vzero ->
  norm2 d = 1 /\ dir = smul (norm dir) d /\
  exists t a, Interp_Model.linearInterpolate t times mags st = Interp_Model.Done (a, st') /\ (w = false -> t = time) /\
    (w = true -> exists t0 t1, nth_error times 0 = Some t0 /\ nth_error times (length times - 1) = Some t1 /\ t = Interp_Model.periodicWrap time t0 t1) /\
    (forall i x, is_body c i -> F i = Some x -> F' i = Some (given (smul a d) ids i x)) /\ (forall i, ~ is_body c i \/ ~ In (Z.of_nat i) ids -> F' i = F i).
Proof. exact interpolating. Qed.
Print Assumptions C158_interpolated_partial.
Theorem C158_wrap_refuted : forall t mags dir time st ids c F, interpolatingForceEngine [t] mags dir true time st ids c F = Interp_Model.NaN st.
Proof. exact wrap_one. Qed.
Print Assumptions C158_wrap_refuted.
Example C158_case : forceEngine (V 1 0 0) [1; 1; 7; -1]%Z [None; Some (mkF vzero vzero 1 1 false None)] (fun _ => Some vzero) 1%nat = Some (V 2 0 0).
Proof. rewrite (proj1 (C158_force (V 1 0 0) [1; 1; 7; -1]%Z _ _ 1%nat) vzero); [|eexists; reflexivity|reflexivity]. f_equal. unfold given. cbn. vring. Qed.

(** * C159: drag *)
Theorem C159_engine_partial : forall law ids c F F' i, dragEngine law ids c F = Some F' ->
  (forall b r a, body c i = Some b -> fradius b = Some r -> F i = Some a -> F' i = Some (given (law r (fvel b)) ids i a)) /\
  ((forall b, body c i = Some b -> fradius b = None) \/ ~ In (Z.of_nat i) ids -> F' i = F i).
Proof. intros law ids c F F' i E. split; [intros b r a; exact (drag_given law ids c F F' i b r a E)|exact (drag_others law ids c F F' i E)]. Qed.
Print Assumptions C159_engine_partial.
Theorem C159_laws : forall Rho Cd nu r v, dragForce Rho Cd r v = smul (- (1/2 * Rho * (PI * (r * r)) * Cd * norm v)) v /\ linearDragForce nu r v = smul (- (6 * PI * nu * r)) v.
Proof. intros. split; [apply drag_is|apply linear_is]. Qed.
Print Assumptions C159_laws.
(** a force -k v slows down, without turning round, if the time step is at most m/k *)
Theorem C159_slower_partial : forall k m dt v, 0 <= k -> 0 < m -> 0 <= dt -> dt * k <= m -> exists s, 0 <= s <= 1 /\ vadd v (smul dt (Newton_Model.computeAccel vzero (smul (- k) v) m 0%N)) = smul s v.
Proof. exact slower. Qed.
Print Assumptions C159_slower_partial.
(** with a time step above 2 m/k the body gets faster *)
Theorem C159_faster_refuted : forall k m dt v, 0 < m -> v <> vzero -> 2 * m < dt * k -> norm2 v < norm2 (vadd v (smul dt (Newton_Model.computeAccel vzero (smul (- k) v) m 0%N))).
Proof. exact faster. Qed.
Print Assumptions C159_faster_refuted.
(** a number outside of the container is undefined behaviour, for the other engines it is skipped *)
Theorem C159_undefined_refuted : forall law ids c F, dragEngine law ids c F = None <-> exists id, In id ids /\ ~ (0 <= id < Z.of_nat (length c))%Z.
Proof. exact drag_defined. Qed.
Print Assumptions C159_undefined_refuted.
Example C159_case : exists F', dragEngine (linearDragForce 1) [0%Z] [Some (mkF vzero (V 1 0 0) 1 1 false (Some 1))] (fun _ => Some vzero) = Some F'.
Proof. eexists. reflexivity. Qed.
