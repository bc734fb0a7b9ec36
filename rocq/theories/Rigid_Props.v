(** Clumps as rigid bodies: C37, C38, C59, C60. *)
From Coq Require Import Reals Lra List.
From Verif Require Import Vec_Model Vec_Proofs Rigid_Model Rigid_Spec Rigid_Proofs Rigid_Example.
Import ListNotations.
Local Open Scope R_scope.

(** C37: when the relative positions of the members are computed and the members are
    then placed from the state of the clump, each member is where it was and as it was
    turned, and no other body is touched; whatever mass, centre and axes were computed *)
Theorem C37_round_trip : forall eig sums_of ms c ls w, updateProperties eig sums_of ms = Some (c, ls) -> NoDup (map m_id ms) ->
  (forall b, In b ms -> w (m_id b) = Some (m_state b)) ->
  map fst ls = map m_id ms /\ exists w', moveMembers c ls w = Some w' /\
    (forall b, In b ms -> exists s, w' (m_id b) = Some s /\ pos s = pos (m_state b) /\ ori s = ori (m_state b) /\ mass s = mass (m_state b) /\ inertia s = inertia (m_state b)) /\
    (forall j, ~ In j (map m_id ms) -> w' j = w j).
Proof. exact round_trip. Qed.
Print Assumptions C37_round_trip.
Example C37_round_trip_ex : exists c ls, updateProperties eig_right apart two_balls = Some (c, ls) /\ NoDup (map m_id two_balls).
Proof.
  eexists _, _. split; [reflexivity|]. cbn [map two_balls ball m_id]. constructor; [intros [H|[]]; discriminate|]. constructor; [intros []|constructor].
Qed.

(** C37: the members move as one rigid body: between any two states of the clump the
    distance between members and their relative orientation are the same; their
    velocities are those of points of a rigid body *)
Theorem C37_rigid : forall ms w c1 c2 w1 w2, NoDup (map fst ms) -> unit_ori c1 -> unit_ori c2 -> moveMembers c1 ms w = Some w1 -> moveMembers c2 ms w = Some w2 ->
  forall i j, In i (map fst ms) -> In j (map fst ms) -> exists si sj ti tj, w1 i = Some si /\ w1 j = Some sj /\ w2 i = Some ti /\ w2 j = Some tj /\
    norm (vsub (pos ti) (pos tj)) = norm (vsub (pos si) (pos sj)) /\ qmul (qconj (ori ti)) (ori tj) = qmul (qconj (ori si)) (ori sj) /\
    vsub (vel ti) (vel tj) = cross (angVel c2) (vsub (pos ti) (pos tj)) /\ angVel ti = angVel c2 /\ vsub (vel ti) (vel c2) = cross (angVel c2) (vsub (pos ti) (pos c2)).
Proof. exact rigid. Qed.
Print Assumptions C37_rigid.
Example C37_rigid_ex : NoDup (map fst two_members) /\ unit_ori at_rest /\ unit_ori turned_state /\
  (exists w1, moveMembers at_rest two_members two_bodies = Some w1) /\ (exists w2, moveMembers turned_state two_members two_bodies = Some w2).
Proof.
  split; [cbn [map two_members fst]; constructor; [intros [H|[]]; discriminate|constructor; [intros []|constructor]]|].
  split; [unfold unit_ori, at_rest; cbn [ori]; vgoal; ring|]. split; [unfold unit_ori, turned_state, qz; cbn [ori]; vgoal; field|]. split; eexists; reflexivity.
Qed.

(** C38: the force on the clump is the sum of the forces on the members plus what acted
    on the clump itself, and about every point the moment is the same as that of all
    forces and torques on the members *)
Theorem C38_forces_collected : forall c w F T o ms f0 t0, (forall i, In i (map fst ms) -> w i <> None) ->
  exists f t, addForceTorqueFromMembers c ms w F T f0 t0 = Some (f, t) /\
  f = vadd f0 (vsum (map (fun p => F (fst p)) ms)) /\
  moment o (pos c) f t = vadd (moment o (pos c) f0 t0) (vsum (map (fun p => moment_of w F T o (fst p)) ms)).
Proof.
  intros c w F T o ms f0 t0 H. destruct (collected_some c w F T ms H f0 t0) as (f & t & E). exists f, t. split; [exact E|]. exact (collected c w F T o ms f0 t0 f t E).
Qed.
Print Assumptions C38_forces_collected.
Example C38_forces_collected_ex : (forall i, In i (map fst two_members) -> two_bodies i <> None) /\
  (exists w, moveMembers at_rest two_members two_bodies = Some w /\
   addForceTorqueFromMembers at_rest two_members w (fun i => match i with O => V 1 0 0 | _ => V (-1) 0 0 end) (fun _ => vzero) vzero vzero = Some (vzero, V 0 0 (-4))).
Proof.
  split; [intros i [<-|[<-|[]]]; discriminate|]. eexists. split; [reflexivity|]. cbn. unfold place, at_rest, two_bodies. cbn. f_equal. f_equal; vgoal; f_equal; ring.
Qed.

(** C59: for at least two members that do not overlap, which are spheres, or not turned,
    or have three equal principal moments, and a right-handed eigenvector matrix: mass,
    centre and inertia (in global axes) are those of the rigid assembly of the members *)
Theorem C59_clump_inertia_partial : forall eig ms c ls, (2 <= length ms)%nat -> (forall b, In b ms -> plain_member b) -> total_mass (map part_of ms) <> 0 ->
  decomposes eig (central_inertia (apart ms)) -> right_handed eig (central_inertia (apart ms)) -> updateProperties eig apart ms = Some (c, ls) ->
  mass c = total_mass (map part_of ms) /\ is_centre (map part_of ms) (pos c) /\ turned (ori c) (inertia c) = inertia_about (map part_of ms) (pos c).
Proof. exact clump_properties. Qed.
Print Assumptions C59_clump_inertia_partial.
Example C59_clump_inertia_ex : (2 <= length two_balls)%nat /\ (forall b, In b two_balls -> plain_member b) /\ total_mass (map part_of two_balls) = 2 /\
  decomposes eig_right (central_inertia (apart two_balls)) /\ right_handed eig_right (central_inertia (apart two_balls)).
Proof. split; [repeat constructor|]. split; [exact two_balls_plain|]. split; [exact two_balls_mass|exact eig_right_ok]. Qed.

(** C59: overlapping spheres, all of density 1: mass, centre and inertia are those of the rigid
    assembly of cubes, one for each grid point inside at least one sphere *)
Theorem C59_overlap_partial : forall eig grid dx ms c ls, let l := flat_map (cube dx ms) grid in
  (2 <= length ms)%nat -> (forall b, In b ms -> density b = 1) -> total_mass l <> 0 ->
  decomposes eig (central_inertia (overlapping grid dx ms)) -> right_handed eig (central_inertia (overlapping grid dx ms)) -> updateProperties eig (overlapping grid dx) ms = Some (c, ls) ->
  mass c = total_mass l /\ is_centre l (pos c) /\ turned (ori c) (inertia c) = inertia_about l (pos c).
Proof. exact clump_overlap. Qed.
Print Assumptions C59_overlap_partial.
Example C59_overlap_ex : exists eig, let ms := [lone; lone] in let grid := [vzero] in
  (forall b, In b ms -> density b = 1) /\ total_mass (flat_map (cube 1 ms) grid) = 1 /\
  decomposes eig (central_inertia (overlapping grid 1 ms)) /\ right_handed eig (central_inertia (overlapping grid 1 ms)).
Proof.
  exists (fun A => (mid, V (vx (r0 A)) (vy (r1 A)) (vz (r2 A)))). cbv zeta. split; [intros b [<-|[<-|[]]]; reflexivity|]. split.
  - cbn [flat_map]. unfold cube. cbn [find]. unfold inside at 1. cbn [lone sphere m_state pos]. destruct (Rlt_dec _ _) as [H|H]; [|exfalso; apply H; vgoal; lra].
    cbn [app]. unfold total_mass. cbn [map rsum fold_right p_mass density lone]. ring.
  - rewrite lone_central1. unfold decomposes, right_handed. split; [split; vgoal; f_equal; f_equal; ring|]. cbn [fst]. unfold det. vgoal. ring.
Qed.

(** C59: a clump of one member has the mass, the inertia and the position of this member *)
Theorem C59_single : forall eig sums_of b c ls, updateProperties eig sums_of [b] = Some (c, ls) ->
  mass c = mass (m_state b) /\ pos c = pos (m_state b) /\ ori c = ori (m_state b) /\ inertia c = inertia (m_state b).
Proof. exact clump_single. Qed.
Print Assumptions C59_single.
Example C59_single_ex : exists c ls, updateProperties eig_right apart [lone] = Some (c, ls) /\ mass c = 1.
Proof. eexists _, _. split; reflexivity. Qed.

(** C59 refuted: for turned members that are not spheres the inertia is turned the wrong
    way round *)
Theorem C59_turned_member_refuted : exists eig ms c ls, (2 <= length ms)%nat /\ (forall b, In b ms -> unit_ori (m_state b)) /\ total_mass (map part_of ms) <> 0 /\
  decomposes eig (central_inertia (apart ms)) /\ right_handed eig (central_inertia (apart ms)) /\ updateProperties eig apart ms = Some (c, ls) /\
  is_centre (map part_of ms) (pos c) /\ turned (ori c) (inertia c) <> inertia_about (map part_of ms) (pos c).
Proof.
  exists eig_rods, two_rods. eexists _, _. split; [repeat constructor|]. split; [intros b [<-|[<-|[]]]; unfold unit_ori, rod, qz; cbn [m_state ori]; vgoal; field|].
  split; [rewrite two_rods_parts; unfold total_mass; cbn [map rsum fold_right p_mass]; lra|]. split; [exact (proj1 eig_rods_ok)|]. split; [exact (proj2 eig_rods_ok)|]. split; [reflexivity|].
  pose proof eig_rods_ok as [D Rh]. unfold decomposes in D. unfold right_handed in Rh. rewrite two_rods_parts. unfold clump_state. rewrite apart_sums.
  rewrite apart_sums in D, Rh. cbn [eig_rods fst] in *. destruct D as [D1 D2]. destruct (mat_quat_rotation _ D1 Rh) as [U E]. cbn [pos ori inertia]. unfold turned. rewrite (qnormalize_id _ U), E.
  assert (P : forall x, smul (/ x) (vsum (map (fun b => smul (member_mass b) (pos (m_state b))) two_rods)) = vzero). { intros x. unfold two_rods. cbn [map vsum fold_right]. unfold member_mass, rod. cbn [sphere m_state mass pos]. vgoal. f_equal; ring. }
  rewrite P. split; [unfold is_centre, total_mass; cbn [map rsum vsum fold_right p_mass p_pos]; vgoal; f_equal; ring|]. intros C. unfold inertia_about, turned, qz in C. cbn [map msum fold_right about p_mass p_pos p_inertia] in C. vunfold. injection C; intros. lra.
Qed.
Print Assumptions C59_turned_member_refuted.

(** C59 refuted: with eigenvectors that form a left-handed basis the orientation does
    not belong to the principal moments *)
Theorem C59_left_handed_refuted : exists eig ms c ls, (2 <= length ms)%nat /\ (forall b, In b ms -> sphere b <> None) /\ total_mass (map part_of ms) <> 0 /\
  decomposes eig (central_inertia (apart ms)) /\ updateProperties eig apart ms = Some (c, ls) /\
  is_centre (map part_of ms) (pos c) /\ turned (ori c) (inertia c) <> inertia_about (map part_of ms) (pos c).
Proof.
  exists eig_left, two_balls. eexists _, _. split; [repeat constructor|]. split; [intros b [<-|[<-|[]]]; discriminate|]. split; [rewrite two_balls_mass; lra|]. split; [exact eig_left_ok|]. split; [reflexivity|].
  rewrite two_balls_parts. unfold clump_state. rewrite two_balls_sums. cbn [eig_left pos ori inertia]. rewrite mat_quat_swap, (normalize_real _ half_root2).
  replace (smul (/ 2) vzero) with vzero by (vgoal; f_equal; ring). split; [unfold is_centre, total_mass; cbn [map rsum vsum fold_right p_mass p_pos]; vgoal; f_equal; ring|]. intros C. unfold inertia_about, turned, lam2 in C. cbn [map msum fold_right about p_mass p_pos p_inertia] in C. vunfold. injection C; intros. lra.
Qed.
Print Assumptions C59_left_handed_refuted.

(** C60: multiplying all densities by k multiplies mass and inertia by k and leaves the
    centre where it is, for members that do not overlap *)
Theorem C60_density_scales_partial : forall k ms, k <> 0 -> total_mass (map part_of ms) <> 0 -> (forall b, In b ms -> plain_member b) ->
  forall eig, (forall A, exists ev lam, eig A = (ev, lam) /\ eig (mscale k A) = (ev, smul k lam)) ->
  forall c ls c' ls', (2 <= length ms)%nat -> updateProperties eig apart ms = Some (c, ls) -> updateProperties eig apart (map (denser k) ms) = Some (c', ls') ->
  mass c' = k * mass c /\ pos c' = pos c /\ ori c' = ori c /\ inertia c' = smul k (inertia c) /\ ls' = ls.
Proof. exact density_scales. Qed.
Print Assumptions C60_density_scales_partial.
Example C60_density_scales_ex : 2 <> 0 /\ total_mass (map part_of two_balls) <> 0 /\ (forall b, In b two_balls -> plain_member b) /\
  exists eig, (forall A, exists ev lam, eig A = (ev, lam) /\ eig (mscale 2 A) = (ev, smul 2 lam)) /\ decomposes eig (central_inertia (apart two_balls)).
Proof.
  split; [lra|]. split; [rewrite two_balls_mass; lra|]. split; [exact two_balls_plain|]. exists (fun A => (mid, V (vx (r0 A)) (vy (r1 A)) (vz (r2 A)))).
  split; [intros A; eexists _, _; split; reflexivity|]. rewrite two_balls_central. unfold decomposes. split; vgoal; f_equal; f_equal; ring.
Qed.

(** C60: for overlapping members mass and centre scale in the same way *)
Theorem C60_density_scales_overlap_partial : forall k grid dx ms, k <> 0 -> forall eig c ls c' ls', (2 <= length ms)%nat -> fst (fst (overlapping grid dx ms)) <> 0 ->
  updateProperties eig (overlapping grid dx) ms = Some (c, ls) -> updateProperties eig (overlapping grid dx) (map (denser k) ms) = Some (c', ls') ->
  mass c' = k * mass c /\ pos c' = pos c.
Proof. exact density_scales_overlap. Qed.
Print Assumptions C60_density_scales_overlap_partial.
Example C60_density_scales_overlap_ex : fst (fst (overlapping [vzero] 1 [lone; lone])) <> 0.
Proof. rewrite lone_mass. lra. Qed.

(** C60 refuted: the inertia of overlapping members does not scale *)
Theorem C60_overlap_inertia_refuted : exists k grid dx ms, k <> 0 /\ fst (fst (overlapping grid dx ms)) <> 0 /\
  central_inertia (overlapping grid dx (map (denser k) ms)) <> mscale k (central_inertia (overlapping grid dx ms)).
Proof.
  exists 2, [vzero], 1, [lone; lone]. split; [lra|]. split; [rewrite lone_mass; lra|]. rewrite lone_central by lra. rewrite lone_central1. intros C. vunfold. injection C; intros. lra.
Qed.
Print Assumptions C60_overlap_inertia_refuted.
