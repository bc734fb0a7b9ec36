(** Properties C240-C245: the flat grid collider *)
From Coq Require Import Reals List ZArith Lra Lia.
From Verif Require Import Vec_Model Flat_Model Flat_Spec Flat_Proofs Flat_Proofs2 Flat_Proofs3 Flat_Proofs4.
Import ListNotations.
Local Open Scope R_scope.

(** C240. If the lower corner of the grid is on the diagonal, then any two spheres that meet when enlarged, and may collide, have an interaction once the collider has run, also outside the grid. *)
Theorem C240_complete_partial newton mn0 mx step verlet may iter bodies l l' a b ra Ca rb Cb :
  action newton mn0 mx step verlet may iter bodies l = Ok l' -> diagonal mn0 -> a <> b -> allowed may a b ->
  sphere_at bodies a ra Ca -> sphere_at bodies b rb Cb -> 0 <= ra + verlet -> 0 <= rb + verlet -> meet (ra + verlet) Ca (rb + verlet) Cb -> known l' a b.
Proof. exact (action_complete newton mn0 mx step verlet may iter bodies l l' a b ra Ca rb Cb). Qed.
Print Assumptions C240_complete_partial.
Example C240_complete_case : (exists l', action true (V 0 0 0) (V 10 10 10) 10 0 everyone 7 (two_in (V 4 5 5) (V 6 5 5) (3/2)) [] = Ok l') /\ diagonal (V 0 0 0) /\ allowed everyone 0 1 /\ sphere_at (two_in (V 4 5 5) (V 6 5 5) (3/2)) 0 (3/2) (V 4 5 5) /\ sphere_at (two_in (V 4 5 5) (V 6 5 5) (3/2)) 1 (3/2) (V 6 5 5) /\ meet (3/2 + 0) (V 4 5 5) (3/2 + 0) (V 6 5 5).
Proof. split; [apply action_defined; try apply spherical2; try reflexivity; cbn [vx vy vz]; lra|]. split; [split; reflexivity|]. split; [apply all_allowed|]. split; [apply ball_0|]. split; [apply ball_1|]. split; unfold norm2, dot, vsub; cbn [vx vy vz]; lra. Qed.
(** C240 is refuted for other grids: the lower bound along y is taken for all axes, and overlapping spheres are not found. *)
Theorem C240_missed_refuted : exists l', action true (V 0 10 0) (V 20 11 1) 1 0 everyone 7 (two_in (V (59/4) (21/2) (1/2)) (V (61/4) (21/2) (1/2)) (3/10)) [] = Ok l' /\ meet (3/10) (V (59/4) (21/2) (1/2)) (3/10) (V (61/4) (21/2) (1/2)) /\ ~ known l' 0 1.
Proof. exact (missed_refuted). Qed.
Print Assumptions C240_missed_refuted.

(** C241. The interaction of spheres that meet survives the step, if it was there before, *)
Theorem C241_known_partial newton mn0 mx step verlet may iter bodies l l' a b ra Ca rb Cb :
  action newton mn0 mx step verlet may iter bodies l = Ok l' -> diagonal mn0 -> a <> b -> known l a b ->
  sphere_at bodies a ra Ca -> sphere_at bodies b rb Cb -> 0 <= ra + verlet -> 0 <= rb + verlet -> meet (ra + verlet) Ca (rb + verlet) Cb -> known (swept iter l') a b.
Proof. exact (known_kept newton mn0 mx step verlet may iter bodies l l' a b ra Ca rb Cb). Qed.
Print Assumptions C241_known_partial.
Example C241_known_case : ((exists l', action true (V 0 0 0) (V 10 10 10) 10 0 everyone 7 (two_in (V 4 5 5) (V 6 5 5) (3/2)) [] = Ok l') /\ diagonal (V 0 0 0) /\ allowed everyone 0 1 /\ sphere_at (two_in (V 4 5 5) (V 6 5 5) (3/2)) 0 (3/2) (V 4 5 5) /\ sphere_at (two_in (V 4 5 5) (V 6 5 5) (3/2)) 1 (3/2) (V 6 5 5) /\ meet (3/2 + 0) (V 4 5 5) (3/2 + 0) (V 6 5 5)) /\ known [mkI 0 1 3 false] 0 1.
Proof. split; [|exists (mkI 0 1 3 false); split; [left; reflexivity|left; split; reflexivity]]. split; [apply action_defined; try apply spherical2; try reflexivity; cbn [vx vy vz]; lra|]. split; [split; reflexivity|]. split; [apply all_allowed|]. split; [apply ball_0|]. split; [apply ball_1|]. split; unfold norm2, dot, vsub; cbn [vx vy vz]; lra. Qed.
(** or if they have common points in two cells of the grid. *)
Theorem C241_cells_partial newton mn0 mx step verlet may iter bodies l l' a b ra Ca rb Cb p q c c' :
  action newton mn0 mx step verlet may iter bodies l = Ok l' -> diagonal mn0 -> (0 <= iter)%Z -> a <> b -> allowed may a b ->
  sphere_at bodies a ra Ca -> sphere_at bodies b rb Cb -> 0 <= ra + verlet -> 0 <= rb + verlet ->
  in_ball (ra + verlet) Ca p -> in_ball (rb + verlet) Cb p -> in_ball (ra + verlet) Ca q -> in_ball (rb + verlet) Cb q ->
  inside mn0 step (ceilR ((vx mx - vx mn0) / step)) (ceilR ((vy mx - vy mn0) / step)) (ceilR ((vz mx - vz mn0) / step)) p c ->
  inside mn0 step (ceilR ((vx mx - vx mn0) / step)) (ceilR ((vy mx - vy mn0) / step)) (ceilR ((vz mx - vz mn0) / step)) q c' -> c <> c' ->
  known (swept iter l') a b.
Proof. exact (two_cells_survive newton mn0 mx step verlet may iter bodies l l' a b ra Ca rb Cb p q c c'). Qed.
Print Assumptions C241_cells_partial.
Example C241_cells_case : (let c x := inside (V 0 0 0) 5 (ceilR ((10 - 0) / 5)) (ceilR ((10 - 0) / 5)) (ceilR ((10 - 0) / 5)) (V 5 x 5) in c 4 (1, 0, 1)%Z /\ c 5 (1, 1, 1)%Z) /\ in_ball (3/2) (V 4 5 5) (V 5 4 5) /\ in_ball (3/2) (V 6 5 5) (V 5 4 5) /\ in_ball (3/2) (V 4 5 5) (V 5 5 5) /\ in_ball (3/2) (V 6 5 5) (V 5 5 5).
Proof. cbv zeta. rewrite (ceil_val ((10 - 0) / 5) 2) by lra. unfold inside, cell_of, in_ball, norm2, dot, vsub. cbn [vx vy vz]. repeat split; try lra; try lia. Qed.
(** C241 is false whenever one of the spheres is inside a cell: a new interaction is erased in the step in which it was made, *)
Theorem C241_erased_partial newton mn0 mx step verlet may iter bodies l l' a b ra Ca rb Cb c :
  action newton mn0 mx step verlet may iter bodies l = Ok l' -> diagonal mn0 -> (0 <= iter)%Z -> a <> b -> allowed may a b -> ~ known l a b ->
  sphere_at bodies a ra Ca -> sphere_at bodies b rb Cb ->
  (let at_ p := inside mn0 step (ceilR ((vx mx - vx mn0) / step)) (ceilR ((vy mx - vy mn0) / step)) (ceilR ((vz mx - vz mn0) / step)) p c in
   at_ (vsub Ca (V (ra + verlet) (ra + verlet) (ra + verlet))) /\ at_ (vadd Ca (V (ra + verlet) (ra + verlet) (ra + verlet)))) -> ~ known (swept iter l') a b.
Proof. exact (one_cell_erased newton mn0 mx step verlet may iter bodies l l' a b ra Ca rb Cb c). Qed.
Print Assumptions C241_erased_partial.

(** for example here. *)
Theorem C241_erased_refuted : exists l', action true (V 0 0 0) (V 10 10 10) 10 0 everyone 7 (two_in (V 4 5 5) (V 6 5 5) (3/2)) [] = Ok l' /\ meet (3/2) (V 4 5 5) (3/2) (V 6 5 5) /\ known l' 0 1 /\ ~ known (swept 7 l') 0 1.
Proof. exact (erased_refuted). Qed.
Print Assumptions C241_erased_refuted.

(** C242. The grid is never accessed out of bounds, whatever the positions of bodies; there is an error exactly if there is no integrator, the step or the volume is not positive, or a shape is not a sphere. *)
Theorem C242_errors newton mn0 mx step verlet may iter bodies l :
  action newton mn0 mx step verlet may iter bodies l <> OutOfBounds /\
  (action newton mn0 mx step verlet may iter bodies l = Throws <-> newton = false \/ step <= 0 \/ vx mx <= vx mn0 \/ vy mx <= vy mn0 \/ vz mx <= vz mn0 \/ ~ spherical bodies).
Proof. exact (action_errors newton mn0 mx step verlet may iter bodies l). Qed.
Print Assumptions C242_errors.
Example C242_errors_case : spherical (two_in (V 4 5 5) (V 6 5 5) (3/2)) /\ ~ spherical [Some (mkF (Some FOther) (V 0 0 0))].
Proof. split; [apply spherical2|]. intros H. inversion H as [|? ? H1 _]. apply H1. reflexivity. Qed.
(** C243. Between two runs of the collider, as long as it says that there is no need to run, spheres that touch have an interaction since the last run, if they move by no more than the largest velocity times the time step, which is not shortened before the collider is asked. *)
Theorem C243_quiet_partial newton mn0 mx step verlet may iter bodies l l' a b ra pa rb pb h qa qb :
  action newton mn0 mx step verlet may iter bodies l = Ok l' -> diagonal mn0 -> a <> b -> allowed may a b -> sphere_at bodies a ra pa -> sphere_at bodies b rb pb -> 0 <= ra -> 0 <= rb -> 0 <= verlet ->
  quiet verlet 0 h -> not_shortened h -> moves pa h qa -> moves pb h qb -> meet ra qa rb qb -> known l' a b.
Proof. exact (quiet_complete newton mn0 mx step verlet may iter bodies l l' a b ra pa rb pb h qa qb). Qed.
Print Assumptions C243_quiet_partial.
Example C243_quiet_case : quiet 1 0 [(1, 1/2, 1/2); (1, 1/2, 1/2)] /\ not_shortened [(1, 1/2, 1/2); (1, 1/2, 1/2)] /\ moves (V 0 0 0) [(1, 1/2, 1/2); (1, 1/2, 1/2)] (V 1 0 0).
Proof. split; [|split].
 - cbn [quiet]. unfold isActivated. cbv zeta. cbn [fst snd]. rewrite sqrt_1. destruct (Rlt_dec 1 (0 + 1 * (1/2))); [exfalso; lra|]. destruct (Rlt_dec 1 _); [exfalso; lra|]. repeat split.
 - repeat (apply Forall_cons; [lra|]). apply Forall_nil.
 - cbn [moves]. rewrite sqrt_1. exists (V (1/2) 0 0). split; [apply norm_le_of; [lra|]; unfold norm2, dot, vsub; cbn [vx vy vz]; lra|]. exists (V 1 0 0). split; [apply norm_le_of; [lra|]; unfold norm2, dot, vsub; cbn [vx vy vz]; lra|reflexivity]. Qed.
(** C243 is refuted if the time step is made shorter after bodies have moved. *)
Theorem C243_shortened_refuted : exists l' h, action true (V 0 0 0) (V 40 40 40) 1 1 everyone 7 (two_in (V 5 5 5) (V 25 5 5) (1/2)) [] = Ok l' /\ quiet 1 0 h /\ moves (V 5 5 5) h (V (29/2) 5 5) /\ moves (V 25 5 5) h (V (31/2) 5 5) /\ meet (1/2) (V (29/2) 5 5) (1/2) (V (31/2) 5 5) /\ ~ known l' 0 1.
Proof. exact (shortened_refuted). Qed.
Print Assumptions C243_shortened_refuted.

(** C244. No interaction is lost or doubled, nothing is changed of those that exist except when they were last seen, and new ones are of pairs that may collide and had none. *)
Theorem C244_list newton mn0 mx step verlet may iter bodies l l' : action newton mn0 mx step verlet may iter bodies l = Ok l' ->
  (once l -> once l') /\
  (forall i, In i l -> exists s, In (mkI (i1 i) (i2 i) s (real i)) l' /\ (s = lastSeen i \/ s = iter)) /\
  (forall i, In i l' -> (exists s, In (mkI (i1 i) (i2 i) s (real i)) l /\ (lastSeen i = s \/ lastSeen i = iter)) \/
     (real i = false /\ may (i1 i) (i2 i) = true /\ ~ known l (i1 i) (i2 i) /\ i1 i <> i2 i /\ (lastSeen i = (-1)%Z \/ lastSeen i = iter))).
Proof. exact (action_list newton mn0 mx step verlet may iter bodies l l'). Qed.
Print Assumptions C244_list.
Example C244_list_case : once [mkI 0 1 3 true; mkI 2 1 4 false].
Proof. split; [repeat (apply Forall_cons; [discriminate|]); apply Forall_nil|]. intros a b. destruct a as [|[|[|a]]], b as [|[|[|b]]]; cbn; lia. Qed.
(** C245. An interaction that is new, or newly seen, is of two spheres; if they are inside the grid, with its corner on the diagonal, their enlarged surfaces are not farther apart than the diagonal of a cell. *)
Theorem C245_near_partial newton mn0 mx step verlet may iter bodies l l' i : action newton mn0 mx step verlet may iter bodies l = Ok l' -> once l -> In i l' -> ~ In i l ->
  exists ra Ca rb Cb, sphere_at bodies (i1 i) ra Ca /\ sphere_at bodies (i2 i) rb Cb /\
   (diagonal mn0 -> 0 <= ra + verlet -> 0 <= rb + verlet -> ball_in_box (ra + verlet) Ca mn0 mx -> ball_in_box (rb + verlet) Cb mn0 mx -> norm (vsub Ca Cb) <= ra + rb + 2 * verlet + sqrt 3 * step).
Proof. exact (action_near newton mn0 mx step verlet may iter bodies l l' i). Qed.
Print Assumptions C245_near_partial.
Example C245_near_case : ball_in_box (3/2 + 0) (V 4 5 5) (V 0 0 0) (V 10 10 10) /\ once [].
Proof. split; [unfold ball_in_box; cbn [vx vy vz]; lra|]. split; [apply Forall_nil|]. intros a b. cbn [filter length]. lia. Qed.
(** C245 is refuted for other grids, also for spheres inside: those are eight cells from each other. *)
Theorem C245_far_refuted : exists l', action true (V 0 10 0) (V 10 20 10) 1 0 everyone 7 (two_in (V 1 15 5) (V 9 15 5) (1/2)) [] = Ok l' /\
  ball_in_box (1/2 + 0) (V 1 15 5) (V 0 10 0) (V 10 20 10) /\ ball_in_box (1/2 + 0) (V 9 15 5) (V 0 10 0) (V 10 20 10) /\ known l' 0 1.
Proof. exact (far_refuted). Qed.
Print Assumptions C245_far_refuted.

