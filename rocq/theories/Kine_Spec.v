(** What is expected of engines that impose velocities. *)
From Coq Require Import Reals List NArith ZArith Bool.
From Verif Require Import Vec_Model Rigid_Model Rigid_Spec Newton_Model Newton_Spec Interp_Model Kine_Model.
Import ListNotations.
Local Open Scope R_scope.

(** the body with these velocities *)
Definition with_velocities (b : nbody) (v w : vec) : nbody := with_st b (with_rs (st b) (set_angVel (set_vel (rs (st b)) v) w)).
Definition state_of (b : nbody) : rstate := rs (st b).

(** a step in which the integrator treats each body once; no periodic cell, no imposed displacements *)
Definition plain (w : nworld) (p : one_step) : Prop :=
  NoDup (s_ids p) /\ (forall i b, nb w i = Some b -> In i (s_ids p)) /\ dt (s_conf p) <> 0 /\ isPeriodic (s_conf p) = false /\ moveRotUsed (s_conf p) = false.
Definition plain_all (w : nworld) (l : list one_step) : Prop := forall p, In p l -> plain w p.
(** a body moved only by imposed velocities (dynamic=False), not part of a clump, that the integrators of these
    steps take into account *)
Definition prescribed (l : list one_step) (w : nworld) (i : nat) (b : nbody) : Prop :=
  nb w i = Some b /\ blockedDOFs (st b) = 63%N /\ mover w i = i /\ isSubdomain b = false /\ qnorm2 (ori (state_of b)) = 1 /\
  forall p, In p l -> process (s_conf p) = subdomain b /\ masked_in (s_conf p) b = true.
(** time that passes *)
Definition duration (l : list one_step) : R := rsum (map (fun p => dt (s_conf p)) l).

(** [r'] is [r] turned by [angle] about the axis through [z] along [a], and shifted by [d] along the axis *)
Definition screwed (z a : vec) (angle d : R) (r r' : rstate) : Prop :=
  pos r' = vadd (vadd z (qrot (angle_axis angle a) (vsub (pos r) z))) (smul d a) /\
  ori r' = qmul (angle_axis angle a) (ori r) /\ mass r' = mass r /\ inertia r' = inertia r.
(** turned about its own centre *)
Definition spun (a : vec) (angle : R) (r r' : rstate) : Prop :=
  pos r' = pos r /\ ori r' = qmul (angle_axis angle a) (ori r) /\ mass r' = mass r /\ inertia r' = inertia r.
(** shifted *)
Definition shifted (d : vec) (r r' : rstate) : Prop := pos r' = vadd (pos r) d /\ ori r' = ori r /\ mass r' = mass r /\ inertia r' = inertia r.

(** one harmonic component: n steps of length h from time t on *)
Definition oscillation (A f fi h t : R) (n : nat) : R :=
  let w := 2 * PI * f in
  (w * h / 2) / sin (w * h / 2) * A * (cos (w * (t + INR n * h - h / 2) + fi) - cos (w * (t - h / 2) + fi)).
(** total force on bodies *)
Definition total_force (ids : list nat) (w : nworld) : vec := vsum (map (force w) ids).
(** the velocities an engine gives to body [i] when it runs alone *)
Definition imposed (ids : list nat) (m : moment) (w : nworld) (i : nat) (e : kin) : vec * vec :=
  match kin_action ids e m w with
  | Done (_, w') => match nb w' i with Some b => (vel (state_of b), angVel (state_of b)) | None => (vzero, vzero) end
  | _ => (vzero, vzero)
  end.
(** the engines of a combination that are not dead *)
Definition live (es : list (bool * kin)) : list kin := map snd (filter (fun x => negb (fst x)) es).
(** the circle of a pedal: its centre *)
Definition pedal_centre (p0 a : vec) (radius fi : R) : vec := vadd p0 (qrot (from_z a) (V (radius * cos fi) (radius * sin fi) 0)).
Definition path_length (l : list one_step) : R := rsum (map (fun p => Rabs (dt (s_conf p))) l).
