(** Vocabulary of the properties of the automatic time step: small motions of bodies in elastic contact. *)
From Coq Require Import List ZArith Bool Arith Reals.
From Verif Require Import Vec_Model Tstep_Model.
Import ListNotations.
Local Open Scope R_scope.

(** ** small displacements and rotations (or velocities) of all bodies *)
Record field := mkF { tr : nat -> vec; ro : nat -> vec }.
(** relative displacement of the bodies at a contact; the normal points from the first to the second one *)
Definition slip (c : contact) (f : field) : vec :=
  vsub (vsub (tr f (c2 c)) (tr f (c1 c))) (vadd (smul (rad2 c) (cross (ro f (c2 c)) (nrm c))) (smul (rad1 c) (cross (ro f (c1 c)) (nrm c)))).
Definition turn (c : contact) (f : field) : vec := vsub (ro f (c2 c)) (ro f (c1 c)).
(** elastic law: parallel and perpendicular to the normal *)
Definition linear (n : vec) (k t : R) (d : vec) : vec := vadd (smul (k * dot d n) n) (smul t (vsub d (smul (dot d n) n))).
Definition force (c : contact) (f : field) : vec := linear (nrm c) (kn c) (ks c) (slip c f).
Definition moment (c : contact) (f : field) : vec := linear (nrm c) (ktw c) (kroll c) (turn c f).
(** force and torque on body [i] *)
Definition vsum (l : list vec) : vec := fold_right vadd vzero l.
Definition force_on (cs : list contact) (f : field) (i : nat) : vec :=
  vsum (map (fun c => vadd (when (c1 c =? i)%nat (force c f)) (when (c2 c =? i)%nat (vopp (force c f)))) cs).
Definition torque_on (cs : list contact) (f : field) (i : nat) : vec :=
  vsum (map (fun c => vadd (when (c1 c =? i)%nat (vadd (smul (rad1 c) (cross (nrm c) (force c f))) (moment c f)))
                           (when (c2 c =? i)%nat (vsub (smul (rad2 c) (cross (nrm c) (force c f))) (moment c f)))) cs).

(** ** one step of NewtonIntegrator without damping: velocities first. Bodies which are not dynamic do not move.
    With density scaling accelerations are multiplied by [scaling]. *)
Definition free_body (bs : list (option body)) (i : nat) : option body :=
  match nth_error bs i with Some (Some b) => if dynamic b then Some b else None | _ => None end.
Definition factor (ds : bool) (b : body) : R := if ds then scaling b else 1.
Definition accel (ds : bool) (bs : list (option body)) (f : nat -> vec) (i : nat) : vec :=
  match free_body bs i with Some b => smul (factor ds b / mass b) (f i) | None => vzero end.
Definition spin (ds : bool) (bs : list (option body)) (t : nat -> vec) (i : nat) : vec :=
  match free_body bs i with Some b => let s := factor ds b in V (s / vx (inertia b) * vx (t i)) (s / vy (inertia b) * vy (t i)) (s / vz (inertia b) * vz (t i)) | None => vzero end.
Definition newton (ds : bool) (dt : R) (bs : list (option body)) (cs : list contact) (xv : field * field) : field * field :=
  let '(x, v) := xv in
  let v' := mkF (fun i => vadd (tr v i) (smul dt (accel ds bs (force_on cs x) i))) (fun i => vadd (ro v i) (smul dt (spin ds bs (torque_on cs x) i))) in
  (mkF (fun i => vadd (tr x i) (smul dt (tr v' i))) (fun i => vadd (ro x i) (smul dt (ro v' i))), v').
Fixpoint steps (ds : bool) (dt : R) (bs : list (option body)) (cs : list contact) (k : nat) (xv : field * field) : field * field :=
  match k with O => xv | S k' => steps ds dt bs cs k' (newton ds dt bs cs xv) end.

(** speed of a body, squared *)
Definition speed2 (v : field) (i : nat) : R := norm2 (tr v i).
Definition spin2 (v : field) (i : nat) : R := norm2 (ro v i).
(** at rest where not dynamic *)
Definition held (bs : list (option body)) (v : field) : Prop := forall i, free_body bs i = None -> tr v i = vzero /\ ro v i = vzero.
(** velocities stay bounded, whatever the initial state *)
Definition stable (ds : bool) (dt : R) (bs : list (option body)) (cs : list contact) : Prop :=
  forall x v, held bs v -> exists C, forall k i, (i < length bs)%nat -> let v' := snd (steps ds dt bs cs k (x, v)) in speed2 v' i <= C /\ spin2 v' i <= C.

(** ** ordinary scenes *)
Definition positive_body (b : body) : Prop := 0 < mass b /\ 0 < vx (inertia b) /\ 0 < vy (inertia b) /\ 0 < vz (inertia b).
Definition solid (b : body) : Prop := match elastic b with Some (r, young) => 0 < r /\ 0 < young | None => True end.
Definition plain (bs : list (option body)) : Prop := forall i b, nth_error bs i = Some (Some b) -> positive_body b /\ solid b /\ member b = false /\ clump b = None.
Definition loaded (n : nat) (c : contact) : Prop :=
  (c1 c < n)%nat /\ (c2 c < n)%nat /\ norm2 (nrm c) = 1 /\ 0 < kn c /\ 0 <= ks c /\ 0 <= ktw c /\ 0 <= kroll c /\ fn2 c <> 0.
Definition frictionless (c : contact) : Prop := ks c = 0 /\ ktw c = 0 /\ kroll c = 0.
(** normal along an axis *)
Definition aligned (c : contact) : Prop := vx (nrm c) * vy (nrm c) = 0 /\ vy (nrm c) * vz (nrm c) = 0 /\ vx (nrm c) * vz (nrm c) = 0.
Definition sane (E : engine) : Prop := 0 < maxDt E /\ 0 < previousDt E /\ 0 < safety E /\ 0 < targetDt E /\ defaultDt E <> 0 /\ viscEl E = false.
(** ** the computation repeated while the scene changes *)
Fixpoint runs (E : engine) (dt : R) (l : list (list (option body) * list contact)) : outcome (engine * R) :=
  match l with [] => Done (E, dt) | (bs, cs) :: l' => bind (computeTimeStep E dt bs cs) (fun r => runs (fst (fst r)) (snd (fst r)) l') end.
Definition ordinary (s : list (option body) * list contact) : Prop := plain (fst s) /\ forall c, In c (snd s) -> loaded (length (fst s)) c.
(** what density scaling needs of bodies without contact: to be elastic spheres, or to lack material or shape *)
Definition spheres (bs : list (option body)) : Prop := forall i b, nth_error bs i = Some (Some b) -> complete b = true -> elastic b <> None.
(** every dynamic body is in contact *)
Definition touched (bs : list (option body)) (cs : list contact) : Prop :=
  forall i b, nth_error bs i = Some (Some b) -> dynamic b = true -> exists c, In c cs /\ (c1 c = i \/ c2 c = i).
