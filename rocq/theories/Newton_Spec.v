(** What is expected of the motion integrator. *)
From Coq Require Import Reals List NArith ZArith Bool.
From Verif Require Import Vec_Model Rigid_Model Rigid_Spec Newton_Model.
Import ListNotations.
Local Open Scope R_scope.

(** clumps are consistent (C02): members of a clump exist, once, and say so; who says to
    be a member is one *)
Definition clumps_ok (w : nworld) : Prop :=
  (forall i b, nb w i = Some b -> clumpId b = Some i -> NoDup (map fst (members b)) /\
     forall j, In j (map fst (members b)) -> j <> i /\ exists bj, nb w j = Some bj /\ clumpId bj = Some i) /\
  (forall i b k, nb w i = Some b -> clumpId b = Some k -> k <> i -> exists bk, nb w k = Some bk /\ clumpId bk = Some k /\ In i (map fst (members bk))).

(** the body that is integrated on behalf of body i: its clump, or itself *)
Definition mover (w : nworld) (i : nat) : nat :=
  match nb w i with Some b => match clumpId b with Some k => k | None => i end | None => i end.
(** the process in charge of a body *)
Definition owner (w : nworld) (i : nat) : option nat :=
  match nb w i with
  | None => None
  | Some _ => match nb w (mover w i) with Some b => if isSubdomain b then None else Some (subdomain b) | None => None end
  end.

(** force and torque on a body, including those on its members if it is a clump *)
Definition load (w : nworld) (i : nat) (b : nbody) : vec * vec :=
  let arm j := match nb w j with Some bj => vsub (pos (rs (st bj))) (pos (rs (st b))) | None => vzero end in
  let l := if isClump i b then map fst (members b) else [] in
  (vadd (force w i) (vsum (map (force w) l)), vadd (torque w i) (vsum (map (fun j => vadd (torque w j) (cross (arm j) (force w j))) l))).
(** the state of a body that is integrated *)
Definition moved (c : conf) (w : nworld) (i : nat) (b : nbody) : nstate := let (f, m) := load w i b in advance c i b f m.
Definition local_of (b : nbody) (i : nat) : option se3 := match find (fun p => Nat.eqb (fst p) i) (members b) with Some p => Some (snd p) | None => None end.
(** a body after the step, if its process is in charge: integrated, or placed by its clump *)
Definition moved_body (c : conf) (w : nworld) (i : nat) : option nbody :=
  match nb w i with
  | None => None
  | Some b =>
    if Nat.eqb (mover w i) i then Some (with_st b (moved c w i b))
    else match nb w (mover w i) with
         | Some k => match local_of k i with
                     | Some l => Some (with_st b (with_rs (st b) (place (rs (moved c w (mover w i) k)) (rs (st b)) l)))
                     | None => None end
         | None => None end
  end.

(** components *)
Definition comp (a : N) (v : vec) : R := match a with 0%N => vx v | 1%N => vy v | _ => vz v end.
(** translation along (rotation about) axis a is blocked *)
Definition blocked_trans (b : nbody) (a : N) : Prop := N.testbit (blockedDOFs (st b)) a = true.
Definition blocked_rot (b : nbody) (a : N) : Prop := N.testbit (blockedDOFs (st b)) (a + 3) = true.

(** any number of steps: each with its own parameters, order of bodies and forces *)
Record one_step := mkStep { s_conf : conf; s_ids : list nat; s_force : nat -> vec; s_torque : nat -> vec }.
Fixpoint steps (l : list one_step) (w : nworld) : option nworld :=
  match l with
  | [] => Some w
  | s :: l' => match action (s_conf s) (s_ids s) (mkW (nb w) (s_force s) (s_torque s)) with Some w' => steps l' w' | None => None end
  end.
Definition unit_world (w : nworld) : Prop :=
  forall i b, nb w i = Some b -> unit_ori (rs (st b)) /\ forall p, In p (members b) -> qnorm2 (s_ori (snd p)) = 1.

(** kinetic energy of a body: inertia in global axes *)
Definition kinetic (b : nbody) : R :=
  let r := rs (st b) in 1/2 * mass r * norm2 (vel r) + 1/2 * dot (angVel r) (mulv (turned (ori r) (inertia r)) (angVel r)).
(** the flag aspherical is set if it has to be *)
Definition flag_right (b : nbody) : Prop :=
  aspherical b = true \/ ori (rs (st b)) = qid \/ (unit_ori (rs (st b)) /\ exists k, inertia (rs (st b)) = V k k k).
(** bodies that are not parts of other ones *)
Definition whole (p : nat * nbody) : bool := negb (isClumpMember (fst p) (snd p)).
(** momentum and angular momentum about a point: of the bodies that are not parts of
    other ones *)
Definition total_momentum (l : list (nat * nbody)) : vec := vsum (map (fun p => let r := rs (st (snd p)) in smul (mass r) (vel r)) (filter whole l)).
Definition total_angular_momentum (o : vec) (l : list (nat * nbody)) : vec :=
  vsum (map (fun p => let r := rs (st (snd p)) in vadd (cross (vsub (pos r) o) (smul (mass r) (vel r))) (mulv (turned (ori r) (inertia r)) (angVel r))) (filter whole l)).
Definition total_kinetic (l : list (nat * nbody)) : R :=
  rsum (map (fun p => kinetic (snd p)) (filter (fun p => whole p && negb (blockedDOFs (st (snd p)) =? 63)%N) l)).
(** the same body without numerical damping *)
Definition undamped (b : nbody) : nbody := with_st b (let s := st b in mkS (rs s) (angMom s) (blockedDOFs s) false (dscale s)).
(** angular velocity that belongs to the angular momentum L, in the axes of the body *)
Definition local_angVel (b : nbody) (L : vec) : vec := vquot (mulv (transpose (qmat (ori (rs (st b))))) L) (inertia (rs (st b))).
(** velocity a body in a periodic scene gets from the motion of the cell *)
Definition mean_field (c : conf) (i : nat) (b : nbody) : vec :=
  let r := rs (st b) in
  vadd (if isPeriodic c && (1 <? homoDeform c)%Z then smul (dt c) (mulv (prevVelGrad c) (vel r)) else vzero)
       (if isPeriodic c && negb (homoDeform c =? 0)%Z then mulv (dVelGrad c) (if moveRotUsed c then vadd (pos r) (move c i) else pos r) else vzero).
