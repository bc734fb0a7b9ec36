(** Model of the motion integrator: pkg/dem/NewtonIntegrator.cpp.

    Simplifications
    - real numbers without rounding (see Vec_Model.v); a division by zero is some number;
    - forces, imposed displacements and rotations are functions of the id, as given by
      ForceContainer after sync (see Force_Model.v for the container);
    - the bodies of one step are treated one after another in an arbitrary order (the
      loop over bodies is an OpenMP loop);
    - not here: the maximum velocity for the collider (see Stride_Model.v), callbacks
      and warnings. *)
From Coq Require Import Reals List NArith ZArith Bool.
From Verif Require Import Vec_Model Rigid_Model Attr_Model.
Import ListNotations.
Local Open Scope R_scope.

(** State, in addition to the attributes in rstate *)
Record nstate := mkS { rs : rstate; angMom : vec; blockedDOFs : N; isDamped : bool; dscale : R }.
(** Body; [members] are those of the shape, if this is a Clump *)
Record nbody := mkB { st : nstate; aspherical : bool; groupMask : N; clumpId : option nat; members : list (nat * se3); subdomain : nat; isSubdomain : bool }.
Definition with_rs (s : nstate) (r : rstate) : nstate := mkS r (angMom s) (blockedDOFs s) (isDamped s) (dscale s).
Definition with_st (b : nbody) (s : nstate) : nbody := mkB s (aspherical b) (groupMask b) (clumpId b) (members b) (subdomain b) (isSubdomain b).
(** Body.hpp:42,44 *)
Definition isClump (i : nat) (b : nbody) : bool := match clumpId b with Some c => Nat.eqb i c | None => false end.
Definition isClumpMember (i : nat) (b : nbody) : bool := match clumpId b with Some c => negb (Nat.eqb i c) | None => false end.

(** what the step depends on: the attributes of the integrator, of the scene and of the
    cell at the beginning of the loop over bodies, and imposed displacements *)
Record conf := mkC {
  dt : R; damping : R; gravity : vec; mask : Z; densityScaling : bool; exactAsphericalRot : bool;
  isPeriodic : bool; homoDeform : Z; velGrad : mat; prevVelGrad : mat;
  moveRotUsed : bool; move : nat -> vec; rot : nat -> vec;
  process : nat (* Scene::subdomain *) }.
(** NewtonIntegrator.cpp:98-100 *)
Definition dVelGrad (c : conf) : mat := msub (velGrad c) (prevVelGrad c).
Definition spin_of (L : mat) : vec :=
  let R' := mscale (1/2) (msub L (transpose L)) in V (- vz (r1 R')) (vz (r0 R')) (- vy (r0 R')).
Definition dSpin (c : conf) : vec := spin_of (dVelGrad c).
(** :222, :231, :237; Body::maskCompatible(int) *)
Definition masked_in (c : conf) (b : nbody) : bool :=
  (mask c <=? 0)%Z || ((0 <? mask c)%Z && negb (N.land (groupMask b) (Z.to_N (mask c)) =? 0)%N).

(** lib/base/Math.hpp:160 *)
Definition Sign (f : R) : R := if Rlt_dec f 0 then -1 else if Rlt_dec 0 f then 1 else 0.
(** :19-21 *)
Definition damp1 (d : R) (f v : R) : R := f * (1 - d * Sign (f * v)).
Definition cundallDamp1st (d : R) (f v : vec) : vec := V (damp1 d (vx f) (vx v)) (damp1 d (vy f) (vy v)) (damp1 d (vz f) (vz v)).
(** :23-25 *)
Definition damp2 (d dt : R) (v a : R) : R := a * (1 - d * Sign (a * (v + 1/2 * dt * a))).
Definition cundallDamp2nd (d dt : R) (v a : vec) : vec := V (damp2 d dt (vx v) (vx a)) (damp2 d dt (vy v) (vy a)) (damp2 d dt (vz v) (vz a)).
Definition bit (blocked : N) (i : N) (rotational : bool) : bool := negb (N.land blocked (axisDOF i rotational) =? 0)%N.
(** :27-32 *)
Definition computeAccel (g force : vec) (m : R) (blocked : N) : vec :=
  if (blocked =? 0)%N then vadd (smul (/ m) force) g
  else V (if bit blocked 0 false then 0 else 0 + (vx force / m + vx g))
         (if bit blocked 1 false then 0 else 0 + (vy force / m + vy g))
         (if bit blocked 2 false then 0 else 0 + (vz force / m + vz g)).
(** :33-38 *)
Definition computeAngAccel (torque inertia : vec) (blocked : N) : vec :=
  if (blocked =? 0)%N then vquot torque inertia
  else V (if bit blocked 0 true then 0 else 0 + vx torque / vx inertia)
         (if bit blocked 1 true then 0 else 0 + vy torque / vy inertia)
         (if bit blocked 2 true then 0 else 0 + vz torque / vz inertia).
(** core/Cell.hpp:95 *)
Definition bodyFluctuationVel (pos vel : vec) (prevVelGrad : mat) : vec := vsub vel (mulv prevVelGrad pos).
Definition fluctVel (c : conf) (s : rstate) : vec := if isPeriodic c then bodyFluctuationVel (pos s) (vel s) (prevVelGrad c) else vel s.

Definition set_pos (r : rstate) (p : vec) : rstate := mkR p (ori r) (vel r) (angVel r) (mass r) (inertia r).
Definition set_ori (r : rstate) (q : quat) : rstate := mkR (pos r) q (vel r) (angVel r) (mass r) (inertia r).
Definition set_vel (r : rstate) (v : vec) : rstate := mkR (pos r) (ori r) v (angVel r) (mass r) (inertia r).
Definition set_angVel (r : rstate) (v : vec) : rstate := mkR (pos r) (ori r) (vel r) v (mass r) (inertia r).

(** :166 *)
Definition useAspherical (c : conf) (b : nbody) : bool :=
  exactAsphericalRot c && aspherical b && (N.land (blockedDOFs (st b)) DOF_RXRYRZ =? DOF_NONE)%N.
Definition scaled_by (c : conf) (s : nstate) (a : vec) : vec := if densityScaling c then smul (dscale s) a else a.
Definition damped (c : conf) (s : nstate) (v a : vec) : vec := if isDamped s then cundallDamp2nd (damping c) (dt c) v a else a.
(** :169-189; the velocities after the step, and the torque for the aspherical integrator *)
Definition accelerate (c : conf) (b : nbody) (f m : vec) : rstate * vec :=
  let s := st b in let r := rs s in
  if (blockedDOFs s =? DOF_ALL)%N then
    ((if isPeriodic c && (1 <? homoDeform c)%Z then set_vel r (vadd (vel r) (mulv (mscale (dt c) (prevVelGrad c)) (vel r))) else r), m)
  else
    let lin := damped c s (fluctVel c r) (scaled_by c s (computeAccel (gravity c) f (mass r) (blockedDOFs s))) in
    let lin := if isPeriodic c && (1 <? homoDeform c)%Z then vadd lin (mulv (prevVelGrad c) (vel r)) else lin in
    let r1 := set_vel r (vadd (vel r) (smul (dt c) lin)) in
    if useAspherical c b then
      let blk i x := if bit (blockedDOFs s) i true then 0 else x in
      let m1 := V (blk 0%N (vx m)) (blk 1%N (vy m)) (blk 2%N (vz m)) in
      (r1, if isDamped s then cundallDamp1st (damping c) m1 (angVel r) else m1)
    else
      (set_angVel r1 (vadd (angVel r) (smul (dt c) (damped c s (angVel r) (scaled_by c s (computeAngAccel m (inertia r) (blockedDOFs s)))))), m).
(** :214-225 *)
Definition leapfrogTranslate (c : conf) (i : nat) (b : nbody) (r : rstate) : rstate :=
  let p := if moveRotUsed c then vadd (pos r) (move c i) else pos r in
  let v := if isPeriodic c && negb (homoDeform c =? 0)%Z then vadd (vel r) (mulv (dVelGrad c) p) else vel r in
  let p1 := if masked_in c b then vadd p (smul (dt c) v) else p in
  mkR p1 (ori r) v (angVel r) (mass r) (inertia r).
Definition vec_eq_dec (a b : vec) : {a = b} + {a <> b}.
Proof. decide equality; apply Req_EM_T. Defined.
(** :236-242, :264-269 *)
Definition impose_rot (c : conf) (i : nat) (q : quat) : quat :=
  if moveRotUsed c then
    if vec_eq_dec (rot c i) vzero then q else qmul (angle_axis (norm (rot c i)) (smul (/ norm (rot c i)) (rot c i))) q
  else q.
(** :227-244 *)
Definition leapfrogSphericalRotate (c : conf) (i : nat) (b : nbody) (r : rstate) : rstate :=
  let w := if isPeriodic c && negb (homoDeform c =? 0)%Z then vadd (angVel r) (dSpin c) else angVel r in
  let q1 := if Req_EM_T (norm2 w) 0 then ori r
            else if masked_in c b then qmul (angle_axis (norm w * dt c) (smul (/ norm w) w)) (ori r) else ori r in
  let q2 := if masked_in c b then impose_rot c i q1 else q1 in
  mkR (pos r) (qnormalize q2) (vel r) w (mass r) (inertia r).
(** :295-302 *)
Definition DotQ (w : vec) (q : quat) : quat :=
  let x := vx (qv q) in let y := vy (qv q) in let z := vz (qv q) in
  Q ((- x * vx w - y * vy w - z * vz w) / 2)
    (V ((qw q * vx w - z * vy w + y * vz w) / 2) ((z * vx w + qw q * vy w - x * vz w) / 2) ((- y * vx w + x * vy w + qw q * vz w) / 2)).
(** :246-271; the second component is angMom *)
Definition leapfrogAsphericalRotate (c : conf) (i : nat) (s : nstate) (r : rstate) (T : vec) : rstate * vec :=
  let A := qmat (qconj (ori r)) in
  let l_n := vadd (angMom s) (smul (dt c / 2) T) in
  let w_n := scaled_by c s (vquot (mulv A l_n) (inertia r)) in
  let Q_half := qadd (ori r) (qscale (dt c / 2) (DotQ w_n (ori r))) in
  let L := vadd (angMom s) (smul (dt c) T) in
  let w_half := scaled_by c s (vquot (mulv A L) (inertia r)) in
  let q1 := qadd (ori r) (qscale (dt c) (DotQ w_half Q_half)) in
  (mkR (pos r) (qnormalize (impose_rot c i q1)) (vel r) (qrot q1 w_half) (mass r) (inertia r), L).
(** :159-194: one body, given the force and torque on it *)
Definition advance (c : conf) (i : nat) (b : nbody) (f m : vec) : nstate :=
  let (r1, m1) := accelerate c b f m in
  let r2 := leapfrogTranslate c i b r1 in
  if useAspherical c b then let (r3, L) := leapfrogAsphericalRotate c i (st b) r2 m1 in mkS r3 L (blockedDOFs (st b)) (isDamped (st b)) (dscale (st b))
  else with_rs (st b) (leapfrogSphericalRotate c i b r2).

(** the bodies by id, and forces and torques on them *)
Record nworld := mkW { nb : nat -> option nbody; force : nat -> vec; torque : nat -> vec }.
Definition states (w : nworld) : bodies := fun i => match nb w i with Some b => Some (rs (st b)) | None => None end.
Definition put (w : nworld) (i : nat) (b : nbody) : nworld := mkW (fun j => if Nat.eqb j i then Some b else nb w j) (force w) (torque w).
Definition add_force (w : nworld) (i : nat) (f m : vec) : nworld :=
  mkW (nb w) (fun j => if Nat.eqb j i then vadd (force w j) f else force w j) (fun j => if Nat.eqb j i then vadd (torque w j) m else torque w j).
(** Clump.hpp:67-82, on bodies *)
Fixpoint move_members (r : rstate) (ms : list (nat * se3)) (w : nworld) : option nworld :=
  match ms with
  | [] => Some w
  | (j, l) :: ms' => match nb w j with Some b => move_members r ms' (put w j (with_st b (with_rs (st b) (place r (rs (st b)) l)))) | None => None end
  end.
(** :128-131 *)
Definition selected (c : conf) (i : nat) (b : nbody) : bool := negb (isClumpMember i b) && Nat.eqb (process c) (subdomain b) && negb (isSubdomain b).
(** one turn of the loop, :127-198; None: null pointer dereferenced *)
Definition one_body (c : conf) (i : nat) (w : nworld) : option nworld :=
  match nb w i with
  | None => Some w
  | Some b =>
    if selected c i b then
      match (if isClump i b then match addForceTorqueFromMembers (rs (st b)) (members b) (states w) (force w) (torque w) vzero vzero with
                                 | Some (f, m) => Some (add_force w i f m)
                                 | None => None end
             else Some w) with
      | None => None
      | Some w1 =>
        let b1 := with_st b (advance c i b (force w1 i) (torque w1 i)) in
        let w2 := put w1 i b1 in
        if isClump i b then move_members (rs (st b1)) (members b) w2 else Some w2
      end
    else Some w
  end.
(** :126-207; [ids]: the order in which the threads treat the ids *)
Fixpoint action (c : conf) (ids : list nat) (w : nworld) : option nworld :=
  match ids with
  | [] => Some w
  | i :: l => match one_body c i w with Some w' => action c l w' | None => None end
  end.

(** ** energies *)
(** :49-57: the contribution of one body to O.energy['kinetic'] *)
Definition tracked_kinetic (c : conf) (b : nbody) : R :=
  let r := rs (st b) in
  1/2 * mass r * norm2 (fluctVel c r) +
  (if aspherical b then let T := qmat (ori r) in 1/2 * dot (angVel r) (mulv (mmul (mmul (transpose T) (diag (inertia r))) T) (angVel r))
   else 1/2 * dot (angVel r) (vprod (inertia r) (angVel r))).
(** pkg/dem/Shop_01.cpp:157-183, not periodic: one body *)
Definition shop_kinetic_body (b : nbody) : R :=
  let r := rs (st b) in
  1/2 * (mass r * norm2 (vel r)) +
  (if aspherical b then let T := qmat (ori r) in 1/2 * dot (angVel r) (mulv (mmul (mmul T (diag (inertia r))) (transpose T)) (angVel r))
   else 1/2 * dot (angVel r) (vprod (inertia r) (angVel r))).
(** the iteration over bodies skips erased ones *)
Definition existing (ids : list nat) (w : nworld) : list (nat * nbody) :=
  flat_map (fun i => match nb w i with Some b => [(i, b)] | None => [] end) ids.
(** Shop_01.cpp:151-186; Body::isDynamic is Body.hpp:51 *)
Definition shop_kinetic (ids : list nat) (w : nworld) : R :=
  fold_left (fun ret p => let '(i, b) := p in if negb (isDynamic (blockedDOFs (st b))) || isClumpMember i b then ret else ret + shop_kinetic_body b) (existing ids w) 0.
(** Shop_01.cpp:188-195 *)
Definition shop_momentum (ids : list nat) (w : nworld) : vec :=
  fold_left (fun ret p => vadd ret (smul (mass (rs (st (snd p)))) (vel (rs (st (snd p)))))) (existing ids w) vzero.
(** Shop_01.cpp:197-206 *)
Definition shop_angularMomentum (origin : vec) (ids : list nat) (w : nworld) : vec :=
  fold_left (fun ret p => let s := st (snd p) in let r := rs s in vadd (vadd ret (cross (vsub (pos r) origin) (smul (mass r) (vel r)))) (angMom s)) (existing ids w) vzero.
