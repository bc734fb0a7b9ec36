(** Model of clumps as rigid bodies: core/Clump.cpp and core/Clump.hpp.

    Simplifications
    - real numbers without rounding (see Vec_Model.v);
    - the solver for eigenvectors of a symmetric matrix (Eigen::SelfAdjointEigenSolver,
      Clump.cpp:218) is a parameter [eig], giving the matrix of eigenvectors (columns)
      and the eigenvalues;
    - the grid points of the numerical integration over intersecting members
      (Clump.cpp:147-167) are a parameter, as they depend on geometry only. *)
From Coq Require Import Reals List.
From Verif Require Import Vec_Model.
Import ListNotations.
Local Open Scope R_scope.

(** the attributes of State used here *)
Record rstate := mkR { pos : vec; ori : quat; vel : vec; angVel : vec; mass : R; inertia : vec }.
(** Se3r *)
Record se3 := mkSe3 { s_pos : vec; s_ori : quat }.
(** Bodies by id *)
Definition bodies := nat -> option rstate.
Definition update (w : bodies) (i : nat) (s : rstate) : bodies := fun j => if Nat.eqb j i then Some s else w j.

(** Clump.hpp:73-79 for one member *)
Definition place (c s : rstate) (l : se3) : rstate :=
  let p := vadd (pos c) (qrot (ori c) (s_pos l)) in
  mkR p (qmul (ori c) (s_ori l)) (vadd (vel c) (cross (angVel c) (vsub p (pos c)))) (angVel c) (mass s) (inertia s).
(** Clump.hpp:67-82; None: a member does not exist (null pointer) *)
Fixpoint moveMembers (c : rstate) (ms : list (nat * se3)) (w : bodies) : option bodies :=
  match ms with
  | [] => Some w
  | (i, l) :: ms' => match w i with Some s => moveMembers c ms' (update w i (place c s l)) | None => None end
  end.

(** Clump.cpp:55-66; [F], [T]: forces and torques by id *)
Fixpoint addForceTorqueFromMembers (c : rstate) (ms : list (nat * se3)) (w : bodies) (F T : nat -> vec) (f t : vec) : option (vec * vec) :=
  match ms with
  | [] => Some (f, t)
  | (i, _) :: ms' => match w i with
    | Some s => addForceTorqueFromMembers c ms' w F T (vadd f (F i)) (vadd t (vadd (T i) (cross (vsub (pos s) (pos c)) (F i))))
    | None => None
    end
  end.

(** Clump.cpp:471-473 *)
Definition inertiaTensorTranslate (I : mat) (m : R) (off : vec) : mat :=
  madd I (mscale m (msub (mscale (dot off off) mid) (outer off off))).
(** Clump.cpp:481-495 *)
Definition inertiaTensorRotate (I T : mat) : mat := mmul (mmul (transpose T) I) T.
Definition inertiaTensorRotateQ (I : mat) (rot : quat) : mat := inertiaTensorRotate I (qmat rot).

(** a member seen by updateProperties: [sphere] is the radius, for spheres *)
Record member := mkM { m_id : nat; sphere : option R; density : R; m_state : rstate }.
(** Clump.cpp:189-208: mass, and inertia with respect to the origin *)
Definition member_mass (b : member) : R :=
  match sphere b with Some r => density b * (4/3 * PI * r^3) | None => mass (m_state b) end.
Definition member_inertia (b : member) : mat :=
  match sphere b with
  | Some r => inertiaTensorTranslate (diag (let i := 2/5 * member_mass b * r^2 in V i i i)) (member_mass b) (smul (-1) (pos (m_state b)))
  | None => inertiaTensorTranslate (inertiaTensorRotateQ (diag (inertia (m_state b))) (ori (m_state b))) (member_mass b) (vopp (pos (m_state b)))
  end.
(** M, Sg, Ig *)
Definition sums := (R * vec * mat)%type.
Definition no_sums : sums := (0, vzero, mzero).
Definition add_member (a : sums) (b : member) : sums :=
  let '(m, s, i) := a in (m + member_mass b, vadd s (smul (member_mass b) (pos (m_state b))), madd i (member_inertia b)).
Definition apart (ms : list member) : sums := fold_left add_member ms no_sums.

(** Clump.cpp:165-185: the members are tried in order, the first sphere around the point counts *)
Fixpoint at_point (dv dx : R) (x : vec) (ms : list member) (a : sums) : sums :=
  match ms with
  | [] => a
  | b :: ms' => match sphere b with
    | Some r => if Rlt_dec (norm2 (vsub x (pos (m_state b)))) (r^2)
                then let m := density b * dv in let '(M0, S0, I0) := a in
                     (M0 + m, vadd S0 (smul m x),
                      madd I0 (madd (mscale m (msub (mscale (dot x x) mid) (outer x x))) (diag (let i := dv * dx^2 / 6 in V i i i))))
                else at_point dv dx x ms' a
    | None => at_point dv dx x ms' a
    end
  end.
Definition overlapping (grid : list vec) (dx : R) (ms : list member) : sums :=
  fold_left (fun a x => at_point (dx^3) dx x ms a) grid no_sums.

(** Eigen: Quaternion(Matrix3), trace-based *)
Definition mat_quat (A : mat) : quat :=
  let m00 := vx (r0 A) in let m11 := vy (r1 A) in let m22 := vz (r2 A) in
  let t := m00 + m11 + m22 in
  if Rlt_dec 0 t then
    let s := sqrt (t + 1) in let k := 1/2 / s in
    Q (1/2 * s) (V ((vy (r2 A) - vz (r1 A)) * k) ((vz (r0 A) - vx (r2 A)) * k) ((vx (r1 A) - vy (r0 A)) * k))
  else if Rlt_dec m00 m11 then
    if Rlt_dec m11 m22 then
      let s := sqrt (m22 - m00 - m11 + 1) in let k := 1/2 / s in
      Q ((vx (r1 A) - vy (r0 A)) * k) (V ((vx (r2 A) + vz (r0 A)) * k) ((vy (r2 A) + vz (r1 A)) * k) (1/2 * s))
    else
      let s := sqrt (m11 - m22 - m00 + 1) in let k := 1/2 / s in
      Q ((vz (r0 A) - vx (r2 A)) * k) (V ((vy (r0 A) + vx (r1 A)) * k) (1/2 * s) ((vy (r2 A) + vz (r1 A)) * k))
  else
    if Rlt_dec m00 m22 then
      let s := sqrt (m22 - m00 - m11 + 1) in let k := 1/2 / s in
      Q ((vx (r1 A) - vy (r0 A)) * k) (V ((vx (r2 A) + vz (r0 A)) * k) ((vy (r2 A) + vz (r1 A)) * k) (1/2 * s))
    else
      let s := sqrt (m00 - m11 - m22 + 1) in let k := 1/2 / s in
      Q ((vy (r2 A) - vz (r1 A)) * k) (V (1/2 * s) ((vx (r1 A) + vy (r0 A)) * k) ((vx (r2 A) + vz (r0 A)) * k)).

(** Clump.cpp:217 *)
Definition symmetrize (A : mat) : mat :=
  M (r0 A) (V (vy (r0 A)) (vy (r1 A)) (vz (r1 A))) (V (vz (r0 A)) (vz (r1 A)) (vz (r2 A))).
(** Clump.cpp:215-217 *)
Definition central_inertia (a : sums) : mat :=
  let '(m, s, i) := a in symmetrize (inertiaTensorTranslate i (- m) (smul (/ m) s)).
(** Clump.cpp:212-229 *)
Definition clump_state (eig : mat -> mat * vec) (a : sums) : rstate :=
  let '(m, s, i) := a in
  let (ev, lam) := eig (central_inertia a) in
  mkR (smul (/ m) s) (qnormalize (mat_quat ev)) vzero vzero m lam.
(** Clump.cpp:235-236 *)
Definition local (c s : rstate) : se3 := mkSe3 (qrot (qconj (ori c)) (vsub (pos s) (pos c))) (qmul (qconj (ori c)) (ori s)).
(** Clump.cpp:88-238; [sums_of]: apart or overlapping.  None: exception *)
Definition updateProperties (eig : mat -> mat * vec) (sums_of : list member -> sums) (ms : list member) : option (rstate * list (nat * se3)) :=
  match ms with
  | [] => None
  | [b] => let s := m_state b in Some (mkR (pos s) (ori s) vzero vzero (mass s) (inertia s), [(m_id b, mkSe3 vzero qid)])
  | _ => let c := clump_state eig (sums_of ms) in Some (c, map (fun b => (m_id b, local c (m_state b))) ms)
  end.
