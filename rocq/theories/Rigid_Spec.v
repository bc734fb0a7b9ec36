(** What is expected of rigid bodies, in terms of elementary mechanics. *)
From Coq Require Import Reals List.
From Verif Require Import Vec_Model Rigid_Model.
Import ListNotations.
Local Open Scope R_scope.

Definition unit_ori (s : rstate) : Prop := qnorm2 (ori s) = 1.
Definition vsum (l : list vec) : vec := fold_right vadd vzero l.
Definition rsum (l : list R) : R := fold_right Rplus 0 l.
Definition msum (l : list mat) : mat := fold_right madd mzero l.

(** the points of a rigid body: mass, position, inertia about its own centre, all in
    global axes *)
Record part := mkPart { p_mass : R; p_pos : vec; p_inertia : mat }.
Definition total_mass (l : list part) : R := rsum (map p_mass l).
Definition is_centre (l : list part) (c : vec) : Prop := smul (total_mass l) c = vsum (map (fun p => smul (p_mass p) (p_pos p)) l).
(** Steiner *)
Definition about (c : vec) (p : part) : mat :=
  let d := vsub (p_pos p) c in madd (p_inertia p) (mscale (p_mass p) (msub (mscale (dot d d) mid) (outer d d))).
Definition inertia_about (l : list part) (c : vec) : mat := msum (map (about c) l).
(** principal moments [i], given in axes turned by [q], in global axes *)
Definition turned (q : quat) (i : vec) : mat := mmul (mmul (qmat q) (diag i)) (transpose (qmat q)).
(** a member of a clump as a part *)
Definition part_of (b : member) : part :=
  match sphere b with
  | Some r => let m := density b * (4/3 * PI * r^3) in mkPart m (pos (m_state b)) (mscale (2/5 * m * r^2) mid)
  | None => mkPart (mass (m_state b)) (pos (m_state b)) (turned (ori (m_state b)) (inertia (m_state b)))
  end.
(** the solver does what is documented: orthonormal eigenvectors in columns *)
Definition decomposes (eig : mat -> mat * vec) (A : mat) : Prop :=
  let (ev, lam) := eig A in mmul (transpose ev) ev = mid /\ A = mmul (mmul ev (diag lam)) (transpose ev).
Definition right_handed (eig : mat -> mat * vec) (A : mat) : Prop := det (fst (eig A)) = 1.
(** moment about the point o of a force f and torque t acting at x *)
Definition moment (o x f t : vec) : vec := vadd t (cross (vsub x o) f).
(** all densities multiplied by k *)
Definition denser (k : R) (b : member) : member :=
  mkM (m_id b) (sphere b) (k * density b) (let s := m_state b in mkR (pos s) (ori s) (vel s) (angVel s) (k * mass s) (smul k (inertia s))).
(** members for which the code turns the inertia the right way *)
Definition plain_member (b : member) : Prop :=
  sphere b <> None \/ ori (m_state b) = qid \/ (qnorm2 (ori (m_state b)) = 1 /\ exists k, inertia (m_state b) = V k k k).
(** moment about [o] of the forces and torques on the members *)
Definition moment_of (w : bodies) (F T : nat -> vec) (o : vec) (i : nat) : vec :=
  match w i with Some s => moment o (pos s) (F i) (T i) | None => vzero end.
(** Numerical integration over a grid of cubes with edge dx: each grid point inside at least
    one of the spheres stands for one cube, with the density of the first sphere it is in. *)
Definition inside (x : vec) (b : member) : bool :=
  match sphere b with Some r => if Rlt_dec (norm2 (vsub x (pos (m_state b)))) (r^2) then true else false | None => false end.
Definition cube (dx : R) (ms : list member) (x : vec) : list part :=
  match find (inside x) ms with
  | Some b => let m := density b * dx^3 in [mkPart m x (mscale (m * dx^2 / 6) mid)]
  | None => []
  end.
