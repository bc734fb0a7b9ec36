(** What is expected of a collider. *)
From Coq Require Import Reals List ZArith Bool Arith.
From Verif Require Import Vec_Model Flat_Model.
Import ListNotations.
Local Open Scope R_scope.

Definition sphere_at (bodies : list (option fbody)) (id : nat) (r : R) (C : vec) : Prop :=
  exists b, nth_error bodies id = Some (Some b) /\ fshape_of b = Some (FSphere r) /\ fpos b = C.
(** spheres overlap or touch *)
Definition meet (r1 : R) (C1 : vec) (r2 : R) (C2 : vec) : Prop := 0 <= r1 + r2 /\ norm2 (vsub C1 C2) <= (r1 + r2) * (r1 + r2).
Definition known (l : list intr) (a b : nat) : Prop := exists i, In i l /\ ((i1 i = a /\ i2 i = b) \/ (i1 i = b /\ i2 i = a)).
(** the lower corner is on the diagonal *)
Definition diagonal (m : vec) : Prop := vx m = vy m /\ vz m = vy m.
(** at most one interaction for a pair, of two different bodies *)
Definition of_pair (a b : nat) (i : intr) : bool := ((i1 i =? a) && (i2 i =? b) || (i1 i =? b) && (i2 i =? a))%nat.
Definition once (l : list intr) : Prop := Forall (fun i => i1 i <> i2 i) l /\ forall a b, (length (filter (of_pair a b) l) <= 1)%nat.
(** the point is in the ball *)
Definition in_ball (r : R) (C p : vec) : Prop := norm2 (vsub C p) <= r * r.
(** number of the cell along an axis of a grid with lower bound m *)
Definition cell_of (m step x : R) (k : Z) : Prop := m + step * IZR k <= x < m + step * (IZR k + 1).
(** a point inside the grid of given numbers of cells, and its cell *)
Definition inside (m : vec) (step : R) (sx sy sz : Z) (p : vec) (c : cell) : Prop :=
  let '(x, y, z) := c in cell_of (vx m) step (vx p) x /\ cell_of (vy m) step (vy p) y /\ cell_of (vz m) step (vz p) z /\ (0 <= x < sx)%Z /\ (0 <= y < sy)%Z /\ (0 <= z < sz)%Z.
(** a ball inside a box *)
Definition ball_in_box (r : R) (C lo hi : vec) : Prop :=
  (vx lo <= vx C - r /\ vx C + r < vx hi) /\ (vy lo <= vy C - r /\ vy C + r < vy hi) /\ (vz lo <= vz C - r /\ vz C + r < vz hi).
(** bodies without shape, or spheres *)
Definition spherical (bodies : list (option fbody)) : Prop := Forall (fun o => match o with Some b => fshape_of b <> Some FOther | None => True end) bodies.
Definition allowed (may : nat -> nat -> bool) (a b : nat) : Prop := may a b = true /\ may b a = true.
(** steps between two runs of the collider: maximal squared velocity, time step with which bodies have moved, time step
    which the collider sees *)
Fixpoint quiet (verlet fastest : R) (h : list (R * R * R)) : Prop :=
  match h with [] => True | (v2, _, dt) :: h' => fst (isActivated verlet fastest v2 dt) = false /\ quiet verlet (snd (isActivated verlet fastest v2 dt)) h' end.
(** a body moves from one point to another, by at most velocity times time in each step *)
Fixpoint moves (p : vec) (h : list (R * R * R)) (q : vec) : Prop :=
  match h with [] => p = q | (v2, dt, _) :: h' => exists m, norm (vsub m p) <= sqrt v2 * dt /\ moves m h' q end.
(** the time step is not made shorter between the motion and the collider *)
Definition not_shortened (h : list (R * R * R)) : Prop := Forall (fun s => let '(_, dt, dt') := s in dt <= dt') h.
(** examples: two spheres of the same radius, all of which may collide *)
Definition ball (r : R) (C : vec) : option fbody := Some (mkF (Some (FSphere r)) C).
Definition everyone (a b : nat) : bool := true.
Definition two_in (A B : vec) (r : R) : list (option fbody) := [ball r A; ball r B].
