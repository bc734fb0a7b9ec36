(** What a user expects of random packings of spheres. *)
From Coq Require Import Reals List ZArith Bool Sorted.
From Verif Require Import Vec_Model Cloud_Model.
Import ListNotations.
Local Open Scope R_scope.

(** two spheres do not touch *)
Definition apart (a b : sph) : Prop := r a + r b < norm (vsub (c a) (c b)).
(** the image of a sphere in another cell; the columns of [H] are the periods *)
Definition image (H : mat) (k : Z * Z * Z) (a : sph) : sph :=
  let '(i, j, l) := k in mkSph (vadd (c a) (mulv H (V (IZR i) (IZR j) (IZR l)))) (r a) (clumpId a).
(** no image of one sphere touches the other *)
Definition apart_periodic (H : mat) (a b : sph) : Prop := forall k, apart (image H k a) b.
(** nor an image of its own *)
Definition apart_own (H : mat) (a : sph) : Prop := forall k, k <> (0, 0, 0)%Z -> apart (image H k a) a.

(** [l] is made of the former spheres, or none of them, and of new ones, each of which is in relation [P] with all
    spheres before it *)
Definition added (P : sph -> sph -> Prop) (old l : list sph) (new : list sph) : Prop :=
  exists kept, l = kept ++ new /\ (kept = old \/ kept = []) /\
  forall i j a b, (i < j)%nat -> (length kept <= j)%nat -> nth_error l i = Some a -> nth_error l j = Some b -> P a b.

(** a sphere between two planes *)
Definition between (lo hi x rad : R) : Prop := lo <= x - rad /\ x + rad <= hi.
(** a point in the parallelepiped with corner m *)
Definition in_cell (m : vec) (H : mat) (x : vec) : Prop :=
  exists t, 0 <= vx t <= 1 /\ 0 <= vy t <= 1 /\ 0 <= vz t <= 1 /\ x = vadd m (mulv H t).
(** edges at right angles *)
Definition orthogonal (H : mat) : Prop := dot (col0 H) (col1 H) = 0 /\ dot (col0 H) (col2 H) = 0 /\ dot (col1 H) (col2 H) = 0.
(** numbers of a generator *)
Definition in_unit (rnd : nat -> R) : Prop := forall k, 0 <= rnd k <= 1.
Definition decreasing (l : list R) : Prop := StronglySorted Rge l.
(** a sphere in the box, in each direction in which the box is wide enough; in the plane of a flat box *)
Definition in_box (q : params) (a : sph) : Prop :=
  (forall lo hi x, In (lo, hi, x) [(vx (mn q), vx (mx q), vx (c a)); (vy (mn q), vy (mx q), vy (c a)); (vz (mn q), vz (mx q), vz (c a))] ->
    (lo = hi -> x = lo) /\ (lo < hi -> 2 * r a <= hi - lo -> between lo hi x (r a))).
(** strictly increasing positive sizes *)
Definition strict (l : list R) : Prop := Forall (fun x => 0 < fst x < snd x) (pairs l).
(** sizes that make sense *)
Definition psd_ok (q : params) : Prop :=
  hd 0 (psdCumm q) = 0 /\ last (psdCumm q) 0 = 1 /\ Forall (fun d => 0 < d) (psdSizes q) /\ 0 < room q /\ porosity q < 1 /\ (distributeMass q = true -> strict (psdSizes q)).

(** ** several calls in one process, each with its seed and arguments *)
Record request := mkReq { seed : Z; args : params; before : spack; clock : Z }.
Fixpoint calls (gen : Z -> nat -> R) (fuel : nat) (l : list request) (pr : process) : list result :=
  match l with
  | [] => []
  | x :: l' => let '(y, pr') := call gen (clock x) fuel (seed x) (args x) (before x) pr in y :: calls gen fuel l' pr'
  end.
(** the same requests at another time *)
Definition later (d : Z) (x : request) : request := mkReq (seed x) (args x) (before x) (clock x + d).
(** the same request with another seed *)
Definition reseeded (z : Z) (x : request) : request := mkReq z (args x) (before x) (clock x).
