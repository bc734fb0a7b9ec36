(** What is meant by convex hull and area. *)
From Coq Require Import Reals List ZArith Bool.
From Verif Require Import Vec_Model Hull_Model.
Import ListNotations.
Local Open Scope R_scope.

(** q is on the left of the way from a to b, or on it *)
Definition turn (a b q : point) : R := (fst b - fst a) * (snd q - snd a) - (snd b - snd a) * (fst q - fst a).
Definition left_of (a b q : point) : Prop := 0 <= turn a b q.
(** sides of a polygon: consecutive corners, and the last with the first *)
Definition sides (P : list point) : list (point * point) := match P with [] => [] | p :: t => combine P (t ++ [p]) end.
(** corners anticlockwise such that all points are inside *)
Definition encloses (P pts : list point) : Prop := forall a b q, In (a, b) (sides P) -> In q pts -> left_of a b q.
(** one point is left of all the others *)
Definition one_leftmost (pts : list point) : Prop := exists l a b, pts = a ++ l :: b /\ forall q, In q (a ++ b) -> fst l < fst q.
(** area of a triangle, and of triangles with top o *)
Definition triangle (o a b : point) : R := 1/2 * Rabs (turn o a b).
Definition fan (o : point) (P : list point) : R := fold_right (fun s t => triangle o (fst s) (snd s) + t) 0 (sides P).
(** polygons moved, enlarged, mirrored *)
Definition moved (d p : point) : point := (fst p + fst d, snd p + snd d).
Definition enlarged (k : R) (p : point) : point := (k * fst p, k * snd p).
Definition mirrored (p : point) : point := (snd p, fst p).
(** the sphere meets the plane at coord *)
Definition along (axis : Z) (c : vec) : R := match axis with 0%Z => vx c | 1%Z => vy c | _ => vz c end.
Definition meets (coord : R) (axis : Z) (s : vec * R) : Prop := Rabs (along axis (fst s) - coord) <= snd s.
