(** Points of facets and boxes, nearest points *)
From Coq Require Import Reals List ZArith Bool.
From Verif Require Import Vec_Model Rigid_Model Law_Model Shape_Model.
Local Open Scope R_scope.

(** the triangle with corners a, b, c *)
Definition in_triangle (a b c x : vec) : Prop := exists s t u, 0 <= s /\ 0 <= t /\ 0 <= u /\ s + t + u = 1 /\ x = vadd (vadd (smul s a) (smul t b)) (smul u c).
(** cuboid with half sizes e, at the origin *)
Definition in_cuboid (e x : vec) : Prop := Rabs (vx x) <= vx e /\ Rabs (vy x) <= vy e /\ Rabs (vz x) <= vz e.
(** a shape moved to position p with orientation q *)
Definition moved (p : vec) (q : quat) (S : vec -> Prop) (x : vec) : Prop := exists y, S y /\ x = vadd p (qrot q y).
Definition distance (a b : vec) : R := norm (vsub a b).
Definition nearest (S : vec -> Prop) (c x : vec) : Prop := S x /\ forall y, S y -> distance c x <= distance c y.
Definition in_aabb (b : vec * vec) (x : vec) : Prop :=
  vx (fst b) <= vx x <= vx (snd b) /\ vy (fst b) <= vy x <= vy (snd b) /\ vz (fst b) <= vz x <= vz (snd b).
Definition overlap (a b : vec * vec) : Prop := exists x, in_aabb a x /\ in_aabb b x.
(** the triangle with corners at given points *)
Definition triangle (v : nat -> vec) : vec -> Prop := in_triangle (v 0%nat) (v 1%nat) (v 2%nat).
(** the origin is as far from all edges, in the plane of the facet *)
Definition at_incentre (f : facet) : Prop := dot (fnormal f) (vert f 0%nat) = 0 /\ forall i, (i < 3)%nat -> dot (ne f i) (vert f i) = icr f.
(** a contact with the sphere of radius r at c whose nearest point of the other shape is x *)
Definition describes (c x : vec) (r : R) (g : scgeom) : Prop :=
  penetrationDepth g = r - distance c x /\ norm2 (normal g) = 1 /\ vsub c x = smul (distance c x) (normal g) /\ contactPoint g = vsub c (smul (r - 1/2 * penetrationDepth g) (normal g)).
(** triangle with edges of 3, 5 and 4, and what is precomputed for it *)
Definition tri345 : nat -> vec := fun i => match i with O => V 0 0 0 | 1%nat => V 3 0 0 | _ => V 0 4 0 end.
Definition at_rest (p : vec) : rstate := mkR p qid vzero vzero 1 (V 1 1 1).
(** outside of a cuboid or on its surface *)
Definition not_inside (e x : vec) : Prop := vx e <= Rabs (vx x) \/ vy e <= Rabs (vy x) \/ vz e <= Rabs (vz x).
(** a sphere with its center inside; x: nearest point of the surface *)
Definition describes_inside (c x : vec) (r : R) (g : scgeom) : Prop :=
  penetrationDepth g = r + distance c x /\ norm2 (normal g) = 1 /\ vsub x c = smul (distance c x) (normal g) /\ contactPoint g = smul (1/2) (vadd x (vsub c (smul r (normal g)))).
(** the smallest box with faces along the axes *)
Definition smallest_aabb (b : vec * vec) (S : vec -> Prop) : Prop :=
  (forall x, S x -> in_aabb b x) /\ forall b', (forall x, S x -> in_aabb b' x) -> vx (fst b') <= vx (fst b) /\ vy (fst b') <= vy (fst b) /\ vz (fst b') <= vz (fst b) /\ vx (snd b) <= vx (snd b') /\ vy (snd b) <= vy (snd b') /\ vz (snd b) <= vz (snd b').
(** the same triangle with its incentre at the origin *)
Definition tri345c : nat -> vec := fun i => match i with O => V (-1) (-1) 0 | 1%nat => V 2 (-1) 0 | _ => V (-1) 3 0 end.
