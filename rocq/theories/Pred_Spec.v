(** Vocabulary of the properties of predicates of volumes. *)
From Coq Require Import Bool Reals.
From Verif Require Import Vec_Model Pred_Model.
Local Open Scope R_scope.

Definition distance (p q : vec) : R := norm (vsub p q).
Definition between (a x b : R) : Prop := a <= x <= b.
(** a point of an axis: [t] of the way from [a] to [b], and [w] sidewards *)
Definition beside (a b : vec) (t : R) (w p : vec) : Prop := p = vadd (vadd a (smul t (vsub b a))) w /\ dot w (vsub b a) = 0.

(** the points of a solid *)
Fixpoint holds (s : solid) (p : vec) : Prop :=
  match s with
  | Sphere c r => distance p c <= r
  | Box mn mx => between (vx mn) (vx p) (vx mx) /\ between (vy mn) (vy p) (vy mx) /\ between (vz mn) (vz p) (vz mx)
  | Para o a b c => exists i j k, between 0 i 1 /\ between 0 j 1 /\ between 0 k 1 /\ p = vadd o (vadd (smul i (vsub a o)) (vadd (smul j (vsub b o)) (smul k (vsub c o))))
  | Cyl c1 c2 r => exists t w, between 0 t 1 /\ beside c1 c2 t w p /\ norm w <= r
  | Hyp c1 c2 r a => exists t w, between 0 t 1 /\ beside c1 c2 t w p /\ norm2 w <= a * a + (r * r - a * a) * ((2 * t - 1) * (2 * t - 1))
  | Ell c abc => sq ((vx p - vx c) / vx abc) + sq ((vy p - vy c) / vy abc) + sq ((vz p - vz c) / vz abc) <= 1
  | Notch c e n ap =>
      let edge := normalized e in let normal := normalized (vsub n (smul (dot edge n) edge)) in
      ~ (0 < dot (cross edge normal) (vsub p c) /\ - (ap / 2) < dot normal (vsub p c) < ap / 2)
  | Union A B => holds A p \/ holds B p
  | Inter A B => holds A p /\ holds B p
  | Diff A B => holds A p /\ ~ holds B p
  | Sym A B => (holds A p /\ ~ holds B p) \/ (~ holds A p /\ holds B p)
  end.

(** solids which are not degenerate; edges of a parallelepiped form a right-handed system *)
Fixpoint proper (s : solid) : Prop :=
  match s with
  | Sphere _ _ | Box _ _ | Notch _ _ _ _ => True
  | Para o a b c => 0 < dot (vsub a o) (cross (vsub b o) (vsub c o))
  | Cyl c1 c2 r => c1 <> c2
  | Hyp c1 c2 r a => c1 <> c2 /\ 0 < a < r
  | Ell _ abc => 0 < vx abc /\ 0 < vy abc /\ 0 < vz abc
  | Union A B | Inter A B | Diff A B | Sym A B => proper A /\ proper B
  end.
(** solids made of spheres, boxes, parallelepipeds and cylinders by union, intersection and difference *)
Fixpoint simple (s : solid) : Prop :=
  match s with
  | Sphere _ _ | Box _ _ | Para _ _ _ _ | Cyl _ _ _ => True
  | Hyp _ _ _ _ | Ell _ _ | Notch _ _ _ _ | Sym _ _ => False
  | Union A B | Inter A B | Diff A B => simple A /\ simple B
  end.
(** [pad] is less than the radii of ellipsoids; those cut out do not matter *)
Fixpoint fits (s : solid) (pad : R) : Prop :=
  match s with
  | Ell _ abc => pad < vx abc /\ pad < vy abc /\ pad < vz abc
  | Union A B | Inter A B | Sym A B => fits A pad /\ fits B pad
  | Diff A B => fits A pad
  | _ => True
  end.
Definition in_box (o : option (vec * vec)) (p : vec) : Prop :=
  match o with None => True | Some (mn, mx) => between (vx mn) (vx p) (vx mx) /\ between (vy mn) (vy p) (vy mx) /\ between (vz mn) (vz p) (vz mx) end.
