(** What users expect of the periodic cell. *)
From Coq Require Import Reals List ZArith.
From Verif Require Import Vec_Model Cell_Model.
Import ListNotations.
Local Open Scope R_scope.

(** any history from the default cell that did not end in an exception *)
Definition reachable (c : cell) : Prop := exists c0 os, fresh = Updated c0 /\ exec os c0 = Updated c.
(** steps and changes of the velocity gradient, without direct assignment of the shape *)
Definition deforming (o : op) : Prop := match o with Begin _ | Newton | AssignVelGrad _ => True | _ => False end.
(** coordinates with respect to the base vectors of the cell are in [0,1) *)
Definition unit3 (s : vec) : Prop := 0 <= vx s < 1 /\ 0 <= vy s < 1 /\ 0 <= vz s < 1.
Definition inside (c : cell) (p : vec) : Prop := exists s, unit3 s /\ p = mulv (hSize c) s.
(** [p] is [q] moved by a whole number of base vectors *)
Definition image_by (c : cell) (k : Z * Z * Z) (p q : vec) : Prop := p = vadd q (mulv (hSize c) (cast k)).
Definition image (c : cell) (p q : vec) : Prop := exists k, image_by c k p q.
(** componentwise *)
Definition vle (a b : vec) : Prop := vx a <= vx b /\ vy a <= vy b /\ vz a <= vz b.
(** every point of the ball, in the coordinates in which boxes are compared, is in the box *)
Definition covers (c : cell) (box : vec * vec) (p : vec) (radius : R) : Prop :=
  forall q, norm2 (vsub q p) <= radius * radius -> vle (fst box) (unshearPt c q) /\ vle (unshearPt c q) (snd box).
(** one of the base vectors is perpendicular to the two others *)
Definition one_perpendicular (h : mat) : Prop :=
  (dot (col0 h) (col1 h) = 0 /\ dot (col0 h) (col2 h) = 0) \/
  (dot (col1 h) (col0 h) = 0 /\ dot (col1 h) (col2 h) = 0) \/
  (dot (col2 h) (col0 h) = 0 /\ dot (col2 h) (col1 h) = 0).
(** the last value assigned to O.cell.velGrad *)
Fixpoint last_assigned (os : list op) (m : option mat) : option mat :=
  match os with [] => m | AssignVelGrad x :: os' => last_assigned os' (Some x) | _ :: os' => last_assigned os' m end.
Definition waiting (o : op) : Prop := match o with Begin _ | AssignVelGrad _ => True | _ => False end.
