(** What is expected of piecewise-linear functions. A function is given by its first point and the points that follow. *)
From Coq Require Import Reals List ZArith.
From Verif Require Import Lint_Model.
Import ListNotations.
Local Open Scope R_scope.

(** height at t of the line through two points *)
Definition on_line (x0 y0 x1 y1 t : R) : R := y0 + (y1 - y0) / (x1 - x0) * (t - x0).
(** area of the trapezoid under it between x0 and t *)
Definition trapezoid (x0 y0 x1 y1 t : R) : R := (t - x0) * (y0 + on_line x0 y0 x1 y1 t) / 2.
(** x increases *)
Fixpoint increasing (x0 : R) (l : list (R * R)) : Prop := match l with [] => True | (x1, _) :: l' => x0 < x1 /\ increasing x1 l' end.
Fixpoint end_x (x0 : R) (l : list (R * R)) : R := match l with [] => x0 | (x1, _) :: l' => end_x x1 l' end.
Fixpoint end_y (y0 : R) (l : list (R * R)) : R := match l with [] => y0 | (_, y1) :: l' => end_y y1 l' end.
(** height of the function at t, which is constant outside of its range *)
Fixpoint height (x0 y0 : R) (l : list (R * R)) (t : R) : R :=
  match l with
  | [] => y0
  | (x1, y1) :: l' => if Rle_dec t x0 then y0 else if Rle_dec t x1 then on_line x0 y0 x1 y1 t else height x1 y1 l' t
  end.
(** area under the function from its first point to t *)
Fixpoint under (x0 y0 : R) (l : list (R * R)) (t : R) : R :=
  match l with
  | [] => 0
  | (x1, y1) :: l' => if Rle_dec t x0 then 0 else if Rle_dec t x1 then trapezoid x0 y0 x1 y1 t else trapezoid x0 y0 x1 y1 x1 + under x1 y1 l' t
  end.
Definition whole (x0 y0 : R) (l : list (R * R)) : R := under x0 y0 l (end_x x0 l).
Definition positive (y0 : R) (l : list (R * R)) : Prop := 0 < y0 /\ Forall (fun p => 0 < snd p) l.
Definition nonnegative (y0 : R) (l : list (R * R)) : Prop := 0 <= y0 /\ Forall (fun p => 0 <= snd p) l.
Definition xs (x0 : R) (l : list (R * R)) : list R := x0 :: map fst l.
Definition ys (y0 : R) (l : list (R * R)) : list R := y0 :: map snd l.
(** a corner of the graph which is on the axis *)
Definition zero_corner (x0 y0 : R) (l : list (R * R)) (x : R) : Prop := In (x, 0) ((x0, y0) :: l).
