(** What is expected of averages. *)
From Coq Require Import Reals List ZArith Bool.
From Verif Require Import Wavg_Model.
Import ListNotations.
Local Open Scope R_scope.

Definition proper (g : grid) : Prop := 0 < sx g /\ 0 < sy g /\ (0 < nx g)%Z /\ (0 < ny g)%Z.
(** within the corners of the grid *)
Definition within (g : grid) (x y : R) : Prop := lx g <= x < lx g + sx g * IZR (nx g) /\ ly g <= y < ly g + sy g * IZR (ny g).
Definition close (x0 y0 r : R) (e : elem) : Prop := (x0 - ex e) * (x0 - ex e) + (y0 - ey e) * (y0 - ey e) <= r * r.
(** the row of cells of a height *)
Definition row (g : grid) (j : Z) (y : R) : Prop := ly g + sy g * IZR j <= y < ly g + sy g * IZR (j + 1).
Fixpoint rsum (l : list R) : R := match l with [] => 0 | x :: l' => x + rsum l' end.
Definition unit_grid : grid := mkG 0 0 1 1 2 2.
