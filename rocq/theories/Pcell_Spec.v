(** What controlling the size of a periodic cell should do. *)
From Coq Require Import Reals List ZArith Bool.
From Verif Require Import Vec_Model Pcell_Model.
From Verif Require Cell_Model.
Import ListNotations.
Local Open Scope R_scope.

Definition vpos (v : vec) : Prop := 0 < vx v /\ 0 < vy v /\ 0 < vz v.
(** a rectangular cell with the given edges, transformation and rates *)
Definition boxy (c : cell) (s t g : vec) : Prop := Cell_Model.hSize c = diag s /\ Cell_Model.size c = s /\ Cell_Model.trsf c = diag t /\ Cell_Model.velGrad c = diag g /\ vpos s.
(** edges after the next step *)
Definition grown (dt : R) (s g : vec) : vec := V ((1 + dt * vx g) * vx s) ((1 + dt * vy g) * vy s) ((1 + dt * vz g) * vz s).
Definition all_at_least (m : R) (v : vec) : Prop := m <= vx v /\ m <= vy v /\ m <= vz v.
Definition within (d : R) (a b : vec) : Prop := Rabs (vx a - vx b) <= d /\ Rabs (vy a - vy b) <= d /\ Rabs (vz a - vz b) <= d.
(** the edges have the same proportions *)
Definition proportional (a b : vec) : Prop := exists k, b = smul k a.
(** n steps; what is measured and the bodies may change at each *)
Fixpoint iso_run (cf : isoconf) (n : nat) (b : nat -> bodies) (iter : Z) (dt : R) (m : nat -> sensed) (s : iso) (c : cell) : iso_step_out :=
  match n with
  | O => IStep s c false
  | S k => match iso_run cf k b iter dt m s c with IStep s' c' _ => iso_step cf (b k) (iter + Z.of_nat k) dt (m k) s' c' | IStops => IStops end
  end.
(** a tolerance of 0.5 % *)
Definition close (goal x : R) : Prop := goal <> 0 -> Rabs (x - goal) <= 5/1000 * Rabs goal.
Definition unit_box (s g : vec) : cell := Cell_Model.mkCell mid mid (diag s) (diag s) (diag s) (diag g) mzero false mzero s (V 1 1 1) mid mid false.
Definition iso0 : iso := mkI 1 (1/4) (-1) (-1) vzero (-1) 0.
Definition tri0 : tri := mkT (V (1/4) (1/4) (1/4)) mzero vzero vzero vzero (V 1 1 1) None vzero None 0.
(** the contact with its bodies in the other order *)
Definition reversed (k : contact) : contact := mkK (vopp (normalForce k)) (vopp (shearForce k)) (vopp (normal k)) (kn k) (ks k) (pos2 k) (pos1 k) (vopp (cellDist k)).
Definition isoc (keep : bool) : isoconf := mkIC [-1] (1/10000) 20 keep.
Definition iso100 : iso := mkI 1 1 1 (-1) vzero (-1) 0.
(** a value meets a goal within relative and absolute tolerance *)
Definition meets (goal rel abs x : R) : Prop := (goal <> 0 -> Rabs (x - goal) <= rel * Rabs goal) /\ Rabs (x - goal) <= abs.
Definition tric (dyn : bool) (g : vec) (mask : Z) : triconf := mkTC dyn g mask (V 1 1 1) (1/10000) 1000 (3/100000) (1/4) 5.
(** sum of matrices *)
Definition msum (l : list mat) : mat := fold_right madd mzero l.
Definition balanced (x : R) : tri := mkT (V (1/4) (1/4) (1/4)) mzero vzero vzero vzero (V 1 1 1) (Some x) vzero None 0.
(** area of the face across an edge *)
Definition face (s : vec) (k : nat) : R := vx s * vy s * vz s / match k with O => vx s | 1%nat => vy s | _ => vz s end.
