(** What is expected of recorders. *)
From Coq Require Import Reals List Bool Arith.
From Verif Require Import Vec_Model Reco_Model.
Import ListNotations.

(** bodies that exist *)
Fixpoint existing (world : nat -> option load) (ids : list nat) : list load :=
  match ids with [] => [] | i :: l => match world i with Some b => b :: existing world l | None => existing world l end end.
Fixpoint vsum (l : list vec) : vec := match l with [] => vzero | v :: l' => vadd v (vsum l') end.
Fixpoint rsum (l : list R) : R := match l with [] => 0%R | x :: l' => (x + rsum l')%R end.
(** torque of a body and of its force about the axis through [zero] *)
Definition torque_about (axis zero : vec) (b : load) : R := dot axis (vadd (ltorque b) (cross (vsub (lpos b) zero) (lforce b))).
Definition of_force (axis zero : vec) (b : load) : R := dot axis (cross (vsub (lpos b) zero) (lforce b)).
Definition pusher : load := mkL (V 1 0 0) (V 0 1 0) (V 0 0 0).
