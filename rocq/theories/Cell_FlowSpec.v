(** Words for bodies that move with the cell. *)
From Coq Require Import Reals List ZArith.
From Verif Require Import Vec_Model Rigid_Model Attr_Model Newton_Model Cell_Model Cell_Flow.
Import ListNotations.
Local Open Scope R_scope.

(** a periodic scene with the default homoDeform, without gravity, imposed displacements and mask *)
Definition plain (cf : conf) : Prop := isPeriodic cf = true /\ (1 < homoDeform cf)%Z /\ gravity cf = vzero /\ moveRotUsed cf = false /\ (mask cf <= 0)%Z.
(** forces have no effect on it *)
Definition force_free (b : nbody) (f : vec) : Prop := blockedDOFs (st b) = DOF_ALL \/ f = vzero.
(** nothing moves, and the integrator has seen no velocity gradient *)
Definition at_rest (w : flow) : Prop := Cell_Model.velGrad (fcell w) = mzero /\ fprev w = mzero /\ vel (rs (st (fbody w))) = vzero.
