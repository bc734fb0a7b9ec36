(** The cell and a body through steps: core/Scene.cpp:84-99 with the engines reduced to
    NewtonIntegrator (pkg/dem/NewtonIntegrator.cpp:94-100, 159-194, 211; one body of
    Newton_Model.v).

    Simplification: force and torque on the body are given for each step (those of contacts
    are in Law_Model.v); assignments of O.cell.velGrad happen before the step. *)
From Coq Require Import Reals List ZArith Bool.
From Verif Require Import Vec_Model Rigid_Model Newton_Model Cell_Model.
Import ListNotations.
Local Open Scope R_scope.

(** [fprev] is NewtonIntegrator::prevVelGrad *)
Record flow := mkF { fcell : cell; fprev : mat; fbody : nbody }.
(** one step: dt, an assignment before it, force and torque in it *)
Record fstep := mkStep { sdt : R; assign : option mat; sf : vec; sm : vec }.
Definition conf_at (cf : conf) (d : R) (L P : mat) : conf :=
  mkC d (damping cf) (gravity cf) (mask cf) (densityScaling cf) (exactAsphericalRot cf) (isPeriodic cf) (homoDeform cf) L P (moveRotUsed cf) (move cf) (rot cf) (process cf).
Definition flow_step (cf : conf) (i : nat) (s : fstep) (w : flow) : option flow :=
  let c0 := match assign s with Some m => setVelGrad m (fcell w) | None => fcell w end in
  match integrateAndUpdate (sdt s) c0 with
  | Degenerate _ => None
  | Updated c1 =>
      let c2 := applyVelGrad c1 in
      Some (mkF c2 (Cell_Model.velGrad c2) (with_st (fbody w) (advance (conf_at cf (sdt s) (Cell_Model.velGrad c2) (fprev w)) i (fbody w) (sf s) (sm s))))
  end.
Fixpoint flow_run (cf : conf) (i : nat) (ss : list fstep) (w : flow) : option flow :=
  match ss with [] => Some w | s :: ss' => match flow_step cf i s w with Some w' => flow_run cf i ss' w' | None => None end end.
