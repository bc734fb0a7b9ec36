(** Model of engines that impose velocities: pkg/common/KinematicEngines.{hpp,cpp}.

    Simplifications
    - real numbers without rounding (see Vec_Model.v); dt is not zero where the code divides by it;
    - the loops over ids, some of which are OpenMP loops, go through the ids one after another;
    - the ids are in the range of the container of bodies (an id out of range is undefined); None is an erased body;
    - once a velocity is NaN nothing is said about what follows;
    - Quaternion::setFromTwoVectors of Eigen: for opposite vectors, Eigen takes the axis from a singular value
      decomposition; here it is some axis. *)
From Coq Require Import Reals List NArith ZArith Bool.
From Verif Require Import Vec_Model Rigid_Model Attr_Model Newton_Model Newton_Spec Interp_Model.
Import ListNotations.
Local Open Scope R_scope.

(** attributes of ServoPIDController, hpp:96-117; Eigen's normalize leaves a zero vector as it is *)
Record pid := mkPid { maxVelocity : R; paxis : vec; target : R; current : vec; kP : R; kI : R; kD : R; iTerm : R; curVel : R; errorCur : R; errorPrev : R; iterPeriod : Z; iterPrevStart : Z }.
(** the engines and their attributes, hpp:33-130; [w] is angularVelocity *)
Inductive kin :=
| Translation (velocity : R) (axis : vec)
| HarmonicMotion (A f fi : vec)
| Rotation (w : R) (axis : vec) (around : bool) (zero : vec)
| Helix (w : R) (axis : vec) (around : bool) (zero : vec) (lin turned : R)
| InterpHelix (w : R) (axis : vec) (around : bool) (zero : vec) (lin turned : R) (times vels : list R) (wrap : bool) (slope : R) (lookup : Z)
| HarmonicRotation (w : R) (axis : vec) (around : bool) (zero : vec) (A f fi : R)
| Servo (velocity : R) (axis : vec) (p : pid)
| Pedal (w : R) (axis : vec) (radius fi : R).
(** the attributes of the scene that are used *)
Record moment := mkM { time : R; sdt : R; iter : Z }.

(** b->state->vel+=..., b->state->angVel+=... of one body *)
Definition increment (f : rstate -> vec * vec) (w : nworld) (i : nat) : nworld :=
  match nb w i with
  | Some b => let r := rs (st b) in put w i (with_st b (with_rs (st b) (set_angVel (set_vel r (vadd (vel r) (fst (f r)))) (vadd (angVel r) (snd (f r))))))
  | None => w
  end.
Definition for_ids (f : rstate -> vec * vec) (ids : list nat) (w : nworld) : nworld := fold_left (increment f) ids w.
(** cpp:13-17, :27-31 *)
Definition reset_body (w : nworld) (i : nat) : nworld :=
  match nb w i with Some b => put w i (with_st b (with_rs (st b) (set_angVel (set_vel (rs (st b)) vzero) vzero))) | None => w end.
Definition reset (ids : list nat) (w : nworld) : nworld := fold_left reset_body ids w.

(** cpp:112-136: RotationEngine::apply, one body *)
Definition rotation (w : R) (axis : vec) (around : bool) (zero : vec) (m : moment) (r : rstate) : vec * vec :=
  (if around then
     let l := vsub (pos r) zero in
     let newPos := vadd (qrot (angle_axis (w * sdt m) axis) l) zero in
     smul (/ sdt m) (vsub newPos (pos r))
   else vzero, smul w axis).
(** cpp:94-110: HelixEngine::apply: two loops *)
Definition helix (w : R) (axis : vec) (zero : vec) (lin : R) (m : moment) (ids : list nat) (nw : nworld) : nworld :=
  for_ids (rotation w axis true zero m) ids (for_ids (fun _ => (smul lin axis, vzero)) ids nw).
(** cpp:71-74 *)
Definition harmonic (A f fi : vec) (t : R) : vec :=
  let w := smul (2 * PI) f in
  let v := V (- sin (vx w * t + vx fi)) (- sin (vy w * t + vy fi)) (- sin (vz w * t + vz fi)) in vprod (vprod v A) w.
Definition vnormalize (a : vec) : vec := if Rlt_dec 0 (norm2 a) then smul (/ norm a) a else a.
(** cpp:145-182: ServoPIDController::apply up to the call of TranslationEngine::apply *)
Definition regulate (p : pid) (m : moment) (ids : list nat) (nw : nworld) : pid :=
  if (iterPrevStart p <? 0)%Z || (iterPeriod p <=? iter m - iterPrevStart p)%Z then
    let f := fold_left (fun f i => vadd f (force nw i)) ids vzero in
    let ax := vnormalize (paxis p) in
    let f := vprod f ax in
    let e := norm f - target p in
    let it := iTerm p + e * kI p in
    let v := e * kP p + it + (e - errorPrev p) * kD p in
    let v := if Rlt_dec (Rabs (maxVelocity p)) (Rabs v) then v * (Rabs (maxVelocity p) / Rabs v) else v in
    mkPid (maxVelocity p) ax (target p) f (kP p) (kI p) (kD p) it v e e (iterPeriod p) (iter m)
  else p.
(** Eigen: the rotation that takes the z axis to [b] *)
Definition from_z (b : vec) : quat :=
  let v1 := vnormalize b in
  let c := vz v1 in
  if Req_EM_T c (-1) then Q 0 (V 1 0 0)
  else let s := sqrt ((1 + c) * 2) in Q (s / 2) (smul (/ s) (cross (V 0 0 1) v1)).
(** cpp:189-197 *)
Definition pedal (w : R) (axis : vec) (radius fi dt : R) : vec :=
  let newPos := V (cos (fi + w * dt) * radius) (sin (fi + w * dt) * radius) 0 in
  let oldPos := V (cos fi * radius) (sin fi * radius) 0 in
  qrot (from_z axis) (smul (/ dt) (vsub oldPos newPos)).

Definition nonempty (ids : list nat) : bool := match ids with [] => false | _ => true end.
(** KinematicEngine::apply of each class, cpp:49-215; the attributes and the bodies afterwards *)
Definition apply (e : kin) (m : moment) (ids : list nat) (nw : nworld) : outcome (kin * nworld) :=
  match e with
  | Translation v a => Done (e, for_ids (fun _ => (smul v a, vzero)) ids nw)
  | HarmonicMotion A f fi => Done (e, for_ids (fun _ => (harmonic A f fi (time m), vzero)) ids nw)
  | Rotation w a around z => Done (e, for_ids (rotation w a around z m) ids nw)
  | Helix w a around z lin turned =>
      if nonempty ids then Done (Helix w a true z lin (turned + w * sdt m), helix w a z lin m ids nw) else Done (e, nw)
  | InterpHelix _ a around z _ turned times vels wrap slope lookup =>
      match (if wrap then match get times 0, back times with Some t0, Some tn => Some (periodicWrap (time m) t0 tn) | _, _ => None end else Some (time m)) with
      | None => UB
      | Some t =>
        match linearInterpolate t times vels lookup with
        | Done (w, lookup') =>
            if nonempty ids then Done (InterpHelix w a true z (w * slope) (turned + w * sdt m) times vels wrap slope lookup', helix w a z (w * slope) m ids nw)
            else Done (InterpHelix w a around z (w * slope) turned times vels wrap slope lookup', nw)
        | NaN p => NaN p | UB => UB | Hang => Hang
        end
      end
  | HarmonicRotation _ a around z A f fi =>
      let om := f * 2 * PI in
      let w := -1 * A * om * sin (om * time m + fi) in
      Done (HarmonicRotation w a around z A f fi, for_ids (rotation w a around z m) ids nw)
  | Servo _ _ p =>
      let p' := regulate p m ids nw in
      Done (Servo (curVel p') (paxis p') p', for_ids (fun _ => (smul (curVel p') (paxis p'), vzero)) ids nw)
  | Pedal w a radius fi =>
      if nonempty ids then let v := pedal w a radius fi (sdt m) in Done (Pedal w a radius (fi + w * sdt m), for_ids (fun _ => (v, vzero)) ids nw)
      else Done (e, nw)
  end.
(** cpp:11-22: KinematicEngine::action *)
Definition kin_action (ids : list nat) (e : kin) (m : moment) (nw : nworld) : outcome (kin * nworld) :=
  if nonempty ids then apply e m ids (reset ids nw) else Done (e, nw).
(** cpp:33-36: the engines of a combination, each with its flag dead *)
Fixpoint apply_all (es : list (bool * kin)) (m : moment) (ids : list nat) (nw : nworld) : outcome (list (bool * kin) * nworld) :=
  match es with
  | [] => Done ([], nw)
  | (true, e) :: es' => match apply_all es' m ids nw with Done (es2, nw2) => Done ((true, e) :: es2, nw2) | NaN p => NaN p | UB => UB | Hang => Hang end
  | (false, e) :: es' =>
    match apply e m ids nw with
    | Done (e1, nw1) => match apply_all es' m ids nw1 with Done (es2, nw2) => Done ((false, e1) :: es2, nw2) | NaN p => NaN p | UB => UB | Hang => Hang end
    | NaN p => NaN p | UB => UB | Hang => Hang
    end
  end.
(** cpp:24-40: CombinedKinematicEngine::action *)
Definition combined_action (ids : list nat) (es : list (bool * kin)) (m : moment) (nw : nworld) : outcome (list (bool * kin) * nworld) :=
  if nonempty ids then apply_all es m ids (reset ids nw) else Done (es, nw).

(** a simulation: a kinematic engine and the motion integrator in the loop of engines; Scene::moveToNextTimeStep
    adds dt to the time and 1 to the iteration number (core/Scene.cpp:115-116).  The forces on bodies are those
    in the container of forces at that point of the loop. *)
Record sim := mkSim { engine : kin; now : R; step_no : Z; world : nworld }.
Definition sim_step (ids : list nat) (p : one_step) (s : sim) : outcome sim :=
  match kin_action ids (engine s) (mkM (now s) (dt (s_conf p)) (step_no s)) (mkW (nb (world s)) (s_force p) (s_torque p)) with
  | Done (e', w1) => match action (s_conf p) (s_ids p) w1 with
                     | Some w2 => Done (mkSim e' (now s + dt (s_conf p)) (step_no s + 1) w2)
                     | None => UB end
  | NaN q => NaN q | UB => UB | Hang => Hang
  end.
Fixpoint sim_run (ids : list nat) (l : list one_step) (s : sim) : outcome sim :=
  match l with
  | [] => Done s
  | p :: l' => match sim_step ids p s with Done s' => sim_run ids l' s' | NaN q => NaN q | UB => UB | Hang => Hang end
  end.

(** ** the operator + of python *)
(** objects shared by python and C++: KinematicEngine with ids, or CombinedKinematicEngine with ids and addresses *)
Inductive kobj := Single (ids : list nat) | Combined (ids : list nat) (comb : list nat).
(** hpp:14-18, :27 and cpp:42-46: the object returned, and the heap; None: TypeError *)
Definition kadd (h : list kobj) (x y : nat) : option (nat * list kobj) :=
  match nth_error h x, nth_error h y with
  | Some (Single ids), Some (Single _) => Some (length h, h ++ [Combined ids [x; y]])
  | Some (Combined ids comb), Some (Single _) => Some (x, firstn x h ++ Combined ids (comb ++ [y]) :: skipn (S x) h)
  | _, _ => None
  end.
