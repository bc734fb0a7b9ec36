(** Model of the uniaxial strainer: pkg/dem/UniaxialStrainer.{hpp,cpp}.

    Simplifications
    - real numbers without rounding; [None] stands for NaN in attributes that are NaN unless they are given;
    - assertions are left out, as in optimized builds; messages are left out;
    - ids are natural numbers; posCoords and negCoords, which are written and not used, are left out;
    - bodies: positions, velocities and blocked degrees of freedom only. *)
From Coq Require Import Reals List ZArith NArith Bool.
From Verif Require Import Vec_Model Attr_Model.
Import ListNotations.
Local Open Scope R_scope.

Definition coord (v : vec) (axis : nat) : R := match axis with O => vx v | 1%nat => vy v | _ => vz v end.
Definition set_coord (v : vec) (axis : nat) (x : R) : vec := match axis with O => V x (vy v) (vz v) | 1%nat => V (vx v) x (vz v) | _ => V (vx v) (vy v) x end.
Record sbody := mkB { bpos : vec; bvel : vec; dofs : N }.
Definition bodies := nat -> option sbody.
Definition put (w : bodies) (i : nat) (b : sbody) : bodies := fun j => if Nat.eqb j i then Some b else w j.

(** hpp:29-55: given by the user *)
Record conf := mkC { axis : nat; asymmetry : Z; posIds : list nat; negIds : list nat; initAccelTime : R; stopStrain : option R; idleIterations : Z;
  limitStrain : R; blockDisplacements : bool; blockRotations : bool; setSpeeds : bool; crossSectionArea : option R; stressUpdateInterval : Z }.
(** attributes that change *)
Record us := mkU { needsInit : bool; active : bool; strainRate : option R; absSpeed : option R; currentStrainRate : option R; initAccelTime_s : R;
  originalLength : R; notYetReversed : bool; strain : R; avgStress : R }.
Record scene := mkS { time : R; dt : R; iter : Z; stopAtIter : Z }.
Inductive result := Done (s : us) (sc : scene) (w : bodies) | Throws (s : us) (w : bodies) | NaNs | UB.

(** cpp:18-22, 25-29 *)
Definition blocked (c : conf) : N :=
  if blockDisplacements c && blockRotations c then DOF_ALL
  else let d := if negb (blockDisplacements c) then axisDOF (N.of_nat (axis c)) false else DOF_XYZ in
       if blockRotations c then N.lor d DOF_RXRYRZ else d.
(** cpp:17-30; None: no such body *)
Fixpoint block (c : conf) (ids : list nat) (w : bodies) : option bodies :=
  match ids with
  | [] => Some w
  | i :: ids' => match w i with
                 | Some b => block c ids' (put w i (mkB (bpos b) (bvel b) (blocked c)))
                 | None => None
                 end
  end.
Definition axisCoord (c : conf) (w : bodies) (ids : list nat) : option R :=
  match ids with [] => None | i :: _ => match w i with Some b => Some (coord (bpos b) (axis c)) | None => None end end.
(** cpp:61-66 *)
Definition ends (a : Z) (absSpeed : R) : option (R * R) :=
  if (a =? -1)%Z then Some (- absSpeed, 0) else if (a =? 0)%Z then Some (- absSpeed / 2, absSpeed / 2) else if (a =? 1)%Z then Some (0, absSpeed) else None.
(** cpp:69-75, for all bodies at once *)
Definition spread (c : conf) (p0 p1 v0 v1 : R) (w : bodies) : bodies := fun i =>
  match w i with
  | Some b => if in_dec Nat.eq_dec i (posIds c) then Some b else if in_dec Nat.eq_dec i (negIds c) then Some b
              else Some (mkB (bpos b) (set_coord (bvel b) (axis c) ((coord (bpos b) (axis c) - p0) / (p1 - p0) * (v1 - v0) + v0)) (dofs b))
  | None => None
  end.
(** cpp:11-78 *)
Definition init (c : conf) (sc : scene) (s : us) (w : bodies) : result :=
  let s := mkU false (active s) (strainRate s) (absSpeed s) (currentStrainRate s) (initAccelTime_s s) (originalLength s) (notYetReversed s) (strain s) (avgStress s) in
  match block c (posIds c) w with None => UB | Some w =>
  match block c (negIds c) w with None => UB | Some w =>
  match axisCoord c w (posIds c), axisCoord c w (negIds c) with
  | Some p1, Some p0 =>
    let L := p1 - p0 in
    let s := mkU false (active s) (strainRate s) (absSpeed s) (currentStrainRate s) (initAccelTime_s s) L (notYetReversed s) (strain s) (avgStress s) in
    if Rle_dec L 0 then Throws s w
    else
      let rates := match strainRate s, absSpeed s with
                   | None, None => None
                   | None, Some a => Some (a / L, a)
                   | Some r, _ => Some (r, r * L)
                   end in
      match rates with
      | None => NaNs
      | Some (r, a) =>
        let T := if setSpeeds c then 0 else if Rle_dec 0 (initAccelTime c) then initAccelTime c else dt sc * (- initAccelTime c) in
        let s := mkU false (active s) (Some r) (Some a) (currentStrainRate s) T L (notYetReversed s) (strain s) (avgStress s) in
        let finish w := match crossSectionArea c with None => Throws s w | Some _ => Done s sc w end in
        if setSpeeds c then
          match ends (asymmetry c) a with
          | None => Throws s w
          | Some (v0, v1) => finish (spread c p0 p1 v0 v1 w)
          end
        else finish w
      end
  | _, _ => UB
  end end end.
(** cpp:84-87: a comparison with NaN is false *)
Definition rate (sc : scene) (s : us) : option R :=
  match currentStrainRate s, strainRate s with
  | Some c, Some r => if Rlt_dec (Rabs c) (Rabs r) then (if Req_EM_T (initAccelTime_s s) 0 then Some r else Some (time sc / initAccelTime_s s * r)) else Some r
  | _, r => r
  end.
(** cpp:90-99: displacement, and whether the end is reached; [L] is the length *)
Definition limited (c : conf) (s : us) (L dAX : R) : R * bool :=
  match stopStrain c with
  | None => (dAX, false)
  | Some stop => let new := (L + dAX) / originalLength s - 1 in
                 if Rlt_dec 0 (new * stop) then
                   if Rle_dec stop (Rabs new) then (originalLength s * (stop + 1) - L, true) else (dAX, false)
                 else (dAX, false)
  end.
(** cpp:101-115 *)
Fixpoint drive (a : nat) (v : R) (ids : list nat) (w : bodies) : option bodies :=
  match ids with
  | [] => Some w
  | i :: ids' => match w i with Some b => drive a v ids' (put w i (mkB (bpos b) (set_coord (bvel b) a v) (dofs b))) | None => None end
  end.
(** cpp:130-135 *)
Definition axialForces (a : nat) (F : nat -> vec) (ids : list nat) : R := fold_left (fun x i => x + coord (F i) a) ids 0.
(** cpp:80-128, after the initialization; [F]: forces *)
Definition act (c : conf) (sc : scene) (F : nat -> vec) (s : us) (w : bodies) : result :=
  match posIds c, negIds c with
  | [], _ | _, [] => Done s sc w
  | _, _ =>
    match rate sc s with None => NaNs | Some r =>
    match axisCoord c w (posIds c), axisCoord c w (negIds c) with
    | Some p1, Some p0 =>
      let L0 := originalLength s in
      let (d, reached) := limited c s (p1 - p0) (r * L0 * dt sc) in
      let sc' := if reached then mkS (time sc) (dt sc) (iter sc) (iter sc + 1 + idleIterations c) else sc in
      let d := if (asymmetry c =? 0)%Z then d * (1/2) else d in
      match (if (asymmetry c =? 1)%Z then Some w else drive (axis c) (- d / dt sc) (negIds c) w) with None => UB | Some w1 =>
      match (if (asymmetry c =? -1)%Z then Some w1 else drive (axis c) (d / dt sc) (posIds c) w1) with None => UB | Some w2 =>
      let e := (p1 - p0) / L0 - 1 in
      let turned := notYetReversed s && (if Req_EM_T (limitStrain c) 0 then false else true) &&
        ((if Rlt_dec 0 r then if Rlt_dec (limitStrain c) e then true else false else false) || (if Rlt_dec r 0 then if Rlt_dec e (limitStrain c) then true else false else false)) in
      if (stressUpdateInterval c =? 0)%Z then UB else
      match (if (Z.rem (iter sc) (stressUpdateInterval c) =? 0)%Z then
               match crossSectionArea c with Some A => Some ((- axialForces (axis c) F (posIds c) + axialForces (axis c) F (negIds c)) / (2 * A)) | None => None end
             else Some (avgStress s)) with
      | None => NaNs
      | Some stress =>
        Done (mkU (needsInit s) (active s && negb reached) (strainRate s) (absSpeed s) (Some (if turned then r * -1 else r)) (initAccelTime_s s) L0
                  (notYetReversed s && negb turned) e stress) sc' w2
      end end end
    | _, _ => UB
    end end
  end.
Definition action (c : conf) (sc : scene) (F : nat -> vec) (s : us) (w : bodies) : result :=
  if needsInit s then match init c sc s w with Done s sc w => act c sc F s w | r => r end else act c sc F s w.

(** one step of the simulation: core/Scene.cpp:131-133, the strainer if it is active, then NewtonIntegrator without
    damping and gravity; [others] are the new positions and velocities along directions that are not blocked *)
Definition newton (c : conf) (dt : R) (others : nat -> sbody -> sbody) (w : bodies) : bodies := fun i =>
  match w i with
  | Some b => if (N.land (dofs b) (axisDOF (N.of_nat (axis c)) false) =? 0)%N then Some (others i b)
              else let b' := others i b in
                   Some (mkB (set_coord (bpos b') (axis c) (coord (bpos b) (axis c) + dt * coord (bvel b) (axis c))) (set_coord (bvel b') (axis c) (coord (bvel b) (axis c))) (dofs b))
  | None => None
  end.
Definition step (c : conf) (F : nat -> vec) (others : nat -> sbody -> sbody) (s : us) (sc : scene) (w : bodies) : result :=
  match (if active s then action c sc F s w else Done s sc w) with
  | Done s sc w => Done s (mkS (time sc + dt sc) (dt sc) (iter sc + 1) (stopAtIter sc)) (newton c (dt sc) others w)
  | r => r
  end.
