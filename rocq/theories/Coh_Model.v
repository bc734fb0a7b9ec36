(** Model of cohesive contacts with moments: pkg/dem/CohesiveFrictionalContactLaw.{hpp,cpp},
    pkg/dem/ScGeom.cpp.

    Simplifications
    - real numbers without rounding; where the code divides by zero the model has a result of its own;
    - the elastic rotations of the contact (twist and bending) are inputs of the law, creep of twist changes them for later
      steps only and is left out; energies of plastic bending and twist are left out;
    - what the law adds to forces is a list of contributions. *)
From Coq Require Import Reals List ZArith Bool.
From Verif Require Import Vec_Model Rigid_Model Law_Model.
Import ListNotations.
Local Open Scope R_scope.

Definition ltR (x y : R) : bool := if Rlt_dec x y then true else false.
Definition leR (x y : R) : bool := if Rle_dec x y then true else false.
Definition is0 (x : R) : bool := if Req_EM_T x 0 then true else false.

(** CohesiveFrictionalContactLaw.hpp:49-88: CohFrictPhys.  What the law never changes: *)
Record cparams := mkCP { ckn : R; cks : R; ctan : R; disablesFriction : bool; ckr : R; cktw : R; maxRollPl : R; maxTwistPl : R; unpMax : R; momentLaw : bool }.
(** and what may change *)
Record cstate := mkCS { cfragile : bool; broken : bool; normalAdh : R; shearAdh : R; unp : R; initCohesion : bool; cnormal : vec; cshear : vec; ctwist : vec; cbending : vec }.
(** Law2_ScGeom6D_CohFrictPhys_CohesionMoment, hpp:106-118 *)
Record cconf := mkCC { alwaysMoment : bool; shearCreep : bool; twistCreep : bool; viscosity : R; incremental : bool; track : bool }.
(** what a step of the contact sees: time step, whether the contact is new, geometry, elastic twist and bending, angular velocities, positions (the second with its period) *)
Record cstep := mkSt { cdt : R; fresh : bool; cg : scgeom; gtwist : R; gbending : vec; w1 : vec; w2 : vec; at1 : vec; at2 : vec }.

Inductive cresult :=
| Lost (s : cstate)                                                (* returns false *)
| Kept (s : cstate) (added : list (nat * (vec * vec))) (dissip : R) (* returns true *)
| Throws (s : cstate) (added : list (nat * (vec * vec)))            (* exception, after the forces were added *)
| NotNumber.                                                       (* division by zero *)

(** cpp:115-127: the normal force and the plastic displacement; [inr]: the contact is lost *)
Definition normal_law (p : cparams) (s : cstate) (un : R) : option (R * R + R) :=
  let Fn := ckn p * (un - unp s) in
  if cfragile s && ltR (normalAdh s) (- Fn) then Some (inr (unp s))
  else if ltR (normalAdh s) (- Fn) then
    if is0 (ckn p) then None
    else let u := un + normalAdh s / ckn p in
         if leR 0 (unpMax p) && ltR (unpMax p) (- u) then Some (inr u) else Some (inl (- normalAdh s, u))
  else Some (inl (Fn, unp s)).
(** cpp:114,131-139: the trial shear force *)
Definition trial_shear (k : cconf) (p : cparams) (s : cstate) (t : cstep) : option vec :=
  let s0 := if fresh t then vzero else cshear s in
  if shearCreep k && is0 (viscosity k) then None
  else let s1 := if shearCreep k then vsub s0 (smul (cks p) (smul (cdt t / viscosity k) s0)) else s0 in
       Some (vsub (rotate (cg t) s1) (smul (cks p) (shearInc (cg t)))).
(** cpp:141-145 *)
Definition max_shear (p : cparams) (s : cstate) (Fn : R) : R :=
  Rmax 0 (if negb (disablesFriction p) || is0 (shearAdh s) then shearAdh s + Fn * ctan p else shearAdh s).
(** cpp:128,146-161: the normal and the shear force, whether cohesion breaks, the energy *)
Definition yield (k : cconf) (p : cparams) (s : cstate) (Fn : R) (n trial : vec) : vec * vec * bool * R :=
  let m := max_shear p s Fn in
  if ltR m (norm trial) then
    let breaks := cfragile s && negb (broken s) in
    let m1 := if breaks then Rmax 0 (Fn * ctan p) else m in
    let f := smul (m1 / norm trial) trial in
    let d := dot (smul (1 / cks p) (vsub trial f)) f in
    (if ltR Fn 0 then vzero else smul Fn n, f, breaks, if track k && ltR 0 d then d else 0)
  else (smul Fn n, trial, false, 0).
(** hpp:53 *)
Definition set_breaking (s : cstate) : cstate := mkCS (cfragile s) true 0 0 (unp s) (initCohesion s) (cnormal s) (cshear s) (ctwist s) (cbending s).
(** cpp:199-224 *)
Definition limited (coef : R) (fn m : vec) : vec :=
  if leR 0 coef then if ltR (coef * norm fn) (norm m) then smul (coef * norm fn / norm m) m else m else m.
(** cpp:167-197 *)
Definition trial_moments (k : cconf) (p : cparams) (s : cstate) (t : cstep) : vec * vec :=
  let n := normal (cg t) in
  if incremental k then
    let rel := vsub (w2 t) (w1 t) in
    (vsub (rotate (cg t) (ctwist s)) (smul (cktw p) (smul (cdt t) (smul (dot n rel) n))),
     vsub (rotate (cg t) (cbending s)) (smul (ckr p) (smul (cdt t) (vsub rel (smul (dot n rel) n)))))
  else (smul (gtwist t * cktw p) n, smul (ckr p) (gbending t)).

(** cpp:105-233 *)
Definition go (k : cconf) (p : cparams) (i1 i2 : nat) (t : cstep) (s : cstate) : cresult :=
  match normal_law p s (penetrationDepth (cg t)) with
  | None => NotNumber
  | Some (inr u) => Lost (mkCS (cfragile s) (broken s) (normalAdh s) (shearAdh s) u (initCohesion s) (cnormal s) (if fresh t then vzero else cshear s) (ctwist s) (cbending s))
  | Some (inl (Fn, u)) =>
    match trial_shear k p s t with
    | None => NotNumber
    | Some trial =>
      let '(fn, fs, breaks, d) := yield k p s Fn (normal (cg t)) trial in
      let b := broken s || breaks in
      let s1 := mkCS (cfragile s) b (if breaks then 0 else normalAdh s) (if breaks then 0 else shearAdh s) u (initCohesion s) fn fs (ctwist s) (cbending s) in
      let add := applyForceAtContactPoint (vsub (vopp fn) fs) (contactPoint (cg t)) i1 (at1 t) i2 (at2 t) in
      if momentLaw p && (negb b || alwaysMoment k) then
        if incremental k && twistCreep k then Throws s1 add
        else
          let (mt, mb) := trial_moments k p s t in
          let mt' := limited (maxTwistPl p) fn mt in let mb' := limited (maxRollPl p) fn mb in
          let m := vadd mt' mb' in
          Kept (mkCS (cfragile s) b (normalAdh s1) (shearAdh s1) u (initCohesion s) fn fs mt' mb') (add ++ [(i1, (vzero, vopp m)); (i2, (vzero, m))]) d
      else Kept s1 add d
    end
  end.

(** ** Materials *)
(** hpp:22-41: CohFrictMat *)
Record cmat := mkCM { cbase : material; isCohesive : bool; alphaKr : R; alphaKtw : R; etaRoll : R; etaTwist : R; normalCohesion : R; shearCohesion : R; mfragile : bool; mmoment : bool }.
(** Ip2_CohFrictMat_CohFrictMat_CohFrictPhys, hpp:160-183; [defIter] is -1 if no iteration is recorded, and is not saved *)
Record ip2state := mkIp { setNow : bool; defIter : Z }.
Record ip2conf := mkIC { onNew : bool; nMatch : option matchmaker; sMatch : option matchmaker; fMatch : option matchmaker }.
(** cpp:244-248 *)
Definition tick (iter : Z) (f : ip2state) : ip2state :=
  let d := if setNow f && (defIter f =? -1)%Z then iter else defIter f in
  if setNow f && negb (d =? -1)%Z && negb (d =? iter)%Z then mkIp false (-1) else mkIp (setNow f) d.
(** cpp:251-252; None: the MatchMaker throws *)
Definition strength (mm : option matchmaker) (m1 m2 : cmat) (field : cmat -> R) : option R :=
  match mm with Some x => mm_call x (m_id (cbase m1)) (m_id (cbase m2)) None None | None => Some (Rmin (field m1) (field m2)) end.
(** cpp:265,268-277: None: 0/0 *)
Definition harmonic (x y : R) : option R := if is0 (x + y) then None else Some (2 * x * y / (x + y)).
Definition harmonic0 (a b x y : R) : option R := if is0 a || is0 b then Some 0 else harmonic x y.
Definition adhesion (f : R) (g : scgeom) : R := f * (Rmin (radius2 g) (radius1 g) * Rmin (radius2 g) (radius1 g)).
(** cpp:285-289,301-306: [initRotations] makes elastic rotations zero (not modelled) *)
Definition make_cohesive (an sn : R) (g : scgeom) (m1 m2 : cmat) (s : cstate) : cstate :=
  mkCS (mfragile m1 || mfragile m2) false (adhesion an g) (adhesion sn g) (unp s) (initCohesion s) (cnormal s) (cshear s) (ctwist s) (cbending s).
Definition initial_state : cstate := mkCS true true 0 0 0 false vzero vzero vzero vzero.
(** cpp:254-296: a contact without physics; the rest of CohFrictPhys has its defaults *)
Definition create (c : ip2conf) (now : bool) (m1 m2 : cmat) (g : scgeom) : option (cparams * cstate) :=
  let Ea := young (cbase m1) in let Eb := young (cbase m2) in let Va := poisson (cbase m1) in let Vb := poisson (cbase m2) in
  let Da := radius1 g in let Db := radius2 g in
  match strength (nMatch c) m1 m2 normalCohesion, strength (sMatch c) m1 m2 shearCohesion,
        harmonic (Ea * Da) (Eb * Db), harmonic0 Va Vb (Ea * Da * Va) (Eb * Db * Vb),
        harmonic0 (alphaKr m1) (alphaKr m2) (alphaKr m1) (alphaKr m2), harmonic0 (alphaKtw m1) (alphaKtw m2) (alphaKtw m1) (alphaKtw m2),
        (match fMatch c with None => Some (Rmin (frictionAngle (cbase m1)) (frictionAngle (cbase m2)))
         | Some mm => mm_call mm (m_id (cbase m1)) (m_id (cbase m2)) (Some (frictionAngle (cbase m1))) (Some (frictionAngle (cbase m2))) end) with
  | Some an, Some sn, Some Kn, Some Ks, Some ar, Some atw, Some phi =>
    Some (mkCP Kn Ks (tan phi) false (Da * Db * Ks * ar) (Da * Db * Ks * atw) (Rmin (etaRoll m1 * Da) (etaRoll m2 * Db)) (Rmin (etaTwist m1 * Da) (etaTwist m2 * Db)) 0 (mmoment m1 && mmoment m2),
          if (onNew c || now) && isCohesive m1 && isCohesive m2 then make_cohesive an sn g m1 m2 initial_state else initial_state)
  | _, _, _, _, _, _, _ => None
  end.
(** cpp:297-308: a contact with physics *)
Definition update (c : ip2conf) (now : bool) (m1 m2 : cmat) (g : scgeom) (p : cparams) (s : cstate) : option (cparams * cstate) :=
  match strength (nMatch c) m1 m2 normalCohesion, strength (sMatch c) m1 m2 shearCohesion with
  | Some an, Some sn =>
    if (now && isCohesive m1 && isCohesive m2) || initCohesion s then
      let s' := make_cohesive an sn g m1 m2 s in
      Some (p, mkCS (cfragile s') (broken s') (normalAdh s') (shearAdh s') (unp s') false (cnormal s') (cshear s') (ctwist s') (cbending s'))
    else Some (p, s)
  | _, _ => None
  end.
(** cpp:236-311 *)
Definition ip2_go (c : ip2conf) (iter : Z) (f : ip2state) (m1 m2 : cmat) (g : scgeom) (old : option (cparams * cstate)) : ip2state * option (cparams * cstate) :=
  let f' := tick iter f in
  (f', match old with None => create c (setNow f') m1 m2 g | Some (p, s) => update c (setNow f') m1 m2 g p s end).

(** ** Energies *)
(** cpp:23-88; None: 0/0 *)
Definition part (v : vec) (k : R) : option R := if is0 k then None else Some (1/2 * (norm2 v / k)).
Definition add_opt (x y : option R) : option R := match x, y with Some a, Some b => Some (a + b) | _, _ => None end.
Definition sum_of (f : cparams * cstate -> option R) (l : list (cparams * cstate)) : option R := fold_left (fun e x => add_opt e (f x)) l (Some 0).
Definition normElastEnergy := sum_of (fun x => part (cnormal (snd x)) (ckn (fst x))).
Definition shearElastEnergy := sum_of (fun x => part (cshear (snd x)) (cks (fst x))).
Definition bendingElastEnergy := sum_of (fun x => part (cbending (snd x)) (ckr (fst x))).
Definition twistElastEnergy := sum_of (fun x => part (ctwist (snd x)) (cktw (fst x))).
Definition totalElastEnergy := sum_of (fun x => add_opt (add_opt (add_opt (part (cnormal (snd x)) (ckn (fst x))) (part (cshear (snd x)) (cks (fst x)))) (part (cbending (snd x)) (ckr (fst x)))) (part (ctwist (snd x)) (cktw (fst x)))).

(** ** The deprecated engine, cpp:92-103: what the functor returns is not looked at *)
Definition engine (k : cconf) (p : cparams) (i1 i2 : nat) (t : cstep) (s : cstate) : option cstate :=
  match go k p i1 i2 t s with Lost s' => Some s' | Kept s' _ _ => Some s' | Throws _ _ => None | NotNumber => None end.
