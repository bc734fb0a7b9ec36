(** Model of contacts between spheres: geometry (pkg/dem/Ig2_Sphere_Sphere_ScGeom.cpp,
    pkg/dem/ScGeom.cpp), stiffness (pkg/dem/FrictPhys.cpp, pkg/common/MatchMaker.cpp) and
    force (pkg/dem/ElasticContactLaw.cpp, pkg/common/Dispatching.hpp).

    Simplifications
    - real numbers without rounding (see Vec_Model.v); where the code divides by zero
      the model has a result of its own;
    - what the law adds to forces and energies is a list of contributions (for the
      containers see Force_Model.v and Energy_Model.v). *)
From Coq Require Import Reals List ZArith Bool.
From Verif Require Import Vec_Model Rigid_Model.
Import ListNotations.
Local Open Scope R_scope.

(** ** Geometry *)
(** ScGeom and GenericSpheresContact; radius1 and radius2 are references to refR1, refR2 *)
Record scgeom := mkG { normal : vec; contactPoint : vec; penetrationDepth : R; radius1 : R; radius2 : R;
  twist_axis : vec; orthonormal_axis : vec; shearInc : vec }.

(** ScGeom.cpp:15-22 *)
Definition rotate (g : scgeom) (s : vec) : vec :=
  let s1 := vsub s (cross s (orthonormal_axis g)) in vsub s1 (cross s1 (twist_axis g)).

(** ScGeom.cpp:55-81 *)
Definition getIncidentVel (g : scgeom) (s1 s2 : rstate) (shift2 shiftVel : vec) (avoidGranularRatcheting : bool) : vec :=
  if avoidGranularRatcheting then
    let alpha := (radius1 g + radius2 g) / (radius1 g + radius2 g - penetrationDepth g) in
    vadd (vsub (vadd (smul alpha (vsub (vel s2) (vel s1))) (cross (angVel s2) (smul (- radius2 g) (normal g)))) (cross (angVel s1) (smul (radius1 g) (normal g))))
         (smul alpha shiftVel)
  else
    let c1x := vsub (contactPoint g) (pos s1) in
    let c2x := vsub (contactPoint g) (vadd (pos s2) shift2) in
    vadd (vsub (vadd (vel s2) (cross (angVel s2) c2x)) (vadd (vel s1) (cross (angVel s1) c1x))) shiftVel.

(** ScGeom.cpp:38-51 *)
Definition precompute (dt : R) (g : scgeom) (s1 s2 : rstate) (currentNormal : vec) (isNew : bool) (shift2 shiftVel : vec) (avoid : bool) : scgeom :=
  let ortho := if isNew then vzero else cross (normal g) currentNormal in
  let angle := dt * (1/2) * dot (normal g) (vadd (angVel s1) (angVel s2)) in
  let twist := if isNew then vzero else smul angle (normal g) in
  let g1 := mkG currentNormal (contactPoint g) (penetrationDepth g) (radius1 g) (radius2 g) twist ortho (shearInc g) in
  let rel := getIncidentVel g1 s1 s2 shift2 shiftVel avoid in
  let rel := vsub rel (smul (dot currentNormal rel) currentNormal) in
  mkG currentNormal (contactPoint g) (penetrationDepth g) (radius1 g) (radius2 g) twist ortho (smul dt rel).

(** outcome of an IGeomFunctor *)
Inductive geom_result :=
| NoContact                 (* returns false *)
| Contact (g : scgeom)      (* returns true, Interaction::geom is g *)
| ZeroDistance.             (* division of the normal by zero *)

(** Ig2_Sphere_Sphere_ScGeom.cpp:13-47; [old] is Interaction::geom, [isReal] says
    whether the interaction has geom and phys *)
Definition ig2 (dt factor : R) (avoid : bool) (r1 r2 : R) (s1 s2 : rstate) (shift2 shiftVel : vec) (force isReal : bool) (old : option scgeom) : geom_result :=
  let n := vsub (vadd (pos s2) shift2) (pos s1) in
  let d2 := Rsqr (factor * (r1 + r2)) - norm2 n in
  if negb isReal && negb force && (if Rlt_dec d2 0 then true else false) then NoContact
  else
    let d := norm n in
    if Req_EM_T d 0 then ZeroDistance
    else
      let n1 := smul (/ d) n in
      let depth := r1 + r2 - d in
      let cp := vadd (pos s1) (smul (r1 - 1/2 * depth) n1) in
      let isNew := match old with None => true | Some _ => false end in
      let g0 := match old with Some g => g | None => mkG vzero vzero 0 0 0 vzero vzero vzero end in
      Contact (precompute dt (mkG (normal g0) cp depth r1 r2 (twist_axis g0) (orthonormal_axis g0) (shearInc g0)) s1 s2 n1 isNew shift2 shiftVel avoid).

(** Ig2_Facet_Sphere_ScGeom.cpp:178-206: wall with axis [ax], interacting side [sense] (-1, 0
    or 1) and a sphere *)
Definition comp (ax : nat) (v : vec) : R := match ax with O => vx v | 1%nat => vy v | _ => vz v end.
Definition with_comp (ax : nat) (v : vec) (x : R) : vec := match ax with O => V x (vy v) (vz v) | 1%nat => V (vx v) x (vz v) | _ => V (vx v) (vy v) x end.
Definition ig2_wall (dt : R) (noRatch : bool) (ax : nat) (sense : Z) (r : R) (s1 s2 : rstate) (shift2 shiftVel : vec) (force isReal : bool) (old : option scgeom) : geom_result :=
  let dist := comp ax (pos s2) + comp ax shift2 - comp ax (pos s1) in
  if negb isReal && (if Rlt_dec r (Rabs dist) then true else false) && negb force then NoContact
  else
    let cp := with_comp ax (vadd (pos s2) shift2) (comp ax (pos s1)) in
    let n := with_comp ax vzero (if (sense =? 0)%Z then (if Rlt_dec 0 dist then 1 else -1) else if (sense =? 1)%Z then 1 else -1) in
    let isNew := match old with None => true | Some _ => false end in
    let g0 := match old with Some g => g | None => mkG vzero vzero 0 0 0 vzero vzero vzero end in
    Contact (precompute dt (mkG (normal g0) cp (- (Rabs dist - r)) r r (twist_axis g0) (orthonormal_axis g0) (shearInc g0)) s1 s2 n isNew shift2 shiftVel noRatch).

(** ** Stiffness *)
(** MatchMaker.hpp:16-22 *)
Inductive algo := Aval | Azero | Aavg | Amin | Amax | AharmAvg.
(** [matchSet] is filled by insert(): the first value of a pair stays (MatchMaker.cpp:34-40) *)
Record matchmaker := mkMM { m_algo : algo; m_val : R; matchSet : list ((Z * Z) * R) }.
Definition find_pair (l : list ((Z * Z) * R)) (p : Z * Z) : option R :=
  match find (fun e => (fst (fst e) =? fst p)%Z && (snd (fst e) =? snd p)%Z) l with Some e => Some (snd e) | None => None end.
Definition insert_pair (l : list ((Z * Z) * R)) (p : Z * Z) (v : R) : list ((Z * Z) * R) :=
  match find_pair l p with Some _ => l | None => l ++ [(p, v)] end.
(** MatchMaker.cpp:25-41; the cast of ids to int is left out *)
Definition postLoad (a : algo) (v : R) (matches : list (Z * Z * R)) : matchmaker :=
  mkMM a v (fold_left (fun l m => insert_pair l (Z.min (fst (fst m)) (snd (fst m)), Z.max (fst (fst m)) (snd (fst m))) (snd m)) matches []).
Definition needs_values (a : algo) : bool := match a with Aval | Azero => false | _ => true end.
(** MatchMaker.hpp:16-21; None: 0/0 *)
Definition computeFallback (m : matchmaker) (v1 v2 : R) : option R :=
  match m_algo m with
  | Aval => Some (m_val m) | Azero => Some 0 | Aavg => Some ((v1 + v2) / 2) | Amin => Some (Rmin v1 v2) | Amax => Some (Rmax v1 v2)
  | AharmAvg => if Req_EM_T (v1 + v2) 0 then None else Some (2 * v1 * v2 / (v1 + v2))
  end.
(** MatchMaker.cpp:7-23; a missing value (NaN) is None; the result is None if the call
    throws or gives no number *)
Definition mm_call (m : matchmaker) (id1 id2 : Z) (v1 v2 : option R) : option R :=
  match find_pair (matchSet m) (Z.min id1 id2, Z.max id1 id2) with
  | Some v => Some v
  | None => match v1, v2 with
            | Some a, Some b => computeFallback m a b
            | _, _ => if needs_values (m_algo m) then None else computeFallback m 0 0
            end
  end.

(** FrictMat, with ElastMat and Material *)
Record material := mkMat { m_id : Z; young : R; poisson : R; frictionAngle : R }.
(** FrictPhys, NormShearPhys *)
Record fphys := mkP { kn : R; ks : R; tanPhi : R; normalForce : vec; shearForce : vec }.
Inductive phys_result := Phys (p : fphys) | NotANumber.
(** FrictPhys.cpp:7-38 (and 40-71); NotANumber: a stiffness is 0/0 *)
Definition ip2 (frictAngle : option matchmaker) (m1 m2 : material) (g : scgeom) (old : option fphys) : phys_result :=
  match old with
  | Some p => Phys p
  | None =>
    let Ra := if Rlt_dec 0 (radius1 g) then radius1 g else radius2 g in
    let Rb := if Rlt_dec 0 (radius2 g) then radius2 g else radius1 g in
    let a := young m1 * Ra in let b := young m2 * Rb in
    let va := young m1 * Ra * poisson m1 in let vb := young m2 * Rb * poisson m2 in
    if Req_EM_T (a + b) 0 then NotANumber else if Req_EM_T (va + vb) 0 then NotANumber
    else match (match frictAngle with None => Some (Rmin (frictionAngle m1) (frictionAngle m2))
                | Some mm => mm_call mm (m_id m1) (m_id m2) (Some (frictionAngle m1)) (Some (frictionAngle m2)) end) with
         | Some phi => Phys (mkP (2 * a * b / (a + b)) (2 * va * vb / (va + vb)) (tan phi) vzero vzero)
         | None => NotANumber
         end
  end.

(** ** Forces *)
Record lawconf := mkL { neverErase : bool; sphericalBodies : bool; traceEnergy : bool; trackEnergy : bool; periodic : bool }.
(** what a call of the law adds: to forces and torques of bodies, to the functor's
    plasticDissipation, and to O.energy['plastDissip'] and O.energy['elastPotential'] *)
Record effects := mkE { added : list (nat * (vec * vec)); plasticDissipation : R; plastDissip : R; elastPotential : R }.
(** Dispatching.hpp:63-66 *)
Definition applyForceAtContactPoint (f cp : vec) (id1 : nat) (pos1 : vec) (id2 : nat) (pos2 : vec) : list (nat * (vec * vec)) :=
  [(id1, (f, cross (vsub cp pos1) f)); (id2, (vopp f, vopp (cross (vsub cp pos2) f)))].
(** ElasticContactLaw.cpp:58-60,68-90: the forces of the contact; the new shear force
    and the plastic work *)
Definition slip (p : fphys) (fn trial : vec) : vec * R :=
  let maxFs := norm2 fn * (tanPhi p * tanPhi p) in
  if Rlt_dec maxFs (norm2 trial) then
    let s := smul (sqrt maxFs / norm trial) trial in (s, dot (smul (1 / ks p) (vsub trial s)) s)
  else (trial, 0).
(** ElasticContactLaw.cpp:50-105; None: returns false *)
Definition law (L : lawconf) (g : scgeom) (p : fphys) (id1 : nat) (pos1 : vec) (id2 : nat) (pos2 : vec) : option (fphys * effects) :=
  let away := if Rlt_dec (penetrationDepth g) 0 then true else false in
  if away && negb (neverErase L) then None
  else
    let s0 := if away then vzero else shearForce p in
    let fn := smul (kn p * Rmax (penetrationDepth g) 0) (normal g) in
    let trial := vsub (rotate g s0) (smul (ks p) (shearInc g)) in
    let (fs, dissip) := slip p fn trial in
    let tracked := trackEnergy L || traceEnergy L in
    let f := vsub (vopp fn) fs in
    let add := if negb (periodic L) && negb (sphericalBodies L) then applyForceAtContactPoint f (contactPoint g) id1 pos1 id2 pos2
      else [(id1, (f, smul (radius1 g - 1/2 * penetrationDepth g) (cross (normal g) f)));
            (id2, (vopp f, smul (radius2 g - 1/2 * penetrationDepth g) (cross (normal g) f)))] in
    Some (mkP (kn p) (ks p) (tanPhi p) fn fs,
          mkE add (if traceEnergy L then dissip else 0)
            (if tracked && negb (traceEnergy L) then if Rlt_dec 0 dissip then dissip else 0 else 0)
            (if tracked then 1/2 * (norm2 fn / kn p + norm2 fs / ks p) else 0)).

(** ElasticContactLaw.cpp:107-117: creep of the shear force before the law; [creeped] is
    ViscoFrictPhys::creepedShear *)
Definition creep (dt viscosity creepStiffness : R) (g : scgeom) (p : fphys) (creeped : vec) : fphys * vec :=
  let c0 := rotate g creeped in
  let c1 := vadd c0 (smul (creepStiffness * ks p * (dt / viscosity)) (vsub (shearForce p) c0)) in
  (mkP (kn p) (ks p) (tanPhi p) (normalForce p) (vsub (shearForce p) (smul (ks p) (smul (dt / viscosity) (vsub (shearForce p) c1)))), c1).

(** ** All contacts of a scene of spheres *)
(** an interaction of two spheres with its bodies, as InteractionLoop treats it: the
    dispatchers find the functors above (InteractionLoop.cpp:103-158) *)
Record contact := mkCt { id1 : nat; id2 : nat; geom : option scgeom; phys : option fphys; shift2 : vec; shiftVel : vec }.
Record ball := mkBall { radius : R; mat_ : material; state : rstate }.
Record sim := mkSim { dt : R; factor : R; avoid : bool; frictAngle : option matchmaker; lawc : lawconf }.
Inductive treated :=
| Kept (c : contact) (e : effects)   (* the law was applied *)
| Skipped                            (* no contact *)
| Reset                              (* the law asks to reset the interaction *)
| Failed.                            (* not a number *)
Definition treat (S : sim) (c : contact) (b1 b2 : ball) : treated :=
  let isReal := match geom c, phys c with Some _, Some _ => true | _, _ => false end in
  match ig2 (dt S) (factor S) (avoid S) (radius b1) (radius b2) (state b1) (state b2) (shift2 c) (shiftVel c) false isReal (geom c) with
  | NoContact => Skipped
  | ZeroDistance => Failed
  | Contact g =>
    match ip2 (frictAngle S) (mat_ b1) (mat_ b2) g (phys c) with
    | NotANumber => Failed
    | Phys p => match law (lawc S) g p (id1 c) (pos (state b1)) (id2 c) (pos (state b2)) with
                | Some (p', e) => Kept (mkCt (id1 c) (id2 c) (Some g) (Some p') (shift2 c) (shiftVel c)) e
                | None => Reset
                end
    end
  end.
(** the loop over interactions; bodies that do not exist: the interaction is skipped
    (InteractionLoop.cpp:77-81); None: a force is not a number *)
Fixpoint loop (S : sim) (balls : nat -> option ball) (cs : list contact) : option (list contact * list (nat * (vec * vec))) :=
  match cs with
  | [] => Some ([], [])
  | c :: cs' =>
    match loop S balls cs' with
    | None => None
    | Some (r, a) =>
      match balls (id1 c), balls (id2 c) with
      | Some b1, Some b2 => match treat S c b1 b2 with
                            | Failed => None
                            | Skipped => Some (c :: r, a)
                            | Reset => Some (mkCt (id1 c) (id2 c) None None (shift2 c) (shiftVel c) :: r, a)
                            | Kept c' e => Some (c' :: r, added e ++ a)
                            end
      | _, _ => Some (mkCt (id1 c) (id2 c) None None (shift2 c) (shiftVel c) :: r, a)
      end
    end
  end.
