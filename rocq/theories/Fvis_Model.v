(** Contacts with friction and normal viscous damping: pkg/dem/FrictViscoPM.{hpp,cpp}. Uses Law for geometry,
    matchmakers and what is common with the law of Cundall and Strack.

    Simplifications: real numbers without rounding; a quotient by zero, the root of a negative number and an
    exception of a matchmaker are outcomes of their own, but for the quotients by ks and kn in energies, as in Law. *)
From Coq Require Import Reals List ZArith Bool.
From Verif Require Import Vec_Model Rigid_Model Law_Model.
Import ListNotations.
Local Open Scope R_scope.

(** FrictViscoPhys, FrictViscoPM.hpp:42-58; cn_crit is NaN until it is set *)
Record vphys := mkVP { fp : fphys; cn_crit : option R; cn : R; normalViscous : vec }.
(** a body as far as Ip2 is concerned *)
Record partner := mkPt { pmass : R; dynamic : bool }.

(** cpp:43-47, 104-108; the matchmakers are called without values *)
Definition normal_stiffness (mm : option matchmaker) (m1 m2 : material) (Ra Rb : R) : option R :=
  match mm with
  | Some m => mm_call m (m_id m1) (m_id m2) None None
  | None => let a := young m1 * Ra in let b := young m2 * Rb in if Req_EM_T (a + b) 0 then None else Some (2 * a * b / (a + b))
  end.
Definition shear_stiffness (mm : option matchmaker) (m1 m2 : material) (Ra Rb Kn : R) : option R :=
  match mm with
  | Some m => option_map (fun r => r * Kn) (mm_call m (m_id m1) (m_id m2) None None)
  | None => let a := young m1 * Ra * poisson m1 in let b := young m2 * Rb * poisson m2 in if Req_EM_T (a + b) 0 then None else Some (2 * a * b / (a + b))
  end.
Definition friction_angle (mm : option matchmaker) (m1 m2 : material) : option R :=
  match mm with
  | Some m => mm_call m (m_id m1) (m_id m2) (Some (frictionAngle m1)) (Some (frictionAngle m2))
  | None => Some (Rmin (frictionAngle m1) (frictionAngle m2))
  end.
(** cpp:70, 130: equivalent mass *)
Definition mbar (a b : partner) : option R :=
  if negb (dynamic a) && dynamic b then Some (pmass b)
  else if negb (dynamic b) && dynamic a then Some (pmass a)
  else if Req_EM_T (pmass a + pmass b) 0 then None else Some (pmass a * pmass b / (pmass a + pmass b)).
Definition root (x : R) : option R := if Rlt_dec x 0 then None else Some (sqrt x).
Definition is0 (x : R) : bool := if Req_EM_T x 0 then true else false.
(** cpp:58-77: cn_crit and cn *)
Definition damping (Kn betana betanb : R) (a b : partner) : option (option R * R) :=
  if negb (is0 betana) || negb (is0 betanb) then
    match mbar a b with
    | None => None
    | Some m => match root (m * Kn) with
                | None => None
                | Some q => let c := 2 * q in
                            Some (Some c, c * (if negb (is0 betana) && negb (is0 betanb) then (betana + betanb) / 2 else if is0 betanb then betana else betanb))
                end
    end
  else Some (None, 0).
(** cpp:120-137: only the second material has a fraction *)
Definition damping_mixed (Kn betanb : R) (a b : partner) : option (option R * R) :=
  if negb (is0 betanb) then
    match mbar a b with
    | None => None
    | Some m => match root (m * Kn) with None => None | Some q => Some (Some (2 * q), 2 * q * betanb) end
    end
  else Some (None, 0).
Record makers := mkMk { mm_kn : option matchmaker; mm_kRatio : option matchmaker; mm_frict : option matchmaker }.
Definition ip2_common (K : makers) (m1 m2 : material) (g : scgeom) (damp : R -> option (option R * R)) : option vphys :=
  let Ra := if Rlt_dec 0 (radius1 g) then radius1 g else radius2 g in
  let Rb := if Rlt_dec 0 (radius2 g) then radius2 g else radius1 g in
  match normal_stiffness (mm_kn K) m1 m2 Ra Rb with
  | None => None
  | Some Kn =>
    match shear_stiffness (mm_kRatio K) m1 m2 Ra Rb Kn, friction_angle (mm_frict K) m1 m2, damp Kn with
    | Some Ks, Some phi, Some (cc, c) => Some (mkVP (mkP Kn Ks (tan phi) vzero vzero) cc c vzero)
    | _, _, _ => None
    end
  end.
(** cpp:25-79; None: not a number, or an exception *)
Definition ip2_visco (K : makers) (m1 m2 : material) (b1 b2 : R) (p1 p2 : partner) (g : scgeom) (old : option vphys) : option vphys :=
  match old with Some p => Some p | None => ip2_common K m1 m2 g (fun Kn => damping Kn b1 b2 p1 p2) end.
(** cpp:84-139 *)
Definition ip2_mixed (K : makers) (m1 m2 : material) (b2 : R) (p1 p2 : partner) (g : scgeom) (old : option vphys) : option vphys :=
  match old with Some p => Some p | None => ip2_common K m1 m2 g (fun Kn => damping_mixed Kn b2 p1 p2) end.

(** cpp:161-228 *)
Inductive vresult := VErase | VNaN | VKept (p : vphys) (e : effects).
Definition vlaw (L : lawconf) (g : scgeom) (p : vphys) (id1 : nat) (s1 : rstate) (id2 : nat) (s2 : rstate) (shift2 shiftVel : vec) : vresult :=
  let away := if Rlt_dec (penetrationDepth g) 0 then true else false in
  if away && negb (neverErase L) then VErase
  else if Req_EM_T (radius1 g + radius2 g - penetrationDepth g) 0 then VNaN
  else
    let q := fp p in
    let s0 := if away then vzero else shearForce q in
    let elastic := smul (kn q * Rmax (penetrationDepth g) 0) (normal g) in
    let v := getIncidentVel g s1 s2 shift2 shiftVel true in
    let visc := smul (cn p) (smul (dot (normal g) v) (normal g)) in
    let fn := vsub elastic visc in
    let trial := vsub (rotate g s0) (smul (ks q) (shearInc g)) in
    let (fs, dissip) := slip q fn trial in
    let tracked := trackEnergy L || traceEnergy L in
    let f := vsub (vopp fn) fs in
    let add := if negb (periodic L) && negb (sphericalBodies L) then applyForceAtContactPoint f (contactPoint g) id1 (pos s1) id2 (pos s2)
      else [(id1, (f, smul (radius1 g - 1/2 * penetrationDepth g) (cross (normal g) f)));
            (id2, (vopp f, smul (radius2 g - 1/2 * penetrationDepth g) (cross (normal g) f)))] in
    VKept (mkVP (mkP (kn q) (ks q) (tanPhi q) fn fs) (cn_crit p) (cn p) visc)
          (mkE add (if traceEnergy L then dissip else 0)
            (if tracked && negb (traceEnergy L) then if Rlt_dec 0 dissip then dissip else 0 else 0)
            (if tracked then 1/2 * (norm2 fn / kn q + norm2 fs / ks q) else 0)).
(** cpp:146-157: sum over real contacts *)
Definition elasticEnergy (l : list vphys) : R :=
  fold_left (fun e p => e + 1/2 * (norm2 (normalForce (fp p)) / kn (fp p) + norm2 (shearForce (fp p)) / ks (fp p))) l 0.
