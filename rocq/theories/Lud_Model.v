(** Contacts of Luding with adhesion and plastic overlap: pkg/dem/LudingPM.{hpp,cpp}. Uses Law for geometry.

    Simplifications: real numbers without rounding, but what is not a number is None; infinite quotients are left out
    where noted; the option YADE_DEFORM (dR) is off. *)
From Coq Require Import Reals List ZArith Bool.
From Verif Require Import Vec_Model Rigid_Model Law_Model.
Import ListNotations.
Local Open Scope R_scope.

(** ** Ip2, cpp:14-96 *)
Record lmat := mkLM { lk1 : R; lkp : R; lkc : R; lks : R; lG0 : R; lPhi : R; lfrict : R }.
(** the state of a contact; k2 and DeltNull may be not a number *)
Record lphys := mkLP { k1 : R; kp : R; kc : R; lks_ : R; G0 : R; ltan : R; k2 : option R; DeltMax : R; DeltNull : option R; DeltPMax : R; DeltPNull : R; DeltPrev : R; lshear : vec }.
(** cpp:99-102 *)
Definition inv0 (x : R) : R := if Req_EM_T x 0 then 0 else 1 / x.
Definition reduced (a1 a2 : R) : R := 2 * inv0 (inv0 a1 + inv0 a2).
Inductive lmade := LPhys (p : lphys) | LThrows | LNull.
(** cpp:64-72: the radius of a body that is not a sphere is zero; None: neither is, and a null pointer is read *)
Definition radii (s1 s2 : option R) : option (R * R) :=
  match s1, s2 with Some a, Some b => Some (a, b) | Some a, None => Some (a, 0) | None, Some b => Some (0, b) | None, None => None end.
Definition ip2 (m1 m2 : lmat) (s1 s2 : option R) : lmade :=
  match radii s1 s2 with
  | None => LNull
  | Some (a1, a2) =>
    let K1 := reduced (lk1 m1) (lk1 m2) in let KP := reduced (lkp m1) (lkp m2) in let phi := reduced (lPhi m1) (lPhi m2) in
    if Rle_dec KP K1 then LThrows
    else LPhys (mkLP K1 KP (reduced (lkc m1) (lkc m2)) (reduced (lks m1) (lks m2)) (reduced (lG0 m1) (lG0 m2)) (tan (Rmin (lfrict m1) (lfrict m2)))
           (Some 0) 0 (Some 0) (KP / (KP - K1) * phi * 2 * a1 * a2 / (a1 + a2)) (phi * 2 * a1 * a2 / (a1 + a2)) 0 vzero)
  end.

(** ** hysteresis, cpp:120-173 *)
(** cpp:122-131: the stiffness of unloading; 0/0 is not a number, x/0 is infinite *)
Definition stiffness2 (p : lphys) : option R :=
  if Req_EM_T (DeltPMax p) 0 then if Req_EM_T (DeltMax p) 0 then None else Some (kp p)
  else let k := if Rle_dec 1 (DeltMax p / DeltPMax p) then kp p else k1 p + (kp p - k1 p) * DeltMax p / DeltPMax p in
       Some (if Rlt_dec (kp p) k then kp p else k).
(** cpp:133-135 *)
Definition stiffness1 (p : lphys) (K : option R) : R := match K with Some k => if Rlt_dec k (k1 p) then k else k1 p | None => k1 p end.
(** std::min((1-k1/k2)*D, DeltPNull): not a number if the first is not; k1/k2 is 0/0 if k2 is zero *)
Definition plastic (K1 : R) (K : option R) (D PN : R) : option R :=
  match K with Some k => if Req_EM_T k 0 then None else Some (let x := (1 - K1 / k) * D in if Rlt_dec PN x then PN else x) | None => None end.
(** the force, and the new DeltMax and DeltNull; None: DeltMax is infinite *)
Definition branch (K1 : R) (K : option R) (KC D : R) (PMax PNull prev : R) (dmax : R) (dnull : option R) : option (R * (R * option R)) :=
  match K, dnull with
  | Some k, Some dn =>
    let t := k * (D - dn) in
    if Rle_dec (K1 * D) t then Some (if Rlt_dec D PMax then K1 * D else t, (dmax, dnull))
    else if Rlt_dec (- KC * D) t then Some (t, (dmax, dnull))
    else if Rlt_dec (D - prev) 0 then
      if Req_EM_T (k - K1) 0 then None
      else let m := D * (k + KC) / (k - K1) in Some (- KC * D, (m, plastic K1 K m PNull))
    else Some (t, (dmax, dnull))
  | _, _ => Some (0, (dmax, dnull))                 (* all comparisons with NaN are false *)
  end.
Definition hysteresis (p : lphys) (D : R) : option (R * lphys) :=
  let K := stiffness2 p in let K1 := stiffness1 p K in
  let grow := if Rlt_dec (DeltMax p) D then true else false in
  let dmax := if grow then D else DeltMax p in
  let dnull := if grow then plastic K1 K D (DeltPNull p) else DeltNull p in
  match branch K1 K (kc p) D (DeltPMax p) (DeltPNull p) (DeltPrev p) dmax dnull with
  | None => None
  | Some (f, (m, n)) => Some (f, mkLP K1 (kp p) (kc p) (lks_ p) (G0 p) (ltan p) K m n (DeltPMax p) (DeltPNull p) D (lshear p))
  end.

(** ** the law, cpp:104-222 *)
Inductive lresult := LErase | LInfinite | LKept (p : lphys) (normalForce : vec) (added : list (nat * (vec * vec))).
Definition lset (p : lphys) (s : vec) : lphys := mkLP (k1 p) (kp p) (kc p) (lks_ p) (G0 p) (ltan p) (k2 p) (DeltMax p) (DeltNull p) (DeltPMax p) (DeltPNull p) (DeltPrev p) s.
Definition law (fresh active : bool) (dt : R) (g : scgeom) (p : lphys) (id1 : nat) (s1 : rstate) (id2 : nat) (s2 : rstate) (shift2 shiftVel : vec) : lresult :=
  if Rlt_dec (penetrationDepth g) 0 then LErase
  else
    match hysteresis p (penetrationDepth g) with
    | None => LInfinite
    | Some (fh, q) =>
      let old := rotate g (if fresh then vzero else lshear p) in
      let c1x := vsub (contactPoint g) (pos s1) in
      let c2x := vsub (vsub (contactPoint g) (pos s2)) shift2 in
      let v := vadd (vsub (vadd (vel s1) (cross (angVel s1) c1x)) (vadd (vel s2) (cross (angVel s2) c2x))) shiftVel in
      let vn := dot (normal g) v in
      let vs := vsub v (smul vn (normal g)) in
      let trial := vadd old (smul (lks_ p * dt) vs) in
      let nf := smul (fh + G0 p * vn) (normal g) in
      let maxFs := norm2 nf * (ltan p * ltan p) in
      let (sh, visc) := if Rlt_dec maxFs (norm2 trial) then (smul (sqrt maxFs / norm trial) trial, vzero) else (trial, smul (G0 p) vs) in
      let f := vadd (vadd nf sh) visc in
      LKept (lset q sh) nf (if active then [(id1, (vopp f, vopp (cross c1x f))); (id2, (f, cross c2x f))] else [])
    end.
