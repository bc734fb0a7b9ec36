(** Mortar layers between bodies: pkg/dem/MortarMat.{hpp,cpp}. Uses Law for geometry.

    Simplifications: real numbers without rounding; a quotient by zero is an outcome of its own. The members sigmaN and
    sigmaT of a new MortarPhys, which the constructor leaves uninitialized, are zero here; nothing reads them. The base
    class has members young, poisson and frictionAngle of its own, hidden by those of MortarMat and not modelled. *)
From Coq Require Import Reals List ZArith Bool.
From Verif Require Import Vec_Model Law_Model.
Import ListNotations.
Local Open Scope R_scope.

(** MortarMat, hpp:21-38 *)
Record mmat := mkMM { mmid : Z; myoung : R; mratio : R; mangle : R; tensile : R; compressive : R; cohesive : R; aspect : R; never : bool }.
(** MortarPhys, hpp:46-68 *)
Record mphys := mkMP { pkn : R; pks : R; ptan : R; ft : R; fc : R; coh : R; ell : R; section : R; pnever : bool; sigmaN : R; sigmaT : vec; fN : vec; fS : vec }.
(** cpp:47: the smaller positive radius *)
Definition minRad (r1 r2 : R) : R := if Rle_dec r1 0 then r2 else if Rle_dec r2 0 then r1 else Rmin r1 r2.
(** cpp:21-41: strengths; the stiffnesses come later *)
Definition strengths (m1 m2 : mmat) (kn ks A : R) : mphys :=
  if ((0 <=? mmid m1)%Z && (mmid m1 =? mmid m2)%Z)%bool
  then mkMP kn ks (tan (mangle m1)) (tensile m1) (compressive m1) (cohesive m1) (aspect m1) A (never m1) 0 vzero vzero vzero
  else mkMP kn ks (tan (1/2 * (mangle m1 + mangle m2))) (Rmin (tensile m1) (tensile m2)) (Rmin (compressive m1) (compressive m2)) (Rmin (cohesive m1) (cohesive m2))
         (1/2 * (aspect m1 + aspect m2)) A (never m1 || never m2) 0 vzero vzero vzero.
(** Ip2, cpp:9-55: what is made, and whether an error is logged; None: a stiffness is a quotient by zero *)
Definition ip2 (iter threshold : Z) (m1 m2 : mmat) (r1 r2 : R) (old : option mphys) : option mphys * bool :=
  match old with
  | Some p => (Some p, false)
  | None =>
    let a := myoung m1 * r1 in let b := myoung m2 * r2 in
    let va := myoung m1 * r1 * mratio m1 in let vb := myoung m2 * r2 * mratio m2 in
    (if Req_EM_T (a + b) 0 then None else if Req_EM_T (va + vb) 0 then None
     else Some (strengths m1 m2 (2 * myoung m1 * r1 * myoung m2 * r2 / (a + b)) (2 * myoung m1 * r1 * mratio m1 * myoung m2 * r2 * mratio m2 / (va + vb)) (minRad r1 r2 * minRad r1 r2)),
     (threshold <=? iter)%Z)
  end.
(** failureCondition, cpp:64-69 *)
Definition failureCondition (p : mphys) (s t : R) : bool :=
  let pos x := if Rlt_dec 0 x then true else false in
  pos (s - ft p) || pos (t + s * ptan p - coh p) || pos (s * s + (ell p * t) * (ell p * t) - fc p * fc p).
(** Law2_ScGeom_MortarPhys_Lourenco, cpp:79-120 *)
Inductive mlaw := MNaN | MBroken (p : mphys) | MKept (p : mphys) (added : list (nat * (vec * vec))).
Definition law (periodic : bool) (g : scgeom) (p : mphys) (i1 : nat) (pos1 : vec) (i2 : nat) (pos2 : vec) : mlaw :=
  let n := smul (pkn p * penetrationDepth g) (normal g) in
  let s := vsub (rotate g (fS p)) (smul (pks p) (shearInc g)) in
  if Req_EM_T (section p) 0 then MNaN
  else
    let sN := - dot n (normal g) / section p in
    let sT := smul (/ section p) (vopp s) in
    let p' := mkMP (pkn p) (pks p) (ptan p) (ft p) (fc p) (coh p) (ell p) (section p) (pnever p) sN sT n s in
    if negb (pnever p) && failureCondition p sN (norm sT) then MBroken p'
    else
      let f := vsub (vopp n) s in
      MKept p' (if negb periodic then applyForceAtContactPoint f (contactPoint g) i1 pos1 i2 pos2
                else [(i1, (f, smul (radius1 g - 1/2 * penetrationDepth g) (cross (normal g) f)));
                      (i2, (vopp f, smul (radius2 g - 1/2 * penetrationDepth g) (cross (normal g) f)))]).
