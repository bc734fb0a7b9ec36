(** Model of the periodic cell: core/Cell.hpp, core/Cell.cpp, the use of it in
    pkg/dem/NewtonIntegrator.cpp (velGrad), and boxes around spheres in a periodic scene
    (pkg/common/Bo1_Aabb.cpp).

    Simplifications
    - real numbers without rounding (see Vec_Model.v), but for [wrapNum_double];
    - display matrices are left out. *)
From Coq Require Import Reals List ZArith Bool.
From Coq Require Import Floats.SpecFloat.
From Verif Require Import Vec_Model.
Import ListNotations.
Local Open Scope R_scope.

(** attributes and caches of Cell; [skew] is _cos *)
Record cell := mkCell {
  trsf : mat; invTrsf : mat; hSize : mat; prevHSize : mat; refHSize : mat;
  velGrad : mat; nextVelGrad : mat; velGradChanged : bool;
  vGradTimesPrevH : mat; size : vec; skew : vec; shearTrsf : mat; unshearTrsf : mat; hasShear : bool }.

Definition nonzero (x : R) : bool := if Req_EM_T x 0 then false else true.
(** Cell.cpp:20-21 for one column *)
Definition unit_col (v : vec) : vec := smul (/ norm v) v.
(** Cell.cpp:19-22 *)
Definition Hnorm (h : mat) : mat := columns (unit_col (col0 h)) (unit_col (col1 h)) (unit_col (col2 h)).
Inductive result := Updated (c : cell) | Degenerate (c : cell).   (* Degenerate: exception *)
(** Cell.cpp:6-36 *)
Definition integrateAndUpdate (dt : R) (c : cell) : result :=
  let inc := mscale dt (velGrad c) in
  let t := madd (trsf c) (mmul inc (trsf c)) in
  let h := madd (hSize c) (mmul inc (hSize c)) in
  let vg := mmul (velGrad c) (hSize c) in
  if Req_EM_T (det h) 0 then
    Degenerate (mkCell t (minv t) h (hSize c) (refHSize c) (velGrad c) (nextVelGrad c) (velGradChanged c) vg (size c) (skew c) (shearTrsf c) (unshearTrsf c) (hasShear c))
  else
    let H := Hnorm h in
    Updated (mkCell t (minv t) h (hSize c) (refHSize c) (velGrad c) (nextVelGrad c) (velGradChanged c) vg
      (V (norm (col0 h)) (norm (col1 h)) (norm (col2 h)))
      (V (norm2 (cross (col1 H) (col2 H))) (norm2 (cross (col2 H) (col0 H))) (norm2 (cross (col0 H) (col1 H))))
      H (minv H)
      (nonzero (vy (r0 h)) || nonzero (vz (r0 h)) || nonzero (vx (r1 h)) || nonzero (vz (r1 h)) || nonzero (vx (r2 h)) || nonzero (vy (r2 h)))).

Definition with_h (c : cell) (t h ref : mat) : cell :=
  mkCell t (invTrsf c) h (prevHSize c) ref (velGrad c) (nextVelGrad c) (velGradChanged c) (vGradTimesPrevH c) (size c) (skew c) (shearTrsf c) (unshearTrsf c) (hasShear c).
Definition with_vg (c : cell) (vg next : mat) (ch : bool) : cell :=
  mkCell (trsf c) (invTrsf c) (hSize c) (prevHSize c) (refHSize c) vg next ch (vGradTimesPrevH c) (size c) (skew c) (shearTrsf c) (unshearTrsf c) (hasShear c).
Definition and_then (r : result) (f : cell -> result) : result := match r with Updated c => f c | d => d end.
(** Cell.hpp:126 *)
Definition postLoad (c : cell) : result := integrateAndUpdate 0 c.
(** Cell.hpp:99 *)
Definition setHSize (m : mat) (c : cell) : result := postLoad (with_h c (trsf c) m m).
(** Cell.hpp:102 *)
Definition setTrsf (m : mat) (c : cell) : result := postLoad (with_h c m (hSize c) (refHSize c)).
(** Cell.hpp:122 *)
Definition setBox (s : vec) (c : cell) : result := and_then (setHSize (diag s) c) (fun c1 => postLoad (with_h c1 mid (hSize c1) (refHSize c1))).
(** Cell.hpp:27 *)
Definition setSize (s : vec) (c : cell) : result :=
  let h := hSize c in
  let h' := columns (smul (vx s / norm (col0 h)) (col0 h)) (smul (vy s / norm (col1 h)) (col1 h)) (smul (vz s / norm (col2 h)) (col2 h)) in
  postLoad (with_h c (trsf c) h' h').
(** Cell.hpp:104 *)
Definition setVelGrad (m : mat) (c : cell) : cell := with_vg c (velGrad c) m true.
Definition vec_is_zero (a : vec) : bool := negb (nonzero (vx a)) && negb (nonzero (vy a)) && negb (nonzero (vz a)).
Definition mat_is_zero (A : mat) : bool := vec_is_zero (r0 A) && vec_is_zero (r1 A) && vec_is_zero (r2 A).
(** NewtonIntegrator.cpp:94-96 *)
Definition applyVelGrad (c : cell) : cell :=
  if velGradChanged c || negb (mat_is_zero (nextVelGrad c)) then with_vg c (nextVelGrad c) mzero false else c.
(** Cell.hpp:108, 125 *)
Definition getHSize0 (c : cell) : mat := mmul (invTrsf c) (hSize c).
Definition getVolume (c : cell) : R := det (hSize c).
(** Cell.hpp:163 with the defaults in :153-162 *)
Definition fresh : result :=
  integrateAndUpdate 0 (mkCell mid mid mid mid mid mzero mzero false mzero vzero vzero mid mid false).

(** what happens to a cell *)
Inductive op :=
| Begin (dt : R)           (* beginning of a step: Scene.cpp:89,129 *)
| Newton                   (* NewtonIntegrator *)
| AssignVelGrad (m : mat)  (* O.cell.velGrad=m *)
| AssignHSize (m : mat) | AssignTrsf (m : mat) | AssignBox (s : vec) | AssignSize (s : vec).
Definition exec1 (o : op) (c : cell) : result :=
  match o with
  | Begin dt => integrateAndUpdate dt c
  | Newton => Updated (applyVelGrad c)
  | AssignVelGrad m => Updated (setVelGrad m c)
  | AssignHSize m => setHSize m c | AssignTrsf m => setTrsf m c | AssignBox s => setBox s c | AssignSize s => setSize s c
  end.
(** an exception ends the history *)
Fixpoint exec (os : list op) (c : cell) : result :=
  match os with [] => Updated c | o :: os' => and_then (exec1 o c) (exec os') end.

(** ** wrapping *)
(** Cell.hpp:85-86 *)
Definition wrapNum (x sz : R) : R := let n := x / sz in (n - IZR (Int_part n)) * sz.
(** conversion to int; None: undefined behaviour *)
Definition to_int (z : Z) : option Z := if (- 2 ^ 31 <=? z)%Z && (z <? 2 ^ 31)%Z then Some z else None.
(** Cell.hpp:88-89 *)
Definition wrapNumPeriod (x sz : R) : option (R * Z) :=
  let n := x / sz in match to_int (Int_part n) with Some p => Some ((n - IZR p) * sz, p) | None => None end.
(** Cell.hpp:79-80 *)
Definition wrapPt (s p : vec) : vec := V (wrapNum (vx p) (vx s)) (wrapNum (vy p) (vy s)) (wrapNum (vz p) (vz s)).
(** Cell.hpp:82-83 *)
Definition wrapPtPeriod (s p : vec) : option (vec * (Z * Z * Z)) :=
  match wrapNumPeriod (vx p) (vx s), wrapNumPeriod (vy p) (vy s), wrapNumPeriod (vz p) (vz s) with
  | Some (x, i), Some (y, j), Some (z, k) => Some (V x y z, (i, j, k))
  | _, _, _ => None
  end.
(** Cell.hpp:75-77 *)
Definition unshearPt (c : cell) (p : vec) : vec := mulv (unshearTrsf c) p.
Definition shearPt (c : cell) (p : vec) : vec := mulv (shearTrsf c) p.
(** Cell.hpp:71, 73 *)
Definition wrapShearedPt (c : cell) (p : vec) : vec := shearPt c (wrapPt (size c) (unshearPt c p)).
Definition wrapShearedPtPeriod (c : cell) (p : vec) : option (vec * (Z * Z * Z)) :=
  match wrapPtPeriod (size c) (unshearPt c p) with Some (q, k) => Some (shearPt c q, k) | None => None end.
(** Vector3i cast to Real *)
Definition cast (k : Z * Z * Z) : vec := let '(i, j, l) := k in V (IZR i) (IZR j) (IZR l).
(** Cell.hpp:92-93 *)
Definition intrShiftPos (c : cell) (k : Z * Z * Z) : vec := mulv (hSize c) (cast k).
Definition intrShiftVel (c : cell) (k : Z * Z * Z) : vec := mulv (vGradTimesPrevH c) (cast k).

(** ** wrapNum with the numbers of the machine: double is binary64 *)
Definition prec : Z := 53%Z. Definition emax : Z := 1024%Z.
(** floor() of math.h *)
Definition sf_floor (x : spec_float) : spec_float :=
  match x with
  | S754_finite s m e =>
      if (0 <=? e)%Z then x
      else let d := (2 ^ (- e))%Z in
           binary_normalize prec emax (if s then - ((Z.pos m + d - 1) / d) else Z.pos m / d)%Z 0 s
  | _ => x
  end.
(** Cell.hpp:85-86 *)
Definition wrapNum_double (x sz : spec_float) : spec_float :=
  let n := SFdiv prec emax x sz in SFmul prec emax (SFsub prec emax n (sf_floor n)) sz.

(** ** boxes around spheres *)
(** Bo1_Aabb.cpp:13-36; [enlarge]: aabbEnlargeFactor *)
Definition sphere_half (enlarge radius : R) (c : cell) : vec :=
  let f := if Rlt_dec 0 enlarge then enlarge else 1 in
  let h := f * radius in
  let e i := 1/2 * h * (1 / i - 1) in
  let s := skew c in
  if hasShear c then V (h + e (vy s) + e (vz s)) (h + e (vx s) + e (vz s)) (h + e (vx s) + e (vy s)) else V h h h.
Definition sphere_aabb (enlarge radius : R) (periodic : bool) (c : cell) (p : vec) : vec * vec :=
  if periodic then let h := sphere_half enlarge radius c in (vsub (unshearPt c p) h, vadd (unshearPt c p) h)
  else let f := if Rlt_dec 0 enlarge then enlarge else 1 in let h := V (f * radius) (f * radius) (f * radius) in (vsub p h, vadd p h).
