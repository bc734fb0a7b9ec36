(** Piecewise-linear functions: py/linterpolation.py.

    Simplifications: numbers are real numbers without rounding; integers (for which python 2 rounds quotients) are
    left out; the result of floor is an integer. *)
From Coq Require Import Reals List ZArith.
Import ListNotations.
Local Open Scope R_scope.

(** exceptions are outcomes of their own; raising a string is a TypeError *)
Inductive outcome (A : Type) := Ret (a : A) | ZeroDivision | AssertionFailed | BothRadices | NoRadix | NotReached | IndexError.
Arguments Ret {A}. Arguments ZeroDivision {A}. Arguments AssertionFailed {A}. Arguments BothRadices {A}. Arguments NoRadix {A}. Arguments NotReached {A}. Arguments IndexError {A}.
Definition bind {A B} (x : outcome A) (f : A -> outcome B) : outcome B :=
  match x with
  | Ret a => f a | ZeroDivision => ZeroDivision | AssertionFailed => AssertionFailed | BothRadices => BothRadices
  | NoRadix => NoRadix | NotReached => NotReached | IndexError => IndexError
  end.
Definition quotient (a b : R) : outcome R := if Req_EM_T b 0 then ZeroDivision else Ret (a / b).
Definition within (x0 p x1 : R) : bool := if Rle_dec x0 p then if Rle_dec p x1 then true else false else false.

(** revIntegrateLinear, linterpolation.py:27-45 *)
Definition revIntegrateLinear (I x0 y0 x1 y1 : R) : outcome R :=
  let dx := x1 - x0 in let dy := y1 - y0 in
  if Req_EM_T dy 0 then quotient (x0 * y0 + I) y0
  else bind (quotient dy dx) (fun a =>
    let b := 2 * (y0 - x0 * dy / dx) in
    let c := x0 * x0 * dy / dx - 2 * x0 * y0 - 2 * I in
    let det := b * b - 4 * a * c in
    if Rlt_dec 0 det then
      bind (quotient (- b + sqrt det) (2 * a)) (fun p => bind (quotient (- b - sqrt det) (2 * a)) (fun q =>
        match within x0 p x1, within x0 q x1 with
        | true, true => BothRadices
        | false, false => NoRadix
        | true, false => Ret p
        | false, true => Ret q
        end))
    else AssertionFailed).

(** integral, 47-53; the loop over i keeps the previous point *)
Fixpoint sum_from (sum x0 y0 : R) (x y : list R) : outcome R :=
  match x, y with
  | [], _ => Ret sum
  | _ :: _, [] => IndexError
  | x1 :: x', y1 :: y' => sum_from (sum + (x1 - x0) * (1/2) * (y1 + y0)) x1 y1 x' y'
  end.
Definition integral (x y : list R) : outcome R :=
  if Nat.eqb (length x) (length y) then
    match x, y with
    | x0 :: x', y0 :: y' => sum_from 0 x0 y0 x' y'
    | _, _ => Ret 0
    end
  else AssertionFailed.

(** xFractionalFromIntegral, 55-65 *)
Fixpoint search (I sum x0 y0 : R) (x y : list R) : outcome R :=
  match x, y with
  | [], _ => NotReached
  | _ :: _, [] => IndexError
  | x1 :: x', y1 :: y' =>
    let diff := (x1 - x0) * (1/2) * (y1 + y0) in
    if Rlt_dec I (sum + diff) then revIntegrateLinear (I - sum) x0 y0 x1 y1 else search I (sum + diff) x1 y1 x' y'
  end.
Definition xFractionalFromIntegral (I : R) (x y : list R) : outcome R :=
  match y, x with
  | y0 :: y', x0 :: x' => search I 0 x0 y0 x' y'
  | [], _ :: _ :: _ => IndexError
  | _, _ => NotReached
  end.

(** xFromIntegral, 68-78 *)
Definition xFromIntegral (I : R) (x y : list R) : outcome R :=
  match x with
  | [] => IndexError
  | x0 :: x' =>
    let period := last x' x0 - x0 in
    bind (integral x y) (fun periodIntegral =>
    bind (quotient I periodIntegral) (fun r =>
    let numPeriods := IZR (Int_part r) in
    bind (xFractionalFromIntegral (I - numPeriods * periodIntegral) x y) (fun xFrac =>
    Ret (period * numPeriods + xFrac))))
  end.

(** sanitizeInterpolation, 80-90 *)
Definition sanitizeInterpolation (x y : list R) (x0 x1 : R) : outcome (list R * list R) :=
  match x with
  | [] => IndexError
  | a :: x' =>
    bind (if Rlt_dec x0 a then match y with [] => IndexError | ya :: _ => Ret ([x0], [ya]) end else Ret ([], [])) (fun h =>
    let xx := fst h ++ x in let yy := snd h ++ y in
    if Rlt_dec (last x' a) x1 then match y with [] => IndexError | ya :: y' => Ret (xx ++ [x1], yy ++ [last y' ya]) end
    else Ret (xx, yy))
  end.
