(** Model of linear interpolation in a table: lib/smoothing/LinearInterpolate.hpp, and of the wrapping of times,
    pkg/dem/Shop_02.cpp:154-159.

    Simplifications
    - times and values are real numbers without rounding (the template is also used for integer times and for
      vectors, of which each component is interpolated in the same way);
    - size_t has 64 bits;
    - the assertion on the number of values is compiled out, as in release builds; reading outside of a vector
      is undefined: UB; 0/0 is NaN; a loop that does not end is Hang. *)
From Coq Require Import List ZArith Bool Reals.
Import ListNotations.
Local Open Scope R_scope.

Inductive outcome (A : Type) := Done (a : A) | NaN (pos : Z) | UB | Hang.
Arguments Done {A}. Arguments NaN {A}. Arguments UB {A}. Arguments Hang {A}.

Definition size_t (z : Z) : Z := (z mod 2 ^ 64)%Z.
Definition get (l : list R) (i : Z) : option R := if (i <? 0)%Z then None else nth_error l (Z.to_nat i).
Definition size (l : list R) : Z := Z.of_nat (length l).
(** *l.rbegin() *)
Definition back (l : list R) : option R := get l (size l - 1).

(** hpp:26-30; [fuel] bounds the number of turns *)
Fixpoint seek (fuel : nat) (tt : list R) (t : R) (pos : Z) : outcome Z :=
  match fuel with
  | O => Hang
  | S fuel' =>
    match get tt pos, get tt (size_t (pos + 1)) with
    | Some a, Some b =>
        if Rlt_dec t a then seek fuel' tt t (size_t (pos - 1))
        else if Rlt_dec b t then seek fuel' tt t (size_t (pos + 1))
        else Done pos
    | _, _ => UB
    end
  end.
(** hpp:21-33: value and new lookup state *)
Definition linearInterpolate (t : R) (tt values : list R) (pos : Z) : outcome (R * Z) :=
  match get tt 0, get values 0 with
  | Some t0, Some v0 =>
    if Rle_dec t t0 then Done (v0, 0%Z) else
    match back tt, back values with
    | Some tn, Some vn =>
      if Rle_dec tn t then Done (vn, size_t (size tt - 2)) else
      match seek (S (length tt)) tt t (Z.min pos (size_t (size tt - 2))) with
      | Done p =>
        match get tt p, get tt (size_t (p + 1)), get values p, get values (size_t (p + 1)) with
        | Some t0, Some t1, Some v0, Some v1 => if Req_EM_T t1 t0 then NaN p else Done (v0 + (v1 - v0) * ((t - t0) / (t1 - t0)), p)
        | _, _, _, _ => UB
        end
      | NaN p => NaN p | UB => UB | Hang => Hang
      end
    | _, _ => UB
    end
  | _, _ => UB
  end.
(** Shop_02.cpp:154-159; x0 <> x1 *)
Definition periodicWrap (x x0 x1 : R) : R := let n := (x - x0) / (x1 - x0) in x0 + (n - IZR (Int_part n)) * (x1 - x0).
