(** What is expected of bubbles and of elastic contacts. *)
From Coq Require Import Reals List Bool.
From Verif Require Import Vec_Model Bubb_Model.
Local Open Scope R_scope.

(** harmonic average *)
Definition harmonic (a b : R) : R := 2 / (/ a + / b).
(** separation and force of two bubbles, [Chan2011] eq. 25 *)
Definition chan (c1 r s f : R) : Prop := s * c1 = f * ln (f / (4 * c1 * r)).
Definition extension (k : coeffs) (s : R) : R := coeffA k * exp (coeffB k * s).
(** the contact was made by this law *)
Definition made (l : law) (b : bubble) : Prop := c1 l <> None /\ lost b <> None.
(** a history of overlaps, the contact being there before *)
Fixpoint history (iter : nat) (tol : R) (l : law) (b : bubble) (r1 r2 : R) (us : list R) : list outcome :=
  match us with
  | nil => nil
  | cons u us' => match go iter tol l b false r1 r2 u with Some (l', b', o) => cons o (history iter tol l' b' r1 r2 us') | None => nil end
  end.
