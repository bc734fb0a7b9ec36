(** What the user relies on. *)
From Coq Require Import List NArith Bool Ascii String.
From Verif Require Import Attr_Model.
Import ListNotations.
Local Open Scope N_scope.

(** the letters of the degrees of freedom, by number of the bit *)
Definition letter (k : N) : option ascii :=
  match k with 0 => Some "x"%char | 1 => Some "y"%char | 2 => Some "z"%char | 3 => Some "X"%char | 4 => Some "Y"%char | 5 => Some "Z"%char | _ => None end.
(** the documented order *)
Definition canonical : list ascii := ["x"; "y"; "z"; "X"; "Y"; "Z"]%char.
(** [unsigned] value with no other bits than the six *)
Definition six_bits (d : N) : Prop := forall k, N.testbit d k = true -> k < 6.

(** a key without '=' *)
Definition plain (k : list ascii) : Prop := ~ In eq_sign k.
(** the value of the last assignment to [k], or what was there before *)
Fixpoint last_assigned (h : list (list ascii * list ascii)) (k : list ascii) (before : option (list ascii)) : option (list ascii) :=
  match h with
  | [] => before
  | (k', v) :: h' => last_assigned h' k (if list_eq_dec ascii_dec k k' then Some v else before)
  end.
(** every tag has the form key=value, and no key appears twice *)
Definition tags_ok (t : tags) : Prop := exists l, keys t = Some l /\ NoDup l.
