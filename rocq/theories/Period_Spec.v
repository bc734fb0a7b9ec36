(** What the user of a periodic engine is told. *)
From Coq Require Import List ZArith Bool.
From Verif Require Import Period_Model.
Import ListNotations.
Local Open Scope Z_scope.

Definition runs (e : engine) (l : list now) : list bool := snd (calls e l).
Definition ran (e : engine) (l : list now) (k : nat) : Prop := nth_error (runs e l) k = Some true.
Definition count (l : list bool) : Z := Z.of_nat (length (filter (fun b => b) l)).

(** the step number does not decrease from the last activation on *)
Fixpoint increasing (from : Z) (l : list now) : Prop :=
  match l with [] => True | t :: l' => from <= iterNow t /\ increasing (iterNow t) l' end.
(** only the step number is used *)
Definition iter_only (e : engine) (n : Z) : Prop := virtPeriod e <= 0 /\ realPeriod e <= 0 /\ iterPeriod e = n /\ 0 < n.

(** called in every step from step [s] on *)
Definition every_step (s : Z) (l : list now) : Prop := forall k t, nth_error l k = Some t -> iterNow t = s + Z.of_nat k.
(** made by the user with these parameters, not yet called *)
Definition new_engine (e : engine) : Prop := virtLast e = 0 /\ iterLast e = 0 /\ nDone e = 0.
(** the count is not limited, or [j] is below the limit *)
Definition below_limit (e : engine) (j : Z) : Prop := nDo e < 0 \/ j < nDo e.

(** an active period has passed since the last activation *)
Definition due (e : engine) (t : now) : Prop :=
  (0 < virtPeriod e /\ virtPeriod e <= virtNow t - virtLast e) \/
  (0 < realPeriod e /\ realPeriod e <= realNow t - realLast e) \/
  (0 < iterPeriod e /\ iterPeriod e <= iterNow t - iterLast e).
(** for examples *)
Definition at_step (i : Z) : now := mkNow 0 0 i.
