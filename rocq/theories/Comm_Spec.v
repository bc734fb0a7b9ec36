(** The intended meaning of a sequence of exchange phases: all processes do phase
    after phase together, every message sent in a phase is received in it. *)
From Coq Require Import List Arith Bool.
From Verif Require Import Comm_Model.
Import ListNotations.

Section Spec.
Context {S M : Type}.

(** one phase, all processes together: messages are computed from the states at
    the start of the phase *)
Definition round (ph : phase S M) (s : nat -> S) : nat -> S :=
  fun q => fin ph q (fold_left (fun sq a => recv ph q sq a (msg ph a (s a) q)) (srcs ph q (s q)) (s q)).

Fixpoint rounds (prog : list (phase S M)) (s : nat -> S) : nat -> S :=
  match prog with
  | [] => s
  | ph :: prog' => rounds prog' (round ph s)
  end.

(** in this phase every send has its receive and vice versa *)
Definition matched (n : nat) (ph : phase S M) (s : nat -> S) : Prop :=
  forall p, p < n ->
    NoDup (srcs ph p (s p)) /\ NoDup (dests ph p (s p)) /\
    (forall q, In q (srcs ph p (s p)) -> q < n) /\
    (forall q, In q (dests ph p (s p)) -> q < n) /\
    forall q, q < n -> (In q (dests ph p (s p)) <-> In p (srcs ph q (s q))).

Fixpoint all_matched (n : nat) (prog : list (phase S M)) (s : nat -> S) : Prop :=
  match prog with
  | [] => True
  | ph :: prog' => matched n ph s /\ all_matched n prog' (round ph s)
  end.

(** process p has nothing left to do *)
Definition finished (prog : list (phase S M)) (c : conf S M) (p : nat) : Prop :=
  length prog <= pc (procs c p).

(** only processes 0..n-1 move *)
Definition ranks (n : nat) (l : list (bool * nat)) : Prop := Forall (fun x => snd x < n) l.

(** total number of moves of the whole program *)
Fixpoint sum_to (n : nat) (f : nat -> nat) : nat :=
  match n with O => 0 | Datatypes.S n' => sum_to n' f + f n' end.
Fixpoint work (n : nat) (prog : list (phase S M)) (s : nat -> S) : nat :=
  match prog with
  | [] => 0
  | ph :: prog' => sum_to n (fun p => length (actions ph p (s p))) + work n prog' (round ph s)
  end.
End Spec.
