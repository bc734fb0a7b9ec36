(** Vocabulary of the properties of the recursive bisection. *)
From Coq Require Import List ZArith Arith Bool Permutation.
From Verif Require Import Comm_Model Comm_Spec Mpi_Spec Tree_Model.
Import ListNotations.

(** Enough bodies for the splits that are made. As many bodies as workers is enough, see C91_enough. *)
Definition enough (n L N : nat) : Prop := forall l, l < L -> 2 ^ l < n -> 2 ^ l <= N.
(** there are enough levels to reach every worker *)
Definition deep (n L : nat) : Prop := n <= 2 ^ L.

(** what the workers have, from rank 1 to rank n *)
Definition shared (n : nat) (s : nat -> node) : list item := flat_map (fun m => data (s (m + 1))) (seq 0 n).

(** Worker ranks p and q have been separated at this level: their numbers p-1 and q-1 agree
    in the bits below [level], and differ in this bit, which is 0 for p. *)
Definition parted (level p q : nat) : Prop :=
  (p - 1) mod 2 ^ level = (q - 1) mod 2 ^ level /\ Nat.testbit (p - 1) level = false /\ Nat.testbit (q - 1) level = true.

(** ceil (a / b) *)
Definition ceil_div (a b : nat) : nat := (a + b - 1) / b.

(** The states of the processes, master = 0 and workers 1..n, when all of them have finished
    the split, in some execution. *)
Definition split_done (ndim n L : nat) (sph : list item) (f : nat -> nat) (s : nat -> node) : Prop :=
  exists sched c, ranks (n + 1) sched /\ exec (decompose ndim n L) sched (init (decompose ndim n L) (at_start sph f)) = Some c /\
    all_finished (n + 1) (decompose ndim n L) c /\ forall p, p <= n -> s p = lst (procs c p).

(** the smallest interval that contains those of the members which have one; None if no member has one *)
Definition tight_box (bound : nat -> option (Z * Z)) (ids : list nat) (r : option (Z * Z)) : Prop :=
  match r with
  | None => forall i, In i ids -> bound i = None
  | Some (l, h) =>
      (forall i b, In i ids -> bound i = Some b -> (l <= fst b)%Z /\ (snd b <= h)%Z) /\
      (exists i b, In i ids /\ bound i = Some b /\ fst b = l) /\ (exists i b, In i ids /\ bound i = Some b /\ snd b = h)
  end.
