(** The piecewise linear function given by a table. *)
From Coq Require Import List ZArith Reals.
Import ListNotations.
Local Open Scope R_scope.

Definition increasing (tt : list R) : Prop := forall i j a b, (i < j)%nat -> nth_error tt i = Some a -> nth_error tt j = Some b -> a < b.
(** [v] is the value at time [t]: that of the ends outside of the table, and on the chord between two points *)
Definition interpolates (tt values : list R) (t v : R) : Prop :=
  (forall t0 v0, nth_error tt 0 = Some t0 -> nth_error values 0 = Some v0 -> t <= t0 -> v = v0) /\
  (forall tn vn, nth_error tt (length tt - 1) = Some tn -> nth_error values (length tt - 1) = Some vn -> tn <= t -> v = vn) /\
  (forall i a b u w, nth_error tt i = Some a -> nth_error tt (S i) = Some b -> nth_error values i = Some u -> nth_error values (S i) = Some w -> a <= t <= b -> v = u + (w - u) * ((t - a) / (b - a))).
(** a lookup state: any number of type size_t *)
Definition lookup_state (pos : Z) : Prop := (0 <= pos < 2 ^ 64)%Z.
(** a table that fits in memory *)
Definition table (tt values : list R) : Prop := (0 < length tt)%nat /\ length values = length tt /\ (Z.of_nat (length tt) < 2 ^ 63)%Z.
