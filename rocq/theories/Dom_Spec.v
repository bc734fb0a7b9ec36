(** Vocabulary of the properties of the decomposition of the domain. *)
From Verif Require Import Vec_Model Dom_Model.
From Coq Require Import Reals Qreals List ZArith QArith Arith.
Import ListNotations.
Local Open Scope R_scope.

(** mn is the lower, mx the upper corner *)
Definition below (mn mx : vec) : Prop := vx mn < vx mx /\ vy mn < vy mx /\ vz mn < vz mx.
Definition between (mn mx p : vec) : Prop := vx mn <= vx p <= vx mx /\ vy mn <= vy p <= vy mx /\ vz mn <= vz p <= vz mx.
Definition strictly_between (mn mx p : vec) : Prop := vx mn < vx p < vx mx /\ vy mn < vy p < vy mx /\ vz mn < vz p < vz mx.
(** the box of a subdomain: its first and its last point *)
Definition in_sub (sd : subdomain) (p : vec) : Prop := exists a b, hd_error (points sd) = Some a /\ hd_error (rev (points sd)) = Some b /\ between a b p.
Definition inside_sub (sd : subdomain) (p : vec) : Prop := exists a b, hd_error (points sd) = Some a /\ hd_error (rev (points sd)) = Some b /\ strictly_between a b p.

(** one subdomain for each of n workers, which fill the domain and have no inner point in common *)
Definition tiles (mn mx : vec) (n : nat) (sds : list subdomain) : Prop :=
  map worker sds = seq 1 n /\
  (forall p, between mn mx p -> exists sd, In sd sds /\ in_sub sd p) /\
  (forall sd p, In sd sds -> in_sub sd p -> between mn mx p) /\
  (forall sd sd' p, In sd sds -> In sd' sds -> inside_sub sd p -> inside_sub sd' p -> sd = sd').

(** the distance of p from the nearest of the points *)
Definition is_nearest (pts : list vec) (p : vec) (d : R) : Prop :=
  (forall q, In q pts -> d <= norm (vsub p q)) /\ exists q, In q pts /\ d = norm (vsub p q).

(** the lengths of the edges of the domain, as rational numbers *)
Definition edges (mn mx : vec) (x y z : Q) : Prop := Q2R x = vx mx - vx mn /\ Q2R y = vy mx - vy mn /\ Q2R z = vz mx - vz mn.
