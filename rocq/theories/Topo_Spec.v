(** What is expected of common vertices and edges. *)
From Coq Require Import Reals List Bool Arith.
From Verif Require Import Vec_Model Topo_Model.
Import ListNotations.

(** where a vertex is *)
Definition place (b : body) (i : nat) : vec := vadd (bori b (bvert b i)) (bpos b).
(** all pairs of a list, each once *)
Fixpoint all_pairs {A} (l : list A) : list (A * A) := match l with [] => [] | x :: l' => map (pair x) l' ++ all_pairs l' end.
Definition near (tol : R) (p : vert * vert) : bool := if Rle_dec (norm2 (vsub (vpos (fst p)) (vpos (snd p)))) (tol * tol) then true else false.
Fixpoint ascending {A} (le : A -> A -> Prop) (l : list A) : Prop := match l with [] => True | x :: l' => (forall y, In y l' -> le x y) /\ ascending le l' end.

(** the same vertex, or touching ones *)
Definition same (rel : nat -> nat -> Prop) (u v : nat) : Prop := u = v \/ rel u v.

Definition corners (t : facet) : list nat := [v0 t; v1 t; v2 t].
Definition proper (t : facet) : Prop := NoDup (corners t).
(** vertices that both have *)
Definition shared (s t : facet) : list nat := filter (fun x => if in_dec Nat.eq_dec x (corners t) then true else false) (corners s).
Definition adjacent (p : facet * facet) : bool := 2 <=? length (shared (fst p) (snd p)).
(** the edge [e] starts and ends *)
Definition from (t : facet) (e : nat) : nat := nth e (corners t) 0.
Definition to (t : facet) (e : nat) : nat := nth ((e + 1) mod 3) (corners t) 0.

(** witnesses *)
Definition turned : body := mkB (V 0 0 0) (fun p => V (- vx p) (- vy p) (vz p)) (fun _ => V 1 0 0).
Definition straight : body := mkB (V 0 0 0) (fun p => p) (fun _ => V (-1) 0 0).
Definition two_facets : list facet := [mkF 0 0 1 2; mkF 1 2 1 3].
