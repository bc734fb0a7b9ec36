(** Vocabulary of the properties of the quick sort collider. *)
From Coq Require Import List ZArith Arith Bool Permutation Sorted.
From Verif Require Import Coll_Model Quick_Model.
Import ListNotations.

(** a correct sorting function *)
Definition sorts (srt : list aabb -> list aabb) : Prop := forall l, Permutation l (srt l) /\ StronglySorted (fun x y => (qlo x 0 <= qlo y 0)%Z) (srt l).
(** the box of body [a] *)
Definition has_box (bs : bodies) (a : nat) (x : box) : Prop := exists b, body_at bs a = Some b /\ bbox b = Some x.
(** the boxes have common points, and more than a line in common seen along the first axis *)
Definition overlapping (bs : bodies) (a b : nat) : Prop :=
  exists x y, has_box bs a x /\ has_box bs b y /\ (lo x 0 <= hi y 0 /\ lo y 0 <= hi x 0 /\ lo x 1 < hi y 1 /\ lo y 1 < hi x 1 /\ lo x 2 < hi y 2 /\ lo y 2 < hi x 2)%Z.
(** there is an interaction of the two bodies, seen in step [it] *)
Definition pair_of (i : intr) (a b : nat) : Prop := ids i = (a, b) \/ ids i = (b, a).
Definition seen (it : Z) (I : list intr) (a b : nat) : Prop := exists i, In i I /\ pair_of i a b /\ lastSeen i = it.
(** all bodies exist and have a box *)
Definition bounded (bs : bodies) : Prop := forall a, (a < length bs)%nat -> exists x, has_box bs a x.
Definition proper (bs : bodies) : Prop := forall a x, has_box bs a x -> (lo x 0 <= hi x 0)%Z.
(** one interaction per pair *)
Definition unique (I : list intr) : Prop := forall i j, In i I -> In j I -> forall a b, pair_of i a b -> pair_of j a b -> i = j.
(** steps of the collider in a changing scene *)
Fixpoint run (srt : list aabb -> list aabb) (steps : list (Z * bodies)) (st : rank * list intr) : outcome (rank * list intr) :=
  match steps with
  | [] => Done st
  | (it, bs) :: steps' => bind (action srt false it bs (fst st) (snd st)) (run srt steps')
  end.
