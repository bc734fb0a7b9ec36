(** What iteration over bodies and engines of fields should do. *)
From Coq Require Import List ZArith Bool Reals Sorted.
From Verif Require Rigid_Model.
From Verif Require Import Vec_Model Field_Model.
Import ListNotations.
Local Open Scope R_scope.

(** body number i exists *)
Definition is_body {A} (c : list (option A)) (i : nat) : Prop := exists b, nth_error c i = Some (Some b).
(** a field acts on bodies that are no clumps and that have one of the bits of the mask; on all of them for no mask *)
Definition affected (m : Z) (b : fbody) : Prop := fclump b = false /\ (m = 0%Z \/ Z.land (fmask b) m <> 0%Z).
(** the sum of the forces of n bodies *)
Fixpoint total (F : forces) (n : nat) : option vec :=
  match n with O => Some vzero | S k => add1 (total F k) (F k) end.
(** bodies affected, one after the other *)
Definition affected_dec (m : Z) (b : fbody) : bool := negb (fclump b) && ((m =? 0)%Z || negb (Z.land (fmask b) m =? 0)%Z).
Definition affected_bodies (m : Z) (c : container) : list fbody :=
  flat_map (fun o => match o with Some b => if affected_dec m b then [b] else [] | None => [] end) c.
Fixpoint rsum {A} (f : A -> R) (l : list A) : R := match l with [] => 0 | a :: l' => f a + rsum f l' end.
Definition kinetic (m : R) (v : vec) : R := 1/2 * m * norm2 v.
(** from p a way of length d in the direction u *)
Definition leads (p : vec) (d : R) (u : vec) (q : vec) : Prop := 0 < d /\ norm2 u = 1 /\ vadd p (smul d u) = q.
Definition on_line (p dir q : vec) : Prop := exists s, q = vadd p (smul s dir).
(** a force given to the numbers listed, once for each time they are listed *)
Definition given (f : vec) (ids : list Z) (i : nat) (a : vec) : vec := vadd a (smul (INR (count_occ Z.eq_dec ids (Z.of_nat i))) f).
(** two equal spheres of radius 1 and density 1 in one place, one cell of 2 by 2 by 2 *)
Definition twin (i : nat) : Rigid_Model.member := Rigid_Model.mkM i (Some 1) 1 (Rigid_Model.mkR vzero qid vzero vzero (4/3 * PI) (V (8/15 * PI) (8/15 * PI) (8/15 * PI))).
