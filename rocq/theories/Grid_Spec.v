(** Vocabulary of the properties of the grid collider. *)
From Coq Require Import List ZArith Bool Arith Reals.
From Verif Require Import Vec_Model Grid_Model.
Import ListNotations.
Local Open Scope R_scope.

(** sphere number [a] *)
Definition is_ball (bs : list (option body)) (a : nat) (r : R) (p : vec) : Prop := exists b, nth_error bs a = Some (Some b) /\ shape b = Ball r /\ pos b = p.
(** the spheres are closer to each other than [more] *)
Definition near (bs : list (option body)) (more : R) (a b : nat) : Prop :=
  exists ra rb pa pb, is_ball bs a ra pa /\ is_ball bs b rb pb /\ 0 <= ra /\ 0 <= rb /\ norm2 (vsub pa pb) <= (ra + rb + more) * (ra + rb + more).
Definition touch (bs : list (option body)) (a b : nat) : Prop := near bs 0 a b.
(** there is an interaction *)
Definition known (is : list intr) (a b : nat) : Prop := exists i, In i is /\ ((a1 i = a /\ a2 i = b) \/ (a1 i = b /\ a2 i = a)).
(** the lower corner is on the diagonal *)
Definition diagonal (A : attrs) : Prop := vx (aabbMin A) = vy (aabbMin A) /\ vz (aabbMin A) = vy (aabbMin A).
(** valid attributes: a grid of less than 2^31 cells *)
Definition valid (A : attrs) : Prop := exists gd, updateGrid A = Done gd.
(** bodies are spheres, have no shape, or are erased *)
Definition handled (bs : list (option body)) : Prop := forall a b, nth_error bs a = Some (Some b) -> shape b <> Other.
(** the same spheres, each displaced by not more than [d] *)
Definition moved (d : R) (bs bs' : list (option body)) : Prop :=
  forall a b', nth_error bs' a = Some (Some b') -> exists b, nth_error bs a = Some (Some b) /\ shape b = shape b' /\ norm (vsub (pos b') (pos b)) <= d.
(** a simulation: in each step the bodies have moved by not more than the distance the collider is told *)
Fixpoint sim (A : attrs) (may : nat -> nat -> bool) (bs : list (option body)) (steps : list (Z * R * list (option body))) (st : engine * list intr) : outcome (list (option body) * (engine * list intr)) :=
  match steps with
  | [] => Done (bs, st)
  | (it, d, bs') :: steps' => bind (turn A may it d bs' st) (fun st' => sim A may bs' steps' st')
  end.
Fixpoint moves (bs : list (option body)) (steps : list (Z * R * list (option body))) : Prop :=
  match steps with [] => True | (it, d, bs') :: steps' => moved d bs bs' /\ handled bs' /\ moves bs' steps' end.
