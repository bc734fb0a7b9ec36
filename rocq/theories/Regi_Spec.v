(** What is expected of registered classes. *)
From Coq Require Import List Bool Arith.
From Verif Require Import Regi_Model.
Import ListNotations.

(** [c] derives from [b], when [parents] are the bases of a class *)
Inductive derives (parents : nat -> list nat) : nat -> nat -> Prop :=
| derives_base c b : In b (parents c) -> derives parents c b
| derives_step c p b : In p (parents c) -> derives parents p b -> derives parents c b.
(** no class derives from itself: bases have smaller ranks *)
Definition ranked (rk : nat -> nat) (parents : nat -> list nat) : Prop := forall c b, In b (parents c) -> rk b < rk c.

(** a class comes after its base *)
Fixpoint after_bases (base : nat -> nat) (known l : list nat) : Prop :=
  match l with [] => True | c :: l' => In (base c) known /\ after_bases base (known ++ [c]) l' end.
(** the base of the base ... is known after at most [n] steps *)
Fixpoint within (base : nat -> nat) (known l : list nat) (n : nat) (c : nat) : Prop :=
  match n with O => False | S n' => In (base c) known \/ In (base c) l /\ within base known l n' (base c) end.

(** questions asked one after another *)
Inductive question := QBase (c b : nat) | QChild (fuel c b : nat).
Definition ask (r : registry) (q : question) : registry := match q with QBase c b => snd (isInheritingFrom r c b) | QChild f c b => snd (recursive f r c b) end.
(** plugins name all classes: their bases are plugins or leaves *)
Definition closed (create : nat -> option (list nat)) (leaf : nat -> bool) (plugins : list nat) : Prop :=
  forall n b l, In n plugins -> create n = Some l -> In b l -> leaf b = true \/ In b plugins /\ create b <> None.
Definition declared (create : nat -> option (list nat)) (n : nat) : list nat := match create n with Some l => l | None => [] end.

(** witnesses *)
Definition small : registry := [(3, [2]); (2, [1]); (5, [])].
Definition chain (n : nat) : nat -> nat := fun c => match c with O => n | S m => m end.
Definition ladder (n : nat) : option (list nat) := match n with 3 => Some [2] | 2 => Some [1] | 1 => Some [0] | _ => Some [] end.
