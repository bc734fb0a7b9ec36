(** What is expected of the force container built without OpenMP, in terms of the history of calls. *)
From Coq Require Import List Arith Bool ZArith.
From Verif Require Import Force_Model Force_Spec Fser_Model.
Import ListNotations.

Section Spec.
Context {V : Type}.

(** the calls that are to have an effect *)
Definition calls (h : list (scall V)) : list (op V) :=
  flat_map (fun x => match x with SOp o => [o] | SAddUnsynced isF id v => [OAdd 0 id (if isF then ChF else ChT) v] | _ => [] end) h.
(** no sync since the last reset *)
Definition unsummed (h : list (op V)) : Prop := forall o, In o (since_reset h) -> o <> OSync.
(** bodies mentioned *)
Definition reach (x : scall V) : nat :=
  match x with
  | SOp (OAdd _ id _ _) | SOp (OSetPerm _ id _ _) | SRead _ id | SReadPerm _ id | SSingle _ id | SUnsynced _ id => S id
  | _ => 0
  end.
(** additions to summed forces are for bodies with an id not larger than one mentioned before *)
Fixpoint in_range (b : nat) (h : list (scall V)) : Prop :=
  match h with
  | [] => True
  | x :: h' => match x with SAddUnsynced _ id _ => id < b | _ => True end /\ in_range (Nat.max b (reach x)) h'
  end.
(** ids of permanent values within a window, as in C12 *)
Definition window (h : list (op V)) : Prop := forall g a isF v g' b isF' v', In (OSetPerm g a isF v) h -> In (OSetPerm g' b isF' v') h -> b < a + 100.
(** histories of a scene with [n] bodies: those inserted and the collider tell of sizes *)
Inductive life : list (op V) -> nat -> Prop :=
| L0 : life [] 0
| LInsert h n t : life h n -> life (h ++ [OMaxId t n]) (S n)
| LCollide h n t : life h n -> life (h ++ [OMaxId t (2 * n)]) n
| LOther h n o : life h n -> match o with OMaxId _ _ => False | _ => True end -> life (h ++ [o]) n.
End Spec.
