(** What is expected of engines run in parallel. *)
From Coq Require Import List Bool Arith.
From Verif Require Import Pare_Model.
Import ListNotations.

(** groups one after another, engines of a group in order *)
Definition one_after_another {S} (gs : list (list (engine S))) (s : S) : S := fold_left (fun s e => fst (run_one e s)) (concat gs) s.
(** engines of different groups may be exchanged *)
Definition commute {S} (a b : engine S) : Prop := forall s, fst (run_one a (fst (run_one b s))) = fst (run_one b (fst (run_one a s))).
Fixpoint independent {S} (gs : list (list (engine S))) : Prop :=
  match gs with [] => True | g :: gs' => (forall a b, In a g -> In b (concat gs') -> commute a b) /\ independent gs' end.
(** what group [i] did, in the order of time *)
Definition of_group {S} (i : nat) (tr : list (nat * engine S)) : list (engine S) := map snd (filter (fun p => Nat.eqb (fst p) i) tr).
(** a group written as an engine or as a list of one engine is the same *)
Definition same_value {E} (a b : pyval E) : Prop := a = b \/ (exists e, a = PGroup [e] /\ b = PAlone e) .
Definition valid {E} (v : pyval E) : Prop := match v with POther => False | _ => True end.
(** witnesses: engines that add and double a number *)
Definition adds (n : nat) : engine nat := mkEng false (fun s => (true, s)) (fun s => s + n).
Definition doubles : engine nat := mkEng false (fun s => (true, s)) (fun s => 2 * s).
