(** What the user of the energy tracker relies on, in terms of the calls only. *)
From Coq Require Import List Arith ZArith Bool.
From Verif Require Import Energy_Model.
Import ListNotations.

(** value and reset flag of each name *)
Definition ledger := nat -> option (Z * bool).
Definition book (P : params) (l : ledger) (a : op) : ledger :=
  match a with
  | Begin t o v => upd l (nm P o) (Some (match l (nm P o) with Some (x, f) => (x + v, f) | None => (v, rf P (nm P o)) end)%Z)
  | Go _ => l
  | SetItem n v => upd l n (Some (match l n with Some (_, f) => (v, f) | None => (v, false) end))
  | Reset => fun n => match l n with Some (x, f) => Some (if f then 0%Z else x, f) | None => None end
  | Clear | NewTracker => fun _ => None
  | NewEngines => l
  end.
Definition books (P : params) (l : list op) : ledger := fold_left (book P) l (fun _ => None).

Definition quiet (P : params) (s : est) : Prop := forall t, t < nThreads P -> pc s t = Idle.
(** calls are made by existing threads that are not inside a call; everything else is
    called outside parallel sections *)
Definition proper (P : params) (s : est) (a : op) : Prop :=
  match a with
  | Begin t o v => t < nThreads P /\ pc s t = Idle
  | Go t => t < nThreads P
  | _ => quiet P s
  end.
(** no two threads create the same name at the same time, and the tracker is emptied or
    replaced only when no engine remembers an index *)
Definition calm (P : params) (s : est) (a : op) : Prop :=
  match a with
  | Go t => match pc s t with Create o _ => lookup (names s) (nm P o) = None | _ => True end
  | Clear | NewTracker => forall o, own s o = None
  | _ => True
  end.
(** [Q] holds before each step *)
Fixpoint along (P : params) (Q : est -> op -> Prop) (s : est) (l : list op) : Prop :=
  match l with [] => True | a :: l' => Q s a /\ match step P s a with Some s1 => along P Q s1 l' | None => True end end.

Definition good (P : params) : Prop := 1 <= perCL P /\ 1 <= nThreads P.

(** the names used by an operation *)
Definition names_of (P : params) (a : op) (NS : list nat) : Prop :=
  match a with Begin _ o _ => In (nm P o) NS | SetItem n _ => In n NS | _ => True end.
