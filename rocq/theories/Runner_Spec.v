(** Vocabulary of the properties of the background thread. *)
From Coq Require Import List ZArith Bool Arith.
From Verif Require Import Runner_Model.
Import ListNotations.
Open Scope Z_scope.

(** thread i is executing a simulation step *)
Definition in_step (s : st) (i : nat) : Prop := nth_error (threads s) i = Some RInStep.
(** the caller is executing a simulation step *)
Definition caller_in_step (s : st) : Prop := caller s = CInStep.

(** nothing is going on: O.running is False, no background thread left, caller free *)
Definition idle (s : st) : Prop :=
  looping s = false /\ runm s = None /\ callm s = None /\ caller s = CIdle /\
  Forall (fun p => p = RDone) (threads s).

Definition is_pause (a : action) : Prop := a = ACmd CmdPause.
Definition is_exc (a : action) : Prop := exists i, a = AThread i true.
Definition is_cmd (a : action) : Prop := exists c, a = ACmd c.

(** nobody can move: neither the caller nor any background thread *)
Definition quiescent (s : st) : Prop :=
  move s ACaller = None /\ forall i exc, move s (AThread i exc) = None.

(** every background thread has taken its first lock *)
Definition started (s : st) : Prop := forall i, nth_error (threads s) i <> Some RWaitRun.

(** schedules in which the destructor's locks are only taken once all threads have started *)
Fixpoint safe_destroy (s : st) (l : list action) : Prop :=
  match l with
  | [] => True
  | a :: l' => (a = ACaller -> caller s = CDestroy -> started s) /\
               match move s a with Some s1 => safe_destroy s1 l' | None => True end
  end.

(** commands that ask for simulation steps *)
Definition starts_steps (c : cmd) : Prop := match c with CmdRun _ _ | CmdStep => True | _ => False end.
