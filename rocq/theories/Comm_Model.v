(** Message passing between processes, as used by py/mpy.py through MPI.

    A process runs a sequence of phases.  In a phase it posts its receives
    (comm.irecv / mpiIrecvStates), then does its blocking sends (comm.send /
    mpiSendStates), then waits for each receive in the order of posting and uses
    the message (req.wait() / mpiWaitReceived + setStateValuesFromBuffer), then
    does local work.  A blocking comm.recv is a phase of its own with one post and
    one wait.  The phases of mpy.py are given in Mpi_Model.

    Messages between two processes with the same tag arrive in order (MPI's
    non-overtaking rule).  A blocking send may return at once (the library has
    buffered the message) or only when the receiver has posted the matching
    receive; MPI leaves the choice to the library, so [move] takes it as argument:
    [sync]=true is a send that has to wait for the receiver.

    Simplification: messages are not split and never lost; a receive buffer is
    large enough. *)
From Coq Require Import List Arith Bool.
Import ListNotations.

Section Model.
Context {S M : Type}.   (* local state of a process, messages *)

Record phase := mkPhase {
  tag : nat;
  srcs : nat -> S -> list nat;        (* ranks process p receives from *)
  dests : nat -> S -> list nat;       (* ranks process p sends to *)
  msg : nat -> S -> nat -> M;         (* what p sends to a destination *)
  recv : nat -> S -> nat -> M -> S;   (* what p does with the message of a source *)
  fin : nat -> S -> S }.              (* local work of p at the end of the phase *)

Inductive act := Post (a : nat) | Send (b : nat) | Wait (a : nat) | End.
Definition act_eq_dec (x y : act) : {x = y} + {x <> y}.
Proof. decide equality; apply Nat.eq_dec. Defined.
Definition mem (x : act) (l : list act) : bool := if in_dec act_eq_dec x l then true else false.

Definition actions (ph : phase) (p : nat) (s : S) : list act :=
  map Post (srcs ph p s) ++ map Send (dests ph p s) ++ map Wait (srcs ph p s) ++ [End].

(** a process: its current phase, what it has done and what it has to do in it *)
Record proc := mkProc { pc : nat; dne : list act; todo : list act; lst : S }.

Record conf := mkConf {
  procs : nat -> proc;
  chan : nat -> nat -> nat -> list M }.  (* source, destination, tag: messages under way *)

Definition set_proc (c : conf) (p : nat) (x : proc) : conf :=
  mkConf (fun q => if q =? p then x else procs c q) (chan c).
Definition set_chan (c : conf) (a b t : nat) (l : list M) : conf :=
  mkConf (procs c) (fun a' b' t' => if (a' =? a) && (b' =? b) && (t' =? t) then l else chan c a' b' t').

Definition start (prog : list phase) (i p : nat) (s : S) : proc :=
  match nth_error prog i with
  | Some ph => mkProc i [] (actions ph p s) s
  | None => mkProc i [] [] s
  end.
Definition init (prog : list phase) (s0 : nat -> S) : conf :=
  mkConf (fun p => start prog 0 p (s0 p)) (fun _ _ _ => []).

Definition is_nil {A} (l : list A) : bool := match l with [] => true | _ => false end.

(** has process [b] posted a receive from [a] with tag [t] that is still open? *)
Definition posted (prog : list phase) (c : conf) (a b t : nat) : bool :=
  match nth_error prog (pc (procs c b)) with
  | Some ph => (tag ph =? t) && mem (Post a) (dne (procs c b)) && negb (mem (Wait a) (dne (procs c b)))
  | None => false
  end.

(** one move of process p; None = p is blocked or finished *)
Definition move (prog : list phase) (sync : bool) (p : nat) (c : conf) : option conf :=
  let P := procs c p in
  match nth_error prog (pc P), todo P with
  | Some ph, x :: rest =>
    let next s := mkProc (pc P) (dne P ++ [x]) rest s in
    match x with
    | Post _ => Some (set_proc c p (next (lst P)))
    | Send b =>
        if sync && negb (posted prog c p b (tag ph) && is_nil (chan c p b (tag ph))) then None
        else Some (set_chan (set_proc c p (next (lst P))) p b (tag ph)
                            (chan c p b (tag ph) ++ [msg ph p (lst P) b]))
    | Wait a =>
        match chan c a p (tag ph) with
        | [] => None
        | m :: l => Some (set_chan (set_proc c p (next (recv ph p (lst P) a m))) a p (tag ph) l)
        end
    | End => Some (set_proc c p (start prog (Datatypes.S (pc P)) p (fin ph p (lst P))))
    end
  | _, _ => None
  end.

(** an execution: a list of (mode, process); every move must be possible *)
Fixpoint exec (prog : list phase) (l : list (bool * nat)) (c : conf) : option conf :=
  match l with
  | [] => Some c
  | (sy, p) :: l' => match move prog sy p c with Some c1 => exec prog l' c1 | None => None end
  end.

End Model.
Arguments phase : clear implicits.
Arguments conf : clear implicits.
Arguments proc : clear implicits.
