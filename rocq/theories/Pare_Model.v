(** Engines run in parallel: pkg/common/ParallelEngine.{hpp,cpp}.

    Simplifications: the test of activation and the action of one engine are one indivisible step (C273 says when that does not
    matter); timing is left out; how groups are given to threads is any schedule, with one choice of a group per step. *)
From Coq Require Import List Bool Arith.
Import ListNotations.

(** ** slaves_set and slaves_get, cpp:34-55 *)
(** what python gives: an engine, a sequence of engines, or something else *)
Inductive pyval (E : Type) := PAlone (e : E) | PGroup (l : list E) | POther.
Arguments PAlone {E}. Arguments PGroup {E}. Arguments POther {E}.
(** the new slaves, and whether no TypeError was raised: groups before the wrong element are stored *)
Fixpoint slaves_set {E} (acc : list (list E)) (l : list (pyval E)) : list (list E) * bool :=
  match l with
  | [] => (acc, true)
  | PGroup g :: l' => slaves_set (acc ++ [g]) l'
  | PAlone e :: l' => slaves_set (acc ++ [[e]]) l'
  | POther :: _ => (acc, false)
  end.
(** slaves_set of an engine with slaves [old]: slaves.clear() comes first *)
Definition assign {E} (old : list (list E)) (l : list (pyval E)) : list (list E) * bool := slaves_set [] l.
Definition slaves_get {E} (s : list (list E)) : list (pyval E) := map (fun g => match g with [e] => PAlone e | _ => PGroup g end) s.

(** ** action, cpp:11-32 *)
(** an engine: dead, isActivated (which may change the state, as that of periodic engines) and action *)
Record engine (S : Type) := mkEng { dead : bool; activated : S -> bool * S; act : S -> S }.
Arguments mkEng {S}. Arguments dead {S}. Arguments activated {S}. Arguments act {S}.
(** cpp:24-29; and whether the action was run *)
Definition run_one {S} (e : engine S) (s : S) : S * bool :=
  if dead e then (s, false)
  else let (a, s1) := activated e s in if a then (act e s1, true) else (s1, false).
(** one step of group [i]: the rest of the groups and the engine *)
Fixpoint take {E} (gs : list (list E)) (i : nat) : option (E * list (list E)) :=
  match gs, i with
  | [], _ => None
  | g :: gs', O => match g with [] => None | e :: g' => Some (e, g' :: gs') end
  | g :: gs', Datatypes.S i' => match take gs' i' with Some (e, r) => Some (e, g :: r) | None => None end
  end.
(** a schedule: the rest, the state, and the trace of groups and engines; choices of a group that ended do nothing *)
Fixpoint run {S} (gs : list (list (engine S))) (sched : list nat) (s : S) (tr : list (nat * engine S)) : list (list (engine S)) * S * list (nat * engine S) :=
  match sched with
  | [] => (gs, s, tr)
  | i :: sched' => match take gs i with
                   | Some (e, gs') => run gs' sched' (fst (run_one e s)) (tr ++ [(i, e)])
                   | None => run gs sched' s tr
                   end
  end.
(** the parallel region ends when all groups have ended *)
Definition ended {E} (gs : list (list E)) : Prop := Forall (fun g => g = []) gs.
