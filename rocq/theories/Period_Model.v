(** Model of pkg/common/PeriodicEngines.hpp: when a periodic engine runs.

    Simplifications: virtual and real time are whole numbers of some small unit; the
    wall clock is a number passed with every call; [long] does not overflow. *)
From Coq Require Import List ZArith Bool.
Import ListNotations.
Local Open Scope Z_scope.

(** PeriodicEngines.hpp:67-79 *)
Record engine := mkE {
  virtPeriod : Z; realPeriod : Z; iterPeriod : Z; nDo : Z; initRun : bool; firstIterRun : Z;
  virtLast : Z; realLast : Z; iterLast : Z; nDone : Z }.
(** scene->time, getClock(), scene->iter *)
Record now := mkNow { virtNow : Z; realNow : Z; iterNow : Z }.

(** realLast=realNow; virtLast=virtNow; iterLast=iterNow; nDone++ *)
Definition mark (e : engine) (t : now) : engine :=
  mkE (virtPeriod e) (realPeriod e) (iterPeriod e) (nDo e) (initRun e) (firstIterRun e)
      (virtNow t) (realNow t) (iterNow t) (nDone e + 1).
(** nDone=0 *)
Definition restart (e : engine) : engine :=
  mkE (virtPeriod e) (realPeriod e) (iterPeriod e) (nDo e) (initRun e) (firstIterRun e)
      (virtLast e) (realLast e) (iterLast e) 0.
(** :28-30 *)
Definition elapsed (e : engine) (t : now) : bool :=
  ((virtPeriod e >? 0) && (virtNow t - virtLast e >=? virtPeriod e)) ||
  ((realPeriod e >? 0) && (realNow t - realLast e >=? realPeriod e)) ||
  ((iterPeriod e >? 0) && (iterNow t - iterLast e >=? iterPeriod e)).
(** :13-41 *)
Definition isActivated (e : engine) (t : now) : engine * bool :=
  if (firstIterRun e >? 0) && (nDone e =? 0) then
    if firstIterRun e =? iterNow t then (mark e t, true) else (e, false)
  else
    let e := if iterNow t <? iterLast e then restart e else e in
    if ((nDo e <? 0) || (nDone e <? nDo e)) && elapsed e t then (mark e t, true)
    else if nDone e =? 0 then (mark e t, initRun e)
    else (e, false).

(** the calls of one engine; which of them ran the action *)
Fixpoint calls (e : engine) (l : list now) : engine * list bool :=
  match l with
  | [] => (e, [])
  | t :: l' => let (e1, b) := isActivated e t in let (e2, r) := calls e1 l' in (e2, b :: r)
  end.
(** a new engine, created at wall clock time [clock] (:73-77) *)
Definition fresh (clock vp rp ip ndo : Z) (init : bool) (first : Z) : engine := mkE vp rp ip ndo init first 0 clock 0 0.
