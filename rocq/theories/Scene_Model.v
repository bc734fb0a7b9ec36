(** Model of one simulation step: Scene::moveToNextTimeStep (core/Scene.cpp:71-139)
    and O.engines (py/wrapper/yadeWrapper.cpp:731-737).

    Simplifications
    - engines, the periodic cell and everything else they read or write (bodies,
      interactions, dt, dead flags, ...) are abstract: [E] is the type of
      engines, [W] of worlds, [T] of the simulation time; what engines do is given
      by a record of functions [sem].
    - an engine may read iter and time but not subStep (which differs between the
      two ways of stepping);
    - the one-off consistency check (:72-75), timing (:91-92,:98,:120) and speed
      statistics (:101-113) have no effect on the simulation and are left out;
    - iter is unbounded. *)
From Coq Require Import List ZArith Bool.
Import ListNotations.
Open Scope Z_scope.

Section Model.
Context {E W T : Type}.

(** What an engine can do to the scene object while it runs: assign O.engines
    or O.subStepping (yadeWrapper.cpp:610,732). *)
Inductive req := SetEngines (l : list E) | SetSubStepping (b : bool).

(** Result of running engine code: the new world, the requests it made, and
    whether it ended with an exception. *)
Record outcome := mkOut { o_w : W; o_reqs : list req; o_exc : bool }.

Record sem := mkSem {
  dead : E -> W -> bool;                           (* Engine::dead *)
  activated : E -> Z -> T -> W -> outcome * bool;  (* Engine::isActivated(), which may change the engine *)
  act : E -> Z -> T -> W -> outcome;               (* Engine::action() *)
  prologue : W -> W * bool;                        (* if(isPeriodic) cell->integrateAndUpdate(dt); true = exception *)
  tick : T -> W -> T }.                            (* time+=dt *)

Record scene := mkScene {
  engines : list E;
  next : list E;          (* _nextEngines *)
  subStep : Z;
  subStepping : bool;
  iter : Z;
  time : T;
  world : W }.

Definition with_sub (s : scene) (k : Z) : scene :=
  mkScene (engines s) (next s) k (subStepping s) (iter s) (time s) (world s).
Definition with_world (s : scene) (w : W) : scene :=
  mkScene (engines s) (next s) (subStep s) (subStepping s) (iter s) (time s) w.
Definition with_ss (s : scene) (b : bool) : scene :=
  mkScene (engines s) (next s) (subStep s) b (iter s) (time s) (world s).

(** engines_set, yadeWrapper.cpp:732-737 *)
Definition engines_set (l : list E) (s : scene) : scene :=
  if subStep s <? 0
  then mkScene l (next s) (subStep s) (subStepping s) (iter s) (time s) (world s)
  else mkScene (engines s) l (subStep s) (subStepping s) (iter s) (time s) (world s).

(** engines_get, yadeWrapper.cpp:731 *)
Definition engines_get (s : scene) : list E :=
  match next s with [] => engines s | _ => next s end.

Definition do_req (s : scene) (r : req) : scene :=
  match r with SetEngines l => engines_set l s | SetSubStepping b => with_ss s b end.

(** effect of engine code on the scene object *)
Definition apply_out (s : scene) (o : outcome) : scene * bool :=
  (fold_left do_req (o_reqs o) (with_world s (o_w o)), o_exc o).

Context (sm : sem).

(** one engine: Scene.cpp:95-97 and :131; the boolean tells that an exception left it *)
Definition run_engine (e : E) (s : scene) : scene * bool :=
  if dead sm e (world s) then (s, false) else
  let (o, b) := activated sm e (iter s) (time s) (world s) in
  let (s1, x) := apply_out s o in
  if x then (s1, true) else
  if b then apply_out s1 (act sm e (iter s1) (time s1) (world s1)) else (s1, false).

Definition run_prologue (s : scene) : scene * bool :=
  let (w, x) := prologue sm (world s) in (with_world s w, x).

(** FOREACH over a list of engines, left at the first exception *)
Fixpoint run_engines (l : list E) (s : scene) : scene * bool :=
  match l with
  | [] => (s, false)
  | e :: l' => let (s1, x) := run_engine e s in if x then (s1, true) else run_engines l' s1
  end.

(** iter++; time+=dt (:115-116, :133) *)
Definition advance (s : scene) : scene :=
  mkScene (engines s) (next s) (subStep s) (subStepping s) (iter s + 1) (tick sm (time s) (world s)) (world s).

(** body of the loop :126-136 for one value of subs *)
Definition sub_body (subs : Z) (s : scene) : scene * bool :=
  if subs =? -1 then run_prologue s
  else if (0 <=? subs) && (subs <? Z.of_nat (length (engines s))) then
    match nth_error (engines s) (Z.to_nat subs) with
    | Some e => run_engine e s
    | None => (s, true)
    end
  else if subs =? Z.of_nat (length (engines s)) then (with_sub (advance s) (-2), false)
  else (s, false).

(** loop :126; [fuel] is maxSubStep-subs+1 *)
Fixpoint sub_loop (fuel : nat) (subs : Z) (s : scene) : scene * bool :=
  match fuel with
  | O => (s, false)
  | S f => let (s1, x) := sub_body subs s in if x then (s1, true) else sub_loop f (subs + 1) s1
  end.

(** moveToNextTimeStep, :76-139; true = left by an exception *)
Definition moveToNextTimeStep (s0 : scene) : scene * bool :=
  (* :79-84 *)
  let s := match next s0 with
           | [] => s0
           | n => if (subStep s0 <? 0) || ((subStep s0 <=? 0) && negb (subStepping s0))
                  then mkScene n [] (-1) (subStepping s0) (iter s0) (time s0) (world s0) else s0
           end in
  if negb (subStepping s) && (subStep s <? 0) then
    (* :87-117 *)
    let s := with_sub s 0 in
    let (s1, x) := run_prologue s in
    if x then (s1, true) else
    let (s2, x) := run_engines (engines s1) s1 in
    if x then (s2, true) else (with_sub (advance s2) (-1), false)
  else
    (* :121 *)
    let s := if (subStep s <? -1) || (Z.of_nat (length (engines s)) <? subStep s) then with_sub s (-1) else s in
    (* :124-125 *)
    let maxSub := if subStepping s then subStep s else Z.of_nat (length (engines s)) in
    let (s1, x) := sub_loop (Z.to_nat (maxSub - subStep s + 1)) (subStep s) s in
    if x then (s1, true) else (with_sub s1 (subStep s1 + 1), false).

End Model.
Arguments req : clear implicits.
Arguments outcome : clear implicits.
Arguments sem : clear implicits.
Arguments scene : clear implicits.
