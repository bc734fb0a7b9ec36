(** Model of the background simulation thread: ThreadRunner (core/ThreadRunner.cpp),
    SimulationFlow::singleAction (core/SimulationFlow.cpp), Omega::run/pause/stop
    (core/Omega.cpp:102-131) and O.run/pause/step/wait/load
    (py/wrapper/yadeWrapper.cpp:637-661,680-681).

    One caller thread (the python interpreter) and any number of background
    threads move in any order; each action below is one uninterrupted move.

    Simplifications
    - a simulation step has a beginning and an end, in between other threads may
      move; it increments iter by one at its end (Scene.cpp:115), or ends with an
      exception; sub-stepping and stopAtTime are off;
    - m_boolmutex protects single reads/writes of m_looping, which are atomic
      moves here; the check in Omega::run and the one in ThreadRunner::start are
      one move (only the caller ever sets m_looping to true);
    - spawnSingleAction is not reachable from python and left out;
    - commands issued by engines from inside a step are not modelled;
    - iter and stopAtIter are unbounded integers. *)
From Coq Require Import List ZArith Bool Arith.
Import ListNotations.
Open Scope Z_scope.

(** Program counter of a thread executing ThreadRunner::run (ThreadRunner.cpp:19-34). *)
Inductive rpc :=
| RWaitRun    (* :22 about to lock m_runmutex *)
| RCheck      (* :25 while(looping()) *)
| RWaitCall   (* :50 about to lock m_callmutex *)
| RClear      (* :51 setTerminate(false) *)
| RInStep     (* :52, SimulationFlow.cpp:122 inside moveToNextTimeStep *)
| RPost       (* SimulationFlow.cpp:123 stop test *)
| RUnlockCall (* :53 scoped_lock released *)
| RShould     (* :27 shouldTerminate() *)
| RUnlockExc  (* scoped_lock released while the exception propagates to :29 *)
| RStop       (* :27 / :32 stop() *)
| RUnlockRun  (* scoped_lock of :22 released *)
| RDone
| RZombie.    (* the ThreadRunner was destroyed under this unfinished thread *)

(** Program counter of the caller. *)
Inductive cpc :=
| CIdle
| CRun (wait : bool)   (* O.run after setting stopAtIter, before Omega::run (yadeWrapper.cpp:639-640) *)
| CWaiting             (* wait(), yadeWrapper.cpp:648-653 *)
| CInStep              (* O.step inside moveToNextTimeStep (yadeWrapper.cpp:647) *)
| CDestroy.            (* Omega::stop -> ~ThreadRunner after pleaseTerminate: about to lock m_runmutex and
                          m_callmutex (ThreadRunner.cpp:95-96); one move, as m_callmutex is only
                          ever locked by a thread holding m_runmutex *)

Record st := mkSt {
  looping : bool;            (* m_looping *)
  runm : option nat;         (* holder of m_runmutex *)
  callm : option nat;        (* holder of m_callmutex *)
  term : bool;               (* m_should_terminate *)
  iter : Z;
  stopAt : Z;                (* Scene::stopAtIter *)
  threads : list rpc;
  caller : cpc;
  refused : bool;            (* the last O.step raised *)
  crashed : bool }.          (* a thread used a destroyed ThreadRunner *)

Definition init (it : Z) : st := mkSt false None None false it 0 [] CIdle false false.

Inductive cmd :=
| CmdRun (n : Z) (wait : bool)  (* O.run(n,wait) *)
| CmdPause                      (* O.pause() *)
| CmdStep                       (* O.step() *)
| CmdWait                       (* O.wait() *)
| CmdDestroy.                   (* O.load, O.reset..: Omega::stop, then a new ThreadRunner *)

Inductive action :=
| ACmd (c : cmd)
| ACaller
| AThread (i : nat) (exc : bool). (* exc: if thread i is inside a step, the step raises *)

Fixpoint set_nth {A} (i : nat) (x : A) (l : list A) : list A :=
  match l, i with
  | [], _ => []
  | _ :: l', O => x :: l'
  | y :: l', S i' => y :: set_nth i' x l'
  end.

Definition goto (s : st) (i : nat) (p : rpc) : st :=
  mkSt (looping s) (runm s) (callm s) (term s) (iter s) (stopAt s) (set_nth i p (threads s)) (caller s) (refused s) (crashed s).

(** move of background thread i; None = not enabled *)
Definition thread_move (s : st) (i : nat) (exc : bool) : option st :=
  match nth_error (threads s) i with
  | None => None
  | Some p =>
    match p with
    | RWaitRun => match runm s with
                  | None => Some (mkSt (looping s) (Some i) (callm s) (term s) (iter s) (stopAt s)
                                       (set_nth i RCheck (threads s)) (caller s) (refused s) (crashed s))
                  | Some _ => None end
    | RCheck => Some (goto s i (if looping s then RWaitCall else RUnlockRun))
    | RWaitCall => match callm s with
                   | None => Some (mkSt (looping s) (runm s) (Some i) (term s) (iter s) (stopAt s)
                                        (set_nth i RClear (threads s)) (caller s) (refused s) (crashed s))
                   | Some _ => None end
    | RClear => Some (mkSt (looping s) (runm s) (callm s) false (iter s) (stopAt s)
                           (set_nth i RInStep (threads s)) (caller s) (refused s) (crashed s))
    | RInStep => if exc then Some (goto s i RUnlockExc)
                 else Some (mkSt (looping s) (runm s) (callm s) (term s) (iter s + 1) (stopAt s)
                                 (set_nth i RPost (threads s)) (caller s) (refused s) (crashed s))
    | RPost => Some (mkSt (looping s) (runm s) (callm s)
                          (if (0 <? stopAt s) && (iter s =? stopAt s) then true else term s) (iter s) (stopAt s)
                          (set_nth i RUnlockCall (threads s)) (caller s) (refused s) (crashed s))
    | RUnlockCall => Some (mkSt (looping s) (runm s) None (term s) (iter s) (stopAt s)
                                (set_nth i RShould (threads s)) (caller s) (refused s) (crashed s))
    | RShould => Some (goto s i (if term s then RStop else RCheck))
    | RUnlockExc => Some (mkSt (looping s) (runm s) None (term s) (iter s) (stopAt s)
                               (set_nth i RStop (threads s)) (caller s) (refused s) (crashed s))
    | RStop => Some (mkSt false (runm s) (callm s) (term s) (iter s) (stopAt s)
                          (set_nth i RUnlockRun (threads s)) (caller s) (refused s) (crashed s))
    | RUnlockRun => Some (mkSt (looping s) None (callm s) (term s) (iter s) (stopAt s)
                               (set_nth i RDone (threads s)) (caller s) (refused s) (crashed s))
    | RDone => None
    | RZombie => Some (mkSt (looping s) (runm s) (callm s) (term s) (iter s) (stopAt s)
                            (threads s) (caller s) (refused s) true)
    end
  end.

Definition call_to (s : st) (c : cpc) : st :=
  mkSt (looping s) (runm s) (callm s) (term s) (iter s) (stopAt s) (threads s) c (refused s) (crashed s).

(** the caller issues a command; only when it is not busy with another *)
Definition cmd_move (s : st) (c : cmd) : option st :=
  match caller s with
  | CIdle =>
    match c with
    | CmdRun n w => Some (mkSt (looping s) (runm s) (callm s) (term s) (iter s)
                               (if 0 <? n then iter s + n else stopAt s) (threads s) (CRun w) (refused s) (crashed s))
    | CmdPause => Some (mkSt false (runm s) (callm s) (term s) (iter s) (stopAt s) (threads s) CIdle (refused s) (crashed s))
    | CmdStep => if looping s
                 then Some (mkSt (looping s) (runm s) (callm s) (term s) (iter s) (stopAt s) (threads s) CIdle true (crashed s))
                 else Some (mkSt (looping s) (runm s) (callm s) (term s) (iter s) (stopAt s) (threads s) CInStep false (crashed s))
    | CmdWait => Some (call_to s CWaiting)
    | CmdDestroy => Some (mkSt false (runm s) (callm s) true (iter s) (stopAt s) (threads s) CDestroy (refused s) (crashed s))
    end
  | _ => None
  end.

(** the caller goes on with its current command *)
Definition caller_move (s : st) : option st :=
  match caller s with
  | CIdle => None
  | CRun w =>
      (* Omega::run, ThreadRunner::start :70-77 *)
      let next := if w then CWaiting else CIdle in
      if looping s then Some (call_to s next)
      else Some (mkSt true (runm s) (callm s) (term s) (iter s) (stopAt s) (threads s ++ [RWaitRun]) next (refused s) (crashed s))
  | CWaiting => if looping s then None else Some (call_to s CIdle)
  | CInStep => Some (mkSt (looping s) (runm s) (callm s) (term s) (iter s + 1) (stopAt s) (threads s) CIdle (refused s) (crashed s))
  | CDestroy => match runm s, callm s with
                 | None, None =>
                   Some (mkSt false None None (term s) (iter s) (stopAt s)
                              (map (fun p => match p with RDone => RDone | _ => RZombie end) (threads s))
                              CIdle (refused s) (crashed s))
                 | _, _ => None end
  end.

Definition move (s : st) (a : action) : option st :=
  match a with
  | ACmd c => cmd_move s c
  | ACaller => caller_move s
  | AThread i exc => thread_move s i exc
  end.

(** an execution: every action must be enabled *)
Fixpoint exec (s : st) (l : list action) : option st :=
  match l with
  | [] => Some s
  | a :: l' => match move s a with Some s1 => exec s1 l' | None => None end
  end.
