(** What a simulation step is, independently of how the loop is organised. *)
From Coq Require Import List ZArith Bool.
From Verif Require Import Scene_Model.
Import ListNotations.
Open Scope Z_scope.

Section Spec.
Context {E W T : Type} (sm : sem E W T).

(** A step is the list of its items: cell update, each engine in order, clock. *)
Inductive item := Cell | Eng (e : E) | Clock.
Definition program (l : list E) : list item := Cell :: map Eng l ++ [Clock].

(** What is carried along: clock, world, and all requests engines made so far. *)
Record core := mkCore { k_iter : Z; k_time : T; k_world : W; k_reqs : list (req E) }.

(** an engine runs iff it is neither dead nor inactive *)
Definition engine_effect (e : E) (i : Z) (t : T) (w : W) : outcome E W :=
  if dead sm e w then mkOut w [] false else
  let (o, b) := activated sm e i t w in
  if o_exc o then o else
  if b then let o2 := act sm e i t (o_w o) in mkOut (o_w o2) (o_reqs o ++ o_reqs o2) (o_exc o2)
  else o.

Definition exec (x : item) (k : core) : core * bool :=
  match x with
  | Cell => let (w, b) := prologue sm (k_world k) in (mkCore (k_iter k) (k_time k) w (k_reqs k), b)
  | Eng e => let o := engine_effect e (k_iter k) (k_time k) (k_world k) in
             (mkCore (k_iter k) (k_time k) (o_w o) (k_reqs k ++ o_reqs o), o_exc o)
  | Clock => (mkCore (k_iter k + 1) (tick sm (k_time k) (k_world k)) (k_world k) (k_reqs k), false)
  end.

(** stops at the first exception *)
Fixpoint execs (l : list item) (k : core) : core * bool :=
  match l with
  | [] => (k, false)
  | x :: l' => let (k1, b) := exec x k in if b then (k1, true) else execs l' k1
  end.

Definition core_of (s : scene E W T) : core := mkCore (iter s) (time s) (world s) [].

(** the engine list (resp. flag) after the requests, oldest first *)
Definition last_engines (old : list E) (rs : list (req E)) : list E :=
  fold_left (fun cur r => match r with SetEngines l => l | _ => cur end) rs old.
Definition last_flag (old : bool) (rs : list (req E)) : bool :=
  fold_left (fun cur r => match r with SetSubStepping b => b | _ => cur end) rs old.
Definition no_flag_req (rs : list (req E)) : Prop :=
  forall b, ~ In (SetSubStepping b) rs.

(** m calls in a row, all without exception *)
Fixpoint calls (m : nat) (s : scene E W T) : option (scene E W T) :=
  match m with
  | O => Some s
  | S m' => match moveToNextTimeStep sm s with (s1, false) => calls m' s1 | _ => None end
  end.

(** k steps of the ordinary loop *)
Fixpoint steps (k : nat) (s : scene E W T) : option (scene E W T) :=
  match k with
  | O => Some s
  | S k' => match moveToNextTimeStep sm s with (s1, false) => steps k' s1 | _ => None end
  end.

(** the next n ordinary steps raise nothing and no engine assigns O.subStepping in them *)
Fixpoint good (n : nat) (s : scene E W T) : Prop :=
  match n with
  | O => True
  | S n' => exists k, execs (program (engines_get s)) (core_of s) = (k, false) /\ no_flag_req (k_reqs k) /\
                      forall s', moveToNextTimeStep sm (with_ss s false) = (s', false) -> good n' s'
  end.

(** What the user may do between calls in the mixed-mode property. *)
Inductive uop := UCall | USubStepping (b : bool).
Fixpoint session (l : list uop) (s : scene E W T) : option (scene E W T) :=
  match l with
  | [] => Some s
  | UCall :: l' => match moveToNextTimeStep sm s with (s1, false) => session l' s1 | _ => None end
  | USubStepping b :: l' => session l' (with_ss s b)
  end.

(** program repeated m times *)
Fixpoint cyc (m : nat) (l : list E) : list item :=
  match m with O => [] | S m' => program l ++ cyc m' l end.

(** engines that never ask for another engine list or mode and never raise *)
Definition quiet : Prop :=
  (forall e i t w, o_reqs (act sm e i t w) = [] /\ o_exc (act sm e i t w) = false) /\
  (forall e i t w, o_reqs (fst (activated sm e i t w)) = [] /\ o_exc (fst (activated sm e i t w)) = false) /\
  (forall w, snd (prologue sm w) = false).

End Spec.
Arguments item : clear implicits.
Arguments core : clear implicits.
