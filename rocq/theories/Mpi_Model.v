(** Model of the distributed simulation of py/mpy.py: splitScene, the exchanges of
    one step, mergeScene.  All processes run the same python code with their own
    rank; process 0 is the master.  Message passing is that of Comm_Model.

    Simplifications
    - the flags at mpy.py:46-52 have their default values, except
      ACCUMULATE_FORCES which is a parameter [acc];
    - no grid shapes (GridNode, GridConnection, PFacet);
    - the subdomain bodies are already in the master's scene (mpy.py:410-417);
    - what a process computes alone (bounds, collision detection, forces, motion)
      is any function: record [locals];
    - serialising a scene and reading it back gives the same scene;
    - MPI_Bcast is a send from the root to each of the others;
    - [sc s = None] means that this process has met an error: an id without body,
      a message of unexpected content or undefined behaviour. *)
From Coq Require Import List Arith Bool.
From Verif Require Import Subd_Model Comm_Model.
Import ListNotations.

(** what the exchanges look at in a body: b.subdomain, b.isSubdomain, b.bounded *)
Record attrs := mkAttrs { subdomain : nat; isSubdomain : bool; bounded : bool }.

Section Mpi.
Context {D X Bx F : Type} (Fadd : F -> F -> F).
Notation body := (body D X attrs).
Notation bodies := (bodies D X attrs).
Notation bnd := (option (vec D * vec D)).

(** which bodies exist, with subdomain and isSubdomain *)
Definition shape (w : bodies) : list (option (nat * bool)) :=
  map (option_map (fun b => (subdomain (bRest b), isSubdomain (bRest b)))) w.
Definition at_ (sh : list (option (nat * bool))) (id : nat) : option (nat * bool) :=
  match nth_error sh id with Some x => x | None => None end.
(** [b.id for b in O.bodies if b.isSubdomain], mpy.py:440-445 *)
Definition sdlist (sh : list (option (nat * bool))) : list nat :=
  filter (fun id => match at_ sh id with Some (_, is) => is | None => false end) (seq 0 (length sh)).
(** [b.id for b in O.bodies if b.subdomain==k], mpy.py:380-381,388 *)
Definition owned (sh : list (option (nat * bool))) (k : nat) : list nat :=
  filter (fun id => match at_ sh id with Some (d, _) => d =? k | None => false end) (seq 0 (length sh)).
(** the ranks of the subdomain bodies, in the order of the list *)
Definition sd_ranks (sh : list (option (nat * bool))) : list nat :=
  flat_map (fun id => match at_ sh id with Some (d, _) => [d] | None => [] end) (sdlist sh).

(** local computations of a process *)
Record locals := mkLocals {
  dispatch : nat -> bodies -> bodies;                             (* collider.boundDispatcher() *)
  minmax : nat -> bodies -> Bx;                                   (* Subdomain.setMinMax of the own subdomain *)
  collide : nat -> bodies -> (nat -> Bx) -> bodies * list (nat * nat); (* collider(): scene and interactions *)
  forces : nat -> bodies -> nat -> F;                             (* interaction loop: forces by body id *)
  engines : nat -> bodies -> (nat -> F) -> bodies;                (* Newton's law and other engines *)
  active : nat -> bodies -> bool }.                               (* collider.isActivated() *)

(** state of a process *)
Record lstate := mkL {
  sc : option bodies;
  boxes : nat -> Bx;             (* boundsMin/Max of the subdomain bodies, by rank *)
  inter : nat -> list nat;       (* O.subD.intersections *)
  mirror : nat -> list nat;      (* O.subD.mirrorIntersections *)
  frc : nat -> F;                (* O.forces *)
  stop : bool }.                 (* checkColliderActivated has returned True *)

Inductive message :=
| MScene (w : bodies) | MBox (b : Bx) | MIds (l : list nat) | MVals (l : list D)
| MForces (l : list (nat * F)) | MBounds (l : list bnd) | MFlag (b : bool) | MBad.

Definition set_sc (s : lstate) x := mkL x (boxes s) (inter s) (mirror s) (frc s) (stop s).
Definition set_box (s : lstate) k b := mkL (sc s) (fun j => if j =? k then b else boxes s j) (inter s) (mirror s) (frc s) (stop s).
Definition set_inter (s : lstate) i := mkL (sc s) (boxes s) i (mirror s) (frc s) (stop s).
Definition set_mirror (s : lstate) m := mkL (sc s) (boxes s) (inter s) m (frc s) (stop s).
Definition set_frc (s : lstate) f := mkL (sc s) (boxes s) (inter s) (mirror s) f (stop s).
Definition set_stop (s : lstate) b := mkL (sc s) (boxes s) (inter s) (mirror s) (frc s) b.
Definition upd {A} (f : nat -> A) (k : nat) (x : A) : nat -> A := fun j => if j =? k then x else f j.
Definition app_at (I : nat -> list nat) (k x : nat) : nat -> list nat := upd I k (I k ++ [x]).

Definition set_bounded (b : body) (x : bool) : body :=
  mkBody (bstate b) (bound b) (mkAttrs (subdomain (bRest b)) (isSubdomain (bRest b)) x).

(** unboundRemoteBodies, mpy.py:132-139 *)
Definition unbound (rank : nat) (w : bodies) : bodies :=
  map (option_map (fun b =>
    if negb (isSubdomain (bRest b)) && negb (subdomain (bRest b) =? rank)
    then set_bounded (mkBody (bstate b) None (bRest b)) false else b)) w.

(** reboundRemoteBodies, mpy.py:141-147; an id without body raises *)
Fixpoint rebound (w : bodies) (ids : list nat) : option bodies :=
  match ids with
  | [] => Some w
  | id :: ids' => match body_at w id with
                  | Some b => rebound (update w id (set_bounded b true)) ids'
                  | None => None end
  end.

(** ERASE_REMOTE, mpy.py:516-526; O.bodies[id].bounded raises for an erased body *)
Fixpoint erase_remote (rank : nat) (w : bodies) : option bodies :=
  match w with
  | [] => Some []
  | None :: _ => None
  | Some b :: w' =>
    match erase_remote rank w' with
    | Some l => Some ((if negb (bounded (bRest b)) && negb (subdomain (bRest b) =? rank) then None else Some b) :: l)
    | None => None end
  end.

(** O.interactions.withBodyAll(sd) and the other body of each *)
Definition others (sd : nat) (l : list (nat * nat)) : list nat :=
  map (fun ij => if snd ij =? sd then fst ij else snd ij)
      (filter (fun ij => (fst ij =? sd) || (snd ij =? sd)) l).

(** genLocalIntersections, mpy.py:221-271, one subdomain body.  Interactions refer
    to existing bodies (World, C03); others are skipped here. *)
Definition gen1 (rank : nat) (sh : list (option (nat * bool))) (l : list (nat * nat))
    (I : nat -> list nat) (sd : nat) : nat -> list nat :=
  match at_ sh sd with
  | None => I
  | Some (k, _) =>
    if k =? rank then
      let I1 := fold_left (fun I o => match at_ sh o with
                                      | Some (d, _) => if d =? 0 then app_at I 0 o else I
                                      | None => I end) (others sd l) I in
      if is_nil (I1 0) then I1 else app_at I1 k 0
    else
      let I1 := fold_left (fun I o => match at_ sh o with
                                      | Some (d, is) => if negb (d =? rank) then I
                                                        else if is then app_at I rank k else app_at I k o
                                      | None => I end) (others sd l) I in
      if (rank =? 0) && negb (is_nil (I1 k)) then app_at I1 0 k else I1
  end.
Definition gen (rank : nat) (sh : list (option (nat * bool))) (l : list (nat * nat)) : nat -> list nat :=
  fold_left (gen1 rank sh l) (sdlist sh) (fun _ => []).

(** ** phases *)
Notation phase := (phase lstate message).
Definition nobody : nat -> lstate -> list nat := fun _ _ => [].
Definition local (f : nat -> bodies -> lstate -> lstate) : phase :=
  mkPhase 0 nobody nobody (fun _ _ _ => MBad) (fun _ s _ _ => s)
          (fun p s => match sc s with Some w => f p w s | None => s end).
(** one message from a to b *)
Definition one (t a b : nat) (m : lstate -> message) (r : lstate -> message -> lstate) : phase :=
  mkPhase t (fun p _ => if p =? b then [a] else []) (fun p _ => if p =? a then [b] else [])
          (fun _ s _ => m s) (fun _ s _ x => r s x) (fun _ s => s).

Definition bad (s : lstate) : lstate := set_sc s None.
Definition workers (n : nat) : list nat := seq 1 (n - 1).

(** mpy.py:431-438 *)
Definition scene_phase (w : nat) : phase :=
  one 11 0 w (fun s => match sc s with Some x => MScene x | None => MBad end)
             (fun s m => match m with MScene x => set_sc s (Some x) | _ => bad s end).

Context (L : locals).

(** mpy.py:454-455,165-168: unboundRemoteBodies, boundDispatcher, own box *)
Definition prepare : phase :=
  local (fun p w s => let w1 := dispatch L p (unbound p w) in
                      let s1 := set_sc s (Some w1) in
                      if p =? 0 then s1 else set_box s1 p (minmax L p w1)).

(** updateDomainBounds, mpy.py:149-186 *)
Definition bounds_phase (n : nat) : phase :=
  mkPhase 12
    (fun p s => match sc s with Some w => filter (fun k => negb (k =? p)) (sd_ranks (shape w)) | None => [] end)
    (fun p s => if p =? 0 then [] else filter (fun k => negb (k =? p)) (seq 0 n))
    (fun p s _ => MBox (boxes s p))
    (fun p s k m => match m with MBox b => set_box s k b | _ => bad s end)
    (fun _ s => s).

(** mpy.py:459-460,467: collider, genLocalIntersections, empty mirror lists *)
Definition detect : phase :=
  local (fun p w s => let (w1, l) := collide L p w (boxes s) in
                      set_mirror (set_inter (set_sc s (Some w1)) (gen p (shape w1) l)) (fun _ => [])).

(** mpy.py:468-488 *)
Definition mirror0_phase (w : nat) : phase :=
  one 16 0 w (fun s => MIds (inter s w))
    (fun s m => match m with
                | MIds [] => s
                | MIds ids =>
                  let s1 := set_sc s (match sc s with Some b => rebound b ids | None => None end) in
                  let s2 := set_mirror s1 (upd (mirror s1) 0 ids) in
                  if in_dec Nat.eq_dec 0 (inter s2 w) then s2 else set_inter s2 (app_at (inter s2) w 0)
                | _ => bad s end).

Definition not0 (l : list nat) : list nat := filter (fun k => negb (k =? 0)) l.

(** mpy.py:489-514 *)
Definition mirror_phase : phase :=
  mkPhase 16
    (fun p s => if p =? 0 then [] else not0 (inter s p))
    (fun p s => if p =? 0 then [] else not0 (inter s p))
    (fun p s k => MIds (inter s k))
    (fun p s k m => match m with
                    | MIds ids => set_mirror (set_sc s (match sc s with Some b => rebound b ids | None => None end))
                                             (upd (mirror s) k ids)
                    | _ => bad s end)
    (fun _ s => s).

(** mpy.py:516-528 *)
Definition finish_split : phase :=
  local (fun p w s =>
    match (if p =? 0 then Some w else erase_remote p w) with
    | Some w1 => set_sc s (Some (fst (collide L p w1 (boxes s))))
    | None => bad s end).

(** splitScene *)
Definition split_prog (n : nat) : list phase :=
  map scene_phase (workers n) ++ [prepare; bounds_phase n; detect] ++
  map mirror0_phase (workers n) ++ [mirror_phase; finish_split].

Definition compute_forces : phase := local (fun p w s => set_frc s (forces L p w)).

(** isendRecvForces and receiveForces, mpy.py:92-116,348-361: every worker sends,
    the master receives from the ranks in its list *)
Definition force_phase (w : nat) : phase :=
  mkPhase 15
    (fun p s => if (p =? 0) && (if in_dec Nat.eq_dec w (inter s 0) then true else false) then [w] else [])
    (fun p s => if p =? w then [0] else [])
    (fun p s _ => MForces (map (fun id => (id, frc s id)) (mirror s 0)))
    (fun p s _ m => match m with
                    | MForces l => set_frc s (fold_left (fun f ix => upd f (fst ix) (Fadd (f (fst ix)) (snd ix))) l (frc s))
                    | _ => bad s end)
    (fun _ s => s).

Definition run_engines : phase := local (fun p w s => set_sc s (Some (engines L p w (frc s)))).

(** sendRecvStates, mpy.py:297-345 with Subdomain.hpp:119-156 *)
Definition state_phase : phase :=
  mkPhase 177
    (fun p s => if p =? 0 then [] else inter s p)
    (fun p s => filter (fun k => negb (k =? p) && negb (k =? 0)) (inter s p))
    (fun p s k => match sc s with
                  | Some w => match getStateValuesFromIds w (inter s k) with Some l => MVals l | None => MBad end
                  | None => MBad end)
    (fun p s k m => match m, sc s with
                    | MVals l, Some w => set_sc s (setStateValuesFromIds w (mirror s k) l)
                    | _, _ => bad s end)
    (fun _ s => s).

Definition check_reset : phase := local (fun _ _ s => set_stop s false).
(** checkColliderActivated, mpy.py:118-129, turn of process sd; once a process has
    returned True it takes no further part *)
Definition check_phase (n sd : nat) : phase :=
  mkPhase 1
    (fun p s => if stop s || (p =? sd) then [] else [sd])
    (fun p s => if stop s || negb (p =? sd) then [] else filter (fun k => negb (k =? sd)) (seq 0 n))
    (fun p s _ => match sc s with Some w => MFlag (active L p w) | None => MBad end)
    (fun p s _ m => match m with MFlag b => set_stop s b | _ => bad s end)
    (fun p s => if p =? sd then match sc s with Some w => set_stop s (stop s || active L p w) | None => s end else s).
Definition checks (n : nat) : list phase := map (check_phase n) (seq 0 n).

(** one time step: force engines, isendRecvForces, Newton's law, sendRecvStates;
    the engines are put in this order at mpy.py:532-542 *)
Definition force_part (acc : bool) (n : nat) : list phase :=
  [compute_forces] ++ (if acc then map force_phase (workers n) else []).
Definition step_prog (acc : bool) (n : nat) : list phase := force_part acc n ++ [run_engines; state_phase].

(** mergeScene, mpy.py:377-396 *)
Definition posvel_phase (w : nat) : phase :=
  one 17 w 0
    (fun s => match sc s with
              | Some b => match getStateValuesFromIds b (owned (shape b) w) with Some l => MVals l | None => MBad end
              | None => MBad end)
    (fun s m => match m, sc s with
                | MVals l, Some b => set_sc s (setStateValuesFromIds b (owned (shape b) w) l)
                | _, _ => bad s end).

Definition bounds_of (b : bodies) (ids : list nat) : list bnd :=
  map (fun id => match body_at b id with Some x => bound x | None => None end) ids.
(** for k in range(len(ids)): O.bodies[ids[k]].bound = bounds[k] *)
Fixpoint put_bounds (b : bodies) (ids : list nat) (l : list bnd) : option bodies :=
  match ids, l with
  | [], _ => Some b
  | id :: ids', x :: l' => match body_at b id with
                           | Some y => put_bounds (update b id (mkBody (bstate y) x (bRest y))) ids' l'
                           | None => None end
  | _ :: _, [] => None
  end.
Definition mbounds_phase (w : nat) : phase :=
  one 18 w 0
    (fun s => match sc s with Some b => MBounds (bounds_of b (owned (shape b) w)) | None => MBad end)
    (fun s m => match m, sc s with
                | MBounds l, Some b =>
                  let ids := owned (shape b) w in
                  set_sc s (match put_bounds b ids l with Some b1 => rebound b1 ids | None => None end)
                | _, _ => bad s end).
Definition merge_prog (n : nat) : list phase :=
  flat_map (fun w => [posvel_phase w; mbounds_phase w]) (workers n).

(** do the phase if the last check has returned [b], else nothing *)
Definition guard (b : bool) (ph : phase) : phase :=
  mkPhase (tag ph)
    (fun p s => if Bool.eqb (stop s) b then srcs ph p s else [])
    (fun p s => if Bool.eqb (stop s) b then dests ph p s else [])
    (msg ph) (recv ph)
    (fun p s => if Bool.eqb (stop s) b then fin ph p s else s).

(** mpirun with mergeSplit=False, mpy.py:556-557: O.run(nSteps,True); the engine
    collisionChecker pauses the simulation when the check returns True.  It is
    inactive ([chk]=false) once mpirun has been called with mergeSplit=True
    (mpy.py:559).  nSteps>0. *)
Definition run_plain (acc : bool) (n : nat) (chk : bool) (k : nat) : list phase :=
  check_reset :: concat (repeat (map (guard false) (step_prog acc n) ++ (if chk then checks n else [])) k).
(** mpirun with mergeSplit=True, mpy.py:558-564 *)
Fixpoint run_ms (acc : bool) (n : nat) (k : nat) : list phase :=
  match k with
  | O => []
  | S k' => step_prog acc n ++ [check_reset] ++ checks n ++
            (match k' with O => [] | _ => map (guard true) (merge_prog n ++ split_prog n) end) ++
            run_ms acc n k'
  end.

(** calls made by the user's script: mpirun(nSteps,mergeSplit) and mergeScene().
    [splitted] is O.splitted: mpirun splits if needed (mpy.py:553), mergeScene does
    nothing unless it is set (mpy.py:378).  It is the same in all processes, which
    run the same script. *)
Inductive call := Run (k : nat) (ms : bool) | Merge.
Fixpoint session (acc : bool) (n : nat) (splitted chk : bool) (l : list call) : list phase :=
  match l with
  | [] => []
  | Run k ms :: l' => (if splitted then [] else split_prog n) ++
                      (if ms then run_ms acc n k else run_plain acc n chk k) ++
                      session acc n true (chk && negb ms) l'
  | Merge :: l' => (if splitted then merge_prog n else []) ++ session acc n false chk l'
  end.
(** is the scene distributed after these calls? *)
Definition splitted_after (l : list call) : bool :=
  fold_left (fun _ x => match x with Run _ _ => true | Merge => false end) l false.

End Mpi.
