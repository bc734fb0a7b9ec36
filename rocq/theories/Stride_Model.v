(** Model of the stride: bounding boxes are enlarged so that the collider need not
    run at every step.  pkg/common/Dispatching.cpp (BoundDispatcher), pkg/dem/
    NewtonIntegrator.cpp (saveMaximaDisplacement), pkg/common/InsertionSortCollider.cpp
    (isActivated, action).

    Simplifications
    - coordinates are integers, scenes are aperiodic, as in [Coll_Model];
    - the extent of a body is given by its distance to the box around its shape on
      each side; it changes when the body rotates;
    - the length chosen by the dispatcher for each box is an input, any number: the
      properties do not depend on how it is computed (Dispatching.cpp:43-51);
    - the flag maxVelocitySq, as saveMaximaDisplacement sets it, takes three values. *)
From Coq Require Import List ZArith Arith Bool.
From Verif Require Import Coll_Model.
Import ListNotations.

Definition vec := nat -> Z.
(** core/Bound.hpp:24-31 *)
Record bound := mkBound { bx : box; refPos : vec; sweepLength : Z }.
Record sbody := mkSB {
  spos : vec;                  (* Body::state->pos *)
  elo : vec; ehi : vec;        (* the shape reaches from pos-elo to pos+ehi *)
  bounded : bool;              (* Body::isBounded, has a shape and a bound functor *)
  moved : bool;                (* moved by the integrator, directly or as a clump member: NewtonIntegrator.cpp:128-131, Clump.hpp:70-81 *)
  bnd : option bound;          (* Body::bound *)
  sdom : Z; sIsSub : bool; sclump : option nat; smask : Z }.
Definition sbodies := list (option sbody).
(** what the collider sees *)
Definition seen (b : sbody) : body := mkBody (option_map bx (bnd b)) (spos b) (sdom b) (sIsSub b) (sclump b) (smask b).
Definition scene_of (bs : sbodies) : bodies := map (option_map seen) bs.

(** Dispatching.cpp:30-58 with the functors of pkg/common/Bo1_Aabb.cpp: the box of the
    shape at its position, made larger by sweepLength if that is positive *)
Definition processBody (sweep : Z) (b : sbody) : sbody :=
  if bounded b then
    let w := if (0 <? sweep)%Z then sweep else 0%Z in
    mkSB (spos b) (elo b) (ehi b) (bounded b) (moved b)
      (Some (mkBound (mkBox (fun a => spos b a - elo b a - w)%Z (fun a => spos b a + ehi b a + w)%Z) (spos b) sweep))
      (sdom b) (sIsSub b) (sclump b) (smask b)
  else b.
Definition dispatch (sweeps : nat -> Z) (bs : sbodies) : sbodies :=
  map (fun p => option_map (processBody (sweeps (fst p))) (snd p)) (combine (seq 0 (length bs)) bs).

(** NewtonIntegrator::maxVelocitySq: 0, 0.5, 2 *)
Inductive speed := Zero | Half | Two.
Definition smax (x y : speed) : speed :=
  match x, y with Two, _ | _, Two => Two | Half, _ | _, Half => Half | _, _ => Zero end.
(** NewtonIntegrator.cpp:72-85 *)
Definition maxDisp (b : sbody) (r : bound) : Z :=
  let d a := Z.abs (spos b a - refPos r a) in Z.max (d 0) (Z.max (d 1) (d 2)).
Definition saveMaximaDisplacement (b : sbody) : speed :=
  match bnd b with
  | None => Zero
  | Some r => if (maxDisp b r =? 0)%Z || (maxDisp b r <? sweepLength r)%Z then Half else Two
  end.

(** new position and extent of a body *)
Record motion := mkMotion { mpos : vec; mlo : vec; mhi : vec }.
Definition put (m : motion) (b : sbody) : sbody :=
  mkSB (mpos m) (mlo m) (mhi m) (bounded b) (moved b) (bnd b) (sdom b) (sIsSub b) (sclump b) (smask b).

Record st := mkSt {
  sbs : sbodies;
  col : coll;
  sints : ints;
  strideActive : bool;         (* InsertionSortCollider::strideActive *)
  known : option nat;          (* InsertionSortCollider::newton: which integrator *)
  vmax : nat -> speed }.       (* maxVelocitySq of each integrator *)

(** inputs of a visit of the collider in the loop of a step *)
Record visit := mkVisit {
  vset : settings;
  verletPos : bool;            (* verletDist > 0 *)
  sweeps : nat -> Z;
  present : option nat;        (* the first integrator in O.engines *)
  sceneSort : bool }.          (* Scene::doSort *)

(** InsertionSortCollider.cpp:174-185 *)
Definition isActivated (v : visit) (x : st) : bool :=
  negb (strideActive x) ||
  match known x with
  | None => true
  | Some w => match vmax x w with Half => false | _ => true end
  end ||
  negb (bsize (col x) =? 2 * length (sbs x)) || dirty (vset v) || sceneSort v.

(** :258-286 and the rest of action.  None also stands for the exception in l.273. *)
Definition collide (v : visit) (x : st) : option st :=
  let bs := dispatch (sweeps v) (sbs x) in
  let kn := match known x with None => if verletPos v then present v else None | k => k end in
  if verletPos v && match kn with None => true | _ => false end then None else
  match action (vset v) (col x) (scene_of bs) (sints x) with
  | None => None
  | Some (c, J) => Some (mkSt bs c J (strideActive x || verletPos v) kn (vmax x))
  end.

Inductive op :=
| Collider (v : visit)                    (* the collider's turn in a step *)
| Laws (J : ints)                         (* the interaction loop: new interactions J *)
| Newton (w : nat) (mv : nat -> motion)   (* integrator w: NewtonIntegrator.cpp:87-212 *)
| Script (mv : nat -> motion)             (* something else moves bodies *)
| AddBodies (l : sbodies).

Definition move_all (only : sbody -> bool) (mv : nat -> motion) (bs : sbodies) : sbodies :=
  map (fun p => option_map (fun b => if only b then put (mv (fst p)) b else b) (snd p)) (combine (seq 0 (length bs)) bs).
Definition recorded (bs : sbodies) : speed :=
  fold_right (fun ob s => match ob with Some b => if moved b then smax (saveMaximaDisplacement b) s else s | None => s end) Zero bs.

Definition exec1 (o : op) (x : st) : option st :=
  match o with
  | Collider v => if isActivated v x then collide v x else Some x
  | Laws J => Some (mkSt (sbs x) (col x) J (strideActive x) (known x) (vmax x))
  | Newton w mv =>
      let bs := move_all moved mv (sbs x) in
      Some (mkSt bs (col x) (sints x) (strideActive x) (known x) (fun k => if k =? w then recorded bs else vmax x k))
  | Script mv => Some (mkSt (move_all (fun _ => true) mv (sbs x)) (col x) (sints x) (strideActive x) (known x) (vmax x))
  | AddBodies l => Some (mkSt (sbs x ++ l) (col x) (sints x) (strideActive x) (known x) (vmax x))
  end.
Fixpoint exec (os : list op) (x : st) : option st :=
  match os with [] => Some x | o :: os' => match exec1 o x with Some y => exec os' y | None => None end end.

Definition start : st := mkSt [] fresh [] false None (fun _ => Zero).
