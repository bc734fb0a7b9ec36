(** Model of the automatic time step: pkg/dem/GlobalStiffnessTimeStepper.{hpp,cpp}, core/TimeStepper.hpp,
    Shop::PWaveTimeStep (pkg/dem/Shop_01.cpp:432-448).

    Simplifications
    - Real is the type of real numbers, without rounding; MAX_REAL and infinity are the same large number;
    - the arrays of stiffnesses are functions of the id; of their memory only the sizes are kept; ids of
      interactions are those of bodies;
    - of the interactions only the real ones are given, each with its geometry and physics;
    - the loop over bodies skips erased ones. *)
From Coq Require Import List ZArith Bool Arith Reals.
From Verif Require Import Vec_Model.
Import ListNotations.
Local Open Scope R_scope.

Inductive outcome (A : Type) := Done (a : A) | UB.
Arguments Done {A} a.
Arguments UB {A}.
Definition bind {A B} (o : outcome A) (f : A -> outcome B) : outcome B := match o with Done a => f a | UB => UB end.
Fixpoint foldM {A B} (f : A -> B -> outcome A) (l : list B) (a : A) : outcome A := match l with [] => Done a | b :: l' => bind (f a b) (foldM f l') end.

(** Mathr::MAX_REAL, std::numeric_limits<Real>::infinity() *)
Definition MAX_REAL : R := 2 ^ 1023.
Definition isZ (x : R) : bool := if Req_EM_T x 0 then true else false.
Definition isZv (v : vec) : bool := isZ (vx v) && isZ (vy v) && isZ (vz v).

(** a contact: ids, normal, stiffnesses (getRotStiffness: twist, roll), refR1, refR2, square of the normal force, viscosities *)
Record contact := mkC { c1 : nat; c2 : nat; nrm : vec; kn : R; ks : R; ktw : R; kroll : R; rad1 : R; rad2 : R; fn2 : R; cn : R; cs : R }.
(** a body: isDynamic, isClumpMember, members if it is a clump, mass, inertia, whether it has material and
    shape, radius and Young's modulus if these are ElastMat and Sphere, State::densityScaling *)
Record body := mkB { dynamic : bool; member : bool; clump : option (list nat); mass : R; inertia : vec; complete : bool; elastic : option (R * R); scaling : R }.

(** cpp:166-175 *)
Definition sq (x : R) : R := x * x.
Definition normal2 (n : vec) : vec := V (sq (vx n)) (sq (vy n)) (sq (vz n)).
Definition diag_stiffness (n : vec) (k t : R) : vec := vadd (smul (k - t) (normal2 n)) (smul t (V 1 1 1)).
Definition diag_Rstiffness (n : vec) (t : R) : vec := smul t (V (sq (vy n) + sq (vz n)) (sq (vx n) + sq (vz n)) (sq (vx n) + sq (vy n))).
(** cpp:153-215: contributions of one contact to body [i] *)
Definition when (b : bool) (v : vec) : vec := if b then v else vzero.
Definition contribution (two : contact -> nat -> vec) (c : contact) (i : nat) : vec :=
  if isZ (fn2 c) then vzero else vadd (when (c1 c =? i)%nat (two c 1%nat)) (when (c2 c =? i)%nat (two c 2%nat)).
Definition radius (c : contact) (k : nat) : R := match k with 1%nat => rad1 c | _ => rad2 c end.
Definition stiff_of (c : contact) (k : nat) : vec := diag_stiffness (nrm c) (kn c) (ks c).
Definition Rstiff_of (c : contact) (k : nat) : vec := vadd (smul (sq (radius c k)) (diag_Rstiffness (nrm c) (ks c))) (diag_stiffness (nrm c) (ktw c) (kroll c)).
Definition visc_of (c : contact) (k : nat) : vec := diag_stiffness (nrm c) (cn c) (cs c).
Definition Rvisc_of (c : contact) (k : nat) : vec := smul (sq (radius c k)) (diag_Rstiffness (nrm c) (cs c)).
Definition total (two : contact -> nat -> vec) (cs : list contact) (i : nat) : vec := fold_right vadd vzero (map (fun c => contribution two c i) cs).

(** cpp:27-37: a clump has the sum of its members *)
Definition with_members (b : body) (f : nat -> vec) (i : nat) : vec :=
  match clump b with None => f i | Some ms => fold_left (fun s m => vadd s (f m)) ms (f i) end.

(** attributes and state of the engine *)
Record engine := mkE { defaultDt : R; maxDt : R; previousDt : R; safety : R; densityScaling : bool; targetDt : R; viscEl : bool; active : bool; interval : Z; computedOnce : bool; nStiff : nat; nVisc : nat }.

(** cpp:139-155: sizes of the arrays; memset writes nStiff entries *)
Definition resize (E : engine) (n : nat) : outcome (nat * nat) :=
  let '(s, v) := if (nStiff E <? n)%nat then (n, if viscEl E then n else nVisc E) else (nStiff E, nVisc E) in
  if viscEl E && (v <? s)%nat then UB else Done (s, v).

(** [x]/[k], or MAX_REAL without [k] *)
Definition quot (x k : R) : R := if isZ k then MAX_REAL else x / k.
Definition some3 (k : vec) : bool := negb (isZ (vx k)) || negb (isZ (vy k)) || negb (isZ (vz k)).
Definition maxc (k : vec) : R := Rmax (Rmax (vx k) (vy k)) (vz k).
(** cpp:57-71: squared period; cpp:75-97: viscous one *)
Definition period (m : R) (J k r : vec) : R := Rmin (quot m (maxc k)) (Rmin (Rmin (quot (vx J) (vx r)) (quot (vy J) (vy r))) (quot (vz J) (vz r))).
Definition something (k r : vec) : bool := negb (isZ (maxc k)) || some3 r.

(** cpp:42-52; the pointer to the sphere is used also if it is null *)
Definition free_dt (E : engine) (b : body) : outcome R :=
  if complete b then match elastic b with None => UB | Some (r, young) => Done (r / sqrt (young / (mass b / ((4 / 3) * PI * r ^ 3)))) end else Done (defaultDt E).
(** cpp:50-51 *)
Definition free_scaling (E : engine) (b : body) (dt : R) : R :=
  let s := safety E * (dt / targetDt E) ^ 2 in if Rle_dec (scaling b) 0 then s else Rmin (101 / 100 * scaling b) s.
(** cpp:102-104 *)
Definition new_scaling (E : engine) (s0 dt : R) : R := let s := (dt / targetDt E) ^ 2 in if Rlt_dec 0 s0 then Rmin (s0 * (105 / 100)) s else s.

(** cpp:22-109, for a body with state; the state of the loop: newDt, computedSomething. Third: State::densityScaling *)
Definition findTimeStepFromBody (E : engine) (cs : list contact) (i : nat) (b : body) (st : R * bool) : outcome (R * bool * R) :=
  let k := with_members b (total stiff_of cs) i in let r := with_members b (total Rstiff_of cs) i in
  let first : outcome (option R * bool * R * bool) :=   (* dt (None: not assigned), computedSomething, scaling, return *)
    if isZv k then
      bind (if densityScaling E then bind (free_dt E b) (fun dt => Done (Some dt, free_scaling E b dt)) else Done (None, scaling b)) (fun ds =>
      Done (fst ds, snd st, snd ds, negb (viscEl E)))
    else Done (Some (141044 / 100000 * safety E * sqrt (period (mass b) (inertia b) k r)), snd st || something k r, scaling b, false) in
  bind first (fun '(dt, som, sc, ret) =>
  if ret then Done (fst st, som, sc) else
  let c := with_members b (total visc_of cs) i in let cr := with_members b (total Rvisc_of cs) i in
  let som' := if viscEl E then som || something c cr else som in
  match dt with
  | None => UB
  | Some dt => let dt' := if viscEl E then Rmin dt (2 * safety E * period (mass b) (inertia b) c cr) else dt in
               if densityScaling E then Done (targetDt E, som', new_scaling E sc dt') else Done (Rmin dt' (fst st), som', sc)
  end).

(** Shop_01.cpp:432-448 *)
Definition PWaveTimeStep (bs : list (option body)) : R :=
  let dt := fold_left (fun dt o => match o with Some b => match elastic b with Some (r, young) => if complete b then Rmin dt (r / sqrt (young / (mass b / ((4 / 3) * PI * r ^ 3)))) else dt | None => dt end | None => dt end) bs MAX_REAL in
  if Req_EM_T dt MAX_REAL then 1 else dt.

Definition set_scaling (b : body) (s : R) : body := mkB (dynamic b) (member b) (clump b) (mass b) (inertia b) (complete b) (elastic b) s.
(** cpp:124-128: one body of the loop *)
Definition one (E : engine) (cs : list contact) (st : R * bool * list (option body)) (ib : nat * option body) : outcome (R * bool * list (option body)) :=
  let '(dt, som, out) := st in
  match snd ib with
  | None => Done (dt, som, out ++ [None])
  | Some b => if dynamic b && negb (member b) then bind (findTimeStepFromBody E cs (fst ib) b (dt, som)) (fun '(dt', som', sc) => Done (dt', som', out ++ [Some (set_scaling b sc)]))
              else Done (dt, som, out ++ [Some b])
  end.
(** cpp:116-137; [dt]: scene->dt *)
Definition computeTimeStep (E : engine) (dt : R) (bs : list (option body)) (cs : list contact) : outcome (engine * R * list (option body)) :=
  let d := if Rlt_dec (defaultDt E) 0 then safety E * PWaveTimeStep bs else defaultDt E in
  bind (resize E (length bs)) (fun sv =>
  let E1 := mkE d (maxDt E) (previousDt E) (safety E) (densityScaling E) (targetDt E) (viscEl E) (active E) (interval E) (computedOnce E) (fst sv) (snd sv) in
  bind (foldM (one E1 cs) (combine (seq 0 (length bs)) bs) (MAX_REAL, false, [])) (fun '(nd, som, bs') =>
  let newDt := if densityScaling E then targetDt E else nd in
  if som || densityScaling E then
    let p := Rmin (Rmin newDt (maxDt E)) (105 / 100 * previousDt E) in
    Done (mkE d (maxDt E) p (safety E) (densityScaling E) (targetDt E) (viscEl E) (active E) (interval E) true (fst sv) (snd sv), p, bs')
  else Done (E1, if computedOnce E then dt else d, bs'))).

(** cpp:111-114 *)
Definition isActivated (E : engine) (iter : Z) : outcome bool :=
  if active E then if computedOnce E then if (interval E =? 0)%Z then UB else Done ((iter mod interval E =? 0)%Z || (iter <? 2)%Z) else Done true else Done false.
