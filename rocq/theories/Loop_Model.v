(** Model of the loop over interactions: pkg/common/InteractionLoop.{hpp,cpp},
    core/Interaction.{hpp,cpp}.

    Simplifications
    - the functors are parameters: functions of what they are given. What a dispatcher finds for two
      classes does not change (its history is the subject of C32);
    - one iteration of the parallel loop is one transition. It touches its own interaction and the
      forces of its own thread only, hence the schedules are the orders of the iterations;
    - an exception that leaves an iteration leaves a parallel region of OpenMP, which ends the program
      (std::terminate): outcome [Terminate]; exit(1): [Exit]; a cast to a class the object is not of: [Undefined];
    - ids are those of existing slots of the body container (see World for others), callbacks observe only. *)
From Coq Require Import List ZArith Bool Arith.
Import ListNotations.

(** shapes, materials, states, geometries, physics, distances in cells, shift vectors, what a law adds to
    forces; functor objects for geometry, physics and law *)
Record types := mkT { Sh : Type; Mt : Type; St : Type; Ge : Type; Ph : Type; Cd : Type; Vc : Type; Fo : Type; Gf : Type; Pf : Type; Lf : Type }.
Inductive outcome (A : Type) := Ok (a : A) | Terminate | Exit | Undefined.
Arguments Ok {A} a.
Arguments Terminate {A}.
Arguments Exit {A}.
Arguments Undefined {A}.

Section Loop.
Context {T : types}.

(** core/Interaction.hpp:16-58; linIx and iterBorn are left out *)
Record inter := mkI { id1 : nat; id2 : nat; geom : option (Ge T); phys : option (Ph T); cellDist : Cd T; iterMadeReal : Z; iterLastSeen : Z;
  geomExists : bool; cGeom : option (Gf T); cPhys : option (Pf T); cLaw : option (Lf T); isActive : bool }.
(** core/Body.hpp: the part that is used here *)
Record body := mkB { subdomain : Z; isClump : bool; shape : option (Sh T); material : Mt T; state : St T }.

Record functors := mkF {
  (** DynLibDispatcher::getFunctor2D; the second component is [swap] *)
  geomFor : Sh T -> Sh T -> option (Gf T * bool);
  (** IGeomFunctor::go with force=false; the last two arguments: I->geom and I->isReal();
      returned value, I->geom afterwards *)
  goGeom : Gf T -> Sh T -> Sh T -> St T -> St T -> Vc T -> option (Ge T) -> bool -> bool * option (Ge T);
  physFor : Mt T -> Mt T -> option (Pf T * bool);
  (** the materials are of the classes to which the functor casts them (YADE_PTR_CAST is a static cast) *)
  takes : Pf T -> Mt T -> Mt T -> bool;
  (** IPhysFunctor::go; I->phys afterwards *)
  goPhys : Pf T -> Mt T -> Mt T -> Ge T -> option (Ph T) -> Ph T;
  lawFor : Ge T -> Ph T -> option (Lf T);
  (** LawFunctor::go: returned value; geom and phys afterwards (None: the functor itself has called
      requestErase); forces and torques added *)
  goLaw : Lf T -> inter -> Ge T -> Ph T -> St T -> St T -> bool * option (Ge T * Ph T) * list (Fo T);
  (** cell->hSize * cellDist, zero if not periodic *)
  shift2 : Cd T -> Vc T;
  opp : Cd T -> Cd T }.

(** Interaction.hpp:21 *)
Definition isReal (i : inter) : bool := match geom i, phys i with Some _, Some _ => true | _, _ => false end.
(** Interaction.cpp:25-32 with init(), 19-23 *)
Definition reset (i : inter) : inter := mkI (id1 i) (id2 i) None None (cellDist i) (-1) (iterLastSeen i) true None None None true.
(** Interaction.cpp:16 *)
Definition new (a b : nat) (zero : Cd T) : inter := mkI a b None None zero (-1) (-1) true None None None true.
(** Interaction.cpp:18 *)
Definition isFresh (iter : Z) (i : inter) : bool := (iterMadeReal i =? iter)%Z.

(** Interaction.cpp:35-41 *)
Definition swapOrder (F : functors) (i : inter) : outcome inter :=
  match geom i, phys i with
  | None, None => Ok (mkI (id2 i) (id1 i) None None (opp F (cellDist i)) (iterMadeReal i) (iterLastSeen i) (geomExists i) (cGeom i) (cPhys i) (cLaw i) (isActive i))
  | _, _ => Terminate
  end.

(** what an iteration does besides changing its interaction: calls of laws (with the interaction as it is at
    that time), forces added, callbacks called (by index), pairs given to eraseAfterLoop *)
Record effect := mkE { laws : list inter; forces : list (Fo T); called : list nat; later : list (nat * nat) }.
Definition nothing : effect := mkE [] [] [] [].

(** the scene as the loop sees it: step number, subdomain, bodies by id, number of callbacks and which of
    them are active in this step; removeUnseenIntrs (InteractionLoop.cpp:56) *)
Record scene := mkS { iter : Z; subd : Z; byId : nat -> option body; callbacks : list bool; iterColliderLastRun : Z }.
Definition removeUnseen (S : scene) : bool := (0 <=? iterColliderLastRun S)%Z && (iterColliderLastRun S =? iter S)%Z.
(** indices of the active callbacks *)
Definition active_callbacks (S : scene) : list nat :=
  map fst (filter (fun p => snd p) (combine (seq 0 (length (callbacks S))) (callbacks S))).

Definition set_cGeom (i : inter) (g : Gf T) : inter := mkI (id1 i) (id2 i) (geom i) (phys i) (cellDist i) (iterMadeReal i) (iterLastSeen i) (geomExists i) (Some g) (cPhys i) (cLaw i) (isActive i).
Definition set_noGeom (i : inter) : inter := mkI (id1 i) (id2 i) (geom i) (phys i) (cellDist i) (iterMadeReal i) (iterLastSeen i) false (cGeom i) (cPhys i) (cLaw i) (isActive i).
Definition set_geom (i : inter) (g : option (Ge T)) : inter := mkI (id1 i) (id2 i) g (phys i) (cellDist i) (iterMadeReal i) (iterLastSeen i) (geomExists i) (cGeom i) (cPhys i) (cLaw i) (isActive i).
Definition set_phys (i : inter) (p : Ph T) (c : Pf T) (made : Z) : inter := mkI (id1 i) (id2 i) (geom i) (Some p) (cellDist i) made (iterLastSeen i) (geomExists i) (cGeom i) (Some c) (cLaw i) (isActive i).
Definition set_law (i : inter) (g : Ge T) (p : Ph T) (l : Lf T) : inter := mkI (id1 i) (id2 i) (Some g) (Some p) (cellDist i) (iterMadeReal i) (iterLastSeen i) (geomExists i) (cGeom i) (cPhys i) (Some l) (isActive i).

(** InteractionLoop.cpp:146-165: law and callbacks, for an interaction with geometry [g] and physics [p] *)
Definition apply_law (F : functors) (S : scene) (i : inter) (g : Ge T) (p : Ph T) (b1 b2 : body) : outcome (inter * effect) :=
  match (match cLaw i with Some l => Some l | None => lawFor F g p end) with
  | None => Exit
  | Some l =>
    let i := set_law i g p l in
    let '(ok, after, fs) := goLaw F l i g p (state b1) (state b2) in
    let i1 := match after with Some (g', p') => set_law i g' p' l | None => reset i end in
    let i2 := if ok then i1 else reset i1 in
    Ok (i2, mkE [i] fs (if isReal i2 then active_callbacks S else []) [])
  end.
(** :106-144; geometry and physics, with the functor [gf] and the bodies in its order *)
Definition apply_geom (F : functors) (S : scene) (i : inter) (gf : Gf T) (b1 b2 : body) (s1 s2 : Sh T) : outcome (inter * effect) :=
  let wasReal := isReal i in
  let '(created, g) := goGeom F gf s1 s2 (state b1) (state b2) (shift2 F (cellDist i)) (geom i) wasReal in
  let i := set_geom i g in
  match created, g with
  | false, _ => Ok (if wasReal then reset i else i, nothing)
  (** a functor that returns true has created the geometry; a null pointer otherwise *)
  | true, None => Terminate
  | true, Some g =>
    (** [assert(!swap)] is not compiled in: the order found by the dispatcher is not used *)
    match (match cPhys i with Some p => Some p | None => option_map fst (physFor F (material b1) (material b2)) end) with
    | None => Terminate
    | Some pf => if negb (takes F pf (material b1) (material b2)) then Undefined else
      let p := goPhys F pf (material b1) (material b2) g (phys i) in
      apply_law F S (set_phys i p pf (if wasReal then iterMadeReal i else iter S)) g p b1 b2
    end
  end.
(** :63-167: one iteration *)
Definition process (F : functors) (S : scene) (i : inter) : outcome (inter * effect) :=
  if removeUnseen S && negb (isReal i) && (iterLastSeen i <? iter S)%Z then Ok (i, mkE [] [] [] [(id1 i, id2 i)])
  else match byId S (id1 i), byId S (id2 i) with
  | Some b1, Some b2 =>
    if negb (subd S =? subdomain b1)%Z && negb (subd S =? subdomain b2)%Z then Ok (reset i, nothing)
    else if isClump b1 || isClump b2 then Ok (i, nothing)
    else if negb (geomExists i) then Ok (i, nothing)
    else match shape b1, shape b2 with
    | Some s1, Some s2 =>
      match cGeom i with
      | Some gf => apply_geom F S i gf b1 b2 s1 s2
      | None =>
        match geomFor F s1 s2 with
        | None => Ok (set_noGeom i, nothing)
        | Some (gf, false) => apply_geom F S (set_cGeom i gf) gf b1 b2 s1 s2
        | Some (gf, true) => match swapOrder F (set_cGeom i gf) with
                             | Ok i' => apply_geom F S i' gf b2 b1 s2 s1
                             | Terminate => Terminate | Exit => Exit | Undefined => Undefined
                             end
        end
      end
    | _, _ => Ok (i, nothing)
    end
  | _, _ => Ok (reset i, nothing)
  end.

(** the engine: the lists eraseAfterLoopIds are filled and never read; here one list for all threads *)
Record engine := mkEng { eraseAfterLoopIds : list (nat * nat) }.
Fixpoint set_at {A} (l : list A) (k : nat) (x : A) : list A :=
  match l, k with [], _ => [] | _ :: t, O => x :: t | a :: t, S k' => a :: set_at t k' x end.
(** :61-168, with the iterations in the order [order] *)
Fixpoint run_order (F : functors) (S : scene) (order : list nat) (st : list inter * list effect) : outcome (list inter * list effect) :=
  match order with
  | [] => Ok st
  | k :: order' => match nth_error (fst st) k with
      | None => Terminate
      | Some i => match process F S i with
          | Ok (i', e) => run_order F S order' (set_at (fst st) k i', snd st ++ [e])
          | Terminate => Terminate | Exit => Exit | Undefined => Undefined
          end
      end
  end.
Definition action (F : functors) (S : scene) (order : list nat) (E : engine) (is : list inter) : outcome (engine * list inter * list effect) :=
  match run_order F S order (is, []) with
  | Ok (is', es) => Ok (mkEng (eraseAfterLoopIds E ++ flat_map later es), is', es)
  | Terminate => Terminate | Exit => Exit | Undefined => Undefined
  end.

(** ** laws and isActive. [ff]: what the law computes, None if the interaction ends *)
Definition forcefun := Ge T -> Ph T -> St T -> St T -> option (Ge T * Ph T * list (Fo T)).
(** pkg/dem/ElasticContactLaw.cpp:49-100 (Law2_ScGeom_FrictPhys_CundallStrack): isActive is not read *)
Definition cundall (ff : forcefun) (j : inter) (g : Ge T) (p : Ph T) (t1 t2 : St T) : bool * option (Ge T * Ph T) * list (Fo T) :=
  match ff g p t1 t2 with None => (false, Some (g, p), []) | Some (g', p', fs) => (true, Some (g', p'), fs) end.
(** pkg/dem/ViscoelasticPM.cpp:44-58 (Law2_ScGeom_ViscElPhys_Basic) *)
Definition viscEl (ff : forcefun) (j : inter) (g : Ge T) (p : Ph T) (t1 t2 : St T) : bool * option (Ge T * Ph T) * list (Fo T) :=
  match ff g p t1 t2 with None => (false, Some (g, p), []) | Some (g', p', fs) => if isActive j then (true, Some (g', p'), fs) else (false, Some (g', p'), []) end.
(** pkg/dem/LudingPM.cpp: the law, its end (213-220) *)
Definition luding (ff : forcefun) (j : inter) (g : Ge T) (p : Ph T) (t1 t2 : St T) : bool * option (Ge T * Ph T) * list (Fo T) :=
  match ff g p t1 t2 with None => (false, Some (g, p), []) | Some (g', p', fs) => (true, Some (g', p'), if isActive j then fs else []) end.
End Loop.
