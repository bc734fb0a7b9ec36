(** Vocabulary of the properties of the loop over interactions. *)
From Coq Require Import List ZArith Bool Arith.
From Verif Require Import Loop_Model.
Import ListNotations.

Section Spec.
Context {T : types}.

(** ** contact *)
(** the bodies of an interaction *)
Definition bodies_of (S : @scene T) (i : @inter T) (b1 b2 : @body T) : Prop := byId S (id1 i) = Some b1 /\ byId S (id2 i) = Some b2.
(** the functor for the shapes says that the bodies touch; it is given the bodies in its own order, the
    distance of the second one from the first one (in cells), and the present geometry *)
Definition touching (F : @functors T) (i : @inter T) (b1 b2 : @body T) : Prop :=
  exists s1 s2 gf sw, shape b1 = Some s1 /\ shape b2 = Some s2 /\ geomFor F s1 s2 = Some (gf, sw) /\
    fst (if sw then goGeom F gf s2 s1 (state b2) (state b1) (shift2 F (opp F (cellDist i))) (geom i) (isReal i)
               else goGeom F gf s1 s2 (state b1) (state b2) (shift2 F (cellDist i)) (geom i) (isReal i)) = true.
(** what is remembered in the interaction agrees with the dispatcher, for the given shapes of the bodies *)
Definition coherent (F : @functors T) (shapes : nat -> option (Sh T)) (i : @inter T) : Prop :=
  forall s1 s2, shapes (id1 i) = Some s1 -> shapes (id2 i) = Some s2 ->
    (geomExists i = false -> geomFor F s1 s2 = None) /\ (forall gf, cGeom i = Some gf -> geomFor F s1 s2 = Some (gf, false)).
(** the bodies of a scene have these shapes *)
Definition has_shapes (shapes : nat -> option (Sh T)) (S : @scene T) : Prop := forall k b, byId S k = Some b -> shape b = shapes k.
(** the dispatcher finds the same functor for the exchanged arguments *)
Definition symmetric (F : @functors T) : Prop :=
  (forall s1 s2 gf, geomFor F s1 s2 = Some (gf, true) -> geomFor F s2 s1 = Some (gf, false)) /\ (forall s1 s2, geomFor F s1 s2 = None -> geomFor F s2 s1 = None).
(** no physics without geometry *)
Definition formed (i : @inter T) : Prop := phys i = None \/ isReal i = true.
(** a pair the loop has to take care of *)
Definition eligible (S : @scene T) (b1 b2 : @body T) : Prop :=
  (subd S = subdomain b1 \/ subd S = subdomain b2) /\ isClump b1 = false /\ isClump b2 = false.
(** seen by the collider if it has run in this step *)
Definition seen (S : @scene T) (i : @inter T) : Prop := isReal i = true \/ ~ (0 <= iterColliderLastRun S /\ iterColliderLastRun S = iter S)%Z \/ (iter S <= iterLastSeen i)%Z.

(** ** histories of one interaction *)
(** a step of the loop; requestErase; a run of a collider which sees the interaction at the given step;
    assignment of I.isActive *)
Inductive op := Step (S : @scene T) | Erase | Seen (z : Z) | Activate (b : bool).
Definition do_op (F : @functors T) (o : op) (i : @inter T) : option (@inter T) :=
  match o with
  | Step sc => match process F sc i with Ok (i', _) => Some i' | _ => None end
  | Erase => Some (reset i)
  | Seen z => Some (mkI (id1 i) (id2 i) (geom i) (phys i) (cellDist i) (iterMadeReal i) z (geomExists i) (cGeom i) (cPhys i) (cLaw i) (isActive i))
  | Activate b => Some (mkI (id1 i) (id2 i) (geom i) (phys i) (cellDist i) (iterMadeReal i) (iterLastSeen i) (geomExists i) (cGeom i) (cPhys i) (cLaw i) b)
  end.
Fixpoint do_ops (F : @functors T) (os : list op) (i : @inter T) : option (@inter T) :=
  match os with [] => Some i | o :: os' => match do_op F o i with Some i' => do_ops F os' i' | None => None end end.
Definition scenes (os : list op) : list (@scene T) := flat_map (fun o => match o with Step sc => [sc] | _ => [] end) os.
(** step numbers increase *)
Fixpoint increasing (from : Z) (Ss : list (@scene T)) : Prop := match Ss with [] => True | sc :: Ss' => (from < iter sc)%Z /\ increasing (iter sc) Ss' end.
(** after [os] the interaction is real, and has been so since step number [z], in which it became real *)
Definition real_since (F : @functors T) (os : list op) (i0 : @inter T) (z : Z) : Prop :=
  exists before S after i1 i2, os = before ++ Step S :: after /\ iter S = z /\ do_ops F before i0 = Some i1 /\ isReal i1 = false /\
    do_op F (Step S) i1 = Some i2 /\
    (forall k i, (k <= length after)%nat -> do_ops F (firstn k after) i2 = Some i -> isReal i = true).

(** ** other *)
(** not real, and not seen by the collider although it has run in this step *)
Definition unseen (S : @scene T) (i : @inter T) : bool := ((0 <=? iterColliderLastRun S) && (iterColliderLastRun S =? iter S))%Z && negb (isReal i) && (iterLastSeen i <? iter S)%Z.
(** a geometry has been made by the functor that is remembered *)
Definition cached (i : @inter T) : Prop := cGeom i = None -> geom i = None /\ phys i = None.
(** a functor is found for all materials and for all results, and it accepts its arguments in the given order *)
Definition total (F : @functors T) : Prop :=
  (forall gf s1 s2 t1 t2 v g r, goGeom F gf s1 s2 t1 t2 v g r <> (true, None)) /\ (forall m1 m2, physFor F m1 m2 <> None) /\
  (forall pf m1 m2, takes F pf m1 m2 = true) /\ (forall g p, lawFor F g p <> None).
(** all laws leave the forces alone if the interaction is not active *)
Definition respects (F : @functors T) : Prop := forall l j g p t1 t2, isActive j = false -> snd (goLaw F l j g p t1 t2) = [].
End Spec.
