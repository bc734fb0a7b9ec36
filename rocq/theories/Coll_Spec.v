(** Vocabulary of the properties of the collider. *)
From Coq Require Import List ZArith Arith Bool Permutation.
From Verif Require Import Coll_Model.
Import ListNotations.

(** the box of body i *)
Definition has_box (bs : bodies) (i : nat) (x : box) : Prop := exists b, body_at bs i = Some b /\ bbox b = Some x.

(** the boxes of i and j have a common interior point / a common point *)
Definition overlap_strictly (bs : bodies) (i j : nat) : Prop :=
  exists x y, has_box bs i x /\ has_box bs j y /\ forall a, a < 3 -> (lo x a < hi y a /\ lo y a < hi x a)%Z.
Definition boxes_touch (bs : bodies) (i j : nat) : Prop :=
  exists x y, has_box bs i x /\ has_box bs j y /\ forall a, a < 3 -> (lo x a <= hi y a /\ lo y a <= hi x a)%Z.

(** i and j are allowed to collide *)
Definition allowed (s : settings) (bs : bodies) (i j : nat) : Prop :=
  mayCollide (me s) (avoid s) i j (body_at bs i) (body_at bs j) = Some true.

(** there is an interaction between i and j *)
Definition linked (I : ints) (i j : nat) : Prop := exists p r, In (p, r) I /\ (p = (i, j) \/ p = (j, i)).

(** all strictly overlapping pairs that are allowed to collide have an interaction *)
Definition complete (s : settings) (bs : bodies) (I : ints) : Prop :=
  forall i j, i <> j -> overlap_strictly bs i j -> allowed s bs i j -> linked I i j.

(** Assumed of std::sort: the result has the same entries, in the order of the
    coordinates; of the threads: that they lose nothing and invent nothing.  The
    initial traversal is along one of the three axes. *)
Definition settings_ok (s : settings) : Prop :=
  sortAxis s < 3 /\
  (forall l, Permutation l (std_sort s l) /\
     forall a x b y c, std_sort s l = a ++ x :: b ++ y :: c -> (coord x <= coord y)%Z) /\
  (forall l, Permutation l (ord s l)).

(** Entries: at most one interaction per pair, ids in range. *)
Definition ints_ok (bs : bodies) (I : ints) : Prop :=
  forall i j r, In ((i, j), r) I -> i < length bs /\ j < length bs.

(** What is allowed to change between two runs unless the second one starts from
    scratch: bodies may be added; a pair of old bodies that have boxes and may
    collide had boxes and could collide before, and its interaction, if there was
    one, still exists.  Boxes change at will. *)
Definition tame (s : settings) (bs : bodies) (I : ints) (s' : settings) (bs' : bodies) (I' : ints) : Prop :=
  length bs <= length bs' /\
  forall i j, i <> j -> i < length bs -> j < length bs ->
    (exists x, has_box bs' i x) -> (exists y, has_box bs' j y) -> allowed s' bs' i j ->
    (exists x, has_box bs i x) /\ (exists y, has_box bs j y) /\ allowed s bs i j /\ (linked I i j -> linked I' i j).

(** From scratch: with doSort or dirty set, when all bodies are compared anew
    (sortThenCollide), or when more than 100 bodies were added. *)
Definition from_scratch (s : settings) (bs bs' : bodies) : Prop :=
  length bs <= length bs' /\
  (doSort s = true \/ dirty s = true \/ sortThenCollide s = true \/ length bs + 100 < length bs' \/ length bs = 0).

(** The states after a run of the collider: settings, collider, bodies, interactions *)
Inductive reached : settings -> coll -> bodies -> ints -> Prop :=
| R_first s bs I c' I' :
    settings_ok s -> action s fresh bs I = Some (c', I') -> reached s c' bs I'
| R_next s c bs I s' bs' I' c'' I'' :
    reached s c bs I -> settings_ok s' -> (tame s bs I s' bs' I' \/ from_scratch s' bs bs') ->
    action s' c bs' I' = Some (c'', I'') -> reached s' c'' bs' I''
| R_reset s c bs I s' bs' I' c'' I'' :
    reached s c bs I -> settings_ok s' ->
    action s' (invalidatePersistentData c) bs' I' = Some (c'', I'') -> reached s' c'' bs' I''.

(** C16: two entries per id, in the order of the coordinates, which are those of
    the boxes, or of the position for bodies without *)
Definition expected (bs : bodies) (a : nat) (e : entry) : Prop :=
  match body_at bs (eid e) with
  | Some b => match bbox b with
              | Some x => coord e = (if isMin e then lo x a else hi x a) /\ hasBB e = true
              | None => coord e = pos b a /\ hasBB e = false
              end
  | None => hasBB e = false
  end.
Definition list_ok (bs : bodies) (a : nat) (l : list entry) : Prop :=
  Permutation (map (fun e => (eid e, isMin e)) l) (flat_map (fun i => [(i, true); (i, false)]) (seq 0 (length bs))) /\
  (forall l1 x l2 y l3, l = l1 ++ x :: l2 ++ y :: l3 -> (coord x <= coord y)%Z) /\
  (forall e, In e l -> expected bs a e).

(** All states of a collider, whatever happens to the scene between the runs, as
    long as the number of body ids does not decrease, or the collider is reset
    then.  k: number of ids at the last run. *)
Inductive history : coll -> nat -> Prop :=
| H_fresh : history fresh 0
| H_run s c k bs I c' I' :
    history c k -> settings_ok s -> k <= length bs -> action s c bs I = Some (c', I') -> history c' (length bs)
| H_reset c k : history c k -> history (invalidatePersistentData c) 0.

(** no pair of bodies has two interactions *)
Definition single (I : ints) : Prop :=
  forall a x b y c, I = a ++ x :: b ++ y :: c -> fst y <> fst x /\ fst y <> (snd (fst x), fst (fst x)).

(** The rules on clumps and masks only *)
Definition usual_rules (avoid : Z) (i j : nat) (b1 b2 : body) : Prop :=
  clumpId b1 <> Some i /\ clumpId b2 <> Some j /\                            (* neither is a clump *)
  (forall c, clumpId b1 = Some c -> clumpId b2 <> Some c) /\                 (* not in the same clump *)
  (exists n, (0 <= n)%Z /\ Z.testbit (groupMask b1) n = true /\ Z.testbit (groupMask b2) n = true) /\
  (groupMask b1 = groupMask b2 -> forall n, (0 <= n)%Z -> Z.testbit (groupMask b1) n = true -> Z.testbit avoid n = false).
