(** Vocabulary of the properties of the collider in a periodic scene. *)
From Coq Require Import List ZArith Arith Bool Permutation.
From Verif Require Import Coll_Model Coll_Spec Peri_Model.
Import ListNotations.
Local Open Scope Z_scope.

(** Along one axis, in a cell of size d, the image k of the interval [lo2,hi2] (moved by
    k cells) and the interval [lo1,hi1] are at most t apart / have a common interior point. *)
Definition meets (d t lo1 hi1 lo2 hi2 k : Z) : Prop := lo1 <= hi2 + k * d + t /\ lo2 + k * d <= hi1 + t.
Definition meets_inside (d lo1 hi1 lo2 hi2 k : Z) : Prop := lo1 < hi2 + k * d /\ lo2 + k * d < hi1.

(** The same for boxes: on each axis some image. *)
Definition image_of (k : dist) (a : nat) : Z := let '(k0, k1, k2) := k in match a with 0%nat => k0 | 1%nat => k1 | _ => k2 end.
Definition box_meets (c : cell) (x y : box) (k : dist) : Prop :=
  forall a, (a < 3)%nat -> meets (dim c a) 0 (lo x a) (hi x a) (lo y a) (hi y a) (image_of k a).
Definition box_nearly_meets (c : cell) (x y : box) (k : dist) : Prop :=
  forall a, (a < 3)%nat -> meets (dim c a) (ctol c a) (lo x a) (hi x a) (lo y a) (hi y a) (image_of k a).
Definition box_meets_inside (c : cell) (x y : box) (k : dist) : Prop :=
  forall a, (a < 3)%nat -> meets_inside (dim c a) (lo x a) (hi x a) (lo y a) (hi y a) (image_of k a).

(** what the documentation asks for: no box larger than half the cell *)
Definition fits (c : cell) (x : box) : Prop := forall a, (a < 3)%nat -> lo x a < hi x a /\ 2 * (hi x a - lo x a) <= dim c a.
Definition all_fit (c : cell) (bs : bodies) : Prop := forall i x, has_box bs i x -> fits c x.
Definition cell_ok (c : cell) : Prop := allowBigger c = false /\ forall a, (a < 3)%nat -> 0 < dim c a /\ 0 <= ctol c a.

Definition pallowed (s : psettings) (bs : bodies) (i j : nat) : Prop :=
  mayCollide (pme s) (pavoid s) i j (body_at bs i) (body_at bs j) = Some true.
Definition plinked (I : pints) (i j : nat) : Prop := exists x, In x I /\ (ids x = (i, j) \/ ids x = (j, i)).

(** all pairs that may collide and have a common interior point in some image have an interaction *)
Definition pcomplete (s : psettings) (bs : bodies) (I : pints) : Prop :=
  forall i j x y k, i <> j -> has_box bs i x -> has_box bs j y -> box_meets_inside (pcell s) x y k -> pallowed s bs i j -> plinked I i j.

(** the first n entries *)
Definition elems (n : nat) (v : arr) : list pent := map (fun k => v (Z.of_nat k)) (seq 0 n).
(** Assumed of std::sort: the result has the same entries, in the order of the coordinates. *)
Definition psettings_ok (s : psettings) : Prop :=
  (psortAxis s < 3)%nat /\ cell_ok (pcell s) /\
  forall n v, Permutation (elems n v) (elems n (psort s (Z.of_nat n) v)) /\
    forall k, 0 <= k -> k + 1 < Z.of_nat n -> pco (psort s (Z.of_nat n) v k) <= pco (psort s (Z.of_nat n) v (k + 1)).

(** this run starts from scratch *)
Definition restarts (s : psettings) (c : pcoll) (bs : bodies) : Prop :=
  pdoSort s = true \/ pdirty s = true \/ psize c = 0%nat \/ (psize c + 200 < 2 * length bs)%nat.

(** What is allowed to change between a run and a regular one: the number of ids
    stays; boxes do not appear; a pair that has boxes and may collide could collide
    before, and its interaction, if there was one, still exists; if there are
    erased bodies the size of the cell stays.  Boxes move and change at will, by any
    distance, as long as they fit in the cell, which can also change. *)
Definition ptame (s : psettings) (bs : bodies) (I : pints) (s' : psettings) (bs' : bodies) (I' : pints) : Prop :=
  length bs' = length bs /\
  ((forall i, (i < length bs)%nat -> body_at bs' i <> None) \/ forall a, (a < 3)%nat -> dim (pcell s') a = dim (pcell s) a) /\
  (forall i y, has_box bs' i y -> exists x, has_box bs i x) /\
  forall i j x y, i <> j -> has_box bs' i x -> has_box bs' j y -> pallowed s' bs' i j ->
    pallowed s bs i j /\ (plinked I i j -> plinked I' i j).

(** The stored cell numbers of the two bounds of a body are equal. *)
Definition even (c : pcoll) : Prop :=
  forall a k k', (a < 3)%nat -> 0 <= k < Z.of_nat (plen c) -> 0 <= k' < Z.of_nat (plen c) ->
    pid (vec (pbb c a) k) = pid (vec (pbb c a) k') -> per (vec (pbb c a) k) = per (vec (pbb c a) k').

(** What may happen after a run (settings s, collider c, bodies bs, interactions I) before
    the next one, with settings s', collider c1, bodies bs', interactions I': a reset of the
    collider; a tame change, before a regular run; before a run that starts from
    scratch, any change of the bodies, some added, none erased, provided that no body has its
    bounds in two cells. *)
Inductive follows (s : psettings) (c : pcoll) (bs : bodies) (I : pints) (s' : psettings) : pcoll -> bodies -> pints -> Prop :=
| F_reset bs' I' : bs' <> [] -> follows s c bs I s' (pinvalidate c) bs' I'
| F_regular bs' I' : pdoSort s' = false -> pdirty s' = false -> ptame s bs I s' bs' I' -> follows s c bs I s' c bs' I'
| F_restart bs' I' : restarts s' c bs' -> even c -> (length bs <= length bs')%nat ->
    (forall i, (i < length bs')%nat -> body_at bs' i <> None) -> follows s c bs I s' c bs' I'.
(** The states after a run: settings, collider, bodies, interactions. *)
Inductive preached : psettings -> pcoll -> bodies -> pints -> Prop :=
| P_first f b s bs I c' I' :
    psettings_ok s -> all_fit (pcell s) bs -> bs <> [] -> paction f s (pfresh b) bs I = Ok (c', I') -> preached s c' bs I'
| P_next f s c bs I s' c1 bs' I' c'' I'' :
    preached s c bs I -> psettings_ok s' -> all_fit (pcell s') bs' -> follows s c bs I s' c1 bs' I' ->
    paction f s' c1 bs' I' = Ok (c'', I'') -> preached s' c'' bs' I''.

(** The list of an axis: the two bounds of each body; read upwards from the split, in
    increasing order, and the first one moved up by one cell is not below the last one;
    for each body, coordinate + number of the cell * size is the bound of the box, up to
    one whole number of cells for both. *)
Definition circular (n d : Z) (v : vb) : Prop :=
  0 <= loIdx v < n /\
  forall k, 0 <= k < n ->
    pco (vec v k) <= pco (vec v ((k + 1) mod n)) + (if (k + 1) mod n =? loIdx v then d else 0).
Definition both_bounds (nb : nat) (v : vb) : Prop :=
  Permutation (map (fun e => (pid e, pmin e)) (elems (2 * nb) (vec v))) (flat_map (fun i => [(i, true); (i, false)]) (seq 0 nb)).
Definition current (n d : Z) (bs : bodies) (a : nat) (v : vb) : Prop :=
  forall i x, has_box bs i x -> exists z, forall k, 0 <= k < n -> pid (vec v k) = i ->
    pco (vec v k) + (per (vec v k) + z) * d = (if pmin (vec v k) then lo x a else hi x a) /\ phas (vec v k) = true.

(** the bodies of the potential interactions have boxes *)
Definition pclean (bs : bodies) (I : pints) : Prop :=
  forall x, In x I -> real x = false -> exists y z, has_box bs (fst (ids x)) y /\ has_box bs (snd (ids x)) z.

(** The effect of a run on the interactions: real ones stay; potential ones stay if the
    boxes meet, and if they stay they nearly meet; all that stay are unchanged, in the same order;
    the new ones come after them, are potential, between two different bodies with boxes that may
    collide and had no interaction, and with a number of cells in which the boxes nearly meet. *)
Definition keeps (s : psettings) (bs : bodies) (x : pint) : Prop :=
  real x = true \/ exists y z k, has_box bs (fst (ids x)) y /\ has_box bs (snd (ids x)) z /\ box_meets (pcell s) y z k.
Definition kept (s : psettings) (bs : bodies) (x : pint) : Prop :=
  real x = true \/ forall y z, has_box bs (fst (ids x)) y -> has_box bs (snd (ids x)) z -> exists k, box_nearly_meets (pcell s) y z k.
Definition new_ok (s : psettings) (bs : bodies) (x : pint) : Prop :=
  real x = false /\ fst (ids x) <> snd (ids x) /\ pallowed s bs (fst (ids x)) (snd (ids x)) /\
  exists y z, has_box bs (fst (ids x)) y /\ has_box bs (snd (ids x)) z /\ box_nearly_meets (pcell s) y z (cellDist x).
Inductive sublist {T} : list T -> list T -> Prop :=
| sub_nil : sublist [] []
| sub_keep x l l' : sublist l l' -> sublist (x :: l) (x :: l')
| sub_drop x l l' : sublist l l' -> sublist l (x :: l').
Definition effect (s : psettings) (bs : bodies) (I I' : pints) : Prop :=
  exists K N, I' = K ++ N /\ sublist K I /\
    (forall x, In x I -> keeps s bs x -> In x K) /\ (forall x, In x K -> kept s bs x) /\
    (forall x, In x N -> new_ok s bs x /\ ~ plinked K (fst (ids x)) (snd (ids x))) /\
    (forall p x q, N = p ++ x :: q -> ~ plinked (p ++ q) (fst (ids x)) (snd (ids x))).
