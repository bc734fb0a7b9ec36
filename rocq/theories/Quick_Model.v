(** Model of one more collider: pkg/common/SpatialQuickSortCollider.{hpp,cpp}.

    Simplifications
    - bodies and what Collider::mayCollide says are those of Coll_Model: coordinates are integers (the
      collider only compares them);
    - the container of interactions is the list of interactions with their flags (C04, C05, C07);
      eraseNonReal is taken to do what it is meant to (C08 is about what it does);
    - std::sort is any function that returns a sorted permutation; comparing entries that have not been
      written is undefined behaviour, as is inserting an interaction of a body that does not exist;
    - an interaction of a body with itself, which InteractionContainer::insert enters into the body but not
      into its own list, is left out. *)
From Coq Require Import List ZArith Arith Bool.
From Verif Require Import Coll_Model.
Import ListNotations.

Inductive outcome (A : Type) := Done (a : A) | Throws | UB.
Arguments Done {A} a.
Arguments Throws {A}.
Arguments UB {A}.
Definition bind {A B} (o : outcome A) (f : A -> outcome B) : outcome B := match o with Done a => f a | Throws => Throws | UB => UB end.

Record intr := mkI { ids : nat * nat; real : bool; lastSeen : Z }.
(** InteractionContainer::find for bodies that exist *)
Definition has (I : list intr) (a b : nat) : bool := existsb (fun i => joins a b (ids i)) I.
Definition see (it : Z) (a b : nat) (I : list intr) : list intr := map (fun i => if joins a b (ids i) then mkI (ids i) (real i) it else i) I.

(** AABBBound, hpp:17-20; None: as new AABBBound leaves it *)
Record aabb := mkQ { qid : nat; qlo : nat -> Z; qhi : nat -> Z }.
Definition rank := list (option aabb).

(** cpp:29-36 *)
Definition resize (n : nat) (r : rank) : rank := firstn n r ++ repeat None (n - length r).
(** cpp:40-48: the entries of the bodies with bounds, in the order of ids, replace the first ones *)
Definition bounds (bs : bodies) : list aabb :=
  flat_map (fun p => match snd p with Some b => match bbox b with Some x => [mkQ (fst p) (lo x) (hi x)] | None => [] end | None => [] end) (combine (seq 0 (length bs)) bs).
Definition fill (r : rank) (es : list aabb) : rank := map Some es ++ skipn (length es) r.
Fixpoint initialised (r : rank) : option (list aabb) :=
  match r with [] => Some [] | None :: _ => None | Some e :: r' => match initialised r' with Some l => Some (e :: l) | None => None end end.

(** cpp:65-69 *)
Definition beyond (e f : aabb) : bool := (qhi e 0%nat <? qlo f 0%nat)%Z.
Definition hit (e f : aabb) : bool :=
  ((qlo f 1%nat <? qhi e 1%nat) && (qlo e 1%nat <? qhi f 1%nat) && (qlo f 2%nat <? qhi e 2%nat) && (qlo e 2%nat <? qhi f 2%nat))%Z.
(** cpp:71-77 with InteractionContainer.cpp:16-38, 90-101 *)
Definition meet (bs : bodies) (it : Z) (a b : nat) (I : list intr) : outcome (list intr) :=
  match body_at bs (min a b) with
  | None => UB
  | Some _ => if has I a b then Done (see it a b I) else
              match body_at bs (max a b) with
              | None => UB
              | Some _ => Done (if a =? b then I else I ++ [mkI (a, b) false it])
              end
  end.
(** cpp:63-79 *)
Fixpoint scan (bs : bodies) (it : Z) (e : aabb) (rest : list aabb) (I : list intr) : outcome (list intr) :=
  match rest with
  | [] => Done I
  | f :: rest' => if beyond e f then Done I else bind (if hit e f then meet bs it (qid e) (qid f) I else Done I) (scan bs it e rest')
  end.
(** cpp:57-80 *)
Fixpoint sweep (bs : bodies) (it : Z) (l : list aabb) (I : list intr) : outcome (list intr) :=
  match l with
  | [] => Done I
  | e :: rest => bind (scan bs it e rest I) (sweep bs it rest)
  end.
(** cpp:16-81, after the bounds have been updated; [srt] is std::sort. A single entry is not looked at. *)
Definition action (srt : list aabb -> list aabb) (periodic : bool) (it : Z) (bs : bodies) (r : rank) (I : list intr) : outcome (rank * list intr) :=
  if periodic then Throws else
  let I0 := filter real I in
  let r1 := fill (resize (length bs) r) (bounds bs) in
  if length bs <=? 1 then Done (r1, I0) else
  match initialised r1 with
  | None => UB
  | Some l => bind (sweep bs it (srt l) I0) (fun I1 => Done (map Some (srt l), I1))
  end.
