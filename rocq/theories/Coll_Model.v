(** Model of the collider (sweep and prune) in an aperiodic scene:
    pkg/common/InsertionSortCollider.{hpp,cpp}, pkg/common/Collider.cpp.

    Simplifications
    - coordinates are integers: the collider only compares them (NaN left out);
    - of a body only its box, position and what [mayCollide] reads are kept;
      [bodies] is O.bodies after the boundDispatcher has been called (action, :264);
    - the interaction container is the list of the interactions with their real
      flag; C04, C05, C07 prove that the container behaves like that;
    - the compilation with OpenMP and MPI is modelled (the code defines YADE_MPI);
    - reading outside an array or dereferencing a null pointer is [None];
    - the periodic case is left out. *)
From Coq Require Import List ZArith Arith Bool.
Import ListNotations.

(** ** bodies *)
Record box := mkBox { lo : nat -> Z; hi : nat -> Z }.   (* Bound::min, max; index = axis *)

Record body := mkBody {
  bbox : option box;           (* Body::bound *)
  pos : nat -> Z;              (* Body::state->pos *)
  subdomain : Z;
  isSubdomain : bool;
  clumpId : option nat;        (* None = Body::ID_NONE *)
  groupMask : Z }.

Definition bodies := list (option body).                (* None = erased *)
Definition body_at (bs : bodies) (i : nat) : option body := match nth_error bs i with Some (Some b) => Some b | _ => None end.

(** core/Body.cpp:35, core/Body.hpp:42-46 *)
Definition maskCompatible (b : body) (m : Z) : bool := negb (Z.land (groupMask b) m =? 0)%Z.
Definition isClump (i : nat) (b : body) : bool := match clumpId b with Some c => c =? i | None => false end.
Definition isStandalone (b : body) : bool := match clumpId b with Some _ => false | None => true end.
Definition same_clumpId (b1 b2 : body) : bool :=
  match clumpId b1, clumpId b2 with Some c, Some d => c =? d | None, None => true | _, _ => false end.

(** pkg/common/Collider.cpp:16-42. i, j are the ids of the bodies, [me] the subdomain
    of the scene, [avoid] Collider::avoidSelfInteractionMask.  A null pointer is
    dereferenced before it is tested. *)
Definition mayCollide (me avoid : Z) (i j : nat) (o1 o2 : option body) : option bool :=
  match o1, o2 with
  | Some b1, Some b2 => Some (
      ((me =? subdomain b1)%Z || (me =? subdomain b2)%Z)
      && negb ((subdomain b1 =? subdomain b2)%Z && (isSubdomain b1 || isSubdomain b2))
      && (isStandalone b1 || isStandalone b2 || negb (same_clumpId b1 b2))
      && negb (isClump i b1) && negb (isClump j b2)
      && maskCompatible b1 (groupMask b2)
      && negb ((groupMask b1 =? groupMask b2)%Z && maskCompatible b1 avoid))
  | _, _ => None
  end.

(** ** interactions: ids of the two bodies, real *)
Definition ints := list ((nat * nat) * bool).
Definition joins (i j : nat) (p : nat * nat) : bool := ((fst p =? i) && (snd p =? j)) || ((fst p =? j) && (snd p =? i)).
Definition found (I : ints) (i j : nat) : bool := existsb (fun x => joins i j (fst x)) I.

(** ** bound lists: InsertionSortCollider.hpp:80-99 *)
Record entry := mkEntry { coord : Z; eid : nat; isMin : bool; hasBB : bool }.
(** operator< and operator> *)
Definition ltb (a b : entry) : bool := if (eid a =? eid b) && (coord a =? coord b)%Z then isMin a else (coord a <? coord b)%Z.
Definition gtb (a b : entry) : bool := if (eid a =? eid b) && (coord a =? coord b)%Z then negb (isMin a) else (coord b <? coord a)%Z.

(** An event (x,y): while being inserted, bound x has passed bound y. *)
Definition event := (entry * entry)%type.
(** InsertionSortCollider.cpp:38-53: x travels down; [rp] is the part of the list
    below it, nearest first *)
Fixpoint shift (x : entry) (rp : list entry) : list entry * list event :=
  match rp with
  | [] => ([x], [])
  | y :: rp' => if gtb y x then let (r, ev) := shift x rp' in (y :: r, (x, y) :: ev) else (x :: y :: rp', [])
  end.
(** :34-55. The order does not depend on the interactions, so they are treated
    separately, see [collide_events]. *)
Fixpoint sort_from (rp l : list entry) : list entry * list event :=
  match l with
  | [] => (rev rp, [])
  | x :: l' => let (rp1, ev) := shift x rp in let (r, ev') := sort_from rp1 l' in (r, ev ++ ev')
  end.
Definition insertionSort (l : list entry) : list entry * list event := sort_from [] l.

(** :47: which events may make a new interaction *)
Definition relevant (e : event) : bool :=
  let (x, y) := e in isMin x && negb (isMin y) && hasBB x && hasBB y && negb (eid x =? eid y).

(** InsertionSortCollider.hpp:147-152; [mm] are minima and maxima, by id *)
Definition boxes := list box.
Definition overlap (x y : box) : bool :=
  forallb (fun a => (lo x a <=? hi y a)%Z && (lo y a <=? hi x a)%Z) [0; 1; 2].
Definition spatialOverlap (mm : boxes) (i j : nat) : option bool :=
  match nth_error mm i, nth_error mm j with Some x, Some y => Some (overlap x y) | _, _ => None end.

(** test of a pair: spatialOverlap && mayCollide *)
Definition candidate (me avoid : Z) (bs : bodies) (mm : boxes) (i j : nat) : option bool :=
  match spatialOverlap mm i j with
  | Some true => mayCollide me avoid i j (body_at bs i) (body_at bs j)
  | r => r
  end.
(** a new interaction, unless there is one *)
Definition insert (I : ints) (p : nat * nat) : ints := if found I (fst p) (snd p) then I else I ++ [(p, false)].

(** :23-32, :47-48 *)
Definition handleBoundInversion (me avoid : Z) (bs : bodies) (mm : boxes) (I : ints) (i j : nat) : option ints :=
  match candidate me avoid bs mm i j with
  | Some true => Some (insert I (i, j))
  | Some false => Some I
  | None => None
  end.
Fixpoint collide_events (me avoid : Z) (bs : bodies) (mm : boxes) (I : ints) (ev : list event) : option ints :=
  match ev with
  | [] => Some I
  | e :: ev' =>
      if relevant e then
        match handleBoundInversion me avoid bs mm I (eid (fst e)) (eid (snd e)) with
        | Some I1 => collide_events me avoid bs mm I1 ev'
        | None => None
        end
      else collide_events me avoid bs mm I ev'
  end.

(** ** parallel insertion sort: :59-145 *)
(** :68-79.  Number of chunks: reduced until the chunks are not too small.  None:
    v[chunks[n]] is read beyond the end of the list. [dflt] for nth, never used. *)
Definition dflt : entry := mkEntry 0 0 true false.
Definition csize (size n : nat) : nat := size / n + 1.
Definition too_small (l : list entry) (verlet4 : Z) (n k : nat) : bool :=
  let cs := csize (length l) n in (coord (nth (k * cs) l dflt) - coord (nth ((k - 1) * cs) l dflt) <? verlet4)%Z.
Fixpoint nChunks (l : list entry) (verlet4 : Z) (n : nat) : option nat :=
  match n with
  | O => Some 1
  | S n' =>
      match n' with
      | O => Some 1
      | _ => if length l <=? n' * csize (length l) n then None
             else if existsb (too_small l verlet4 n) (seq 1 n') then nChunks l verlet4 n' else Some n
      end
  end.
(** :88-107, chunk [k] is sorted on its own *)
Fixpoint sort_chunks (cs n : nat) (l : list entry) : list entry * list event :=
  match n with
  | O => ([], [])
  | S n' =>
      match n' with
      | O => insertionSort l
      | _ => let (a, ev) := insertionSort (firstn cs l) in
             let (b, ev') := sort_chunks cs n' (skipn cs l) in (a ++ b, ev ++ ev')
      end
  end.
(** :118-135 [rp]: the second half of the chunk before, from its end; [l]: the
    first half of this chunk.  Result: merged part, events, parallelFailed.
    [over]: the half chunk is longer than what is left of the list, so that going
    on to its end means reading beyond the end of the list. *)
Fixpoint shift2 (x : entry) (rp : list entry) : list entry * list event * bool :=
  match rp with
  | [] => ([x], [], true)
  | y :: rp' => if ltb x y then let '(r, ev, f) := shift2 x rp' in (y :: r, (x, y) :: ev, f) else (x :: y :: rp', [], false)
  end.
Fixpoint merge (over : bool) (rp l : list entry) : option (list entry * list event * bool) :=
  match l with
  | [] => if over then None else Some (rev rp, [], true)
  | x :: l' =>
      match rp with
      | [] => None
      | y :: _ =>
          if ltb x y then
            let '(rp1, ev, f) := shift2 x rp in
            match merge over rp1 l' with
            | Some (r, ev', f') => Some (r, ev ++ ev', f || f')
            | None => None
            end
          else Some (rev rp ++ l, [], false)
      end
  end.
(** :111-136: connecting chunk after chunk.  The ranges are disjoint, so the threads
    do not see each other.  Half a chunk starts at long(i-cs*0.5), ends before
    long(i+cs*0.5).  [l]: the list from the middle of the chunk before. *)
Fixpoint connect (cs n : nat) (l : list entry) : option (list entry * list event * bool) :=
  match n with
  | O => Some (l, [], false)
  | S n' =>
      let up := cs / 2 in let down := cs - cs / 2 in      (* first half, second half of a chunk *)
      match merge (length l <? down + up) (rev (firstn down l)) (firstn up (skipn down l)) with
      | None => None
      | Some (a, ev, f) =>
          match connect cs n' (skipn (down + up) l) with
          | Some (b, ev', f') => Some (a ++ b, ev ++ ev', f || f')
          | None => None
          end
      end
  end.
Definition insertionSortParallel (threads : nat) (verlet4 : Z) (l : list entry) : option (list entry * list event * list event) :=
  if threads <=? 1 then let (r, ev) := insertionSort l in Some (r, [], ev) else
  match nChunks l verlet4 threads with
  | None => None
  | Some n =>
      let cs := csize (length l) n in
      let (l1, ev1) := sort_chunks cs n l in
      let up := cs / 2 in
      match connect cs (n - 1) (skipn up l1) with
      | None => None
      | Some (l2, ev2, failed) =>
          let l3 := firstn up l1 ++ l2 in
          if failed then let (r, ev) := insertionSort l3 in Some (r, ev1 ++ ev2, ev)
          else Some (l3, ev1 ++ ev2, [])
      end
  end.
(** :97-102, :125-129, :137-141 the candidates of the parallel part are collected while the
    container is not changed, then entered one after the other; [ord]: the order,
    which depends on the threads *)
Fixpoint candidates (me avoid : Z) (bs : bodies) (mm : boxes) (l : list (nat * nat)) : option (list (nat * nat)) :=
  match l with
  | [] => Some []
  | p :: l' =>
      match candidate me avoid bs mm (fst p) (snd p), candidates me avoid bs mm l' with
      | Some true, Some r => Some (p :: r)
      | Some false, Some r => Some r
      | _, _ => None
      end
  end.
Definition insert_all (I : ints) (l : list (nat * nat)) : ints := fold_left insert l I.
Definition collide_parallel (me avoid : Z) (bs : bodies) (mm : boxes) (ord : list (nat * nat) -> list (nat * nat)) (I : ints) (ev : list event) : option ints :=
  match candidates me avoid bs mm (map (fun e => (eid (snd e), eid (fst e))) (filter relevant ev)) with
  | Some l => Some (insert_all I (ord (filter (fun p => negb (found I (fst p) (snd p))) l)))
  | None => None
  end.

(** ** the run: :187-400 *)
(** settings of one run; [std_sort]: the result of std::sort (:340); [ord] the
    order in which the threads deliver the new pairs *)
Record settings := mkSettings {
  me : Z; avoid : Z;
  sortAxis : nat;
  sortThenCollide : bool;
  threads : nat;
  verlet4 : Z;
  doSort : bool; dirty : bool;
  std_sort : list entry -> list entry;
  ord : list (nat * nat) -> list (nat * nat) }.

Record coll := mkColl {
  bb : nat -> list entry;      (* BB[axis].vec *)
  bsize : nat;                 (* BB[0].size *)
  mmx : boxes }.               (* minima, maxima *)
Definition fresh : coll := mkColl (fun _ => []) 0 [].
(** InsertionSortCollider.hpp:167 *)
Definition invalidatePersistentData (c : coll) : coll := mkColl (fun _ => []) 0 (mmx c).

(** :211-228 *)
Definition new_entries (a b : nat) : list entry :=
  flat_map (fun id => [mkEntry 0 id true false; mkEntry 0 id false false]) (seq a (b - a)).
Definition zero_box : box := mkBox (fun _ => 0%Z) (fun _ => 0%Z).
Definition resize (mm : boxes) (n : nat) : boxes := firstn n mm ++ repeat zero_box (n - length mm).
Definition adjust (c : coll) (n : nat) : coll :=
  let vecs := if bsize c =? 2 * n then bb c
              else fun a => (if 2 * n <? bsize c then [] else bb c a) ++ new_entries (bsize c / 2) n in
  mkColl vecs (if bsize c =? 2 * n then bsize c else length (vecs 0)) (resize (mmx c) n).
(** :206-210, :219, :252-256 *)
Definition init_run (s : settings) (c : coll) (n : nat) : bool :=
  doSort s || dirty s || (negb (bsize c =? 2 * n) && ((200 <? 2 * n - bsize c) || (bsize c =? 0))).

(** :290-311 *)
Definition refresh (bs : bodies) (a : nat) (e : entry) : entry :=
  match body_at bs (eid e) with
  | Some b => match bbox b with
              | Some x => mkEntry (if isMin e then lo x a else hi x a) (eid e) (isMin e) true
              | None => mkEntry (pos b a) (eid e) (isMin e) false
              end
  | None => mkEntry (coord e) (eid e) (isMin e) false
  end.
Definition refresh_box (ob : option body) (x : box) : box :=
  match ob with Some b => match bbox b with Some y => y | None => x end | None => x end.
Fixpoint refresh_boxes (bs : bodies) (mm : boxes) : boxes :=
  match bs, mm with ob :: bs', x :: mm' => refresh_box ob x :: refresh_boxes bs' mm' | _, _ => mm end.

(** :316, InsertionSortCollider.hpp:160-163, core/InteractionContainer.hpp:111-142, see C07 *)
Fixpoint purge (mm : boxes) (I : ints) : option ints :=
  match I with
  | [] => Some []
  | x :: I' =>
      match purge mm I' with
      | None => None
      | Some r => if snd x then Some (x :: r)
                  else match spatialOverlap mm (fst (fst x)) (snd (fst x)) with
                       | Some true => Some (x :: r)
                       | Some false => Some r
                       | None => None
                       end
      end
  end.

(** :325-328: one axis of the regular run *)
Definition sort_axis (s : settings) (bs : bodies) (mm : boxes) (l : list entry) (I : ints) : option (list entry * ints) :=
  if (threads s <=? 1) || (length bs <? 1000) then
    let (r, ev) := insertionSort l in
    match collide_events (me s) (avoid s) bs mm I ev with Some I1 => Some (r, I1) | None => None end
  else
    match insertionSortParallel (threads s) (verlet4 s) l with
    | None => None
    | Some (r, ev1, ev2) =>
        match collide_parallel (me s) (avoid s) bs mm (ord s) I ev1 with
        | None => None
        | Some I1 => match collide_events (me s) (avoid s) bs mm I1 ev2 with Some I2 => Some (r, I2) | None => None end
        end
    end.

(** :356-372: from each lower bound up to the next bound of the same body *)
Fixpoint mins_up_to (i : nat) (l : list entry) : list (nat * nat) :=
  match l with
  | [] => []
  | e :: l' => if eid e =? i then []
               else (if isMin e && hasBB e then [(i, eid e)] else []) ++ mins_up_to i l'
  end.
Fixpoint traverse (l : list entry) : list (nat * nat) :=
  match l with
  | [] => []
  | e :: l' => (if isMin e && hasBB e then mins_up_to (eid e) l' else []) ++ traverse l'
  end.

Definition in_range (c : coll) (n : nat) : bool :=
  forallb (fun a => (length (bb c a) =? 2 * n) && forallb (fun e => eid e <? n) (bb c a)) [0; 1; 2].

Definition action (s : settings) (c : coll) (bs : bodies) (I : ints) : option (coll * ints) :=
  let n := length bs in
  let init := init_run s c n in
  let c1 := adjust c n in
  (* all lists are read up to 2*nBodies, and the bodies at the ids found there *)
  if negb (in_range c1 n) then None else
  let mm := refresh_boxes bs (mmx c1) in
  let l a := map (refresh bs a) (bb c1 a) in
  match purge mm I with
  | None => None
  | Some I0 =>
      if negb init && negb (sortThenCollide s) then
        match sort_axis s bs mm (l 0) I0 with
        | None => None
        | Some (l0, I1) =>
            match sort_axis s bs mm (l 1) I1 with
            | None => None
            | Some (l1, I2) =>
                match sort_axis s bs mm (l 2) I2 with
                | None => None
                | Some (l2, I3) =>
                    Some (mkColl (fun a => match a with 0 => l0 | 1 => l1 | _ => l2 end) (bsize c1) mm, I3)
                end
            end
        end
      else
        let r a := if init then std_sort s (l a) else fst (insertionSort (l a)) in
        match candidates (me s) (avoid s) bs mm (traverse (r (sortAxis s))) with
        | None => None
        | Some ps => Some (mkColl r (bsize c1) mm, insert_all I0 (ord s ps))
        end
  end.
