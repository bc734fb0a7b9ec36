(** Model of the collider in a periodic scene: pkg/common/InsertionSortCollider.{hpp,cpp}.

    Simplifications
    - coordinates, cell sizes and the tolerance are integers and the arithmetic is
      exact: a condition on numbers divided by the size of the cell is multiplied
      by the size; overlapTolerance * size of the cell is [tol];
    - bodies, boxes and [mayCollide] are those of Coll_Model (Collider.cpp:16-42);
    - the arrays have indices in Z, only 0 <= i < size is used; [VecBounds::norm]
      (hpp:112) is the remainder, its argument being never less than -size;
    - a loop without obvious bound takes fuel;
    - the interaction container is the list of interactions with the real flag
      and the cell distance; C04, C05, C07 prove that the container behaves like that;
    - in a regular run the events are handled after the three sorts, in the code during them:
      the sorts do not read the interactions;
    - the aperiodic case is in Coll_Model. *)
From Coq Require Import List ZArith Arith Bool.
From Verif Require Import Coll_Model.
Import ListNotations.
Local Open Scope Z_scope.

(** Outcomes: a result; an exception; undefined behaviour (reading outside an array,
    null pointer, division by zero); not finished with this fuel. *)
Inductive res (A : Type) := Ok (a : A) | Throws | Undef | More.
Arguments Ok {A} a.
Arguments Throws {A}.
Arguments Undef {A}.
Arguments More {A}.
Definition bind {A B} (r : res A) (f : A -> res B) : res B :=
  match r with Ok a => f a | Throws => Throws | Undef => Undef | More => More end.
Notation "'do' x <- r ; e" := (bind r (fun x => e)) (at level 200, x pattern, right associativity).

(** ** bounds: hpp:80-99 *)
Record pent := mkP { pco : Z; per : Z; pid : nat; pmin : bool; phas : bool }.
Definition arr := Z -> pent.
Definition upd (v : arr) (i : Z) (e : pent) : arr := fun k => if k =? i then e else v k.
(** hpp:103-118, without axis, cellDim and size *)
Record vb := mkVb { vec : arr; loIdx : Z }.
(** period-=1, coord+=cellDim *)
Definition lower (d : Z) (e : pent) : pent := mkP (pco e + d) (per e - 1) (pid e) (pmin e) (phas e).
(** period+=1, coord-=cellDim *)
Definition raise (d : Z) (e : pent) : pent := mkP (pco e - d) (per e + 1) (pid e) (pmin e) (phas e).

(** An event (x,y): while being inserted, bound x has passed bound y. *)
Definition pevent := (pent * pent)%type.

(** ** periodic insertion sort; n = size, d = cellDim *)
(** cpp:440-461, the while loop.  The code keeps vi aside and stores it at the end;
    here it is always in v[norm(j+1)], which the loop does not read. *)
Fixpoint travel (fuel : nat) (n d i0 j : Z) (s : vb) : res (vb * list pevent) :=
  match fuel with
  | O => More
  | S f =>
      let j1 := (j + 1) mod n in
      let x := vec s j1 in
      let y := vec s j in
      if (j <? i0) && (pco x + (if j1 =? loIdx s then d else 0) <? pco y) then
        let s' :=
          if (j =? loIdx s) && (pco x <? 0) then mkVb (upd (upd (vec s) j1 y) j (lower d x)) ((loIdx s + 1) mod n)
          else if j1 =? loIdx s then mkVb (upd (upd (vec s) j1 (raise d y)) j x) ((loIdx s - 1) mod n)
          else mkVb (upd (upd (vec s) j1 y) j x) (loIdx s) in
        do (r, ev) <- travel f n d i0 ((j - 1) mod n) s'; Ok (r, (x, y) :: ev)
      else Ok (s, [])
  end.
(** cpp:425, :428-432, :462, body of the for loop *)
Definition relabel (n d i : Z) (s : vb) : vb :=
  if (i =? loIdx s) && (pco (vec s i) <? 0)
  then mkVb (upd (vec s) i (lower d (vec s i))) ((loIdx s + 1) mod n) else s.
Definition visit (fuel : nat) (n d i0 : Z) (s : vb) : res (vb * list pevent) :=
  let i := i0 mod n in
  let i1 := (i - 1) mod n in
  let s1 := relabel n d i s in
  if pco (vec s1 i1) <=? pco (vec s1 i) + (if i =? loIdx s1 then d else 0) then Ok (s1, [])
  else travel fuel n d i0 i1 s1.
(** cpp:421-463 *)
Fixpoint passes (fuel : nat) (n d i0 : Z) (s : vb) : res (vb * list pevent) :=
  match fuel with
  | O => More
  | S f =>
      if (i0 <? n) || (pco (vec s (i0 mod n)) <? pco (vec s ((i0 - 1) mod n))) then
        do (s1, ev1) <- visit f n d i0 s;
        do (s2, ev2) <- passes f n d (i0 + 1) s1; Ok (s2, ev1 ++ ev2)
      else Ok (s, [])
  end.
(** cpp:465 *)
Fixpoint clamp (fuel : nat) (n d i : Z) (s : vb) : res vb :=
  match fuel with
  | O => More
  | S f => if d <? pco (vec s i) then clamp f n d ((i - 1) mod n) (mkVb (upd (vec s) i (raise d (vec s i))) i) else Ok s
  end.
(** cpp:417-466; an empty list: i % size with size = 0 *)
Definition insertionSortPeri (fuel : nat) (n d : Z) (s : vb) : res (vb * list pevent) :=
  if n =? 0 then Undef else
  do (s1, ev) <- passes fuel n d 0 s;
  do s2 <- clamp fuel n d ((loIdx s1 - 1) mod n) s1;
  Ok (s2, ev).

(** ** overlap of two boxes, cpp:493-524 *)
(** one axis: the image of body 2 (periods[axis]), None = apart *)
Definition axisOverlap (allow : bool) (d tol lo1 hi1 lo2 hi2 : Z) : res (option Z) :=
  let lmin := lo2 - hi1 in
  let lmax := hi2 - hi1 in
  let shiftedMin := lo1 - hi1 + d in
  if (d <? 2 * (lmax - lmin)) || (shiftedMin <? 0) then (if allow then Ok (Some 0) else Throws)
  else
    let period1 := lmax / d in
    if lmin - period1 * d <=? tol then Ok (Some (- period1))
    else if shiftedMin <=? lmax - period1 * d + tol then Ok (Some (- period1 - 1))
    else Ok None.

(** the cell: sizes, tolerance, by axis *)
Record cell := mkCell { dim : nat -> Z; ctol : nat -> Z; allowBigger : bool }.
Definition boxOverlap (c : cell) (x y : box) (a : nat) : res (option Z) :=
  axisOverlap (allowBigger c) (dim c a) (ctol c a) (lo x a) (hi x a) (lo y a) (hi y a).
Definition dist := (Z * Z * Z)%type.
Definition overlapPeri (c : cell) (x y : box) : res (option dist) :=
  do r0 <- boxOverlap c x y 0;
  match r0 with None => Ok None | Some k0 =>
    do r1 <- boxOverlap c x y 1;
    match r1 with None => Ok None | Some k1 =>
      do r2 <- boxOverlap c x y 2;
      match r2 with None => Ok None | Some k2 => Ok (Some (k0, k1, k2)) end
    end
  end.
Definition spatialOverlapPeri (c : cell) (mm : boxes) (i j : nat) : res (option dist) :=
  match nth_error mm i, nth_error mm j with Some x, Some y => overlapPeri c x y | _, _ => Undef end.

(** ** interactions: ids, real, cellDist *)
Record pint := mkI { ids : nat * nat; real : bool; cellDist : dist }.
Definition pints := list pint.
Definition pfound (I : pints) (i j : nat) : bool := existsb (fun x => joins i j (ids x)) I.

(** cpp:469-479 *)
Definition handlePeri (me avoid : Z) (c : cell) (bs : bodies) (mm : boxes) (I : pints) (p : nat * nat) : res pints :=
  if pfound I (fst p) (snd p) then Ok I else
  do o <- spatialOverlapPeri c mm (fst p) (snd p);
  match o with
  | None => Ok I
  | Some k =>
      match mayCollide me avoid (fst p) (snd p) (body_at bs (fst p)) (body_at bs (snd p)) with
      | Some true => Ok (I ++ [mkI p false k])
      | Some false => Ok I
      | None => Undef
      end
  end.
Fixpoint handle_all (me avoid : Z) (c : cell) (bs : bodies) (mm : boxes) (I : pints) (l : list (nat * nat)) : res pints :=
  match l with
  | [] => Ok I
  | p :: l' => do I1 <- handlePeri me avoid c bs mm I p; handle_all me avoid c bs mm I1 l'
  end.
(** cpp:456-457: which events are tested *)
Definition prelevant (e : pevent) : bool :=
  let (x, y) := e in pmin x && negb (pmin y) && phas x && phas y && negb (pid x =? pid y)%nat.
Definition event_pairs (ev : list pevent) : list (nat * nat) :=
  map (fun e => (pid (fst e), pid (snd e))) (filter prelevant ev).

(** ** the run: cpp:187-397 *)
(** [psort]: the result of std::sort on the first n entries *)
Record psettings := mkPset {
  pme : Z; pavoid : Z;
  pcell : cell;
  psortAxis : nat;
  psortThenCollide : bool;
  pdoSort : bool; pdirty : bool;
  psort : Z -> arr -> arr }.
Record pcoll := mkPc {
  pbb : nat -> vb;             (* BB[axis] *)
  plen : nat;                  (* BB[axis].vec.size() *)
  psize : nat;                 (* BB[axis].size *)
  pmm : boxes;                 (* minima, maxima *)
  pperiodic : bool }.
Definition no_entry : pent := mkP 0 0 0 true false.
(** [p]: the attribute [periodic] of a new collider is not initialised *)
Definition pfresh (p : bool) : pcoll := mkPc (fun _ => mkVb (fun _ => no_entry) 0) 0 0 [] p.
(** hpp:167 *)
Definition pinvalidate (c : pcoll) : pcoll := mkPc (pbb c) 0 0 (pmm c) (pperiodic c).

(** cpp:200-203: the vectors are cleared, the sizes are kept *)
Definition detect_periodicity (c : pcoll) : pcoll :=
  if pperiodic c then c else mkPc (pbb c) 0 (psize c) (pmm c) true.
(** cpp:211-229. push_back appends after the entries that are there. *)
Definition appended (len from : nat) (v : arr) : arr := fun k =>
  if k <? Z.of_nat len then v k
  else let m := k - Z.of_nat len in mkP 0 0 (from + Z.to_nat (m / 2)) (Z.even m) false.
Definition padjust (c : pcoll) (n : nat) : pcoll :=
  if (psize c =? 2 * n)%nat then mkPc (pbb c) (plen c) (psize c) (resize (pmm c) n) (pperiodic c)
  else
    let len := if (2 * n <? psize c)%nat then 0%nat else plen c in
    let from := (psize c / 2)%nat in
    let len' := (len + 2 * (n - from))%nat in
    mkPc (fun a => mkVb (appended len from (vec (pbb c a))) (loIdx (pbb c a))) len' len' (resize (pmm c) n) (pperiodic c).
(** cpp:206-210, :219, :252-256 *)
Definition pinit_run (s : psettings) (c : pcoll) (n : nat) : bool :=
  pdoSort s || pdirty s || (negb (psize c =? 2 * n)%nat && ((200 <? 2 * n - psize c)%nat || (psize c =? 0)%nat)).

(** cpp:402-406 (relative to 0): period overwritten *)
Definition cellWrap (d : Z) (e : pent) : pent := mkP (pco e mod d) (pco e / d) (pid e) (pmin e) (phas e).
(** cpp:290-311 *)
Definition prefresh (init : bool) (d : Z) (bs : bodies) (a : nat) (e : pent) : pent :=
  match body_at bs (pid e) with
  | Some b =>
      let raw := match bbox b with
                 | Some x => mkP ((if pmin e then lo x a else hi x a) - d * per e) (per e) (pid e) (pmin e) true
                 | None => mkP (pos b a - d * per e) (per e) (pid e) (pmin e) false
                 end in
      if init then cellWrap d raw else raw
  | None => mkP (pco e) (per e) (pid e) (pmin e) false
  end.

(** cpp:316, hpp:160-163, core/InteractionContainer.hpp:111-142, see C07 *)
Fixpoint ppurge (c : cell) (mm : boxes) (I : pints) : res pints :=
  match I with
  | [] => Ok []
  | x :: I' =>
      do r <- ppurge c mm I';
      if real x then Ok (x :: r)
      else do o <- spatialOverlapPeri c mm (fst (ids x)) (snd (ids x));
           match o with Some _ => Ok (x :: r) | None => Ok r end
  end.

(** cpp:382-391: up from the lower bound at i to the next bound of the same body *)
Fixpoint mins_from (fuel : nat) (n : Z) (v : arr) (i : nat) (j : Z) : res (list (nat * nat)) :=
  match fuel with
  | O => More
  | S f =>
      if (pid (v j) =? i)%nat then Ok [] else
      do l <- mins_from f n v i ((j + 1) mod n);
      Ok (if pmin (v j) && phas (v j) then (i, pid (v j)) :: l else l)
  end.
Fixpoint ptraverse (fuel : nat) (n : Z) (v : arr) (k : nat) (i : Z) : res (list (nat * nat)) :=
  match k with
  | O => Ok []
  | S k' =>
      do l <- (if pmin (v i) && phas (v i) then mins_from fuel n v (pid (v i)) ((i + 1) mod n) else Ok []);
      do l' <- ptraverse fuel n v k' (i + 1);
      Ok (l ++ l')
  end.

Definition by_axis {A} (x y z : A) (a : nat) : A := match a with 0%nat => x | 1%nat => y | _ => z end.
(** An entry with the id of no body: Body::byId reads outside the vector of bodies. *)
Definition ids_in_range (c : pcoll) (n : nat) : bool :=
  forallb (fun a => forallb (fun k => (pid (vec (pbb c a) (Z.of_nat k)) <? n)%nat) (seq 0 (2 * n))) [0; 1; 2]%nat.

Definition paction (fuel : nat) (s : psettings) (c : pcoll) (bs : bodies) (I : pints) : res (pcoll * pints) :=
  let nb := length bs in
  let n := Z.of_nat (2 * nb) in
  let c0 := detect_periodicity c in
  let init := pinit_run s c0 nb in
  let c1 := padjust c0 nb in
  if (plen c1 <? 2 * nb)%nat || negb (ids_in_range c1 nb) then Undef else
  let mm := refresh_boxes bs (pmm c1) in
  let d a := dim (pcell s) a in
  let v a := mkVb (fun k => prefresh init (d a) bs a (vec (pbb c1 a) k)) (loIdx (pbb c1 a)) in
  do I0 <- ppurge (pcell s) mm I;
  let out bb I' := Ok (mkPc bb (plen c1) (psize c1) mm true, I') in
  if init then
    let w a := mkVb (psort s n (vec (v a))) 0 in
    do l <- ptraverse fuel n (vec (w (psortAxis s))) (2 * nb) 0;
    do I1 <- handle_all (pme s) (pavoid s) (pcell s) bs mm I0 l;
    out w I1
  else
    do (v0, ev0) <- insertionSortPeri fuel n (d 0%nat) (v 0%nat);
    do (v1, ev1) <- insertionSortPeri fuel n (d 1%nat) (v 1%nat);
    do (v2, ev2) <- insertionSortPeri fuel n (d 2%nat) (v 2%nat);
    let w := by_axis v0 v1 v2 in
    do l <- (if psortThenCollide s then ptraverse fuel n (vec (w (psortAxis s))) (2 * nb) 0
             else Ok (event_pairs ev0 ++ event_pairs ev1 ++ event_pairs ev2));
    do I1 <- handle_all (pme s) (pavoid s) (pcell s) bs mm I0 l;
    out w I1.
