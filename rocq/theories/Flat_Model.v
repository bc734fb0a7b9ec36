(** The flat grid collider: pkg/dem/FlatGridCollider.{hpp,cpp}, and the removal of unseen interactions in
    pkg/common/InteractionLoop.cpp.

    Simplifications: real numbers without rounding, integers without overflow; logging left out; whether two bodies
    may collide (pkg/common/Collider.cpp, modelled in Coll) is a function of ids; what exceptions leave behind is not
    modelled. *)
From Coq Require Import Reals List ZArith Bool Arith.
From Verif Require Import Vec_Model.
Import ListNotations.
Local Open Scope R_scope.

(** ** the grid, hpp:5-24 *)
Record grid := mkGr { gx : Z; gy : Z; gz : Z; mn : vec; gstep : R }.
Definition cell := (Z * Z * Z)%type.
Definition floorR (r : R) : Z := Int_part r.
Definition ceilR (r : R) : Z := (- floorR (- r))%Z.
(** pt2int, hpp:11: the lower bound of y is used for all axes *)
Definition pt2int (g : grid) (p : vec) : cell :=
  (floorR ((vx p - vy (mn g)) / gstep g), floorR ((vy p - vy (mn g)) / gstep g), floorR ((vz p - vy (mn g)) / gstep g)).
(** fit, fitGrid, lin, hpp:14-17 *)
Definition fit (i sz : Z) : Z := Z.max 0 (Z.min i (sz - 1)).
Definition fitGrid (g : grid) (c : cell) : cell := let '(x, y, z) := c in (fit x (gx g), fit y (gy g), fit z (gz g)).
Definition lin (g : grid) (c : cell) : nat := let '(x, y, z) := c in Z.to_nat (fit x (gx g) + gx g * fit y (gy g) + gx g * gy g * fit z (gz g)).
Definition len (g : grid) : nat := Z.to_nat (gx g * gy g * gz g).
Definition data := nat -> list nat.

(** updateGrid, cpp:46-60; None: an exception *)
Definition updateGrid (mn mx : vec) (step : R) : option grid :=
  if Rle_dec step 0 then None
  else let s := vsub mx mn in
    if Rle_dec (vx s) 0 then None else if Rle_dec (vy s) 0 then None else if Rle_dec (vz s) 0 then None
    else Some (mkGr (ceilR (vx s / step)) (ceilR (vy s / step)) (ceilR (vz s / step)) mn step).

(** ** bodies *)
Inductive fshape := FSphere (r : R) | FOther.
Record fbody := mkF { fshape_of : option fshape; fpos : vec }.
Definition zrange (a b : Z) : list Z := map (fun k => (a + Z.of_nat k)%Z) (seq 0 (Z.to_nat (b - a + 1))).
Definition cells_between (a b : cell) : list cell :=
  let '(ax, ay, az) := a in let '(bx, by_, bz) := b in
  flat_map (fun x => flat_map (fun y => map (fun z => (x, y, z)) (zrange az bz)) (zrange ay by_)) (zrange ax bx).
(** cpp:74: closest point of a cell along an axis *)
Definition closest (m step : R) (c center : Z) (x : R) : R :=
  if (c =? center)%Z then x else m + step * (IZR c + (if (c <? center)%Z then 1 else 0)).
Definition closest_point (g : grid) (c cC : cell) (C : vec) : vec :=
  let '(x, y, z) := c in let '(cx, cy, cz) := cC in
  V (closest (vx (mn g)) (gstep g) x cx (vx C)) (closest (vy (mn g)) (gstep g) y cy (vy C)) (closest (vz (mn g)) (gstep g) z cz (vz C)).
(** cpp:78: a body is added once to a cell; None: out of bounds *)
Definition put (g : grid) (d : data) (n : nat) (id : nat) : option data :=
  if (n <? len g)%nat then
    Some (match rev (d n) with
          | last :: _ => if (last =? id)%nat then d else fun k => if (k =? n)%nat then d n ++ [id] else d k
          | [] => fun k => if (k =? n)%nat then d n ++ [id] else d k
          end)
  else None.
Inductive outcome (A : Type) := Ok (a : A) | Throws | OutOfBounds.
Arguments Ok {A}. Arguments Throws {A}. Arguments OutOfBounds {A}.
Definition add_sphere (g : grid) (id : nat) (r : R) (C : vec) (d : outcome data) (c : cell) : outcome data :=
  match d with
  | Ok d => if Rle_dec (norm2 (vsub C (closest_point g c (pt2int g C) C))) (r * r)
            then match put g d (lin g (fitGrid g c)) id with Some d' => Ok d' | None => OutOfBounds end
            else Ok d
  | e => e
  end.
(** updateBodyCells, cpp:62-86 *)
Definition updateBodyCells (g : grid) (verlet : R) (d : outcome data) (e : nat * option fbody) : outcome data :=
  match d with
  | Ok _ =>
    match snd e with
    | None => d                                    (* deleted bodies, cpp:34 *)
    | Some b =>
      match fshape_of b with
      | None => d
      | Some FOther => Throws
      | Some (FSphere rad) =>
        let r := rad + verlet in let C := fpos b in
        fold_left (add_sphere g (fst e) r C) (cells_between (pt2int g (vsub C (V r r r))) (pt2int g (vadd C (V r r r)))) d
      end
    end
  | e => e
  end.

(** ** interactions *)
Record intr := mkI { i1 : nat; i2 : nat; lastSeen : Z; real : bool }.
Definition joins (a b : nat) (i : intr) : bool := ((i1 i =? a) && (i2 i =? b) || (i1 i =? b) && (i2 i =? a))%nat.
Fixpoint pairs (l : list nat) : list (nat * nat) := match l with [] => [] | a :: l' => map (fun b => (a, b)) l' ++ pairs l' end.
(** cpp:94-102; a new interaction has not been seen (core/Interaction.hpp:53) *)
Definition collide (may : nat -> nat -> bool) (iter : Z) (l : list intr) (p : nat * nat) : list intr :=
  let (a, b) := p in
  if (a =? b)%nat then l
  else if existsb (joins a b) l then map (fun i => if joins a b i then mkI (i1 i) (i2 i) iter (real i) else i) l
  else if may a b then l ++ [mkI a b (-1) false] else l.
(** updateCollisions, cpp:88-105 *)
Definition updateCollisions (may : nat -> nat -> bool) (iter : Z) (g : grid) (d : data) (l : list intr) : list intr :=
  fold_left (collide may iter) (flat_map pairs (map d (seq 0 (len g)))) l.

(** action, cpp:22-38; ids are indices *)
Definition fill (g : grid) (verlet : R) (bodies : list (option fbody)) : outcome data :=
  fold_left (updateBodyCells g verlet) (combine (seq 0 (length bodies)) bodies) (Ok (fun _ => [])).
Definition action (newton : bool) (mn mx : vec) (step verlet : R) (may : nat -> nat -> bool) (iter : Z) (bodies : list (option fbody)) (l : list intr) : outcome (list intr) :=
  if newton then
    match updateGrid mn mx step with
    | None => Throws
    | Some g => match fill g verlet bodies with
                | Ok d => Ok (updateCollisions may iter g d l)
                | Throws => Throws
                | OutOfBounds => OutOfBounds
                end
    end
  else Throws.
(** InteractionLoop.cpp:60, 69-72, in the step in which the collider has run *)
Definition swept (iter : Z) (l : list intr) : list intr := filter (fun i => real i || (iter <=? lastSeen i)%Z) l.

(** isActivated, cpp:12-20, once the integrator is known: whether it runs, and the new distance *)
Definition isActivated (verlet fastest maxVelocitySq dt : R) : bool * R :=
  let f := fastest + sqrt maxVelocitySq * dt in (if Rlt_dec verlet f then true else false, f).
