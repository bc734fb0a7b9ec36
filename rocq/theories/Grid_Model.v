(** Model of one more collider: pkg/dem/FlatGridCollider.{hpp,cpp}.

    Simplifications
    - Real is the type of real numbers, without rounding; conversions to int do not overflow, but the
      number of cells of the grid, a product of ints, may;
    - the container of interactions is a list of pairs with the time they were last seen (its own
      properties are the subject of World); what Collider::mayCollide says is a parameter;
    - the loop over bodies skips erased ones. *)
From Coq Require Import List ZArith Bool Arith Reals Lra.
From Verif Require Import Vec_Model.
Import ListNotations.

Inductive outcome (A : Type) := Done (a : A) | Throws | UB.
Arguments Done {A} a.
Arguments Throws {A}.
Arguments UB {A}.
Definition bind {A B} (o : outcome A) (f : A -> outcome B) : outcome B := match o with Done a => f a | Throws => Throws | UB => UB end.
Fixpoint foldM {A B} (f : A -> B -> outcome A) (l : list B) (a : A) : outcome A := match l with [] => Done a | b :: l' => bind (f a b) (foldM f l') end.

(** ** interactions *)
Record intr := mkI { a1 : nat; a2 : nat; lastSeen : Z }.
Definition of_pair (a b : nat) (i : intr) : bool := (a1 i =? a)%nat && (a2 i =? b)%nat || (a1 i =? b)%nat && (a2 i =? a)%nat.
(** InteractionContainer::find, :90-101 *)
Definition has (is : list intr) (a b : nat) : bool := existsb (of_pair a b) is.
(** assignment of iterLastSeen to the interaction found *)
Definition see (it : Z) (a b : nat) (is : list intr) : list intr := map (fun i => if of_pair a b i then mkI (a1 i) (a2 i) it else i) is.

(** ** FlatGridCollider *)
Local Open Scope R_scope.
(** hpp:5-24 *)
Record grid := mkG { sx : Z; sy : Z; sz : Z; mn : vec; step : R }.
Definition floor (x : R) : Z := Int_part x.
Definition ceil (x : R) : Z := (- Int_part (- x))%Z.
Definition cell := (Z * Z * Z)%type.
(** hpp:10; all coordinates are taken relative to mn[1] *)
Definition pt2int (g : grid) (p : vec) : cell := (floor ((vx p - vy (mn g)) / step g), floor ((vy p - vy (mn g)) / step g), floor ((vz p - vy (mn g)) / step g)).
(** hpp:13-16 *)
Definition fit (i size : Z) : Z := Z.max 0 (Z.min i (size - 1)).
Definition lin (g : grid) (c : cell) : Z := let '(x, y, z) := c in (fit x (sx g) + sx g * fit y (sy g) + sx g * sy g * fit z (sz g))%Z.
Definition fitGrid (g : grid) (c : cell) : cell := let '(x, y, z) := c in (fit x (sx g), fit y (sy g), fit z (sz g)).

(** the attributes aabbMin, aabbMax, step, verletDist *)
Record attrs := mkA { aabbMin : vec; aabbMax : vec; stepA : R; verletDist : R }.
(** cpp:47-60 *)
Definition updateGrid (A : attrs) : outcome (grid * list (list nat)) :=
  if Rle_dec (stepA A) 0 then Throws else
  let d := vsub (aabbMax A) (aabbMin A) in
  if Rle_dec (vx d) 0 then Throws else if Rle_dec (vy d) 0 then Throws else if Rle_dec (vz d) 0 then Throws else
  let g := mkG (ceil ((vx (aabbMax A) - vx (aabbMin A)) / stepA A)) (ceil ((vy (aabbMax A) - vy (aabbMin A)) / stepA A)) (ceil ((vz (aabbMax A) - vz (aabbMin A)) / stepA A)) (aabbMin A) (stepA A) in
  let len := (sx g * sy g * sz g)%Z in
  if (sx g * sy g <? 2 ^ 31)%Z && (len <? 2 ^ 31)%Z then Done (g, repeat [] (Z.to_nat len)) else UB.

Definition range (a b : Z) : list Z := map (fun k => (a + Z.of_nat k)%Z) (seq 0 (Z.to_nat (b - a + 1))).
(** cpp:75: one coordinate of the closest point of a cell *)
Definition closest (m s : R) (cPt cC : Z) (c : R) : R := if (cPt =? cC)%Z then c else m + s * IZR (cPt + (if (cPt <? cC)%Z then 1 else 0))%Z.
Definition ccp (g : grid) (c : cell) (cC : cell) (p : vec) : vec :=
  let '(x, y, z) := c in let '(x0, y0, z0) := cC in V (closest (vx (mn g)) (step g) x x0 (vx p)) (closest (vy (mn g)) (step g) y y0 (vy p)) (closest (vz (mn g)) (step g) z z0 (vz p)).
(** cpp:66-76: the cells to which a sphere is added *)
Definition cells_of (g : grid) (p : vec) (r : R) : list cell :=
  let '(x0, y0, z0) := pt2int g (vsub p (V r r r)) in let '(x1, y1, z1) := pt2int g (vadd p (V r r r)) in let cC := pt2int g p in
  filter (fun c => if Rle_dec (norm2 (vsub p (ccp g c cC p))) (r * r) then true else false)
    (flat_map (fun x => flat_map (fun y => map (fun z => (x, y, z)) (range z0 z1)) (range y0 y1)) (range x0 x1)).

(** cpp:79; data is accessed without check *)
Fixpoint put (data : list (list nat)) (k : nat) (id : nat) : outcome (list (list nat)) :=
  match data, k with
  | [], _ => UB
  | v :: d, O => Done ((if match rev v with [] => true | b :: _ => negb (b =? id)%nat end then v ++ [id] else v) :: d)
  | v :: d, S k' => bind (put d k' id) (fun d' => Done (v :: d'))
  end.
(** a body: no shape, a sphere with its radius, another shape *)
Inductive shp := NoShape | Ball (r : R) | Other.
Record body := mkB { shape : shp; pos : vec }.
(** cpp:62-85 *)
Definition updateBodyCells (A : attrs) (g : grid) (data : list (list nat)) (ib : nat * body) : outcome (list (list nat)) :=
  match shape (snd ib) with
  | NoShape => Done data
  | Ball r => foldM (fun d c => let k := lin g (fitGrid g c) in if (k <? 0)%Z then UB else put d (Z.to_nat k) (fst ib)) (cells_of g (pos (snd ib)) (r + verletDist A)) data
  | Other => Throws
  end.
(** all pairs of a vector, the first one before the second one *)
Fixpoint pairs (v : list nat) : list (nat * nat) := match v with [] => [] | a :: t => map (pair a) t ++ pairs t end.
(** cpp:95-102 *)
Definition visit (may : nat -> nat -> bool) (it : Z) (is : list intr) (p : nat * nat) : list intr :=
  let '(a, b) := p in
  if (a =? b)%nat then is else if has is a b then see it a b is else if may a b then is ++ [mkI a b (-1)] else is.
(** cpp:87-104 *)
Definition updateCollisions (may : nat -> nat -> bool) (it : Z) (data : list (list nat)) (is : list intr) : list intr :=
  fold_left (visit may it) (flat_map pairs data) is.

(** bodies by id, erased ones None *)
Definition existing (bs : list (option body)) : list (nat * body) :=
  flat_map (fun kb => match snd kb with Some b => [(fst kb, b)] | None => [] end) (combine (seq 0 (length bs)) bs).
(** cpp:22-37; a NewtonIntegrator is found *)
Definition action (A : attrs) (may : nat -> nat -> bool) (it : Z) (bs : list (option body)) (is : list intr) : outcome (list intr) :=
  bind (updateGrid A) (fun gd => bind (foldM (updateBodyCells A (fst gd)) (existing bs) (snd gd)) (fun data => Done (updateCollisions may it data is))).

(** cpp:12-20: newton found already, and fastestBodyMaxDist. [d]: sqrt(maxVelocitySq)*dt *)
Record engine := mkE { newton : bool; fastest : R }.
Definition isActivated (A : attrs) (E : engine) (d : R) : bool * engine :=
  if newton E then let f := fastest E + d in ((if Rlt_dec (verletDist A) f then true else false), mkE true f) else (true, E).
(** one step of the engine: Engine::isActivated, then action *)
Definition turn (A : attrs) (may : nat -> nat -> bool) (it : Z) (d : R) (bs : list (option body)) (st : engine * list intr) : outcome (engine * list intr) :=
  let '(act, E) := isActivated A (fst st) d in
  if act then bind (action A may it bs (snd st)) (fun is => Done (mkE true 0, is)) else Done (E, snd st).
