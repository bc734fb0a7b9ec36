(** Model of packings of spheres: pkg/dem/SpherePack.{hpp,cpp} without the random ones (Cloud_Model.v).

    Simplifications
    - real numbers without rounding (see Vec_Model.v);
    - the bounding box of no spheres, infinite in the code, is None; numbers computed from it are not used;
    - the memory of a packing has no limit. *)
From Coq Require Import Reals List ZArith Bool.
From Verif Require Import Vec_Model Cloud_Model.
Import ListNotations.
Local Open Scope R_scope.

(** what a method does to the packing: it returns, throws, or is undefined *)
Inductive outcome := Done (s : spack) | Raises (s : spack) | Undef.

(** ** Repetition *)
Definition indices (n : Z) : list Z := map Z.of_nat (seq 0 (Z.to_nat n)).
(** SpherePack.cpp:274 *)
Definition offset (cs : vec) (k : Z * Z * Z) : vec := let '(i, j, l) := k in V (vx cs * IZR i) (vy cs * IZR j) (vz cs * IZR l).
(** SpherePack.cpp:276; the number of the clump is left to its default *)
Definition moved (off : vec) (a : sph) : sph := mkSph (vadd (c a) off) (r a) (-1).
(** SpherePack.cpp:270-273 *)
Definition others (n m p : Z) : list (Z * Z * Z) :=
  filter (fun x => let '(i, j, k) := x in negb ((i =? 0) && (j =? 0) && (k =? 0))%Z)
    (flat_map (fun i => flat_map (fun j => map (fun k => (i, j, k)) (indices p)) (indices m)) (indices n)).
(** SpherePack.cpp:265-283 *)
Definition cellRepeat (count : Z * Z * Z) (s : spack) : outcome :=
  let '(n, m, p) := count in
  if vec_zero (cellSize s) then Raises s
  else if (n <=? 0)%Z || (m <=? 0)%Z || (p <=? 0)%Z then Raises s
  else Done (mkPack (pack s ++ flat_map (fun k => map (moved (offset (cellSize s) k)) (pack s)) (others n m p))
                    (offset (cellSize s) (n, m, p)) (appliedPsdScaling s) (isPeriodic s)).
Definition ceil (x : R) : Z := (- Int_part (- x))%Z.
(** conversion of a number to int; out of range: undefined *)
Definition to_int (x : Z) : option Z := if (-2147483648 <=? x)%Z && (x <=? 2147483647)%Z then Some x else None.
(** SpherePack.cpp:260: a quotient by zero is infinite or nan, its conversion undefined *)
Definition fill_count (v d : R) : option Z := if is_zero d then None else to_int (ceil (v / d)).
(** SpherePack.cpp:258-263 *)
Definition cellFill (v : vec) (s : spack) : outcome :=
  match fill_count (vx v) (vx (cellSize s)), fill_count (vy v) (vy (cellSize s)), fill_count (vz v) (vz (cellSize s)) with
  | Some n, Some m, Some p => cellRepeat (n, m, p) s
  | _, _, _ => Undef
  end.

(** ** Bounding box (SpherePack.hpp:81-91) *)
Definition low (a : sph) : vec := V (vx (c a) - r a) (vy (c a) - r a) (vz (c a) - r a).
Definition high (a : sph) : vec := V (vx (c a) + r a) (vy (c a) + r a) (vz (c a) + r a).
Definition cwiseMin (a b : vec) : vec := V (Rmin (vx a) (vx b)) (Rmin (vy a) (vy b)) (Rmin (vz a) (vz b)).
Definition cwiseMax (a b : vec) : vec := V (Rmax (vx a) (vx b)) (Rmax (vy a) (vy b)) (Rmax (vz a) (vz b)).
Definition aabb (l : list sph) : option (vec * vec) :=
  match l with
  | [] => None
  | a :: l' => Some (fold_left (fun b x => (cwiseMin (fst b) (low x), cwiseMax (snd b) (high x))) l' (low a, high a))
  end.
(** SpherePack.hpp:79,92 *)
Definition dim (l : list sph) : option vec := option_map (fun b => vsub (snd b) (fst b)) (aabb l).
Definition midPt (l : list sph) : vec := match aabb l with Some b => smul (1/2) (vadd (fst b) (snd b)) | None => vzero end.
(** SpherePack.hpp:93-98 *)
Definition relDensity (l : list sph) : option R :=
  option_map (fun d => fold_left (fun v a => v + r a ^ 3) l 0 * ((4 / 3) * PI) / (vx d * vy d * vz d)) (dim l).

(** ** Transformations *)
Definition at_place (a : sph) (x : vec) : sph := mkSph x (r a) (clumpId a).
(** SpherePack.hpp:104 *)
Definition translate (v : vec) (s : spack) : spack :=
  mkPack (map (fun a => at_place a (vadd (c a) v)) (pack s)) (cellSize s) (appliedPsdScaling s) (isPeriodic s).
(** SpherePack.hpp:105-111; [q] is the quaternion of the axis and angle *)
Definition rotate_by (q : quat) (s : spack) : spack :=
  let m := midPt (pack s) in mkPack (map (fun a => at_place a (vadd (qrot q (vsub (c a) m)) m)) (pack s)) vzero (appliedPsdScaling s) (isPeriodic s).
Definition rotate (axis : vec) (angle : R) (s : spack) : spack := rotate_by (angle_axis angle axis) s.
(** SpherePack.hpp:112-118 *)
Definition rotateAroundOrigin (q : quat) (s : spack) : spack :=
  mkPack (map (fun a => at_place a (qrot q (c a))) (pack s)) vzero (appliedPsdScaling s) (isPeriodic s).
(** SpherePack.hpp:119-126 *)
Definition scale (k : R) (s : spack) : spack :=
  let m := midPt (pack s) in
  mkPack (map (fun a => mkSph (vadd (smul k (vsub (c a) m)) m) (r a * Rabs k) (clumpId a)) (pack s)) (smul k (cellSize s)) (appliedPsdScaling s) (isPeriodic s).

(** ** Distribution of sizes *)
Inductive distribution := Distribution (first second : list R) | NoSizes | BadSizes.
(** SpherePack.cpp:297-302 *)
Definition minD (a : sph) (l : list sph) : R := fold_left (fun m x => Rmin (2 * r x) m) l (2 * r a).
Definition maxD (a : sph) (l : list sph) : R := fold_left (fun m x => Rmax (2 * r x) m) l (2 * r a).
Definition vol (l : list sph) : R := fold_left (fun v a => v + r a ^ 3) l 0.
Definition range (a : sph) (l : list sph) : R * R :=
  let lo := minD a l in let hi := maxD a l in if is_zero (lo - hi) then (lo - 1/2, hi + 1/2) else (lo, hi).
(** SpherePack.cpp:305 *)
Definition edges (bins : nat) (lo hi : R) : list R := map (fun i => lo + INR i * (hi - lo) / INR bins) (seq 0 (S bins)).
(** SpherePack.cpp:308 *)
Definition bin (bins : nat) (lo hi d : R) : nat := Nat.min (Z.to_nat (Int_part (INR bins * (d - lo) / (hi - lo)))) (bins - 1).
(** SpherePack.cpp:309 *)
Definition weight (mass : bool) (l : list sph) (a : sph) : R := if mass then r a ^ 3 / vol l else 1 / INR (length l).
Fixpoint add_at (i : nat) (w : R) (h : list R) : list R :=
  match h, i with [], _ => [] | x :: h', O => x + w :: h' | x :: h', S j => x :: add_at j w h' end.
(** SpherePack.cpp:311 *)
Fixpoint cumulate (acc : R) (h : list R) : list R := acc :: match h with [] => [] | x :: h' => cumulate (Rmin 1 (acc + x)) h' end.
(** SpherePack.cpp:295-313; without bins the index is -1, with a negative number the vector cannot be made *)
Definition psd (bins : Z) (mass : bool) (l : list sph) : distribution :=
  match l with
  | [] => Distribution [] []
  | a :: l' =>
    let '(lo, hi) := range a l' in
    if (bins <? 0)%Z then NoSizes
    else if (bins =? 0)%Z then BadSizes
    else let n := Z.to_nat bins in
      let hist := fold_left (fun h x => add_at (bin n lo hi (2 * r x)) (weight mass l x) h) l (repeat 0 n) in
      Distribution (edges n lo hi) (cumulate 0 hist)
  end.

(** ** Lists *)
(** SpherePack.hpp:32-36 *)
Definition tuple := (vec * R * option Z)%type.
Definition asTuple (a : sph) : tuple := (c a, r a, if (clumpId a <? 0)%Z then None else Some (clumpId a)).
Definition asTupleNoClump (a : sph) : tuple := (c a, r a, None).
(** elements of a list given to fromList *)
Inductive element := Elem (t : tuple) | NotATuple.
Definition of_tuple (t : tuple) : sph := let '(x, rad, k) := t in mkSph x rad (match k with Some i => i | None => -1 end).
(** SpherePack.cpp:23-33 *)
Fixpoint take (l : list element) (acc : list sph) : list sph * bool :=
  match l with
  | [] => (acc, true)
  | Elem t :: l' => take l' (acc ++ [of_tuple t])
  | NotATuple :: _ => (acc, false)
  end.
Definition fromList (l : list element) (s : spack) : outcome :=
  let '(p, ok) := take l [] in let s' := mkPack p (cellSize s) (appliedPsdScaling s) (isPeriodic s) in if ok then Done s' else Raises s'.
(** SpherePack.hpp:44; [junk]: what is in the memory before *)
Definition construct (l : list element) (junk : R * bool) : outcome := fromList l (mkPack [] vzero (fst junk) (snd junk)).
(** SpherePack.cpp:35-43 *)
Definition fromLists (cs : list vec) (rs : list R) (s : spack) : outcome :=
  if (length cs =? length rs)%nat then Done (mkPack (map (fun x => mkSph (fst x) (snd x) (-1)) (combine cs rs)) vzero (appliedPsdScaling s) (isPeriodic s))
  else Raises (mkPack [] (cellSize s) (appliedPsdScaling s) (isPeriodic s)).
(** SpherePack.cpp:45-49 *)
Definition toList (s : spack) : list tuple := map asTuple (pack s).
(** SpherePack.hpp:46 *)
Definition add (x : vec) (rad : R) (s : spack) : spack := mkPack (pack s ++ [mkSph x rad (-1)]) (cellSize s) (appliedPsdScaling s) (isPeriodic s).
(** SpherePack.hpp:130; None: exception *)
Definition getitem (i : nat) (s : spack) : option tuple := option_map asTuple (nth_error (pack s) i).
(** SpherePack.hpp:131-140: all that an iterator gives *)
Definition iterate (s : spack) : list tuple := map asTupleNoClump (pack s).
(** a body for fromSimulation: position, radius of its shape if this is a sphere, number of its clump if it is a member *)
Record body := mkBody { pos : vec; sphere : option R; member : option Z }.
(** SpherePack.cpp:71-84 *)
Definition fromSimulation (bodies : list (option body)) (cell : option vec) (s : spack) : spack :=
  let p := flat_map (fun ob => match ob with
                               | None => []
                               | Some b => match sphere b with None => [] | Some rad => [mkSph (pos b) rad (match member b with Some k => k | None => -1 end)] end
                               end) bodies in
  match cell with
  | Some sz => mkPack p sz (appliedPsdScaling s) true
  | None => mkPack p (cellSize s) (appliedPsdScaling s) (isPeriodic s)
  end.

(** ** Clumps *)
(** SpherePack.cpp:426 *)
Definition hasClumps (s : spack) : bool := existsb (fun a => (0 <=? clumpId a)%Z) (pack s).
(** std::map<int,py::list>: sorted by key *)
Fixpoint append_to (k : Z) (i : nat) (m : list (Z * list nat)) : list (Z * list nat) :=
  match m with
  | [] => [(k, [i])]
  | (k', l) :: m' => if (k =? k')%Z then (k', l ++ [i]) :: m' else if (k <? k')%Z then (k, [i]) :: m else (k', l) :: append_to k i m'
  end.
(** SpherePack.cpp:427-440 *)
Definition getClumps (s : spack) : list nat * list (list nat) :=
  let '(alone, m) := fold_left (fun x ia => let '(alone, m) := x in let '(i, a) := ia in if (clumpId a <? 0)%Z then (alone ++ [i], m) else (alone, append_to (clumpId a) i m))
    (combine (seq 0 (length (pack s))) (pack s)) ([], []) in
  (alone, map snd m).
