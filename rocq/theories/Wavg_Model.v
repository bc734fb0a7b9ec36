(** Averages of points in the plane: lib/smoothing/WeightedAverage2d.hpp, py/WeightedAverage2d.cpp.

    Simplifications: real numbers without rounding; the lists of cells are one list of elements with the cell of each; the
    distribution function and the density of boost are given functions; clipping polygons are given as predicates. *)
From Coq Require Import Reals List ZArith Bool.
Import ListNotations.
Local Open Scope R_scope.

Definition floorR (x : R) : Z := (up x - 1)%Z.
Definition lteR (a b : R) : bool := if Rle_dec a b then true else false.
(** GridContainer, hpp:12-27: lower corner, sizes and numbers of cells *)
Record grid := mkG { lx : R; ly : R; sx : R; sy : R; nx : Z; ny : Z }.
Record elem := mkE { ex : R; ey : R; ev : R }.
(** xy2cell, hpp:29-35 *)
Definition xy2cell (g : grid) (x y : R) : Z * Z := (floorR ((x - lx g) / sx g), floorR ((y - ly g) / sy g)).
Definition inGrid (g : grid) (c : Z * Z) : bool := ((0 <=? fst c) && (fst c <? nx g) && (0 <=? snd c) && (snd c <? ny g))%Z.
Definition clamp (a n : Z) : Z := (let b := if a <? 0 then 0 else a in if b >=? n then n - 1 else b)%Z.
(** add, hpp:40 *)
Definition cell_of (g : grid) (e : elem) : Z * Z :=
  let c := xy2cell g (ex e) (ey e) in if inGrid g c then c else (clamp (fst c) (nx g), clamp (snd c) (ny g)).
Definition zrange (a b : Z) : list Z := map (fun i => (a + Z.of_nat i)%Z) (seq 0 (Z.to_nat (b - a + 1))).
(** rectangleFilter, hpp:43-47 *)
Definition rectangle (g : grid) (x1 y1 x2 y2 : R) : list (Z * Z) :=
  let a := xy2cell g x1 y1 in let b := xy2cell g x2 y2 in
  filter (inGrid g) (flat_map (fun cx => map (pair cx) (zrange (snd a) (snd b))) (zrange (fst a) (fst b))).
(** hpp:56-64 for one cell: x() is moved in the second line too *)
Definition passes (g : grid) (x0 y0 r : R) (m : Z * Z) : bool :=
  let c := xy2cell g x0 y0 in
  if inGrid g c && (fst m =? fst c)%Z && (snd m =? snd c)%Z then true
  else
    let x := lx g + sx g * (/ 2 + IZR (fst m)) - x0 in
    let y := ly g + sy g * (/ 2 + IZR (snd m)) - y0 in
    let x1 := if (fst m =? fst c)%Z then 0 else x + (if (fst m <? fst c)%Z then 1 else -1) * / 2 * sx g in
    let (x2, y2) := if (snd m =? snd c)%Z then (x1, 0) else (x1 + (if (snd m <? snd c)%Z then 1 else -1) * / 2 * sy g, y) in
    lteR (x2 * x2 / (r * r) + y2 * y2 / (r * r)) 1.
(** circleFilter, hpp:48-66 *)
Definition circle (g : grid) (x0 y0 r : R) : list (Z * Z) := filter (passes g x0 y0 r) (rectangle g (x0 - r) (y0 - r) (x0 + r) (y0 + r)).
Definition eqcell (a b : Z * Z) : bool := ((fst a =? fst b) && (snd a =? snd b))%Z.
(** elements visited, hpp:99-108 *)
Definition visited (g : grid) (l : list elem) (x0 y0 r : R) : list elem := flat_map (fun c => filter (fun e => eqcell (cell_of g e) c) l) (circle g x0 y0 r).
(** data_get, hpp:203-214 *)
Definition data (g : grid) (l : list elem) : list elem :=
  flat_map (fun i => flat_map (fun j => filter (fun e => eqcell (cell_of g e) (i, j)) l) (zrange 0 (ny g - 1))) (zrange 0 (nx g - 1)).

(** SGDA_Scalar2d, hpp:119-143: stDev, relThreshold, the deviation of distrib and weightedSupportArea *)
Record kernel := mkK { stDev : R; relThreshold : R; dist_sd : R; area : R }.
(** hpp:128-130, [cdf sd x] is given *)
Definition support (cdf : R -> R -> R) (sd thr : R) : R := (1 - 2 * cdf sd (- sd * thr)) * (PI * ((thr * sd) * (thr * sd))).
(** pyGaussAverage, hpp:162-166: the threshold is set after construction with the default *)
Definition construct (cdf : R -> R -> R) (sd thr : R) : kernel := mkK sd thr sd (support cdf sd 3).
Definition stDev_set (k : kernel) (s : R) : kernel := mkK s (relThreshold k) (dist_sd k) (area k).
Definition relThreshold_set (k : kernel) (t : R) : kernel := mkK (stDev k) t (dist_sd k) (area k).
(** getWeight, hpp:133-139 *)
Definition weight (pdf : R -> R -> R) (k : kernel) (x0 y0 : R) (e : elem) : R :=
  let d := (x0 - ex e) * (x0 - ex e) + (y0 - ey e) * (y0 - ey e) in
  let t := relThreshold k * stDev k in
  if lteR d (t * t) then pdf (dist_sd k) (sqrt d) else 0.
(** sumValuesWeights and computeAverage, hpp:91-108; None is 0/0 *)
Definition sums (w : elem -> R) (l : list elem) : R * R := fold_left (fun s e => (fst s + w e * ev e, snd s + w e)) l (0, 0).
Definition average (w : elem -> R) (l : list elem) : option R := let s := sums w l in if Req_EM_T (snd s) 0 then None else Some (fst s / snd s).
Definition perArea (k : kernel) (w : elem -> R) (l : list elem) : R := fst (sums w l) / area k.
(** ptIsClipped and addPt, hpp:168-175: points that are clipped are not taken *)
Definition clipped (clips : list ((R -> R -> bool) * bool)) (x y : R) : bool :=
  existsb (fun c : (R -> R -> bool) * bool => let (inside, inclusive) := c in (inside x y && negb inclusive) || (negb (inside x y) && inclusive)) clips.
Definition addPt (clips : list ((R -> R -> bool) * bool)) (l : list elem) (e : elem) : list elem * bool := if clipped clips (ex e) (ey e) then (l, false) else (l ++ [e], true).
