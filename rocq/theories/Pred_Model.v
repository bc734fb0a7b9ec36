(** Model of the predicates of volumes: py/pack/_packPredicates.cpp.

    Simplifications
    - Real is the type of real numbers, without rounding; operations without result (square root of a negative
      number, 0/0) give values with which all comparisons fail, as NaN does; where this can happen it is
      written out;
    - a box without bounds is None: notInNotch::aabb has all bounds infinite, and no other has any;
    - predicates written in python and inGtsSurface are not modelled. *)
From Coq Require Import Bool Reals.
From Verif Require Import Vec_Model.
Local Open Scope R_scope.

Inductive solid :=
| Sphere (center : vec) (radius : R)
| Box (mn mx : vec)
| Para (o a b c : vec)
| Cyl (c1 c2 : vec) (radius : R)
| Hyp (c1 c2 : vec) (radius skirt : R)
| Ell (center abc : vec)
| Notch (center edge normal : vec) (aperture : R)
| Union (A B : solid)
| Inter (A B : solid)
| Diff (A B : solid)
| Sym (A B : solid).

Definition le (a b : R) : bool := if Rle_dec a b then true else false.
Definition lt (a b : R) : bool := if Rlt_dec a b then true else false.
Definition normalized (v : vec) : vec := smul (/ norm v) v.

(** cpp:126-130, 143-145: outer normals and points of the planes *)
Definition para_out (y z : vec) : vec := vopp (normalized (cross y z)).
(** cpp:157-160, 188-191: coordinate along the axis and distance from it; c1 <> c2 *)
Definition along (c1 c2 p : vec) : R := let ht := norm (vsub c2 c1) in (dot p (vsub c2 c1) - dot c1 (vsub c2 c1)) / (ht * ht).
Definition axisDist (c1 c2 p : vec) : R := norm (cross (vsub p c1) (vsub p c2)) / norm (vsub c2 c1).
(** 0/0 is compared: cpp:157-162 return true, cpp:188-195 too *)
Definition no_axis (c1 c2 : vec) : bool := if Req_EM_T (norm (vsub c2 c1)) 0 then true else false.
Definition sq (x : R) : R := x * x.

Fixpoint inside (s : solid) (p : vec) (pad : R) : bool :=
  match s with
  (* cpp:110 *)
  | Sphere c r => le (norm (vsub p c)) (r - pad)
  (* cpp:119-124 *)
  | Box mn mx => le (vx mn + pad) (vx p) && le (vx p) (vx mx - pad) && le (vy mn + pad) (vy p) && le (vy p) (vy mx - pad) && le (vz mn + pad) (vz p) && le (vz p) (vz mx - pad)
  (* cpp:132-137, 148-149 *)
  | Para o a b c =>
      let x := vsub a o in let y := vsub b o in let z := vsub c o in
      let ok q n := negb (lt (- pad) (dot (vsub p q) n)) in
      ok o (para_out y z) && ok a (vopp (para_out y z)) && ok o (para_out z x) && ok b (vopp (para_out z x)) && ok o (para_out x y) && ok c (vopp (para_out x y))
  (* cpp:159-165 *)
  | Cyl c1 c2 r =>
      if no_axis c1 c2 then true else
      let ht := norm (vsub c2 c1) in let u := along c1 c2 p in
      if lt (u * ht) (0 + pad) || lt (ht - pad) (u * ht) then false else
      if lt (r - pad) (axisDist c1 c2 p) then false else true
  (* cpp:186-198 *)
  | Hyp c1 c2 r a =>
      if no_axis c1 c2 then true else
      let ht := norm (vsub c2 c1) in let uMax := sqrt ((r / a) ^ 2 - 1) in let c := ht / (2 * uMax) in let v := along c1 c2 p in
      if lt (v * ht) (0 + pad) || lt (ht - pad) (v * ht) then false else
      let u := (v - 1 / 2) * ht / c in let rHere := a * sqrt (1 + u * u) in
      if lt (rHere - pad) (axisDist c1 c2 p) then false else true
  (* cpp:211-218 *)
  | Ell c abc =>
      let a := vx abc - pad in let b := vy abc - pad in let d := vz abc - pad in
      if Req_EM_T b 0 then false else if Req_EM_T d 0 then false else
      let q := (1 - (vy p - vy c) ^ 2 / (b * b) - (vz p - vz c) ^ 2 / (d * d)) * (a * a) in
      if lt q 0 then false else
      let x := sqrt q + vx c in
      le (norm (vsub p c)) (norm (vsub (V x (vy p) (vz p)) c))
  (* cpp:252-271; the constructor cpp:252-257 *)
  | Notch c e n ap =>
      let edge := normalized e in let normal := normalized (vsub n (smul (dot edge n) edge)) in let inn := cross edge normal in
      let up := dot normal (vsub p c) - ap / 2 in let down := - dot normal (vsub p c) - ap / 2 in let inp := - dot inn (vsub p c) in
      if le pad inp then true else if le pad up then true else if le pad down then true else
      if lt inp 0 then false else
      if lt 0 up then le pad (sqrt (inp ^ 2 + up ^ 2)) else
      if lt 0 down then le pad (sqrt (inp ^ 2 + up ^ 2)) else false
  (* cpp:57, 71, 85, 94 *)
  | Union A B => inside A p pad || inside B p pad
  | Inter A B => inside A p pad && inside B p pad
  | Diff A B => inside A p pad && negb (inside B p (- pad))
  | Sym A B => let a := inside A p pad in let b := inside B p pad in (a && negb b) || (negb a && b)
  end.

Definition vmin (a b : vec) : vec := V (Rmin (vx a) (vx b)) (Rmin (vy a) (vy b)) (Rmin (vz a) (vz b)).
Definition vmax (a b : vec) : vec := V (Rmax (vx a) (vx b)) (Rmax (vy a) (vy b)) (Rmax (vz a) (vz b)).
Definition hull (l : list vec) (v : vec) : vec * vec := (List.fold_left vmin l v, List.fold_left vmax l v).
(** cpp:166-175, for c1 <> c2 *)
Definition cyl_box (A B : vec) (r : R) : vec * vec :=
  let ht := norm (vsub B A) in
  let k := V (sqrt ((vy A - vy B) ^ 2 + (vz A - vz B) ^ 2) / ht) (sqrt ((vx A - vx B) ^ 2 + (vz A - vz B) ^ 2) / ht) (sqrt ((vx A - vx B) ^ 2 + (vy A - vy B) ^ 2) / ht) in
  (vsub (vmin A B) (smul r k), vadd (vmax A B) (smul r k)).
Definition join (x y : option (vec * vec)) : option (vec * vec) :=
  match x, y with Some (a, b), Some (c, d) => Some (vmin a c, vmax b d) | _, _ => None end.
Definition meet (x y : option (vec * vec)) : option (vec * vec) :=
  match x, y with Some (a, b), Some (c, d) => Some (vmax a c, vmin b d) | Some z, None => Some z | None, z => z end.
Fixpoint aabb (s : solid) : option (vec * vec) :=
  match s with
  | Sphere c r => Some (vsub c (V r r r), vadd c (V r r r))   (* cpp:111 *)
  | Box mn mx => Some (mn, mx)   (* cpp:125 *)
  | Para o a b c =>   (* cpp:133, 138-145 *)
      let ab := vadd a (vsub b o) in
      Some (hull (cons a (cons ab (cons b (cons c (cons (vadd c (vsub a o)) (cons (vadd (vadd c (vsub a o)) (vsub b o)) (cons (vadd c (vsub b o)) nil))))))) o)
  | Cyl c1 c2 r => Some (cyl_box c1 c2 r)
  | Hyp c1 c2 r _ => Some (cyl_box c1 c2 r)   (* cpp:199-202 *)
  | Ell c abc => Some (vsub c abc, vadd c abc)   (* cpp:220-223 *)
  | Notch _ _ _ _ => None   (* cpp:273-276 *)
  | Union A B => join (aabb A) (aabb B)   (* cpp:58-63 *)
  | Inter A B => meet (aabb A) (aabb B)   (* cpp:72-77 *)
  | Diff A B => aabb A   (* cpp:86 *)
  | Sym A B => join (aabb A) (aabb B)   (* cpp:95-100 *)
  end.
