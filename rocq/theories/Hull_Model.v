(** Model of the convex hull of points of a plane, of areas of polygons and of the area of a section:
    lib/computational-geometry/Hull2d.hpp, py/_utils.cpp (approxSectionArea).

    Simplifications
    - real numbers without rounding;
    - lists in the code are double linked or vectors, here lists; [None] stands for access outside of a list;
    - bodies that are not spheres and bounds that are computed and not used are left out. *)
From Coq Require Import Reals List ZArith Bool.
From Verif Require Import Vec_Model.
Import ListNotations.
Local Open Scope R_scope.

Definition point := (R * R)%type.
(** Hull2d.hpp:16-18 *)
Definition direction (p0 p1 p2 : point) : R := (fst p0 - fst p1) * (snd p2 - snd p1) - (fst p2 - fst p1) * (snd p0 - snd p1).
(** Hull2d.hpp:19-21,24: std::list::sort is stable: points with the same x keep their order *)
Fixpoint insert_x (p : point) (l : list point) : list point :=
  match l with [] => [p] | q :: l' => if Rlt_dec (fst q) (fst p) then q :: insert_x p l' else p :: l end.
Definition sort_x (l : list point) : list point := fold_right insert_x [] l.
(** Hull2d.hpp:23-31: the first, the last, those above and those below; front and back of an empty list: None *)
Definition partition_points (raw : list point) : option (point * point * list point * list point) :=
  match sort_x raw with
  | [] => None
  | lft :: rest =>
    match rev rest with
    | [] => None
    | rgt :: mid => let mid' := rev mid in
      Some (lft, rgt, filter (fun p => if Rlt_dec (direction lft rgt p) 0 then true else false) mid',
                         filter (fun p => if Rlt_dec (direction lft rgt p) 0 then false else true) mid')
    end
  end.
(** Hull2d.hpp:36-41: the new point and what was there, the last one first; points before it are erased *)
Fixpoint reduce (factor : R) (p : point) (out : list point) : list point :=
  match out with
  | mid :: (prev :: _) as out' => if Rle_dec (factor * direction prev p mid) 0 then reduce factor p out' else p :: out
  | _ => p :: out
  end.
(** Hull2d.hpp:32-44, the last one first *)
Definition build_half_hull (lft rgt : point) (inp : list point) (factor : R) : list point :=
  fold_left (fun out p => reduce factor p out) (inp ++ [rgt]) [lft].
(** Hull2d.hpp:48-57 *)
Definition hull (raw : list point) : option (list point) :=
  match partition_points raw with
  | None => None
  | Some (lft, rgt, upper, lower) =>
    let lower_hull := build_half_hull lft rgt lower 1 in
    let upper_hull := build_half_hull lft rgt upper (-1) in
    Some (removelast upper_hull ++ removelast (rev lower_hull))
  end.
(** Hull2d.hpp:65-70: with no points n-1 is the largest number *)
Fixpoint open_sum (P : list point) : R :=
  match P with p :: (q :: _) as P' => fst p * snd q - fst q * snd p + open_sum P' | _ => 0 end.
Definition simplePolygonArea2d (P : list point) : option R :=
  match P with
  | [] => None
  | p :: _ => let q := last P p in Some (Rabs ((open_sum P + (fst q * snd p - fst p * snd q)) / 2))
  end.

(** ** py/_utils.cpp:252-275: spheres are (position, radius) *)
Definition coordinate (v : vec) (i : Z) : R := if (i =? 0)%Z then vx v else if (i =? 1)%Z then vy v else vz v.
(** _utils.cpp:262 *)
Definition skipped (coord : R) (axis : Z) (s : vec * R) : bool :=
  let x := coordinate (fst s) axis in let r := snd s in
  (if Rlt_dec coord x then if Rlt_dec coord (x - r) then true else false else false) ||
  (if Rlt_dec x coord then if Rlt_dec (x + r) coord then true else false else false).
(** _utils.cpp:263-266 *)
Definition corners (axis : Z) (s : vec * R) : list point :=
  let a := coordinate (fst s) ((axis + 1) mod 3) in let b := coordinate (fst s) ((axis + 2) mod 3) in let r := snd s in
  [(a + r, b); (a - r, b); (a + r / 2, b + sqrt 3 * r); (a + r / 2, b - sqrt 3 * r); (a - r / 2, b + sqrt 3 * r); (a - r / 2, b - sqrt 3 * r)].
Inductive section_result := Area (a : R) | InvalidAxis | Undefined.
Definition approxSectionArea (spheres : list (vec * R)) (coord : R) (axis : Z) : section_result :=
  if ((axis <? 0) || (2 <? axis))%Z then InvalidAxis
  else match flat_map (corners axis) (filter (fun s => negb (skipped coord axis s)) spheres) with
       | [] => Area 0
       | cloud => match hull cloud with
                  | None => Undefined
                  | Some h => match simplePolygonArea2d h with None => Undefined | Some a => Area a end
                  end
       end.
