(** What a user expects of packings of spheres. *)
From Coq Require Import Reals List ZArith Bool Sorted.
From Verif Require Import Vec_Model Cloud_Model Cloud_Spec Spack_Model.
Import ListNotations.
Local Open Scope R_scope.

(** all images of the spheres of a periodic packing: there is one with centre [x] and radius [rad] *)
Definition occurs (s : spack) (x : vec) (rad : R) : Prop := exists a k, In a (pack s) /\ c (image (diag (cellSize s)) k a) = x /\ r a = rad.
(** no sphere of a periodic packing touches another one or an image *)
Definition loose (s : spack) : Prop :=
  ForallOrdPairs (apart_periodic (diag (cellSize s))) (pack s) /\ Forall (apart_own (diag (cellSize s))) (pack s).
(** the relation of two packings whose spheres correspond, distances multiplied by k *)
Definition similar (k : R) (l l' : list sph) : Prop :=
  length l = length l' /\
  (forall i a, nth_error l i = Some a -> exists a', nth_error l' i = Some a' /\ r a' = k * r a /\ clumpId a' = clumpId a) /\
  (forall i j a b a' b', nth_error l i = Some a -> nth_error l j = Some b -> nth_error l' i = Some a' -> nth_error l' j = Some b' ->
    norm (vsub (c a') (c b')) = k * norm (vsub (c a) (c b))).
(** fraction of the spheres, by number or by mass, for which P holds *)
Definition total (f : sph -> R) (l : list sph) : R := fold_right (fun a v => f a + v) 0 l.
Definition fraction (mass : bool) (P : sph -> bool) (l : list sph) : R :=
  let f a := if mass then r a ^ 3 else 1 in total f (filter P l) / total f l.
(** a box that contains all spheres, and the smallest one *)
Definition contains (b : vec * vec) (a : sph) : Prop :=
  vx (fst b) <= vx (c a) - r a /\ vy (fst b) <= vy (c a) - r a /\ vz (fst b) <= vz (c a) - r a /\
  vx (c a) + r a <= vx (snd b) /\ vy (c a) + r a <= vy (snd b) /\ vz (c a) + r a <= vz (snd b).
Definition within (b b' : vec * vec) : Prop :=
  vx (fst b') <= vx (fst b) /\ vy (fst b') <= vy (fst b) /\ vz (fst b') <= vz (fst b) /\
  vx (snd b) <= vx (snd b') /\ vy (snd b) <= vy (snd b') /\ vz (snd b) <= vz (snd b').
(** diameter below [e] *)
Definition below (e : R) (a : sph) : bool := ltb (2 * r a) e.
(** numbers, in increasing order, of the spheres for which P holds *)
Definition positions (P : sph -> bool) (l : list sph) : list nat := map fst (filter (fun x => P (snd x)) (combine (seq 0 (length l)) l)).
(** numbers of clumps as methods make them: -1 is none *)
Definition valid_clumps (l : list sph) : Prop := Forall (fun a => (-1 <= clumpId a)%Z) l.
(** Rodrigues' formula: [v] turned about the unit vector [a] by an angle *)
Definition turned (a : vec) (angle : R) (v : vec) : vec := vadd (vadd (smul (cos angle) v) (smul (sin angle) (cross a v))) (smul ((1 - cos angle) * dot a v) a).
(** the bodies that are spheres: position, radius, number of the clump *)
Fixpoint spheres (l : list (option body)) : list tuple :=
  match l with
  | Some (mkBody x (Some rad) k) :: l' => (x, rad, k) :: spheres l'
  | _ :: l' => spheres l'
  | [] => []
  end.
