(** What is expected of contacts with friction and normal viscous damping. *)
From Coq Require Import Reals List ZArith Bool.
From Verif Require Import Vec_Model Rigid_Model Law_Model Fvis_Model.
Import ListNotations.
Local Open Scope R_scope.

(** velocity at which the second body leaves the first one, along the normal *)
Definition leaving (g : scgeom) (s1 s2 : rstate) (shiftVel : vec) : R := dot (normal g) (vadd (vsub (vel s2) (vel s1)) shiftVel).
(** sum of radii over distance of centers *)
Definition stretch (g : scgeom) : R := (radius1 g + radius2 g) / (radius1 g + radius2 g - penetrationDepth g).
Definition plausible (g : scgeom) : Prop := norm2 (normal g) = 1 /\ 0 < radius1 g + radius2 g /\ penetrationDepth g < radius1 g + radius2 g.
(** the elastic normal force, and the force of the dashpot of coefficient c, on the second body *)
Definition spring (g : scgeom) (p : vphys) : R := kn (fp p) * Rmax (penetrationDepth g) 0.
(** force on body 2, normal part: positive pushes it away *)
Definition pushes (g : scgeom) (f : vec) : R := dot (normal g) f.
(** mass felt in a collision *)
Definition reduced (a b : partner) (m : R) : Prop :=
  match dynamic a, dynamic b with
  | true, false => m = pmass a
  | false, true => m = pmass b
  | _, _ => pmass a + pmass b <> 0 /\ m * (pmass a + pmass b) = pmass a * pmass b
  end.
(** fraction of critical damping of a pair: the mean, or that of the only one that has any *)
Definition fraction (b1 b2 x : R) : Prop :=
  (b1 <> 0 /\ b2 <> 0 /\ x = (b1 + b2) / 2) \/ (b2 = 0 /\ x = b1) \/ (b1 = 0 /\ x = b2).
(** k is the stiffness of two springs 2a, 2b in a row *)
Definition in_series (a b k : R) : Prop := k * (a + b) = 2 * a * b.
(** the radius of a body, or that of its partner if it has none *)
Definition radius_or (r other x : R) : Prop := (0 < r /\ x = r) \/ (r <= 0 /\ x = other).
(** the same contact with bodies exchanged *)
Definition exchanged (g : scgeom) : scgeom := mkG (vopp (normal g)) (contactPoint g) (penetrationDepth g) (radius2 g) (radius1 g) (twist_axis g) (orthonormal_axis g) (vopp (shearInc g)).
(** energy stored in the springs of a contact *)
Definition stored (g : scgeom) (p : vphys) : R := 1/2 * (kn (fp p) * Rsqr (Rmax (penetrationDepth g) 0) + norm2 (shearForce (fp p)) / ks (fp p)).

(** two spheres of radius 1 overlapping by h, the second one moving with velocity v along x *)
Definition pair_geom (h : R) : scgeom := mkG (V 1 0 0) (V (1 - h / 2) 0 0) h 1 1 vzero vzero vzero.
Definition still (x : R) : rstate := mkR (V x 0 0) (Q 1 vzero) vzero vzero 1 (V 1 1 1).
Definition moving (x v : R) : rstate := mkR (V x 0 0) (Q 1 vzero) (V v 0 0) vzero 1 (V 1 1 1).
Definition phys_of (k c mu : R) (fs : vec) : vphys := mkVP (mkP k k mu vzero fs) (Some 2) c vzero.
Definition default_law (never : bool) : lawconf := mkL never true false true false.
