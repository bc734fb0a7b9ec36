(** What is expected of wires. Displacements and forces are negative in tension. *)
From Coq Require Import Reals List ZArith Bool.
From Verif Require Import Vec_Model Law_Model Wire_Model.
Import ListNotations.
Local Open Scope R_scope.

(** points of a curve: each one further than the one before *)
Fixpoint falling (u : R) (l : list (R * R)) : Prop := match l with [] => True | q :: l' => fst q < u /\ falling (fst q) l' end.
(** the line through two points *)
Definition line (a b : R * R) (u : R) : R := snd a + (snd b - snd a) * ((u - fst a) / (fst b - fst a)).
(** piecewise linear curve from point a *)
Fixpoint curve (a : R * R) (l : list (R * R)) (u : R) : R :=
  match l with [] => snd a | [b] => line a b u | b :: l' => if Rlt_dec (fst b) u then line a b u else curve b l' u end.
(** a wire with points l and elastic stiffness k, as made; stiffnesses between points are those of the lines *)
Fixpoint lines (a : R * R) (r : list (R * R * R)) : Prop := match r with [] => True | q :: r' => snd q * (fst (fst q) - fst a) = snd (fst q) - snd a /\ lines (fst q) r' end.
Definition points (p : wphys) : list (R * R) := map fst (rest p).
Definition new_wire (p : wphys) : Prop :=
  first p = (0, 0) /\ plastD p = 0 /\ linked p = true /\ rest p <> [] /\ falling 0 (points p) /\ lines (0, 0) (rest p) /\ 0 < wkn p.
(** the largest elongation so far *)
Definition largest (m : R) (ds : list R) : R := fold_left Rmin ds m.
(** force of a wire for displacement D if the largest elongation was M: elastic unloading from the curve, no compression *)
Definition wire_force (f : R -> R) (k M D : R) : R := Rmin 0 (f M + k * (D - M)).
Fixpoint wire_forces (f : R -> R) (k m : R) (ds : list R) : list R :=
  match ds with [] => [] | d :: ds' => let M := Rmin m d in wire_force f k M d :: wire_forces f k M ds' end.
(** the forces of the law for geometries one after the other, until the wire is erased *)
Definition geom_of (n : vec) (d : R) : scgeom := mkG n vzero d 1 1 vzero vzero vzero.
Fixpoint forces_of (n : vec) (p : wphys) (ds : list R) : list (option vec) :=
  match ds with
  | [] => []
  | d :: ds' => match law false (geom_of n (initD p + d)) p 0 vzero 1 vzero with
                | WErase _ _ => [None]
                | WKept q _ => Some (nForce q) :: forces_of n q ds'
                end
  end.
(** strains of a table grow from above e *)
Fixpoint growing (e : R) (t : list (R * R)) : Prop := match t with [] => True | q :: t' => e < fst q /\ growing (fst q) t' end.
(** not stiffer than k anywhere *)
Definition not_stiffer (k : R) (p : wphys) : Prop := Forall (fun q => 0 <= snd q <= k) (rest p).
(** p was made, and is q now, after m was the largest elongation *)
Definition reached (p : wphys) (q : wphys) (m : R) : Prop :=
  initD q = initD p /\ linked q = true /\ wkn q = wkn p /\ rest q = rest p /\ first q = (m, curve (0, 0) (points p) m) /\ plastD q = m - curve (0, 0) (points p) m / wkn p /\ m <= 0 /\ last (map pu (rest p)) 0 < m.
(** different materials of different diameters, at most one with random shift *)
Definition other_diameter (m1 m2 : wmat) : Prop := wmid m1 <> wmid m2 /\ wdiam m1 <> wdiam m2 /\ ~ (wtype m1 = 2%nat /\ wtype m2 = 2%nat).
(** examples *)
Definition steel : wmat := mkWM 0 2 0 [(1/10, 1); (1/5, 3/2)] [] false (47/100) 0 0 true 0 1 1.
Definition simple_wire : wphys := mkWP 0 true false 2 (0, 0) [((-1, -2), 2); ((-2, -3), 1)] 0 vzero 0 0.
Definition stiffening_wire : wphys := mkWP 0 true false 1 (0, 0) [((-1, -1), 1); ((-2, -3), 2)] 0 vzero 0 0.
Definition twine : wmat := mkWM 0 2 0 [(1/10, 1); (1/5, 2)] [] true (47/100) 0 0 true 0 1 1.
Definition flat_start : wmat := mkWM 0 2 0 [(0, 1); (1/5, 2)] [] false (47/100) 0 0 true 0 1 1.
Definition zero_start : wmat := mkWM 0 2 1 [(1/10, 1); (1/5, 2)] [(0, 0); (1/5, 2)] true (47/100) 0 0 true 0 1 1.
Definition no_table : wmat := mkWM 0 2 0 [] [] false (47/100) 0 0 true 0 1 1.
Definition weak_steel : wmat := mkWM 1 2 0 [(1/10, 1/2); (1/5, 1)] [] false (47/100) 0 0 true 0 1 1.
