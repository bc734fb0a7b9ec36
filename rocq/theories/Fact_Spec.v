(** Words used about engines that make and delete particles. *)
From Coq Require Import Reals List ZArith Bool Arith.
From Verif Require Import Vec_Model Fact_Model.
Import ListNotations.
Local Open Scope R_scope.

(** what the generator of random numbers gives *)
Definition randoms (rnd : nat -> R) : Prop := forall n, 0 <= rnd n < 1.
(** the state in which a step leaves the engine, whether or not it ended well *)
Definition outcome (r : fresult) (s : fstate) : Prop := r = Done s \/ r = Failed s \/ r = More s \/ r = Throws s.
(** any number of steps, with any random numbers, obstacles and time steps *)
Inductive history (c : fconf) (s : fstate) : fstate -> Prop :=
| H0 : history c s s
| H1 rnd probe junk dt fuel s1 s2 : history c s s1 -> randoms rnd -> outcome (action c rnd probe junk dt fuel s1) s2 -> history c s s2.

Fixpoint masses (l : list ball) : R := match l with [] => 0 | b :: l' => bmass b + masses l' end.
Fixpoint volumes (l : list ball) : R := match l with [] => 0 | b :: l' => 4 / 3 * PI * bradius b ^ 3 + volumes l' end.
(** a factory that has not worked yet *)
Definition fresh (flow mmass : R) (cum : list R) : fstate := mkS 0 0 0 0 flow mmass cum false [] [] [] 0 [].

(** grading: bins, the part of the material in a bin, the part asked for *)
Definition item (l : list R) (k : nat) : R := nth k l 0.
Definition in_bin (c : fconf) (k : nat) (r : R) : bool :=
  if exactDiam c then (if Req_EM_T (2 * r) (item (PSDsizes c) k) then true else false)
  else (if Rle_dec (item (PSDsizes c) k) (2 * r) then true else false) && (if Rlt_dec (2 * r) (item (PSDsizes c) (S k)) then true else false).
Definition weight (c : fconf) (b : ball) : R := if PSDcalculateMass c then bmass b else 1.
Fixpoint whole (c : fconf) (l : list ball) : R := match l with [] => 0 | b :: l' => weight c b + whole c l' end.
Fixpoint part (c : fconf) (k : nat) (l : list ball) : R := match l with [] => 0 | b :: l' => (if in_bin c k (bradius b) then weight c b else 0) + part c k l' end.
Definition asked (cum : list R) (k : nat) : R := item cum k - match k with O => 0 | S j => item cum j end.
Definition increasing (l : list R) : Prop := 0 < item l 0 /\ forall i, (S i < length l)%nat -> item l i < item l (S i).
(** weight of a sphere of the largest diameter *)
Definition heaviest (c : fconf) (rho : R) : R := if PSDcalculateMass c then 4 / 3 * PI * (last (PSDsizes c) 0 / 2) ^ 3 * rho else 1.
(** a proper grading: bins and curve have matching lengths, the curve ends at 1 *)
Definition graded (c : fconf) (cum : list R) : Prop :=
  (0 < length cum)%nat /\ length (PSDsizes c) = (if exactDiam c then length cum else S (length cum)) /\ increasing (PSDsizes c) /\ increasing cum /\ last cum 0 = 1.

Definition no_overlap (b b' : ball) : Prop := bradius b + bradius b' <= norm (vsub (bcenter b) (bcenter b')).
Fixpoint pairwise (P : ball -> ball -> Prop) (l : list ball) : Prop := match l with [] => True | b :: l' => (forall b', In b' l' -> P b b') /\ pairwise P l' end.

(** an entry of the collider that stands for a sphere at [p] with radius [r] *)
Definition stands_for (e : entry) (p : vec) (r : R) : Prop :=
  isMin e = true /\ hasBB e = true /\ exists_ e = true /\ coord e = vx (bmin e)
  /\ vadd (bmin e) (disp e) = vsub p (V (r + sweep e) (r + sweep e) (r + sweep e)) /\ vadd (bmax e) (disp e) = vadd p (V (r + sweep e) (r + sweep e) (r + sweep e)).
(** boxes that have a common point *)
Definition boxes_meet (lo hi lo' hi' : vec) : Prop :=
  vx lo <= vx hi' /\ vx lo' <= vx hi /\ vy lo <= vy hi' /\ vy lo' <= vy hi /\ vz lo <= vz hi' /\ vz lo' <= vz hi.
Definition cube (p : vec) (r : R) : vec * vec := (vsub p (V r r r), vadd p (V r r r)).
Fixpoint ordered (l : list entry) : Prop := match l with [] => True | e :: l' => (forall e', In e' l' -> coord e <= coord e') /\ ordered l' end.

(** the box of a limiter, and what it is to leave it *)
Definition within (l : limiter) (p : point) : Prop :=
  (exists x, px p = Some x /\ vx (lo l) <= x <= vx (hi l)) /\ (exists y, py p = Some y /\ vy (lo l) <= y <= vy (hi l)) /\ (exists z, pz p = Some z /\ vz (lo l) <= z <= vz (hi l)).
Definition number (p : point) : Prop := px p <> None /\ py p <> None /\ pz p <> None.
Definition selected (l : limiter) (b : body) : Prop :=
  ((lmask l <= 0)%Z \/ Z.land (groupMask b) (lmask l) <> 0%Z) /\ clumpOf b = None /\ bkind b <> OtherShape.
(** clumps and their members know each other, and ids are below [n] *)
Definition consistent (n : nat) (B : bodies) : Prop :=
  (forall i, (n <= i)%nat -> B i = None)
  /\ (forall i b j, B i = Some b -> clumpOf b = Some j -> exists c ms, B j = Some c /\ bkind c = Clump ms /\ In i ms /\ clumpOf c = None)
  /\ (forall j c ms i, B j = Some c -> bkind c = Clump ms -> In i ms -> exists b, B i = Some b /\ clumpOf b = Some j).
(** some coordinate is a number beyond the box *)
Definition left_box (l : limiter) (p : point) : Prop :=
  (exists x, px p = Some x /\ (x < vx (lo l) \/ vx (hi l) < x)) \/ (exists y, py p = Some y /\ (y < vy (lo l) \/ vy (hi l) < y)) \/ (exists z, pz p = Some z /\ (z < vz (lo l) \/ vz (hi l) < z)).
Definition mass_of (B : bodies) (i : nat) : R := match B i with Some b => mass b | None => 0 end.
Definition volume_of (B : bodies) (i : nat) : R := match B i with Some b => match bkind b with Sphere r => 4 / 3 * PI * r ^ 3 | _ => 0 end | None => 0 end.
Fixpoint sum_of (f : nat -> R) (o : list nat) : R := match o with [] => 0 | i :: o' => f i + sum_of f o' end.

(** the material asked for, negative numbers counting from the end *)
Definition given_density (c : fconf) : option R :=
  if (0 <=? materialId c)%Z then nth_error (densities c) (Z.to_nat (materialId c)) else nth_error (rev (densities c)) (Z.to_nat (-1 - materialId c)).
(** the direction asked for *)
Definition aim (c : fconf) : vec := match normalVel c with Some v => if Rlt_dec 0 (norm v) then v else normal c | None => normal c end.
(** mass and velocity of a new sphere *)
Definition thrown (c : fconf) (b : ball) : Prop :=
  (exists rho, given_density c = Some rho /\ bmass b = rho * (4 / 3 * PI * bradius b ^ 3))
  /\ (exists v, bvel b = smul (v / norm (aim c)) (aim c) /\ (vMin c <= vMax c -> vMin c <= v <= vMax c)).

(** cases: spheres in a row, of mass 1 if their diameter is 1; random numbers all 0; nothing in the way *)
Definition row (rnd : nat -> R) (sd : nat) (r : R) : vec * nat := (V (INR sd) 0 0, S sd).
Definition rowconf (sizes : list R) (maxp : Z) : fconf := mkF (1/2) (1/2) 0 0 0 (V 0 0 1) None [6 / PI] (-1) maxp 1 false true true sizes false row.
Definition nothing (x : vec) (r : R) : bool := false.
Definition no_rnd (n : nat) : R := 0.
Definition percent : list R := [10; 50; 100].
Definition anywhere : fconf := mkF (1/2) (1/2) 0 0 0 (V 0 0 1) None [6 / PI] (-1) 2 (-1) false true true [] false row.
Definition quiet : fconf := mkF (1/2) (1/2) 0 0 0 (V 0 0 1) None [6 / PI] (-1) (-1) 1 true false true [] false row.
Definition dust : fconf := mkF 0 0 0 0 0 (V 0 0 1) None [1] (-1) (-1) 1 false true true [] false row.
Definition mover : entry := mkEn 7 4 true true (V 4 (-1) (-1)) (V 6 1 1) 0 (V (-5) 0 0) true.
(** a factory that has made N particles by the curve [2/3; 1] *)
Definition used (N : nat) (flow : R) (m : list ball) : fstate := mkS 0 0 0 (Z.of_nat N) flow (-1) [2 / 3; 1] true [2 / 3; 1 / 3] [2 / 3 * INR N; 1 / 3 * INR N] [2 / 3; 1 / 3] 0 m.
(** bodies: a sphere inside, a sphere outside, a clump outside with two members *)
Definition four : bodies := fun i => match i with
  | O => Some (mkB (P3 (Some 0) (Some 0) (Some 0)) (Sphere 1) None 1 1)
  | 1%nat => Some (mkB (P3 (Some 5) (Some 0) (Some 0)) (Sphere 1) None 1 1)
  | 2%nat => Some (mkB (P3 (Some 0) (Some 0) (Some 5)) (Clump [3%nat]) None 2 1)
  | 3%nat => Some (mkB (P3 (Some 0) (Some 0) (Some 5)) (Sphere 1) (Some 2%nat) 2 1)
  | _ => None end.
