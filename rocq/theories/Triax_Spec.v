(** What a controller of the six walls of a box should do. *)
From Coq Require Import Reals List ZArith Bool Arith.
From Verif Require Import Vec_Model Triax_Model.
Import ListNotations.
Local Open Scope R_scope.

(** left, right: x; bottom, top: y; back, front: z *)
Definition coord (a : nat) (v : vec) : R := nth a [vx v; vy v; vz v] 0.
(** towards the inside of the box *)
Definition inward (w : nat) : vec :=
  nth w [V 1 0 0; V (-1) 0 0; V 0 1 0; V 0 (-1) 0; V 0 0 1; V 0 0 (-1)] vzero.
Definition axis (w : nat) : nat := Nat.div w 2.
(** walls that face each other along an axis *)
Definition low (a : nat) : nat := (2 * a)%nat.
Definition high (a : nat) : nat := (2 * a + 1)%nat.
Definition is_wall (w : nat) : Prop := (w < 6)%nat.
(** the walls are six different bodies, all there *)
Definition walls_ok (c : tconf) (W : world) : Prop :=
  (forall v w, is_wall v -> is_wall w -> ids c v = ids c w -> v = w) /\ (forall w, is_wall w -> W (ids c w) <> None).
Definition intervals_ok (c : tconf) : Prop := stiffnessUpdateInterval c <> 0%Z /\ radiusControlInterval c <> 0%Z /\ computeStressStrainInterval c <> 0%Z.
Definition position (c : tconf) (W : world) (w : nat) : vec := match W (ids c w) with Some b => wpos b | None => vzero end.
Definition velocity (c : tconf) (W : world) (w : nat) : vec := match W (ids c w) with Some b => wvel b | None => vzero end.
(** distance of the faces of opposite walls of a given thickness *)
Definition inner (c : tconf) (W : world) (th : R) (a : nat) : R := coord a (position c W (high a)) - coord a (position c W (low a)) - th.
Definition cross (c : tconf) (W : world) (th : R) (a : nat) : R :=
  match a with O => inner c W th 1 * inner c W th 2 | 1%nat => inner c W th 0 * inner c W th 2 | _ => inner c W th 0 * inner c W th 1 end.
(** thickness in use: that given, or of the bottom box *)
Definition used_thickness (e : tenv) (s : tstate) : R := if Rlt_dec (thickness s) 0 then 2 * bottomExtent e else thickness s.
(** normal stress on a wall whose box pushes it with force f; positive for tension *)
Definition normal_stress (A : R) (w : nat) (f : vec) : R := dot f (inward w) / A.
(** the ids of walls known to the engine: those of its first step *)
Definition known (c : tconf) (s : tstate) (w : nat) : nat := if first s then ids c w else wall_id s w.
Definition measures (c : tconf) (e : tenv) : Prop := (iter e mod computeStressStrainInterval c)%Z = 0%Z \/ (internalCompaction c = true /\ (iter e mod radiusControlInterval c)%Z = 0%Z).
Definition counts_stiffness (c : tconf) (e : tenv) : Prop := (iter e mod stiffnessUpdateInterval c)%Z = 0%Z \/ (iter e < 100)%Z.
(** the axis is controlled in stress *)
Definition in_stress (c : tconf) (a : nat) : Prop := Z.testbit (stressMask c) (Z.of_nat a) = true.
(** nothing makes the engine fail *)
Definition countable (e : tenv) : Prop := exists v, volumes (solids e) = Some v.
Definition sane (c : tconf) (e : tenv) (W : world) : Prop := walls_ok c W /\ intervals_ok c /\ countable e.
(** after the engine, walls move with their velocities; other bodies do anything *)
Definition moves (c : tconf) (h : R) (W W' : world) : Prop :=
  forall w, is_wall w -> W' (ids c w) = Some (mkW (vadd (position c W w) (smul h (velocity c W w))) (velocity c W w)).
Definition positive_box (c : tconf) (e : tenv) (s : tstate) (W : world) : Prop := forall a, (a < 3)%nat -> 0 < inner c W (used_thickness e s) a.
Inductive runs (c : tconf) (ok : tenv -> tstate -> world -> Prop) : list tenv -> tstate -> world -> tstate -> world -> Prop :=
| runs_nil s W : runs c ok [] s W s W
| runs_cons e l s W s1 W1 g W2 s' W' : ok e s W -> action c e s W = Done s1 W1 g -> moves c (dt e) W1 W2 -> runs c ok l s1 W2 s' W' -> runs c ok (e :: l) s W s' W'.
Fixpoint product (l : list R) : R := match l with [] => 1 | x :: l' => x * product l' end.
Fixpoint total (l : list R) : R := match l with [] => 0 | x :: l' => x + total l' end.
(** stiffness of the contacts of a body *)
Definition is_contact_of (i : nat) (k : contact) : Prop := cfn k <> 0 /\ (cid1 k = i \/ cid2 k = i).
Definition ball_volume (r : R) : R := 4 / 3 * PI * (r * r * r).
(** volume of particles: free spheres that are no members of clumps, clumps by mass and density *)
Definition particle_volume (b : solid) : R :=
  match b with Ball r dynamic member => if dynamic && negb member then ball_volume r else 0 | ClumpOf m (Some d) _ => m / d | _ => 0 end.
Definition massive (b : solid) : Prop := match b with Ball r _ _ => 0 < r | ClumpOf m (Some d) _ => 0 < m /\ 0 < d | _ => True end.
Definition is_free (b : solid) : bool := match b with Ball _ d _ => d | ClumpOf _ _ d => d | Other d _ => d end.
Definition along (w : nat) (v : vec) : Prop := exists k, v = smul k (inward w).
(** configurations and states used in examples *)
Definition conf0 (mask : Z) (g : vec) (d1 d2 : R) (ic : bool) : tconf := mkT 10 10 10 d1 d2 (fun w => w) (fun _ => true) g mask 1 ic (100001/100000).
Definition cube : world := fun i => if Nat.ltb i 6 then Some (mkW (if Nat.even i then vzero else V 1 1 1) vzero) else None.
Definition fresh : tstate := mkS true (fun _ => 0%nat) (fun _ => vzero) (fun _ => 0) vzero (fun _ => vzero) 0 1 0 vzero vzero (1001/1000) (Some 1) 0 0 0 0 false.
Definition quiet (it : Z) : tenv := mkE it 1 (fun _ => vzero) [] [] 0.
(** a controller that has been at work: knows its walls, the stiffness of contacts and its last translations *)
Definition used (k : R) (p : nat -> vec) : tstate := mkS false (fun w => w) p (fun _ => k) vzero (fun _ => vzero) 0 1 0 (V 1 1 1) (V 1 1 1) (1001/1000) (Some 1) 0 0 0 0 false.
(** walls moving with given velocities *)
Definition moving (v : nat -> vec) : world := fun i => if Nat.ltb i 6 then Some (mkW (if Nat.even i then vzero else V 1 1 1) (v i)) else None.
(** walls displaced inwards by [g] and moving inwards with [v] *)
Definition closing (g v : R) : world := fun i => if Nat.ltb i 6 then Some (mkW (vadd (if Nat.even i then vzero else V 1 1 1) (smul g (inward i))) (smul v (inward i))) else None.
Definition slow (it : Z) (f : nat -> vec) : tenv := mkE it (1/100) f [] [] 0.
(** axes controlled in stress and the mean of their goals *)
Definition stress_axes (c : tconf) : list nat := filter (fun a => Z.testbit (stressMask c) (Z.of_nat a)) [0%nat; 1%nat; 2%nat].
Definition wanted_mean (c : tconf) : R := total (map (fun a => coord a (goal c)) (stress_axes c)) / INR (length (stress_axes c)).
(** every clump may move, hence grows *)
Definition clumps_free (l : list solid) : Prop := forall m d, ~ In (ClumpOf m d false) l.
Definition ids7 (c : tconf) : tconf := mkT (stiffnessUpdateInterval c) (radiusControlInterval c) (computeStressStrainInterval c) (stressDamping c) (strainDamping c) (fun w => match w with O => 7%nat | _ => w end) (activated c) (goal c) (stressMask c) (max_vel c) (internalCompaction c) (finalMaxMultiplier c).
(** a seventh body takes the place of the left wall *)
Definition with7 (g v : R) : world := fun i => if Nat.eqb i 7 then closing g v 0%nat else closing g v i.
(** compression with the default damping *)
Definition fast : tconf := conf0 7 (V (-1) (-1) (-1)) (1/4) 0 false.
(** forces on walls, half of those wanted *)
Definition half : nat -> vec := fun w => smul (-1/2) (inward w).
(** growth of particles for a given mean stress: what internal compaction does *)
Definition shrunk_to (goal1 mean : R) : R * option R := multiplier (conf0 1 (V goal1 0 0) (1/4) 0 true) (1001/1000) mean.
