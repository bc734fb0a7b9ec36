(** Example: spheres of radius 2 and a wall, on a line; materials FrictMat (false) and FrictViscoMat (true). *)
From Coq Require Import List ZArith Bool Arith Lia Permutation.
From Verif Require Import Loop_Model Loop_Spec.
Import ListNotations.

Inductive shp := Ball | Plane.
Inductive ip2 := FF | FV | VV.
Definition T0 : types := mkT shp bool Z Z nat Z Z Z nat ip2 unit.
Definition reach (s : shp) : Z := match s with Ball => 2 | Plane => 0 end.
(** Ig2_Sphere_Sphere: 0, Ig2_Wall_Sphere: 1 *)
Definition geomFor0 (s1 s2 : shp) : option (nat * bool) :=
  match s1, s2 with Ball, Ball => Some (0, false) | Plane, Ball => Some (1, false) | Ball, Plane => Some (1, true) | Plane, Plane => None end.
Definition goGeom0 (f : nat) (s1 s2 : shp) (x1 x2 : Z) (sh : Z) (g : option Z) (real : bool) : bool * option Z :=
  let d := (reach s1 + reach s2 - Z.abs (x2 + sh - x1))%Z in if (0 <? d)%Z || real then (true, Some d) else (false, g).
(** Ip2_FrictMat_FrictMat, Ip2_FrictMat_FrictViscoMat, Ip2_FrictViscoMat_FrictViscoMat *)
Definition physFor0 (m1 m2 : bool) : option (ip2 * bool) :=
  match m1, m2 with false, false => Some (FF, false) | false, true => Some (FV, false) | true, false => Some (FV, true) | true, true => Some (VV, false) end.
Definition takes0 (f : ip2) (m1 m2 : bool) : bool := match f with FF => true | FV => m2 | VV => m1 && m2 end.
Definition ff0 (g : Z) (p : nat) (x1 x2 : Z) : option (Z * nat * list Z) := if (g <=? 0)%Z then None else Some (g, S p, [g]).
Definition F0 (law : @forcefun T0 -> @inter T0 -> Z -> nat -> Z -> Z -> bool * option (Z * nat) * list Z) (ph : bool -> bool -> option (ip2 * bool)) (tk : ip2 -> bool -> bool -> bool) (lf : Z -> nat -> option unit) : @functors T0 :=
  @mkF T0 geomFor0 goGeom0 ph tk (fun _ _ _ _ p => match p with Some p => p | None => 0 end) lf (fun _ j g p x1 x2 => law ff0 j g p x1 x2) (fun c => (10 * c)%Z) Z.opp.
Definition always (_ : ip2) (_ _ : bool) : bool := true.
Definition found (_ : Z) (_ : nat) : option unit := Some tt.
Definition F1 := F0 (@cundall T0) physFor0 always found.

(** bodies at the given places; no body with another number *)
Definition bodies (l : list (option (shp * Z * bool))) (shapeless : nat -> bool) (k : nat) : option (@body T0) :=
  match nth_error l k with Some (Some (s, x, m)) => Some (@mkB T0 0%Z false (if shapeless k then None else Some s) m x) | _ => None end.
Definition none (_ : nat) : bool := false.
Definition sc (it : Z) (l : list (option (shp * Z * bool))) (shl : nat -> bool) (coll : Z) : @scene T0 := @mkS T0 it 0%Z (bodies l shl) [true; false; true] coll.
Definition shapes0 (k : nat) : option shp := match k with 0 | 1 => Some Ball | 2 => Some Plane | _ => None end.
(** two balls in contact, the first one touches the wall; then the balls move apart *)
Definition near := [Some (Ball, 0%Z, false); Some (Ball, 3%Z, false); Some (Plane, (-1)%Z, false)].
Definition far := [Some (Ball, 0%Z, false); Some (Ball, 5%Z, false); Some (Plane, (-1)%Z, false)].
Definition mixed := [Some (Ball, 0%Z, true); Some (Ball, 3%Z, false)].

Definition i01 : @inter T0 := @new T0 0 1 0%Z.
Definition i02 : @inter T0 := @new T0 0 2 0%Z.
Lemma symmetric_ex law ph tk lf : symmetric (F0 law ph tk lf).
Proof.
  split.
  - intros [] []; cbn; intros gf H; try discriminate H; injection H as <-; reflexivity.
  - intros [] []; cbn; intros H; try discriminate H; reflexivity.
Qed.
Lemma shapes_ex it l coll : l = near \/ l = far -> @has_shapes T0 shapes0 (sc it l none coll).
Proof. intros H k b. destruct k as [|[|[|k]]]; destruct H as [-> | ->]; cbn; intros E; try (injection E as <-; reflexivity); unfold bodies in E; cbn in E; destruct k; discriminate. Qed.
Lemma total_ex law : total (F0 law physFor0 always found).
Proof.
  split; [|split; [|split]].
  - intros gf s1 s2 t1 t2 v g r. cbn. unfold goGeom0. cbv zeta. destruct ((0 <? _)%Z || r); discriminate.
  - intros [] []; discriminate.
  - reflexivity.
  - discriminate.
Qed.
Lemma respects_ex : respects (F0 (@luding T0) physFor0 always found).
Proof. intros l j g p t1 t2 H. cbn. unfold luding. cbn. unfold ff0. destruct (g <=? 0)%Z; [reflexivity|]. rewrite H. reflexivity. Qed.

(** observations of a run *)
Definition forces_of (o : outcome (@inter T0 * @effect T0)) : option (list Z) := match o with Ok (_, e) => Some (forces e) | _ => None end.
Definition next (F : @functors T0) (os : list (@op T0)) (i : @inter T0) (s : @scene T0) : option (list Z * bool * bool) :=
  match do_ops F os i with Some i1 => match process F s i1 with Ok (i2, e) => Some (forces e, isReal i1, isActive i1) | _ => None end | None => None end.
