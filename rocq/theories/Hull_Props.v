(** Properties of the convex hull, of areas of polygons and of sections: C151-C153. *)
From Coq Require Import Reals List ZArith Bool.
From Verif Require Import Vec_Model Hull_Model Hull_Spec Hull_Proofs Hull_Proofs2 Hull_Proofs3.
Import ListNotations.
Local Open Scope R_scope.

(** * C151: the convex hull *)
Theorem C151_hull_partial : forall pts P, one_leftmost pts -> hull pts = Some P -> encloses P pts /\ incl P pts /\ (2 <= length P)%nat.
Proof. exact hull_encloses. Qed.
Print Assumptions C151_hull_partial.
(** no corner, other than the first and last in x, is on a side or inside *)
Theorem C151_corners_partial : forall pts P p t, one_leftmost pts -> hull pts = Some P -> P = p :: t ->
  forall x a b c y, P ++ [p] = x ++ a :: b :: c :: y -> (exists q, In q pts /\ fst q < fst b) -> 0 < turn a b c.
Proof. exact hull_corners. Qed.
Print Assumptions C151_corners_partial.
Theorem C151_undefined : forall pts, hull pts = None <-> (length pts < 2)%nat.
Proof. exact hull_none. Qed.
Print Assumptions C151_undefined.
Example C151_case : one_leftmost [(0, 0); (1, 1); (1, -1); (2, 0); (1, 0)] /\ exists P, hull [(0, 0); (1, 1); (1, -1); (2, 0); (1, 0)] = Some P.
Proof. split; [exact square_case|]. destruct (hull [(0, 0); (1, 1); (1, -1); (2, 0); (1, 0)]) as [P|] eqn:E; [exists P; reflexivity|]. apply hull_none in E. exfalso. revert E. cbn [length]. Lia.lia. Qed.
(** several points at the smallest x: one of the corners is lost *)
Theorem C151_lost_refuted : exists pts P q, hull pts = Some P /\ In q pts /\ ~ encloses P pts /\ simplePolygonArea2d P = Some (1/2) /\ simplePolygonArea2d [(1, 0); q; (0, 0)] = Some 1.
Proof.
  exists [(0, 0); (0, 2); (0, 1); (1, 0)], [(1, 0); (0, 1); (0, 0)], (0, 2). split; [exact lost_point|]. split; [right; left; reflexivity|]. split; [|exact lost_area].
  intros H. specialize (H (1, 0) (0, 1) (0, 2)). assert (L : left_of (1, 0) (0, 1) (0, 2)) by (apply H; [left; reflexivity|right; left; reflexivity]). revert L. unfold left_of, turn. cbn [fst snd]. Lra.lra.
Qed.
Print Assumptions C151_lost_refuted.

(** * C152: areas of polygons *)
Theorem C152_area : forall P o, P <> [] -> (forall a b, In (a, b) (sides P) -> left_of a b o) -> simplePolygonArea2d P = Some (fan o P).
Proof. exact area_fan. Qed.
Print Assumptions C152_area.
Theorem C152_hull_partial : forall pts P, one_leftmost pts -> hull pts = Some P -> forall o, In o pts -> simplePolygonArea2d P = Some (fan o P).
Proof. exact hull_area. Qed.
Print Assumptions C152_hull_partial.
(** which corner is first, direction, place and mirroring do not matter, size counts twice *)
Theorem C152_rotated : forall a b, simplePolygonArea2d (a ++ b) = simplePolygonArea2d (b ++ a).
Proof. exact area_rotated. Qed.
Print Assumptions C152_rotated.
Theorem C152_reversed : forall P, simplePolygonArea2d (rev P) = simplePolygonArea2d P.
Proof. exact area_reversed. Qed.
Print Assumptions C152_reversed.
Theorem C152_moved : forall d P, simplePolygonArea2d (map (moved d) P) = simplePolygonArea2d P.
Proof. exact area_moved. Qed.
Print Assumptions C152_moved.
Theorem C152_mirrored : forall P, simplePolygonArea2d (map mirrored P) = simplePolygonArea2d P.
Proof. exact area_mirrored. Qed.
Print Assumptions C152_mirrored.
Theorem C152_enlarged : forall k P a, simplePolygonArea2d P = Some a -> simplePolygonArea2d (map (enlarged k) P) = Some (k * k * a).
Proof. exact area_enlarged. Qed.
Print Assumptions C152_enlarged.
Example C152_case : simplePolygonArea2d [(1, 0); (0, 2); (0, 0)] = Some 1 /\ forall a b, In (a, b) (sides [(1, 0); (0, 2); (0, 0)]) -> left_of a b (0, 0).
Proof. split; [exact (proj2 lost_area)|]. intros a b. cbn [sides combine app In]. intros [E|[E|[E|[]]]]; injection E as <- <-; unfold left_of, turn; cbn [fst snd]; Lra.lra. Qed.
(** the area of nothing is not defined *)
Theorem C152_nothing_refuted : simplePolygonArea2d [] = None.
Proof. reflexivity. Qed.
Print Assumptions C152_nothing_refuted.

(** * C153: the area of a section through spheres *)
Theorem C153_section_partial : forall spheres coord axis a, approxSectionArea spheres coord axis = Area a -> (exists s, In s spheres /\ meets coord axis s) -> (forall s, In s spheres -> 0 <= snd s) ->
  let cloud := flat_map (corners axis) (filter (fun s => negb (skipped coord axis s)) spheres) in
  (forall s, In s spheres -> meets coord axis s -> incl (corners axis s) cloud) /\ (forall q, In q cloud -> exists s, In s spheres /\ meets coord axis s /\ In q (corners axis s)) /\
  (one_leftmost cloud -> exists P, encloses P cloud /\ incl P cloud /\ forall o, In o cloud -> a = fan o P).
Proof. exact section_hull. Qed.
Print Assumptions C153_section_partial.
Theorem C153_nothing : forall spheres coord axis, (0 <= axis <= 2)%Z -> (forall s, In s spheres -> 0 <= snd s) -> (forall s, In s spheres -> ~ meets coord axis s) -> approxSectionArea spheres coord axis = Area 0.
Proof. exact section_nothing. Qed.
Print Assumptions C153_nothing.
Theorem C153_defined : forall spheres coord axis, approxSectionArea spheres coord axis <> Undefined /\ (approxSectionArea spheres coord axis = InvalidAxis <-> ~ (0 <= axis <= 2)%Z).
Proof. exact section_defined. Qed.
Print Assumptions C153_defined.
Example C153_case : approxSectionArea [(V 0 0 0, 2)] 0 0 = Area (12 * sqrt 3) /\ meets 0 0 (V 0 0 0, 2) /\ one_leftmost (corners 0 (V 0 0 0, 2)).
Proof. split; [exact (proj1 too_large)|]. split; [unfold meets, along; cbn [fst snd vx]; rewrite Rminus_0_r, Rabs_R0; Lra.lra|]. apply corners_leftmost. cbn [snd]. Lra.lra. Qed.
(** one sphere of radius 2: more than the square around it *)
Theorem C153_large_refuted : exists s a, approxSectionArea [s] 0 0 = Area a /\ (2 * snd s) * (2 * snd s) < a.
Proof. exists (V 0 0 0, 2), (12 * sqrt 3). destruct too_large as [A B]. split; [exact A|]. cbn [snd]. Lra.lra. Qed.
Print Assumptions C153_large_refuted.
