(** Properties C256-C262: wires *)
From Coq Require Import Reals List ZArith Bool Lra Lia.
From Verif Require Import Vec_Model Rigid_Spec Law_Model Law_Spec Wire_Model Wire_Spec Wire_Proofs Wire_Proofs2.
Import ListNotations.
Local Open Scope R_scope.

(** C256. For every history of displacements within the last point of the curve, the force of a new wire is that of the curve at the largest elongation so far, less elastic unloading from there, and is never compressive. *)
Theorem C256_history n p ds : new_wire p -> Forall (fun d => last_u p < d) ds -> forces_of n p ds = map (fun F => Some (smul F n)) (wire_forces (curve (0, 0) (points p)) (wkn p) 0 ds).
Proof. exact (history n p ds). Qed.
Print Assumptions C256_history.
Example C256_history_case : new_wire simple_wire /\ Forall (fun d => last_u simple_wire < d) [-1; -3/2; -1/2].
Proof. split; [exact simple_new|]. rewrite simple_last. repeat (apply Forall_cons; [lra|]). apply Forall_nil. Qed.
(** C256. So it does not depend on the steps in which the largest elongation was reached. *)
Theorem C256_largest f k ds : forall m d, last (wire_forces f k m (ds ++ [d])) 0 = wire_force f k (largest m (ds ++ [d])) d.
Proof. exact (forces_largest f k ds). Qed.
Print Assumptions C256_largest.
Example C256_largest_case : largest 0 [-1; -2; -1] = -2.
Proof. unfold largest. cbn [fold_left]. rewrite (Rmin_right 0 (-1)), (Rmin_right (-1) (-2)), (Rmin_left (-2) (-1)) by lra. reflexivity. Qed.
(** C257. Beyond the last point the wire breaks, which is counted once, and it is never used again; *)
Theorem C257_breaks_partial per g p i1 x1 i2 x2 : linked p = true -> penetrationDepth g - initD p < last_u p ->
  exists q, law per g p i1 x1 i2 x2 = WErase q true /\ linked q = false /\ rest q = rest p /\ (forall per' g' j1 y1 j2 y2, law per' g' q j1 y1 j2 y2 = WErase q false).
Proof. exact (breaks per g p i1 x1 i2 x2). Qed.
Print Assumptions C257_breaks_partial.
Example C257_breaks_case : linked simple_wire = true /\ penetrationDepth (geom_of vzero (-3)) - initD simple_wire < last_u simple_wire.
Proof. split; [reflexivity|]. rewrite simple_last. cbn [geom_of penetrationDepth simple_wire initD]. lra. Qed.
(** before, it is kept, with the same curve. *)
Theorem C257_kept_partial per g p i1 x1 i2 x2 : linked p = true -> last_u p <= penetrationDepth g - initD p -> exists q a, law per g p i1 x1 i2 x2 = WKept q a /\ linked q = true /\ rest q = rest p /\ wkn q = wkn p /\ initD q = initD p.
Proof. exact (kept per g p i1 x1 i2 x2). Qed.
Print Assumptions C257_kept_partial.
Example C257_kept_case : linked simple_wire = true /\ last_u simple_wire <= penetrationDepth (geom_of vzero (-1)) - initD simple_wire.
Proof. split; [reflexivity|]. rewrite simple_last. cbn [geom_of penetrationDepth simple_wire initD]. lra. Qed.
(** C257. Just at the last point a new wire has no force at all, whatever that of the curve, *)
Theorem C257_last_partial n p : new_wire p -> forces_of n p [last_u p] = [Some (smul 0 n)] /\ exists q, In q (points p) /\ fst q = last_u p /\ curve (0, 0) (points p) (last_u p) = snd q.
Proof. exact (last_point n p). Qed.
Print Assumptions C257_last_partial.
Example C257_last_case : new_wire simple_wire.
Proof. exact simple_new. Qed.
(** so that C257 is refuted there. *)
Theorem C257_last_refuted n : forces_of n simple_wire [-2] = [Some (smul 0 n)] /\ curve (0, 0) (points simple_wire) (-2) = -3.
Proof. exact (last_point_refuted n). Qed.
Print Assumptions C257_last_refuted.

(** C258. A wire is never compressed. *)
Theorem C258_tension_partial f k m ds : Forall (fun F => F <= 0) (wire_forces f k m ds).
Proof. exact (tension_only f k m ds). Qed.
Print Assumptions C258_tension_partial.
Example C258_tension_case : wire_forces (fun u => u) 1 0 [1] <> [].
Proof. discriminate. Qed.
(** C258. If no part of the curve is stiffer than unloading, the force is between zero and the curve, and is zero if the wire is not longer than at first. *)
Theorem C258_within_partial p ds : new_wire p -> not_stiffer (wkn p) p -> Forall2 (fun d F => F <= 0 /\ (d <= 0 -> curve (0, 0) (points p) d <= F) /\ (0 <= d -> F = 0)) ds (wire_forces (curve (0, 0) (points p)) (wkn p) 0 ds).
Proof. exact (within_curve p ds). Qed.
Print Assumptions C258_within_partial.
Example C258_within_case : new_wire simple_wire /\ not_stiffer (wkn simple_wire) simple_wire.
Proof. split; [exact simple_new|]. unfold not_stiffer. cbn [simple_wire rest wkn]. repeat (apply Forall_cons; [cbn [snd]; lra|]). apply Forall_nil. Qed.
(** C258. The limit factor is then between 0 and 1, and is the share of the admissible displacement if there is a force. *)
Theorem C258_factor_partial per n p q m D i1 x1 i2 x2 q' a : new_wire p -> not_stiffer (wkn p) p -> reached p q m -> last_u q < D -> law per (geom_of n (initD q + D)) q i1 x1 i2 x2 = WKept q' a -> 0 <= limitFactor q' < 1 /\ (nForce q' <> vzero -> limitFactor q' = D / last_u q).
Proof. exact (limit_factor per n p q m D i1 x1 i2 x2 q' a). Qed.
Print Assumptions C258_factor_partial.
Example C258_factor_case : new_wire simple_wire /\ reached simple_wire simple_wire 0.
Proof. split; [exact simple_new|]. apply new_reached. exact simple_new. Qed.
(** C258 is refuted for a curve that gets stiffer: the wire pulls although it is shorter than at first. *)
Theorem C258_stiffening_refuted n : forces_of n stiffening_wire [-3/2; 1/4] = [Some (smul (-2) n); Some (smul (-1/4) n)].
Proof. exact (stiffening_refuted n). Qed.
Print Assumptions C258_stiffening_refuted.

(** C259. For a table of growing strains the wire is new, and its curve goes through all points: strain times length, and stress times area; with random shift it starts later, and stiffness of unloading is that of the first point of the table. Double twists of type 0 are left out. *)
Theorem C259_table_partial iter th m1 m2 i1 i2 r1 r2 depth u A e0 s0 t tw : choose m1 m2 i1 i2 = (A, (e0, s0) :: t, tw) -> tw = false \/ wtype m1 <> 0%nat -> let l0 := r1 + r2 - depth in let dl := shift m1 m2 l0 u in
  0 <= dl -> 0 < l0 + dl -> growing 0 ((e0, s0) :: t) -> (wtype m1 = 2%nat -> 0 < lamF m1 <= 1) -> (wtype m2 = 2%nat -> 0 < lamF m2 <= 1) ->
  exists p, ip2 iter th m1 m2 i1 i2 r1 r2 depth u = WMade p /\ first p = (0, 0) /\ plastD p = 0 /\ initD p = depth /\ twisted p = tw /\ dL p = dl /\ (linked p = true <-> (iter < th)%Z) /\ nForce p = vzero /\
    wkn p = s0 * A / (e0 * (l0 + dl)) /\ rest p <> [] /\ falling 0 (points p) /\ lines (0, 0) (rest p) /\ last_u p = - (fst (last ((e0, s0) :: t) (0, 0)) * (l0 + dl)) - dl /\
    forall e s, In (e, s) ((e0, s0) :: t) -> curve (0, 0) (points p) (- (e * (l0 + dl)) - dl) = - (s * A).
Proof. exact (table iter th m1 m2 i1 i2 r1 r2 depth u A e0 s0 t tw). Qed.
Print Assumptions C259_table_partial.
Example C259_table_case : choose steel steel 0 5 = (1, [(1/10, 1); (1/5, 3/2)], false) /\ growing 0 [(1/10, 1); (1/5, 3/2)] /\ shift steel steel 1 0 = 0.
Proof. split; [reflexivity|]. split; [cbn [growing fst]; lra|reflexivity]. Qed.
(** C259. The shift is lambdau times the length, times the random number unless the seed is -1, for the first material of type 2; *)
Theorem C259_shift_partial m1 m2 l0 u m : (wtype m1 = 2%nat /\ m = m1) \/ (wtype m1 <> 2%nat /\ wtype m2 = 2%nat /\ m = m2) -> shift m1 m2 l0 u = l0 * lamu m * (if wseed m then 1 else u).
Proof. exact (shift_spec m1 m2 l0 u m). Qed.
Print Assumptions C259_shift_partial.
Example C259_shift_case : wtype (mkWM 0 2 2 [] [] false 1 0 0 true (1/5) 1 1) = 2%nat.
Proof. reflexivity. Qed.
(** without such a material there is none. *)
Theorem C259_straight_partial m1 m2 l0 u : wtype m1 <> 2%nat -> wtype m2 <> 2%nat -> shift m1 m2 l0 u = 0.
Proof. exact (shift_none m1 m2 l0 u). Qed.
Print Assumptions C259_straight_partial.
Example C259_straight_case : wtype steel <> 2%nat.
Proof. discriminate. Qed.
(** C259. With random shift the curve starts with a point on the elastic line through the end of the shift, at the share lambdaF of its force. *)
Theorem C259_added_partial iter th m1 m2 i1 i2 r1 r2 depth u A e0 s0 t tw m p : choose m1 m2 i1 i2 = (A, (e0, s0) :: t, tw) -> tw = false \/ wtype m1 <> 0%nat -> (wtype m1 = 2%nat /\ m = m1) \/ (wtype m1 <> 2%nat /\ wtype m2 = 2%nat /\ m = m2) -> lamF m < 1 ->
  ip2 iter th m1 m2 i1 i2 r1 r2 depth u = WMade p -> let l0 := r1 + r2 - depth in let dl := shift m1 m2 l0 u in
  nth_error (points p) 0 = Some (- dl - lamF m * (e0 * (l0 + dl)), - (lamF m * (s0 * A))).
Proof. exact (shifted_point iter th m1 m2 i1 i2 r1 r2 depth u A e0 s0 t tw m p). Qed.
Print Assumptions C259_added_partial.
Example C259_added_case : exists m p, wtype m = 2%nat /\ lamF m < 1 /\ ip2 0 1 m m 0 5 (1/2) (1/2) 0 0 = WMade p.
Proof. set (m := mkWM 0 2 2 [(1/10, 1); (1/5, 2)] [] false 1 0 0 true (1/5) (1/2) 1). exists m. assert (SH : shift m m (1/2 + 1/2 - 0) 0 = 1/5) by (rewrite (shift_spec m m _ _ m) by (left; split; reflexivity); cbn [m lamu wseed]; lra). destruct (table 0 1 m m 0 5 (1/2) (1/2) 0 0 1 (1/10) 1 [(1/5, 2)] false) as (p & E & _); [reflexivity|left; reflexivity|rewrite SH; lra|rewrite SH; lra|cbn [growing fst]; lra|intros _; cbn [m lamF]; lra|intros _; cbn [m lamF]; lra|]. exists p. split; [reflexivity|]. split; [cbn [m lamF]; lra|exact E]. Qed.
(** C259. Area and table are those of the material, for a double twist of types 1 and 2 twice the area and the other table; *)
Theorem C259_same_partial m1 m2 i1 i2 : wmid m1 = wmid m2 -> choose m1 m2 i1 i2 = (if wtwist m1 && (Z.abs (i1 - i2) =? 1)%Z && ((wtype m1 =? 1)%nat || (wtype m1 =? 2)%nat) then was m1 * 2 else was m1, if wtwist m1 && (Z.abs (i1 - i2) =? 1)%Z && ((wtype m1 =? 1)%nat || (wtype m1 =? 2)%nat) then wcurveDT m1 else wcurve m1, wtwist m1 && (Z.abs (i1 - i2) =? 1)%Z).
Proof. exact (chosen_same m1 m2 i1 i2). Qed.
Print Assumptions C259_same_partial.
Example C259_same_case : wmid steel = wmid twine.
Proof. reflexivity. Qed.
(** for different materials those of the thinner wire. *)
Theorem C259_other_partial m1 m2 i1 i2 : wmid m1 <> wmid m2 -> choose m1 m2 i1 i2 = (if Rle_dec (wdiam m1) (wdiam m2) then (was m1, wcurve m1, false) else (was m2, wcurve m2, false)).
Proof. exact (chosen_other m1 m2 i1 i2). Qed.
Print Assumptions C259_other_partial.
Example C259_other_case : wmid steel <> wmid weak_steel.
Proof. discriminate. Qed.
(** C259 is refuted for double twists of type 0: strains but the first are multiplied by lambdaEps, so that here the wire breaks before its first point. *)
Theorem C259_twist_refuted : growing 0 (wcurve twine) /\ accepted twine = true /\ exists p, ip2 0 1 twine twine 1 2 (1/2) (1/2) 0 0 = WMade p /\ ~ falling 0 (points p) /\ last_u p = -94/1000 /\ exists F, nth_error (points p) 0 = Some (-1/10, F).
Proof. exact (twist_refuted). Qed.
Print Assumptions C259_twist_refuted.

(** C260. Wires do not depend on the order of bodies if both have the same material, or materials of different diameters. *)
Theorem C260_order_partial iter th m1 m2 i1 i2 r1 r2 depth u : m1 = m2 \/ other_diameter m1 m2 -> ip2 iter th m1 m2 i1 i2 r1 r2 depth u = ip2 iter th m2 m1 i2 i1 r2 r1 depth u.
Proof. exact (order iter th m1 m2 i1 i2 r1 r2 depth u). Qed.
Print Assumptions C260_order_partial.
Example C260_order_case : other_diameter steel (setDiameter weak_steel 3).
Proof. unfold other_diameter. cbn [steel weak_steel setDiameter wmid wdiam wtype]. split; [discriminate|]. split; [lra|]. intros (H & _). discriminate. Qed.
(** C260 is refuted for materials of the same diameter: the first is taken, not the weaker one. *)
Theorem C260_order_refuted : exists p q, ip2 0 1 steel weak_steel 0 5 (1/2) (1/2) 0 0 = WMade p /\ ip2 0 1 weak_steel steel 0 5 (1/2) (1/2) 0 0 = WMade q /\ wkn p = 10 /\ wkn q = 5.
Proof. exact (order_refuted). Qed.
Print Assumptions C260_order_refuted.

(** C260 is refuted for different materials with the same label, as those which are not in the list of materials, all labelled -1: the first is taken. *)
Theorem C260_label_refuted m1 m2 i1 i2 : wmid m1 = wmid m2 -> wtwist m1 = false -> choose m1 m2 i1 i2 = (was m1, wcurve m1, false).
Proof. exact (label_refuted m1 m2 i1 i2). Qed.
Print Assumptions C260_label_refuted.
Example C260_label_case : wmid steel = wmid flat_start /\ wtwist steel = false /\ wcurve steel <> wcurve flat_start.
Proof. split; [reflexivity|]. split; [reflexivity|]. cbn [steel flat_start wcurve]. intros E. injection E. intros. lra. Qed.
(** C261. Tables that are accepted are empty or have two points at least, and do not start at the origin; *)
Theorem C261_accepted_partial m : accepted m = true -> wcurve m = [] \/ exists e s e' s' t, wcurve m = (e, s) :: (e', s') :: t /\ ~ (e = 0 /\ s = 0) /\ (wtype m = 0%nat /\ wcurveDT m = [] \/ (wtype m = 1%nat \/ wtype m = 2%nat) /\ (wtwist m = true -> exists e1 s1 e2 s2 t', wcurveDT m = (e1, s1) :: (e2, s2) :: t' /\ (e1 = 0 -> s1 = 0))).
Proof. exact (accepted_spec m). Qed.
Print Assumptions C261_accepted_partial.
Example C261_accepted_case : accepted no_table = true.
Proof. reflexivity. Qed.
(** C261. The area is that of the diameter whenever a table is set. *)
Theorem C261_area_partial m : was (fst (postLoad m)) = PI * (wdiam m * wdiam m) / 4 /\ forall c, was (fst (setCurve m c)) = PI * (wdiam m * wdiam m) / 4.
Proof. exact (area_after m). Qed.
Print Assumptions C261_area_partial.
Example C261_area_case : wdiam steel = 2.
Proof. reflexivity. Qed.
(** C261 is refuted: a table may start with zero strain and some stress; stiffness is infinite. *)
Theorem C261_strain_refuted : accepted flat_start = true /\ ip2 0 1 flat_start flat_start 0 5 (1/2) (1/2) 0 0 = WQuotient.
Proof. exact (quotient_refuted). Qed.
Print Assumptions C261_strain_refuted.

(** C261 is refuted: the table of double twists may start at the origin; stiffness is not a number. *)
Theorem C261_twist_refuted : accepted zero_start = true /\ ip2 0 1 zero_start zero_start 1 2 (1/2) (1/2) 0 0 = WQuotient.
Proof. exact (twist_zero_refuted). Qed.
Print Assumptions C261_twist_refuted.

(** C261 is refuted: without a table the first element of an empty list is read. *)
Theorem C261_empty_refuted : accepted no_table = true /\ ip2 0 1 no_table no_table 0 5 (1/2) (1/2) 0 0 = WUndefined.
Proof. exact (empty_refuted). Qed.
Print Assumptions C261_empty_refuted.

(** C261 is refuted: if the diameter is changed, the area is not. *)
Theorem C261_stale_refuted : let m := setDiameter (fst (postLoad steel)) 4 in wdiam m = 4 /\ was m = PI /\ was m <> area (wdiam m).
Proof. exact (stale_refuted). Qed.
Print Assumptions C261_stale_refuted.

(** C262. Forces add no momentum and no angular momentum, *)
Theorem C262_point g p i1 x1 i2 x2 q a o at_ : law false g p i1 x1 i2 x2 = WKept q a -> at_ i1 = x1 -> at_ i2 = x2 -> total_force a = vzero /\ total_moment o at_ a = vzero.
Proof. exact (balance_point g p i1 x1 i2 x2 q a o at_). Qed.
Print Assumptions C262_point.
Example C262_point_case : exists q a, law false (geom_of vzero (-1)) simple_wire 0 vzero 1 vzero = WKept q a.
Proof. destruct (kept false (geom_of vzero (-1)) simple_wire 0 vzero 1 vzero) as (q & a & E & _); [reflexivity|rewrite simple_last; cbn [geom_of penetrationDepth simple_wire initD]; lra|]. eauto. Qed.
(** C262. also in periodic scenes, for the image of the other end on the line of the wire; *)
Theorem C262_periodic g p i1 x1 i2 x2 q a o y d : law true g p i1 x1 i2 x2 = WKept q a -> i1 <> i2 -> y = vadd x1 (smul d (normal g)) -> total_force a = vzero /\ total_moment o (fun i => if Nat.eqb i i1 then x1 else y) a = vzero.
Proof. exact (balance_periodic g p i1 x1 i2 x2 q a o y d). Qed.
Print Assumptions C262_periodic.
Example C262_periodic_case : exists q a, law true (geom_of vzero (-1)) simple_wire 0 vzero 1 vzero = WKept q a.
Proof. destruct (kept true (geom_of vzero (-1)) simple_wire 0 vzero 1 vzero) as (q & a & E & _); [reflexivity|rewrite simple_last; cbn [geom_of penetrationDepth simple_wire initD]; lra|]. eauto. Qed.
(** C262. both ends are pulled towards each other. *)
Theorem C262_direction per g p i1 x1 i2 x2 q a : law per g p i1 x1 i2 x2 = WKept q a -> i1 <> i2 -> exists F, F <= 0 /\ nForce q = smul F (normal g) /\ force_on a i2 = smul F (normal g) /\ force_on a i1 = smul (- F) (normal g).
Proof. exact (direction per g p i1 x1 i2 x2 q a). Qed.
Print Assumptions C262_direction.
Example C262_direction_case : (0 <> 1)%nat.
Proof. discriminate. Qed.
