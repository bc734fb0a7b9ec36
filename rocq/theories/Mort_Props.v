(** Properties C246-C249: mortar layers *)
From Coq Require Import Reals List ZArith Lra Lia.
From Verif Require Import Vec_Model Rigid_Spec Law_Model Law_Spec Mort_Model Mort_Spec Mort_Proofs.
Import ListNotations.
Local Open Scope R_scope.

(** C246. The layer does not depend on the order of the materials, if one of the radii is positive. *)
Theorem C246_order_partial iter th m1 m2 r1 r2 old : (0 < r1 \/ 0 < r2) -> (mmid m1 = mmid m2 -> (0 <= mmid m1)%Z -> m1 = m2) -> ip2 iter th m1 m2 r1 r2 old = ip2 iter th m2 m1 r2 r1 old.
Proof. exact (ip2_sym iter th m1 m2 r1 r2 old). Qed.
Print Assumptions C246_order_partial.
Example C246_order_case : 0 < 1 /\ (mmid brick = mmid brick -> (0 <= mmid brick)%Z -> brick = brick).
Proof. split; [lra|reflexivity]. Qed.
(** C246. Strengths are the smaller ones, aspect and friction angle averages, and one material that is never damaged is enough; also if both are the same. *)
Theorem C246_mixed_partial iter th m1 m2 r1 r2 p : mmid m1 <> mmid m2 \/ (mmid m1 < 0)%Z \/ m1 = m2 -> fst (ip2 iter th m1 m2 r1 r2 None) = Some p ->
  ft p = Rmin (tensile m1) (tensile m2) /\ fc p = Rmin (compressive m1) (compressive m2) /\ coh p = Rmin (cohesive m1) (cohesive m2) /\ ell p = (aspect m1 + aspect m2) / 2 /\ ptan p = tan ((mangle m1 + mangle m2) / 2) /\ (pnever p = true <-> never m1 = true \/ never m2 = true) /\ fN p = vzero /\ fS p = vzero.
Proof. exact (ip2_mixed iter th m1 m2 r1 r2 p). Qed.
Print Assumptions C246_mixed_partial.
Example C246_mixed_case : mmid brick <> 0%Z /\ (mmid brick < 0)%Z.
Proof. cbn [brick mmid]. split; [discriminate|lia]. Qed.
(** C246. For positive radii and moduli stiffnesses are positive, and are harmonic means; the area is that of the smaller radius. *)
Theorem C246_stiffness_partial iter th m1 m2 r1 r2 : 0 < myoung m1 -> 0 < myoung m2 -> 0 < mratio m1 -> 0 < mratio m2 -> 0 < r1 -> 0 < r2 ->
  exists p, fst (ip2 iter th m1 m2 r1 r2 None) = Some p /\ 0 < pkn p /\ 0 < pks p /\ 2 / pkn p = 1 / (myoung m1 * r1) + 1 / (myoung m2 * r2) /\ 2 / pks p = 1 / (myoung m1 * mratio m1 * r1) + 1 / (myoung m2 * mratio m2 * r2) /\ section p = Rmin r1 r2 * Rmin r1 r2 /\ 0 < section p.
Proof. exact (ip2_stiffness iter th m1 m2 r1 r2). Qed.
Print Assumptions C246_stiffness_partial.
Example C246_stiffness_case : 0 < myoung brick /\ 0 < mratio brick.
Proof. cbn [brick myoung mratio]. lra. Qed.
(** C246 is refuted if one of the bodies has no radius, which is foreseen for the area but not for stiffness: it is negative here. *)
Theorem C246_wall_refuted : exists p, fst (ip2 0 2 brick brick (-1) 2 None) = Some p /\ pkn p < 0 /\ section p = 4.
Proof. exact (wall_refuted). Qed.
Print Assumptions C246_wall_refuted.

(** C247. The iteration has no effect on the layer, only on the error that is logged, *)
Theorem C247_iteration_partial iter iter' th m1 m2 r1 r2 old : fst (ip2 iter th m1 m2 r1 r2 old) = fst (ip2 iter' th m1 m2 r1 r2 old) /\ (old = None -> (snd (ip2 iter th m1 m2 r1 r2 old) = true <-> (th <= iter)%Z)) /\ (forall p, old = Some p -> ip2 iter th m1 m2 r1 r2 old = (Some p, false)).
Proof. exact (threshold_ignored iter iter' th m1 m2 r1 r2 old). Qed.
Print Assumptions C247_iteration_partial.
Example C247_iteration_case : (2 <= 100)%Z.
Proof. lia. Qed.
(** so that C247 is refuted: contacts made after cohesiveThresholdIter are cohesive. *)
Theorem C247_threshold_refuted : exists p, ip2 100 2 brick brick 1 1 None = (Some p, true) /\ ft p = 1 /\ coh p = 1.
Proof. exact (threshold_refuted). Qed.
Print Assumptions C247_threshold_refuted.

(** C248. Forces are elastic, stresses are forces divided by the area, and the layer is kept exactly if it is never damaged or stresses are within the documented envelope; its parameters do not change. *)
Theorem C248_law per g p i1 x1 i2 x2 : section p <> 0 ->
  exists q, same_layer p q /\ fN q = smul (pkn p * penetrationDepth g) (normal g) /\ fS q = vsub (rotate g (fS p)) (smul (pks p) (shearInc g)) /\
    sigmaN q = - dot (fN q) (normal g) / section p /\ sigmaT q = smul (- / section p) (fS q) /\
    (pnever p = true \/ within p (sigmaN q) (norm (sigmaT q)) -> exists a, law per g p i1 x1 i2 x2 = MKept q a) /\ (pnever p = false /\ ~ within p (sigmaN q) (norm (sigmaT q)) -> law per g p i1 x1 i2 x2 = MBroken q).
Proof. exact (law_spec per g p i1 x1 i2 x2). Qed.
Print Assumptions C248_law.
Example C248_law_case : section layer <> 0.
Proof. cbn [layer section]. lra. Qed.
(** C248. If a layer survives any number of steps, stresses have been within its envelope in all of them. *)
Theorem C248_history per gs : forall p q, survives per p gs q -> same_layer p q /\ length (stresses per p gs) = length gs /\ (pnever p = false -> Forall (fun e => within p (fst e) (snd e)) (stresses per p gs)).
Proof. exact (history per gs). Qed.
Print Assumptions C248_history.
Example C248_history_case : exists q, survives false layer [gap (-1/2)] q /\ pnever layer = false.
Proof. destruct layer_kept as (q & a & E & _). exists q. split; [exists q, a; split; [exact E|reflexivity]|reflexivity]. Qed.
(** C248. The envelope is convex: *)
Theorem C248_convex f_t c phi f_c A s t s' t' k : elastic f_t c phi f_c A s t -> elastic f_t c phi f_c A s' t' -> 0 <= k <= 1 -> elastic f_t c phi f_c A (k * s + (1 - k) * s') (k * t + (1 - k) * t').
Proof. exact (convex f_t c phi f_c A s t s' t' k). Qed.
Print Assumptions C248_convex.
Example C248_convex_case : elastic 1 1 0 2 1 0 0 /\ elastic 1 1 0 2 1 1 1.
Proof. unfold elastic. lra. Qed.
(** unloading in proportion does not break the layer, *)
Theorem C248_unload p s t k : strong p -> within p s t -> 0 <= k <= 1 -> within p (k * s) (k * t).
Proof. exact (unload p s t k). Qed.
Print Assumptions C248_unload.
Example C248_unload_case : strong layer /\ within layer 1 1.
Proof. unfold strong, within, elastic. cbn [layer ft coh ptan fc ell]. lra. Qed.
(** nor does less shear. *)
Theorem C248_shear p s t t' : within p s t -> 0 <= t' <= t -> within p s t'.
Proof. exact (less_shear p s t t'). Qed.
Print Assumptions C248_shear.
Example C248_shear_case : within layer 1 1 /\ 0 <= 1/2 <= 1.
Proof. unfold within, elastic. cbn [layer ft coh ptan fc ell]. lra. Qed.
(** C249. A layer that is kept adds no momentum and no angular momentum: opposite forces, of the elastic law, at the contact point; *)
Theorem C249_point g p i1 x1 i2 x2 q a o at_ : law false g p i1 x1 i2 x2 = MKept q a -> at_ i1 = x1 -> at_ i2 = x2 -> total_force a = vzero /\ total_moment o at_ a = vzero /\ a = applyForceAtContactPoint (vsub (vopp (fN q)) (fS q)) (contactPoint g) i1 x1 i2 x2.
Proof. exact (balance_point g p i1 x1 i2 x2 q a o at_). Qed.
Print Assumptions C249_point.
Example C249_point_case : exists q a, law false (gap (-1/2)) layer 0 vzero 1 vzero = MKept q a.
Proof. destruct layer_kept as (q & a & E & _). exists q, a. exact E. Qed.
(** C249. the same in periodic scenes, for spheres and the image which is touched. *)
Theorem C249_periodic g p i1 x1 i2 x2 y2 r1 r2 q a o : law true g p i1 x1 i2 x2 = MKept q a -> touching r1 r2 x1 y2 g -> i1 <> i2 ->
  total_force a = vzero /\ total_moment o (fun i => if Nat.eqb i i1 then x1 else y2) a = vzero /\ a = applyForceAtContactPoint (vsub (vopp (fN q)) (fS q)) (contactPoint g) i1 x1 i2 y2.
Proof. exact (balance_periodic g p i1 x1 i2 x2 y2 r1 r2 q a o). Qed.
Print Assumptions C249_periodic.
Example C249_periodic_case : touching 1 1 (V (1/2 * (-1) - 1) 0 0) (V (1 - 1/2 * (-1)) 0 0) (gap (-1)).
Proof. apply gap_touching. lra. Qed.
(** C249. A broken layer adds nothing, and has not been within its envelope; quotients are by the area only. *)
Theorem C249_silent per g p i1 x1 i2 x2 : match law per g p i1 x1 i2 x2 with MKept _ a => length a = 2%nat | MBroken q => pnever p = false /\ ~ within p (sigmaN q) (norm (sigmaT q)) | MNaN => section p = 0 end.
Proof. exact (broken_silent per g p i1 x1 i2 x2). Qed.
Print Assumptions C249_silent.
Example C249_silent_case : section layer <> 0.
Proof. cbn [layer section]. lra. Qed.
