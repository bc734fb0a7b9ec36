From Coq Require Import Reals List ZArith NArith Bool Lra Lia.
From Verif Require Import Vec_Model Attr_Model Strain_Model Strain_Spec Strain_Proofs Strain_Proofs2 Strain_Proofs3 Strain_Proofs4.
Import ListNotations.
Local Open Scope R_scope.

(** C160: the initialization fixes length and rates, blocks the ends, and leaves the others alone (or gives them linear velocities) *)
Theorem C160_setup_partial : forall c sc s w s' sc' w', init c sc s w = Done s' sc' w' -> exists p0 p1 r,
  axisCoord c w (posIds c) = Some p1 /\ axisCoord c w (negIds c) = Some p0 /\ originalLength s' = p1 - p0 /\ 0 < p1 - p0 /\
  strainRate s' = Some r /\ absSpeed s' = Some (r * (p1 - p0)) /\ (forall q, strainRate s = Some q -> r = q) /\ (forall a, strainRate s = None -> absSpeed s = Some a -> r * (p1 - p0) = a) /\
  sc' = sc /\ needsInit s' = false /\ currentStrainRate s' = currentStrainRate s /\ active s' = active s /\ notYetReversed s' = notYetReversed s /\
  (forall i, In i (posIds c) \/ In i (negIds c) -> exists b, w i = Some b /\ w' i = Some (mkB (bpos b) (bvel b) (blocked c))) /\
  (forall i, ~ (In i (posIds c) \/ In i (negIds c)) -> if setSpeeds c then
      forall b, w i = Some b -> exists v0 v1, ends (asymmetry c) (r * (p1 - p0)) = Some (v0, v1) /\ w' i = Some (mkB (bpos b) (set_coord (bvel b) (axis c) ((coord (bpos b) (axis c) - p0) / (p1 - p0) * (v1 - v0) + v0)) (dofs b))
    else w' i = w i).
Proof. exact init_done. Qed.
Print Assumptions C160_setup_partial.
Example C160_setup_case : exists s' sc' w', init conf0 scene0 us0 two = Done s' sc' w'.
Proof. exact two_init. Qed.
Theorem C160_prepared_partial : forall c sc s w s' sc' w', init c sc s w = Done s' sc' w' -> (axis c < 3)%nat -> posIds c <> [] -> negIds c <> [] -> (forall i, In i (posIds c) -> ~ In i (negIds c)) ->
  (asymmetry c = 1%Z -> forall i, In i (negIds c) -> moves c w i 0) -> (asymmetry c = (-1)%Z -> forall i, In i (posIds c) -> moves c w i 0) -> prepared c w'.
Proof. exact init_prepared. Qed.
Print Assumptions C160_prepared_partial.
Theorem C160_runs_partial : forall c F others s sc w sp sn, prepared c w -> shares (asymmetry c) = Some (sp, sn) -> dt sc <> 0 -> needsInit s = false -> strainRate s <> None -> stressUpdateInterval c <> 0%Z -> crossSectionArea c <> None ->
  forall n, exists s' sc' w', run c n F others s sc w = Done s' sc' w' /\ prepared c w' /\ needsInit s' = false /\ strainRate s' = strainRate s /\ dt sc' = dt sc.
Proof. exact run_ok. Qed.
Print Assumptions C160_runs_partial.
Example C160_runs_case : prepared conf0 two1 /\ shares (asymmetry conf0) = Some (1/2, 1/2) /\ dt scene0 <> 0 /\ needsInit us1 = false /\ strainRate us1 <> None /\ stressUpdateInterval conf0 <> 0%Z /\ crossSectionArea conf0 <> None.
Proof. split; [apply two1_prepared; reflexivity|]. split; [reflexivity|]. split; [cbn [dt scene0]; lra|]. split; [reflexivity|]. split; [discriminate|]. split; discriminate. Qed.
Theorem C160_blocked : forall c k, (axis c < 3)%nat -> (k < 3)%nat ->
  N.testbit (blocked c) (N.of_nat k) = (k =? axis c)%nat || blockDisplacements c /\ N.testbit (blocked c) (N.of_nat k + 3) = blockRotations c.
Proof. exact blocked_bits. Qed.
Print Assumptions C160_blocked.
Theorem C160_speeds : forall a v, ends a v = match shares a with Some (sp, sn) => Some (- (sn * v), sp * v) | None => None end.
Proof. exact ends_shares. Qed.
Print Assumptions C160_speeds.
Theorem C160_time_partial : forall c sc s w s' sc' w', init c sc s w = Done s' sc' w' -> crossSectionArea c <> None /\ (setSpeeds c = true -> initAccelTime_s s' = 0) /\
  (setSpeeds c = false -> 0 <= initAccelTime c -> initAccelTime_s s' = initAccelTime c) /\ (setSpeeds c = false -> initAccelTime c < 0 -> initAccelTime_s s' = dt sc * - initAccelTime c).
Proof. exact accel_time. Qed.
Print Assumptions C160_time_partial.
(** a failed initialization is taken for a successful one at the next step *)
Theorem C160_throws_refuted : forall c sc F s w s1 w1, action c sc F s w = Throws s1 w1 -> needsInit s1 = false /\ forall c' sc' F' w2 s3 w3, action c' sc' F' s1 w2 <> Throws s3 w3.
Proof. exact throws_once. Qed.
Print Assumptions C160_throws_refuted.
Theorem C160_swapped_refuted : exists s1 w1 s2 sc2 w2, action swapped scene0 (fun _ => vzero) us0 two = Throws s1 w1 /\ originalLength s1 = -1 /\ action swapped scene0 (fun _ => vzero) s1 w1 = Done s2 sc2 w2 /\ moves swapped w2 1%nat (-1/2) /\ moves swapped w2 0%nat (1/2).
Proof. exact two_swapped. Qed.
Print Assumptions C160_swapped_refuted.
Theorem C160_empty_refuted : forall c sc F s w, needsInit s = true -> posIds c = [] \/ negIds c = [] -> action c sc F s w = UB.
Proof. exact empty_ub. Qed.
Print Assumptions C160_empty_refuted.
Example C160_empty_case : needsInit us0 = true /\ posIds (mkC 0 0 [] [1%nat] 0 None 0 0 false false false (Some 1) 10) = [].
Proof. split; reflexivity. Qed.

(** C161: straining at the rate given *)
Theorem C161_rate_partial : forall c F others s sc w sp sn r L, prepared c w -> shares (asymmetry c) = Some (sp, sn) -> dt sc <> 0 -> active s = true -> needsInit s = false -> stopStrain c = None ->
  strainRate s = Some r -> currentStrainRate s = None -> length_is c w L ->
  forall n s' sc' w', run c n F others s sc w = Done s' sc' w' -> length_is c w' (L + INR n * (r * originalLength s * dt sc)) /\
    (forall k s1 sc1 w1, (k < n)%nat -> run c k F others s sc w = Done s1 sc1 w1 -> rate sc1 s1 = Some r) /\
    prepared c w' /\ dt sc' = dt sc /\ active s' = true /\ needsInit s' = false /\ strainRate s' = Some r /\ originalLength s' = originalLength s /\
    (currentStrainRate s' = None \/ currentStrainRate s' = Some r \/ currentStrainRate s' = Some (r * -1)).
Proof. exact run_length. Qed.
Print Assumptions C161_rate_partial.
Example C161_rate_case : prepared conf0 two1 /\ shares (asymmetry conf0) = Some (1/2, 1/2) /\ dt scene0 <> 0 /\ active us1 = true /\ needsInit us1 = false /\ stopStrain conf0 = None /\ strainRate us1 = Some 1 /\ currentStrainRate us1 = None /\ length_is conf0 two1 1.
Proof. split; [apply two1_prepared; reflexivity|]. split; [reflexivity|]. split; [cbn [dt scene0]; lra|]. repeat (split; [reflexivity|]). apply two1_length; reflexivity. Qed.
Theorem C161_ends_partial : forall c F others s sc w s' sc' w' sp sn, prepared c w -> shares (asymmetry c) = Some (sp, sn) -> dt sc <> 0 -> active s = true -> needsInit s = false -> step c F others s sc w = Done s' sc' w' ->
  exists r L d reached, rate sc s = Some r /\ length_is c w L /\ limited c s L (r * originalLength s * dt sc) = (d, reached) /\ length_is c w' (L + d) /\ prepared c w' /\
    (forall i x, In i (posIds c) -> at_ c w i x -> at_ c w' i (x + sp * d)) /\ (forall i x, In i (negIds c) -> at_ c w i x -> at_ c w' i (x - sn * d)) /\
    (forall i, In i (posIds c) -> moves c w' i (sp * (d / dt sc))) /\ (forall i, In i (negIds c) -> moves c w' i (- (sn * (d / dt sc)))) /\
    active s' = negb reached /\ stopAtIter sc' = (if reached then iter sc + 1 + idleIterations c else stopAtIter sc)%Z /\ iter sc' = (iter sc + 1)%Z /\ dt sc' = dt sc /\ time sc' = time sc + dt sc /\
    needsInit s' = false /\ originalLength s' = originalLength s /\ strainRate s' = strainRate s /\ (currentStrainRate s' = Some r \/ currentStrainRate s' = Some (r * -1)) /\ initAccelTime_s s' = initAccelTime_s s /\ strain s' = L / originalLength s - 1.
Proof. exact step_active. Qed.
Print Assumptions C161_ends_partial.
(** the action by itself changes velocities along the axis of the ends only *)
Theorem C161_others_partial : forall c sc F s w s' sc' w' d reached r p0 p1 sp sn, prepared c w -> shares (asymmetry c) = Some (sp, sn) -> act c sc F s w = Done s' sc' w' ->
  rate sc s = Some r -> axisCoord c w (posIds c) = Some p1 -> axisCoord c w (negIds c) = Some p0 -> limited c s (p1 - p0) (r * originalLength s * dt sc) = (d, reached) ->
  prepared c w' /\ (forall i, In i (posIds c) -> moves c w' i (sp * (d / dt sc))) /\ (forall i, In i (negIds c) -> moves c w' i (- (sn * (d / dt sc)))) /\
  (forall i, match w i, w' i with Some b, Some b' => bpos b' = bpos b /\ dofs b' = dofs b /\ other_coords (axis c) (bvel b') (bvel b) | None, None => True | _, _ => False end) /\
  (forall i, ~ In i (posIds c) -> ~ In i (negIds c) -> w' i = w i).
Proof. exact act_moves. Qed.
Print Assumptions C161_others_partial.
(** the rate does not start at zero: the first step is made with all of it, whatever initAccelTime is *)
Theorem C161_ramp_refuted : forall c F others s sc w s' sc' w' r L sp sn, (axis c < 3)%nat -> posIds c <> [] -> negIds c <> [] -> (forall i, In i (posIds c) -> ~ In i (negIds c)) ->
  (asymmetry c = 1%Z -> forall i, In i (negIds c) -> moves c w i 0) -> (asymmetry c = (-1)%Z -> forall i, In i (posIds c) -> moves c w i 0) -> shares (asymmetry c) = Some (sp, sn) ->
  dt sc <> 0 -> active s = true -> needsInit s = true -> stopStrain c = None -> strainRate s = Some r -> currentStrainRate s = None -> length_is c w L ->
  step c F others s sc w = Done s' sc' w' -> 0 < L /\ length_is c w' (L + r * L * dt sc).
Proof. exact first_step. Qed.
Print Assumptions C161_ramp_refuted.
Example C161_ramp_case : (exists s' sc' w', step conf0 (fun _ => vzero) (fun _ b => b) us0 scene0 two = Done s' sc' w') /\ time scene0 = 0 /\ ramp 1 200 (time scene0) = 0.
Proof.
  split; [|split; [reflexivity|unfold ramp; cbn [time scene0]; destruct (Rlt_dec 0 200); lra]]. destruct two_init as [s' [sc' [w' E]]]. apply (first_ok conf0 _ _ us0 scene0 two s' sc' w' E); try reflexivity; try discriminate.
  apply (init_prepared conf0 scene0 us0 two s' sc' w' E); cbn; try discriminate; lia.
Qed.
Theorem C161_ramp_partial : forall c F others s sc w sp sn r T L, prepared c w -> shares (asymmetry c) = Some (sp, sn) -> 0 < dt sc -> time sc = 0 -> active s = true -> needsInit s = false -> stopStrain c = None ->
  strainRate s = Some r -> r <> 0 -> currentStrainRate s = Some 0 -> initAccelTime_s s = T -> 0 < T -> length_is c w L ->
  forall n s' sc' w', run c n F others s sc w = Done s' sc' w' -> INR n * dt sc < T + 2 * dt sc -> length_is c w' (L + INR n * (INR n - 1) / 2 * (dt sc / T * r * originalLength s * dt sc)).
Proof. exact run_ramp. Qed.
Print Assumptions C161_ramp_partial.
Theorem C161_asymmetry_refuted : forall c sc F s w s' sc' w' r p n v u, act c sc F s w = Done s' sc' w' -> posIds c <> [] -> negIds c <> [] -> (asymmetry c <> -1)%Z -> (asymmetry c <> 0)%Z -> (asymmetry c <> 1)%Z -> stopStrain c = None -> dt sc <> 0 ->
  rate sc s = Some r -> In p (posIds c) -> In n (negIds c) -> ~ In n (posIds c) -> moves c w' p v -> moves c w' n u -> dt sc * (v - u) = 2 * (r * originalLength s * dt sc).
Proof. exact asymmetry_other. Qed.
Print Assumptions C161_asymmetry_refuted.
Example C161_asymmetry_case : exists s' sc' w', act (mkC 0 2 [0%nat] [1%nat] (-200) None 0 0 false false false (Some 1) 10) scene0 (fun _ => vzero) us1 two1 = Done s' sc' w'.
Proof. apply act_ok; [apply two1_prepared; reflexivity|discriminate|discriminate|discriminate]. Qed.
Theorem C161_stays_refuted : forall c F others s sc w s' sc' w' n b, step c F others s sc w = Done s' sc' w' -> needsInit s = false -> asymmetry c = 1%Z -> posIds c <> [] -> In n (negIds c) -> ~ In n (posIds c) -> w n = Some b -> driven c b ->
  at_ c w' n (coord (bpos b) (axis c) + dt sc * coord (bvel b) (axis c)) /\ moves c w' n (coord (bvel b) (axis c)).
Proof. exact stays. Qed.
Print Assumptions C161_stays_refuted.

(** C162: stopping at a strain *)
Theorem C162_stop_partial : forall c F others s sc w sp sn stop L, prepared c w -> shares (asymmetry c) = Some (sp, sn) -> dt sc <> 0 -> active s = true -> needsInit s = false -> stopStrain c = Some stop -> 0 < stop -> 0 < originalLength s ->
  length_is c w L -> L < originalLength s * (1 + stop) ->
  forall n s' sc' w', run c n F others s sc w = Done s' sc' w' -> (forall k s1 sc1 w1, (k < n)%nat -> run c k F others s sc w = Done s1 sc1 w1 -> active s1 = true) ->
    exists L', length_is c w' L' /\ iter sc' = (iter sc + Z.of_nat n)%Z /\
      if active s' then L' < originalLength s * (1 + stop) /\ stopAtIter sc' = stopAtIter sc
      else L' = originalLength s * (1 + stop) /\ stopAtIter sc' = (iter sc' + idleIterations c)%Z.
Proof. exact stop_positive. Qed.
Print Assumptions C162_stop_partial.
Example C162_stop_case : prepared (stopping 3) two1 /\ length_is (stopping 3) two1 1 /\ 1 < originalLength us1 * (1 + 3).
Proof. split; [apply two1_prepared; reflexivity|]. split; [apply two1_length; reflexivity|]. cbn [originalLength us1]. lra. Qed.
Theorem C162_compression_refuted : forall c F others s sc w s' sc' w' sp sn stop r L, prepared c w -> shares (asymmetry c) = Some (sp, sn) -> 0 < dt sc -> active s = true -> needsInit s = false -> stopStrain c = Some stop -> stop < 0 -> 0 < originalLength s ->
  rate sc s = Some r -> r < 0 -> length_is c w L -> L <= originalLength s -> step c F others s sc w = Done s' sc' w' -> length_is c w' (originalLength s * (1 + stop)) /\ active s' = false.
Proof. exact stop_negative. Qed.
Print Assumptions C162_compression_refuted.
Example C162_compression_case : prepared (stopping (-1/2)) two1 /\ length_is (stopping (-1/2)) two1 1 /\ rate scene0 (mkU false true (Some (-1/1000)) None None 200 1 true 0 0) = Some (-1/1000).
Proof. split; [apply two1_prepared; reflexivity|]. split; [apply two1_length; reflexivity|reflexivity]. Qed.
Theorem C162_idle_refuted : forall c F others F' others' s sc w s1 sc1 w1 sp sn stop L, prepared c w -> shares (asymmetry c) = Some (sp, sn) -> dt sc <> 0 -> active s = true -> needsInit s = false -> stopStrain c = Some stop -> 0 < stop -> 0 < originalLength s -> length_is c w L ->
  step c F others s sc w = Done s1 sc1 w1 -> active s1 = false ->
  forall n s2 sc2 w2, run c n F' others' s1 sc1 w1 = Done s2 sc2 w2 -> length_is c w2 (originalLength s * (1 + stop) + INR n * (originalLength s * (1 + stop) - L)).
Proof. exact stop_goes_on. Qed.
Print Assumptions C162_idle_refuted.

(** C163: reversing the sense of straining: it is noted once, and the rate of the next step is the old one (C161_rate_partial holds with any limitStrain) *)
Theorem C163_turn_partial : forall c sc F s w s' sc' w' r L, posIds c <> [] -> negIds c <> [] -> act c sc F s w = Done s' sc' w' -> rate sc s = Some r -> length_is c w L ->
  (notYetReversed s = true /\ over (limitStrain c) r (L / originalLength s - 1) -> currentStrainRate s' = Some (r * -1) /\ notYetReversed s' = false) /\
  (~ (notYetReversed s = true /\ over (limitStrain c) r (L / originalLength s - 1)) -> currentStrainRate s' = Some r /\ notYetReversed s' = notYetReversed s).
Proof. exact turning. Qed.
Print Assumptions C163_turn_partial.
Theorem C163_once_partial : forall c F others s sc w n s' sc' w', posIds c <> [] -> negIds c <> [] -> needsInit s = false -> notYetReversed s = false -> run c n F others s sc w = Done s' sc' w' -> notYetReversed s' = false /\ needsInit s' = false.
Proof. exact turns_once. Qed.
Print Assumptions C163_once_partial.
Theorem C163_overwritten_refuted : forall sc s r, strainRate s = Some r -> currentStrainRate s = None \/ currentStrainRate s = Some r \/ currentStrainRate s = Some (r * -1) -> rate sc s = Some r.
Proof. exact rate_fixed. Qed.
Print Assumptions C163_overwritten_refuted.
Example C163_case : over (1/2) 1 (2 / 1 - 1) /\ prepared (mkC 0 0 [0%nat] [1%nat] (-200) None 0 (1/2) false false false (Some 1) 10) two1.
Proof. split; [unfold over; lra|apply two1_prepared; reflexivity]. Qed.

(** C164: the stress reported *)
Theorem C164_stress_partial : forall c sc F s w s' sc' w', posIds c <> [] -> negIds c <> [] -> act c sc F s w = Done s' sc' w' -> stressUpdateInterval c <> 0%Z /\
  if (Z.rem (iter sc) (stressUpdateInterval c) =? 0)%Z then exists A, crossSectionArea c = Some A /\ avgStress s' = (total (axis c) F (negIds c) - total (axis c) F (posIds c)) / (2 * A) else avgStress s' = avgStress s.
Proof. exact stress. Qed.
Print Assumptions C164_stress_partial.
Theorem C164_tension_partial : forall c sc F s w s' sc' w' A T, posIds c <> [] -> negIds c <> [] -> act c sc F s w = Done s' sc' w' -> Z.rem (iter sc) (stressUpdateInterval c) = 0%Z -> crossSectionArea c = Some A -> A <> 0 -> total (axis c) F (negIds c) = T -> total (axis c) F (posIds c) = - T -> avgStress s' = T / A.
Proof. exact tension. Qed.
Print Assumptions C164_tension_partial.
Example C164_case : exists s' sc' w', act conf0 scene0 (fun i => match i with O => V (-3) 0 0 | _ => V 3 0 0 end) us1 two1 = Done s' sc' w'.
Proof. apply act_ok; [apply two1_prepared; reflexivity|discriminate|discriminate|discriminate]. Qed.
Theorem C164_interval_refuted : forall c sc F s w, stressUpdateInterval c = 0%Z -> prepared c w -> strainRate s <> None -> act c sc F s w = UB.
Proof. exact interval_zero. Qed.
Print Assumptions C164_interval_refuted.
