(** Properties C179-C188: control of stresses and strains by walls *)
From Coq Require Import Reals List ZArith Bool Arith Lra Lia.
From Verif Require Import Vec_Model Law_Model Triax_Model Triax_Spec Triax_Proofs Triax_Proofs2 Triax_Proofs3 Triax_Proofs4 Triax_Proofs5 Triax_Proofs6.
Import ListNotations.
Local Open Scope R_scope.

(** C179. Sizes are the distances of the inner faces of opposite walls; a negative thickness stands for that of the bottom box, and is replaced by it. *)
Theorem C179_sizes c e s W : sane c e W -> exists s' W' g, action c e s W = Done s' W' g /\
  thickness s' = used_thickness e s /\ (forall a, (a < 3)%nat -> coord a (size s') = inner c W (used_thickness e s) a).
Proof. exact (sizes_are_measured c e s W). Qed.
Print Assumptions C179_sizes.
Example C179_sizes_case : sane fast (slow 0 half) (closing 0 0) /\ positive_box fast (slow 0 half) (used 1000 (fun _ => vzero)) (closing 0 0).
Proof. split; [apply closing_sane; [intro; reflexivity|unfold intervals_ok; cbn; repeat split; lia]|]. apply closing_box; [intro; reflexivity|reflexivity|lra]. Qed.
(** C179. When measuring, strains are logarithms of sizes relative to those of the first measure (or those given), the volumetric strain that of the volume. *)
Theorem C179_strains c e s W : sane c e W -> measures c e -> positive_box c e s W -> (forall a, (a < 3)%nat -> 0 <= coord a (size0 s)) ->
  exists s' W' g, action c e s W = Done s' W' g /\
  (forall a, (a < 3)%nat -> (coord a (size0 s) <> 0 -> coord a (size0 s') = coord a (size0 s)) /\ (coord a (size0 s) = 0 -> coord a (size0 s') = coord a (size s'))) /\
  (forall a, (a < 3)%nat -> coord a (size s') = coord a (size0 s') * exp (coord a (strain s'))) /\
  coord 0 (size s') * coord 1 (size s') * coord 2 (size s') = coord 0 (size0 s') * coord 1 (size0 s') * coord 2 (size0 s') * exp (volumetricStrain s').
Proof. exact (strains_are_logarithmic c e s W). Qed.
Print Assumptions C179_strains.
Example C179_strains_case : sane fast (slow 0 half) (closing 0 0) /\ positive_box fast (slow 0 half) fresh (closing 0 0) /\ measures fast (slow 0 half) /\ forall a, (a < 3)%nat -> 0 <= coord a (size0 fresh).
Proof. split; [apply closing_sane; [intro; reflexivity|unfold intervals_ok; cbn; repeat split; lia]|]. split; [apply closing_box; [intro; reflexivity|reflexivity|lra]|]. split; [left; reflexivity|]. intros a Ha. rewrite coord_zero. lra. Qed.
(** C179. At other steps they keep the values of the last measure. *)
Theorem C179_between c e s W : sane c e W -> ~ measures c e -> exists s' W' g, action c e s W = Done s' W' g /\
  strain s' = strain s /\ size0 s' = size0 s /\ volumetricStrain s' = volumetricStrain s /\ stress s' = stress s /\ meanStress s' = meanStress s.
Proof. exact (between_measures c e s W). Qed.
Print Assumptions C179_between.
Example C179_between_case : ~ measures fast (slow 5 half).
Proof. intros [H|[H _]]; vm_compute in H; discriminate. Qed.
(** C179. The porosity is one minus the volume of particles relative to the box, the volume being counted at the first step and on demand. *)
Theorem C179_porosity c e s W : sane c e W -> positive_box c e s W -> (first s = true \/ updatePorosity s = true) -> exists s' W' g v, action c e s W = Done s' W' g /\ volumes (solids e) = Some v /\
  porosity s' = 1 - v / (inner c W (used_thickness e s) 0 * inner c W (used_thickness e s) 1 * inner c W (used_thickness e s) 2) /\ updatePorosity s' = false.
Proof. exact (porosity_is c e s W). Qed.
Print Assumptions C179_porosity.
Example C179_porosity_case : sane fast (slow 0 half) (closing 0 0) /\ positive_box fast (slow 0 half) fresh (closing 0 0) /\ first fresh = true.
Proof. split; [apply closing_sane; [intro; reflexivity|unfold intervals_ok; cbn; repeat split; lia]|]. split; [apply closing_box; [intro; reflexivity|reflexivity|lra]|reflexivity]. Qed.
(** C179. The volume counted of a sphere is that of a ball up to a relative error of 3 in 10^8 (4/3 is written 1.3333333). *)
Theorem C179_ball_partial r v : 0 < r -> volume (Ball r true false) = Some v -> v < ball_volume r /\ ball_volume r - v <= 3 / 100000000 * ball_volume r.
Proof. exact (ball_counted r v). Qed.
Print Assumptions C179_ball_partial.
Example C179_ball_case : 0 < 1 /\ exists v, volume (Ball 1 true false) = Some v.
Proof. split; [lra|]. eexists. reflexivity. Qed.
(** C179. The volume counted of any particles is the sum of the volumes of free spheres and of clumps, members of clumps and fixed spheres left out, up to the same error. *)
Theorem C179_particles_partial l v : Forall massive l -> volumes l = Some v -> v <= total (map particle_volume l) /\ total (map particle_volume l) - v <= 3 / 100000000 * total (map particle_volume l).
Proof. exact (volumes_counted l v). Qed.
Print Assumptions C179_particles_partial.
Example C179_particles_case : Forall massive [Ball 1 true false; Ball 1 true true; ClumpOf 3 (Some 2) true; Ball 2 false false; Other false false] /\ exists v, volumes [Ball 1 true false; Ball 1 true true; ClumpOf 3 (Some 2) true; Ball 2 false false; Other false false] = Some v.
Proof. split; [repeat (apply Forall_cons; [cbn [massive]; try exact I; try split; lra|]); apply Forall_nil|]. eexists. reflexivity. Qed.
(** C180. The stress on a wall has the normal component force over area, positive for tension, and meanStress is the mean of the six. *)
Theorem C180_stress_partial c e s W : sane c e W -> measures c e -> exists s' W' g, action c e s W = Done s' W' g /\
  (forall w, is_wall w -> coord (axis w) (stress s' w) = normal_stress (cross c W (used_thickness e s) (axis w)) w (force e (known c s w))) /\
  meanStress s' = total (map (fun w => normal_stress (cross c W (used_thickness e s) (axis w)) w (force e (known c s w))) (seq 0 6)) / 6.
Proof. exact (stresses_are_measured c e s W). Qed.
Print Assumptions C180_stress_partial.
Example C180_stress_case : measures fast (slow 0 half) /\ normal_stress 1 1 (half 1) = -1/2.
Proof. split; [left; reflexivity|]. unfold normal_stress, half, inward, dot, smul. cbn [nth vx vy vz]. lra. Qed.
(** C180. The stress of a wall can be asked for by its number, *)
Theorem C180_index_partial s i : (0 <= i < 6)%Z -> getStress s i = Some (stress s (Z.to_nat i)).
Proof. exact (stress_in_bounds s i). Qed.
Print Assumptions C180_index_partial.
Example C180_index_case : (0 <= 5 < 6)%Z.
Proof. lia. Qed.
(** C180 is refuted for other numbers: memory outside of the array is read. *)
Theorem C180_index_refuted : getStress fresh 6 = None /\ getStress fresh (-1) = None.
Proof. exact (stress_out_of_bounds). Qed.
Print Assumptions C180_index_refuted.

(** C181. A step of strain control multiplies the difference between the strain rate and its goal by the damping coefficient, the rate before being relative to the present size. Both walls activated. *)
Theorem C181_damping_partial c e s W : sane c e W -> internalCompaction c = false -> positive_box c e s W -> exists s' W' r, action c e s W = Done s' W' None /\ getStrainRate c s' W' = Some r /\
  forall a, (a < 3)%nat -> ~ in_stress c a -> activated c (low a) = true -> activated c (high a) = true ->
   coord a r - coord a (goal c) = strainDamping c * ((coord a (velocity c W (high a)) - coord a (velocity c W (low a))) / inner c W (used_thickness e s) a - coord a (goal c)).
Proof. exact (rate_shown_step c e s W). Qed.
Print Assumptions C181_damping_partial.
Example C181_damping_case : sane (conf0 0 (V (-1) (-1) (-1)) (1/4) (99/100) false) (slow 0 half) (closing 0 0) /\ positive_box (conf0 0 (V (-1) (-1) (-1)) (1/4) (99/100) false) (slow 0 half) (used 1000 (fun _ => vzero)) (closing 0 0) /\ forall a, (a < 3)%nat -> ~ in_stress (conf0 0 (V (-1) (-1) (-1)) (1/4) (99/100) false) a.
Proof. split; [apply closing_sane; [intro; reflexivity|unfold intervals_ok; cbn; repeat split; lia]|]. split; [apply closing_box; [intro; reflexivity|reflexivity|lra]|]. intros a Ha. unfold in_stress. cbn [stressMask conf0]. rewrite Z.bits_0. discriminate. Qed.
(** C181. Without damping each step multiplies the size by 1 + goal * dt, whatever the forces and other bodies. *)
Theorem C181_sizes_partial c l s W s' W' a : runs c (fun e _ W => sane c e W) l s W s' W' -> internalCompaction c = false -> strainDamping c = 0 -> 0 <= thickness s ->
  (a < 3)%nat -> ~ in_stress c a -> activated c (low a) = true -> activated c (high a) = true ->
  inner c W' (thickness s) a = product (map (fun e => 1 + coord a (goal c) * dt e) l) * inner c W (thickness s) a.
Proof. exact (sizes_follow c l s W s' W' a). Qed.
Print Assumptions C181_sizes_partial.
Example C181_sizes_case : exists l s' W', l <> [] /\ runs (conf0 0 (V 0 0 0) 0 0 false) (fun e _ W => sane (conf0 0 (V 0 0 0) 0 0 false) e W) l fresh (closing 0 0) s' W'.
Proof.
  assert (I : idc (conf0 0 (V 0 0 0) 0 0 false)) by (intro; reflexivity).
  assert (SA : sane (conf0 0 (V 0 0 0) 0 0 false) (slow 0 half) (closing 0 0)) by (apply closing_sane; [exact I|unfold intervals_ok; cbn; repeat split; lia]).
  destruct (only_walls _ _ fresh _ SA) as [s1 [W1 [g [E _]]]].
  exists [slow 0 half], s1, (fun i => Some (mkW (vadd (position (conf0 0 (V 0 0 0) 0 0 false) W1 i) (smul (1/100) (velocity (conf0 0 (V 0 0 0) 0 0 false) W1 i))) (velocity (conf0 0 (V 0 0 0) 0 0 false) W1 i))).
  split; [discriminate|]. eapply runs_cons; [exact SA|exact E| |apply runs_nil]. intros w H. rewrite I. reflexivity.
Qed.
(** C181 is refuted with damping: a rate that is at its goal leaves it at the next step, as sizes change and velocities lag behind. *)
Theorem C181_lag_refuted c e s W e2 W2 s1 W1 g : sane c e W -> internalCompaction c = false -> 0 <= thickness s -> positive_box c e s W ->
  action c e s W = Done s1 W1 g -> moves c (dt e) W1 W2 -> sane c e2 W2 -> positive_box c e2 s1 W2 ->
  forall a, (a < 3)%nat -> ~ in_stress c a -> activated c (low a) = true -> activated c (high a) = true ->
  coord a (velocity c W (high a)) - coord a (velocity c W (low a)) = coord a (goal c) * inner c W (thickness s) a -> 0 < strainDamping c -> coord a (goal c) <> 0 -> dt e <> 0 ->
  exists s2 W3 r, action c e2 s1 W2 = Done s2 W3 None /\ getStrainRate c s2 W3 = Some r /\ coord a r <> coord a (goal c).
Proof. exact (rate_leaves_goal c e s W e2 W2 s1 W1 g). Qed.
Print Assumptions C181_lag_refuted.
Example C181_lag_case : exists v, coord 0 (velocity (conf0 0 (V (-1) (-1) (-1)) (1/4) (99/100) false) (closing 0 v) (high 0)) - coord 0 (velocity (conf0 0 (V (-1) (-1) (-1)) (1/4) (99/100) false) (closing 0 v) (low 0)) = coord 0 (goal (conf0 0 (V (-1) (-1) (-1)) (1/4) (99/100) false)) * inner (conf0 0 (V (-1) (-1) (-1)) (1/4) (99/100) false) (closing 0 v) 0 0.
Proof. exists (1/2). rewrite closing_inner; [|intro; reflexivity|lia]. unfold velocity, conf0. cbn [ids]. rewrite !closing_at by (unfold is_wall, low, high; lia). unfold low, high, coord, inward, smul. cbn [Nat.mul Nat.add nth wvel vx vy vz goal]. lra. Qed.
(** C181 is refuted where only one of two opposite walls is activated: the rate is half of the goal. *)
Theorem C181_one_wall_refuted c e s W : sane c e W -> internalCompaction c = false -> positive_box c e s W -> strainDamping c = 0 -> exists s' W' r, action c e s W = Done s' W' None /\ getStrainRate c s' W' = Some r /\
  forall a, (a < 3)%nat -> ~ in_stress c a -> activated c (low a) = false -> activated c (high a) = true -> coord a r = coord a (goal c) / 2.
Proof. exact (one_wall_half c e s W). Qed.
Print Assumptions C181_one_wall_refuted.

(** C182. A wall in stress control moves along its normal: inwards if its stress is above the goal (less compression), outwards if below, not at all at the goal. If it did not move before. *)
Theorem C182_direction_partial c e s W : sane c e W -> internalCompaction c = false -> positive_box c e s W -> 0 < dt e -> 0 < max_vel c -> stressDamping c < 1 ->
  exists s' W', action c e s W = Done s' W' None /\
  forall w, is_wall w -> in_stress c (axis w) -> activated c w = true -> previousTranslation s w = vzero -> 0 <= stiffness s' w ->
    exists x, velocity c W' w = smul x (inward w) /\
    let sigma := normal_stress (cross c W (used_thickness e s) (axis w)) w (force e (known c s w)) in
    (coord (axis w) (goal c) < sigma -> 0 < x) /\ (sigma < coord (axis w) (goal c) -> x < 0) /\ (sigma = coord (axis w) (goal c) -> x = 0).
Proof. exact (goes_to_goal c e s W). Qed.
Print Assumptions C182_direction_partial.
Example C182_direction_case : sane fast (slow 0 half) (closing 0 0) /\ positive_box fast (slow 0 half) (used 1000 (fun _ => vzero)) (closing 0 0) /\ forall w, is_wall w -> in_stress fast (axis w) /\ activated fast w = true.
Proof. split; [apply closing_sane; [intro; reflexivity|unfold intervals_ok; cbn; repeat split; lia]|]. split; [apply closing_box; [intro; reflexivity|reflexivity|lra]|]. apply fast_in. Qed.
(** C182. Without damping it moves by as much as brings the force to that wanted if contacts keep their stiffness, within the maximum velocity. *)
Theorem C182_prediction_partial c e s W : sane c e W -> internalCompaction c = false -> dt e <> 0 -> stressDamping c = 0 ->
  exists s' W', action c e s W = Done s' W' None /\
  forall w, is_wall w -> in_stress c (axis w) -> activated c w = true -> previousTranslation s w = vzero -> 0 < stiffness s' w ->
    let f := dot (force e (known c s w)) (inward w) in let A := cross c W (used_thickness e s) (axis w) in let g := coord (axis w) (goal c) in
    Rabs (f - g * A) <= stiffness s' w * (3 * coord (axis w) (size s') / (coord 0 (size s') + coord 1 (size s') + coord 2 (size s')) * max_vel c * dt e) ->
    f - stiffness s' w * (dt e * dot (velocity c W' w) (inward w)) = g * A.
Proof. exact (perfect_prediction c e s W). Qed.
Print Assumptions C182_prediction_partial.

(** C182. The stiffness used is the sum over contacts of the wall that carry force. *)
Theorem C182_stiffness_partial c e s W f : sane c e W -> counts_stiffness c e -> (forall i k, f i k = true <-> is_contact_of i k) -> exists s' W' g, action c e s W = Done s' W' g /\
  forall w, is_wall w -> stiffness s' w = total (map ckn (filter (f (known c s w)) (contacts e))).
Proof. exact (stiffness_counted c e s W f). Qed.
Print Assumptions C182_stiffness_partial.
Example C182_stiffness_case : is_contact_of 3 (mkC 3 10 1 5) /\ counts_stiffness fast (slow 10 half).
Proof. split; [split; [cbn [cfn]; lra|left; reflexivity]|left; reflexivity]. Qed.
(** C182. It is counted at multiples of the interval and in the first 100 steps, and kept otherwise. *)
Theorem C182_kept_partial c e s W : sane c e W -> ~ counts_stiffness c e -> exists s' W' g, action c e s W = Done s' W' g /\ stiffness s' = stiffness s.
Proof. exact (stiffness_kept c e s W). Qed.
Print Assumptions C182_kept_partial.
Example C182_kept_case : ~ counts_stiffness fast (slow 105 half).
Proof. intros [H|H]; vm_compute in H; discriminate. Qed.
(** C182 is refuted: a wall that was moving goes on with 8/10 of its velocity although the stress is at its goal, and although damping is 1, which is documented as no movement. *)
Theorem C182_past_refuted c e s W : sane c e W -> internalCompaction c = false -> dt e <> 0 -> exists s' W', action c e s W = Done s' W' None /\
  forall w, is_wall w -> in_stress c (axis w) -> activated c w = true ->
  (dot (force e (known c s w)) (inward w) = coord (axis w) (goal c) * cross c W (used_thickness e s) (axis w) \/ stressDamping c = 1) -> velocity c W' w = smul (8/10 / dt e) (previousTranslation s w).
Proof. exact (goes_past_goal c e s W). Qed.
Print Assumptions C182_past_refuted.
Example C182_past_case : smul (8/10 / (1/100)) (V (1/1000) 0 0) <> vzero.
Proof. unfold smul, vzero. cbn [vx vy vz]. intro H. injection H as H1 _ _. lra. Qed.
(** C183. A wall in stress control never moves faster than 15 (1 - damping) max_vel, in any history with constant timestep that starts from rest. *)
Theorem C183_bound_partial c h l e s W s' W' : runs c (fun e s W => sane c e W /\ positive_box c e s W /\ dt e = h) l s W s' W' -> internalCompaction c = false -> 0 < h -> 0 < max_vel c -> 0 <= stressDamping c <= 1 ->
  (forall w, is_wall w -> previousTranslation s w = vzero) -> sane c e W' -> positive_box c e s' W' -> dt e = h -> exists s2 W2, action c e s' W' = Done s2 W2 None /\
  (forall w, is_wall w -> in_stress c (axis w) -> exists x, velocity c W2 w = smul x (inward w) /\ Rabs x <= 15 * (1 - stressDamping c) * max_vel c).
Proof. exact (never_faster c h l e s W s' W'). Qed.
Print Assumptions C183_bound_partial.
Example C183_bound_case : sane fast (slow 0 half) (closing 0 0) /\ positive_box fast (slow 0 half) fresh (closing 0 0) /\ forall w, is_wall w -> previousTranslation fresh w = vzero.
Proof. split; [apply closing_sane; [intro; reflexivity|unfold intervals_ok; cbn; repeat split; lia]|]. split; [apply closing_box; [intro; reflexivity|reflexivity|lra]|]. reflexivity. Qed.
(** C183. The maxima of three axes give the same strain rate. *)
Theorem C183_isotropic_partial c sz : 0 < vx sz -> 0 < vy sz -> 0 < vz sz -> forall a b, (a < 3)%nat -> (b < 3)%nat -> 2 * max_vels c sz a / coord a sz = 2 * max_vels c sz b / coord b sz.
Proof. exact (isotropic_maxima c sz). Qed.
Print Assumptions C183_isotropic_partial.
Example C183_isotropic_case : 0 < vx (V 1 2 3) /\ 0 < vy (V 1 2 3) /\ 0 < vz (V 1 2 3).
Proof. cbn [vx vy vz]. repeat split; lra. Qed.
(** C183 is refuted: with the default damping walls of a cube move at 1.35 max_vel in their second step. *)
Theorem C183_exceeded_refuted : exists s1 W1 s2 W2, action fast (slow 0 (fun _ => vzero)) fresh (closing 0 0) = Done s1 W1 None /\ moves fast (1/100) W1 (closing (75/10000) (75/100)) /\
  action fast (slow 1 (fun _ => vzero)) s1 (closing (75/10000) (75/100)) = Done s2 W2 None /\ max_vel fast = 1 /\
  forall a, (a < 3)%nat -> inner fast (closing (75/10000) (75/100)) 0 a = 985/1000 /\ velocity fast W2 (low a) = smul (135/100) (inward (low a)).
Proof. exact (too_fast). Qed.
Print Assumptions C183_exceeded_refuted.

(** C184. A controller saved and reloaded goes on as if it had not been, if walls were at rest, ids and particles as before, and stiffness and stresses are due to be computed. *)
Theorem C184_reload_partial c e s W junk : sane c e W -> first s = false -> wall_id s = ids c -> previousTranslation s = (fun _ => vzero) -> counts_stiffness c e -> measures c e -> volumes (solids e) = Some (particlesVolume s) ->
  action c e (reload s junk) W = action c e s W.
Proof. exact (reload_continues c e s W junk). Qed.
Print Assumptions C184_reload_partial.
Example C184_reload_case : counts_stiffness fast (slow 110 half) /\ measures fast (slow 110 half) /\ wall_id (used 1000 (fun _ => vzero)) = ids fast /\ volumes (solids (slow 110 half)) = Some (particlesVolume (used 1000 (fun _ => vzero))).
Proof. split; [left; reflexivity|]. split; [left; reflexivity|]. split; reflexivity. Qed.
(** C184 is refuted at other steps: the stiffness is lost, and the wall moves twenty times as fast, only limited by max_vel. *)
Theorem C184_jump_refuted junk : exists s1 W1 s2 W2, action fast (slow 105 half) (used 1000 (fun _ => vzero)) (closing 0 0) = Done s1 W1 None /\ action fast (slow 105 half) (reload (used 1000 (fun _ => vzero)) junk) (closing 0 0) = Done s2 W2 None /\
  velocity fast W1 0 = V (375/10000) 0 0 /\ velocity fast W2 0 = V (75/100) 0 0.
Proof. exact (reload_jumps junk). Qed.
Print Assumptions C184_jump_refuted.

(** C185. In internal compaction towards a compressive stress particles grow if the mean stress is above the goal, shrink if below, stay at the goal, and do not grow by more than the limit unless the mean stress is tensile. *)
Theorem C185_direction_partial c e s W : sane c e W -> internalCompaction c = true -> (iter e mod radiusControlInterval c = 0)%Z -> stress_axes c <> [] -> wanted_mean c < 0 -> 1 < maxMultiplier s -> 1 < finalMaxMultiplier c ->
  exists s' W' k, action c e s W = Done s' W' (Some (Some k)) /\ previousMultiplier s' = Some k /\ previousStress s' = meanStress s' /\
   (maxMultiplier s' = if Rle_dec (Rabs (wanted_mean c)) (Rabs (meanStress s')) then finalMaxMultiplier c else maxMultiplier s) /\
   (wanted_mean c < meanStress s' -> 1 < k) /\ (meanStress s' < wanted_mean c -> k < 1) /\ (meanStress s' = wanted_mean c -> k = 1) /\ (meanStress s' <= 0 -> k <= maxMultiplier s').
Proof. exact (growth_direction c e s W). Qed.
Print Assumptions C185_direction_partial.
Example C185_direction_case : stress_axes (conf0 7 (V (-1) (-1) (-1)) (1/4) 0 true) <> [] /\ wanted_mean (conf0 7 (V (-1) (-1) (-1)) (1/4) 0 true) < 0 /\ 1 < maxMultiplier fresh /\ 1 < finalMaxMultiplier (conf0 7 (V (-1) (-1) (-1)) (1/4) 0 true).
Proof. split; [discriminate|]. split; [unfold wanted_mean, stress_axes; cbn; lra|]. cbn [maxMultiplier fresh finalMaxMultiplier conf0]. lra. Qed.
(** C185. They do not grow at other steps, nor in external compaction. *)
Theorem C185_otherwise_partial c e s W : sane c e W -> ~ (internalCompaction c = true /\ (iter e mod radiusControlInterval c = 0)%Z) -> exists s' W', action c e s W = Done s' W' None /\ maxMultiplier s' = maxMultiplier s /\ previousMultiplier s' = previousMultiplier s.
Proof. exact (no_growth_otherwise c e s W). Qed.
Print Assumptions C185_otherwise_partial.
Example C185_otherwise_case : ~ (internalCompaction fast = true /\ (iter (slow 5 half) mod radiusControlInterval fast = 0)%Z).
Proof. intros [H _]. discriminate. Qed.
(** C185. The volume of particles follows their growth, if every clump may move. *)
Theorem C185_volume_partial c e s W : sane c e W -> (first s = true \/ updatePorosity s = true \/ volumes (solids e) = Some (particlesVolume s)) -> clumps_free (solids e) ->
  exists s' W' g, action c e s W = Done s' W' g /\ match g with Some (Some k) => volumes (map (grown k) (solids e)) = Some (particlesVolume s') | Some None => True | None => volumes (solids e) = Some (particlesVolume s') end.
Proof. exact (volume_is_tracked c e s W). Qed.
Print Assumptions C185_volume_partial.
Example C185_volume_case : clumps_free [Ball 1 true false; ClumpOf 1 (Some 1) true].
Proof. intros m d [H|[H|[]]]; discriminate. Qed.
(** C185. Growth multiplies the volume of free particles by the cube of the factor and leaves fixed bodies alone. *)
Theorem C185_growth_partial k b : (is_free b = false -> grown k b = b) /\ (is_free b = true -> particle_volume (grown k b) = k * k * k * particle_volume b).
Proof. exact (growth k b). Qed.
Print Assumptions C185_growth_partial.
Example C185_growth_case : is_free (Ball 1 true false) = true /\ 0 < particle_volume (ClumpOf 2 (Some 1) true).
Proof. split; [reflexivity|cbn [particle_volume]; lra]. Qed.
(** C185 is refuted for fixed clumps: they are counted but do not grow. *)
Theorem C185_fixed_clump_refuted : volumes [ClumpOf 2 (Some 1) false] = Some 2 /\ volumes (map (grown 2) [ClumpOf 2 (Some 1) false]) = Some 2.
Proof. exact (fixed_clump_counted). Qed.
Print Assumptions C185_fixed_clump_refuted.

(** C185 is refuted where no axis is controlled in stress: radii become NaN, *)
Theorem C185_no_goal_refuted c m mean : stress_axes c = [] -> mean <> 0 -> snd (multiplier c m mean) = None.
Proof. exact (nothing_in_stress c m mean). Qed.
Print Assumptions C185_no_goal_refuted.
Example C185_no_goal_case : stress_axes (conf0 0 (V (-1) 0 0) 0 0 true) = [] /\ -1 <> 0.
Proof. split; [reflexivity|lra]. Qed.
(** C185 is refuted for the goal 0: radii are infinite or NaN, or grow although the goal is met. *)
Theorem C185_zero_goal_refuted c m mean : stress_axes c <> [] -> wanted_mean c = 0 -> snd (multiplier c m mean) = if Req_EM_T mean 0 then Some (finalMaxMultiplier c) else None.
Proof. exact (zero_goal c m mean). Qed.
Print Assumptions C185_zero_goal_refuted.
Example C185_zero_goal_case : stress_axes (conf0 7 (V 0 0 0) 0 0 true) <> [] /\ wanted_mean (conf0 7 (V 0 0 0) 0 0 true) = 0.
Proof. split; [discriminate|]. unfold wanted_mean, stress_axes. cbn. lra. Qed.
(** C185 is refuted for a tensile mean stress: growth exceeds maxMultiplier. *)
Theorem C185_limit_refuted : exists k, shrunk_to (-2) 1 = (1001/1000, Some k) /\ 1001/1000 < k.
Proof. exact (over_limit). Qed.
Print Assumptions C185_limit_refuted.

(** C185 is refuted for a mean stress far below the goal: radii become negative. *)
Theorem C185_negative_refuted : exists k, snd (shrunk_to (-1) (-200002)) = Some k /\ k < 0.
Proof. exact (negative_radii). Qed.
Print Assumptions C185_negative_refuted.

(** C186. External work grows by the work of forces on walls along their displacement, over all walls, however controlled. *)
Theorem C186_work c e s W : sane c e W -> internalCompaction c = false -> dt e <> 0 -> (forall w, is_wall w -> known c s w = ids c w) ->
  exists s' W', action c e s W = Done s' W' None /\ externalWork s' = externalWork s + total (map (fun w => dt e * dot (velocity c W' w) (force e (ids c w))) (seq 0 6)).
Proof. exact (work_done c e s W). Qed.
Print Assumptions C186_work.
Example C186_work_case : sane fast (slow 0 half) (closing 0 0) /\ forall w, is_wall w -> known fast fresh w = ids fast w.
Proof. split; [apply closing_sane; [intro; reflexivity|unfold intervals_ok; cbn; repeat split; lia]|reflexivity]. Qed.
(** C186. Internal compaction adds none. *)
Theorem C186_internal c e s W : sane c e W -> internalCompaction c = true -> exists s' W' g, action c e s W = Done s' W' g /\ externalWork s' = externalWork s.
Proof. exact (work_internal c e s W). Qed.
Print Assumptions C186_internal.

(** C187. No other body is touched, and no wall displaced (the integrator does that); walls stand still in internal compaction; particles grow there only. *)
Theorem C187_only_walls c e s W : sane c e W -> exists s' W' g, action c e s W = Done s' W' g /\
  (forall w, is_wall w -> position c W' w = position c W w) /\ (forall i, (forall w, is_wall w -> ids c w <> i) -> W' i = W i) /\
  (g <> None -> internalCompaction c = true) /\ (internalCompaction c = true -> forall w, is_wall w -> velocity c W' w = vzero) /\ walls_ok c W'.
Proof. exact (only_walls c e s W). Qed.
Print Assumptions C187_only_walls.
Example C187_case : sane fast (slow 0 half) (closing 0 0) /\ positive_box fast (slow 0 half) fresh (closing 0 0).
Proof. split; [apply closing_sane; [intro; reflexivity|unfold intervals_ok; cbn; repeat split; lia]|]. apply closing_box; [intro; reflexivity|reflexivity|lra]. Qed.
(** C188. The walls watched are those given at the first step. *)
Theorem C188_ids_partial c e s W : sane c e W -> exists s' W' g, action c e s W = Done s' W' g /\ first s' = false /\ (forall c' w, known c' s' w = known c s w).
Proof. exact (ids_learnt_once c e s W). Qed.
Print Assumptions C188_ids_partial.
Example C188_ids_case : known fast fresh 3 = 3%nat.
Proof. reflexivity. Qed.
(** C188 is refuted for ids changed later: the new wall is moved on account of the force on the old one, although its own stress is at the goal. *)
Theorem C188_ids_refuted : exists s' W', action (ids7 fast) (slow 105 (fun i => if Nat.eqb i 7 then V (-1) 0 0 else vzero)) (used 1000 (fun _ => vzero)) (with7 0 0) = Done s' W' None /\
  normal_stress 1 0 (V (-1) 0 0) = coord 0 (goal fast) /\ velocity (ids7 fast) W' 0 = V (75/1000) 0 0.
Proof. exact (old_wall_watched). Qed.
Print Assumptions C188_ids_refuted.

