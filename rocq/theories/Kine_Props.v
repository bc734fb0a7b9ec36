(** Theorems about engines that impose velocities. *)
From Coq Require Import Reals List NArith ZArith Bool Lra Permutation.
From Verif Require Import Vec_Model Vec_Proofs Rigid_Model Rigid_Spec Newton_Model Newton_Spec Interp_Model Interp_Spec Interp_Example Kine_Model Kine_Spec Kine_Proofs Kine_Proofs2 Kine_Proofs3 Kine_Proofs4 Kine_Example.
Import ListNotations.
Local Open Scope R_scope.

(** C121: any number of steps of any lengths: the bodies are turned about the given axis by the angular velocity
    times the time that has passed, without drift *)
Theorem C121_rotation_partial : forall ids w a z l s, ids <> [] -> NoDup ids -> norm2 a = 1 -> clumps_ok (world s) -> plain_all (world s) l -> engine s = Rotation w a true z ->
  exists s', sim_run ids l s = Done s' /\ engine s' = engine s /\ now s' = now s + duration l /\
    forall i b, In i ids -> prescribed l (world s) i b -> exists b', nb (world s') i = Some b' /\ screwed z a (w * duration l) 0 (state_of b) (state_of b').
Proof. intros ids w a z l s A B. exact (rotation_run ids A B w a z l s). Qed.
Print Assumptions C121_rotation_partial.
Example C121_rotation_ex : ex_ids <> [] /\ NoDup ex_ids /\ norm2 (V 0 0 1) = 1 /\ clumps_ok ex_w /\ plain_all ex_w (map ex_step [1; 2]) /\ prescribed (map ex_step [1; 2]) ex_w 0 (ex_body 1 63).
Proof. split; [discriminate|]. split; [exact (proj1 (proj2 ex_ids_ok))|]. split; [exact ex_axis|]. split; [exact ex_clumps|]. split; [apply ex_plain_all; intros h [<-|[<-|[]]]; lra|]. exact (ex_prescribed [1; 2]). Qed.
(** C121: without rotateAroundZero they turn about their own centres *)
Theorem C121_spin_partial : forall ids w a z l s, ids <> [] -> NoDup ids -> norm2 a = 1 -> clumps_ok (world s) -> plain_all (world s) l -> engine s = Rotation w a false z ->
  exists s', sim_run ids l s = Done s' /\ engine s' = engine s /\ now s' = now s + duration l /\
    forall i b, In i ids -> prescribed l (world s) i b -> exists b', nb (world s') i = Some b' /\ spun a (w * duration l) (state_of b) (state_of b').
Proof. intros ids w a z l s A B. exact (spin_run ids A B w a z l s). Qed.
Print Assumptions C121_spin_partial.
(** C121: translation *)
Theorem C121_translation_partial : forall ids v a l s, ids <> [] -> NoDup ids -> clumps_ok (world s) -> plain_all (world s) l -> engine s = Translation v a ->
  exists s', sim_run ids l s = Done s' /\ engine s' = engine s /\
    forall i b, In i ids -> prescribed l (world s) i b -> exists b', nb (world s') i = Some b' /\ shifted (smul (v * duration l) a) (state_of b) (state_of b').
Proof. intros ids v a l s A B. exact (translation_run ids A B v a l s). Qed.
Print Assumptions C121_translation_partial.
(** C121: helix: turned and shifted along the axis, and angleTurned is the angle turned *)
Theorem C121_helix_partial : forall ids w a ar z lin tu l s, ids <> [] -> NoDup ids -> norm2 a = 1 -> clumps_ok (world s) -> plain_all (world s) l -> engine s = Helix w a ar z lin tu ->
  exists s' ar', sim_run ids l s = Done s' /\ engine s' = Helix w a ar' z lin (tu + w * duration l) /\ now s' = now s + duration l /\
    forall i b, In i ids -> prescribed l (world s) i b -> exists b', nb (world s') i = Some b' /\ screwed z a (w * duration l) (lin * duration l) (state_of b) (state_of b').
Proof. intros ids w a ar z lin tu l s A B. exact (helix_run ids A B w a ar z lin tu l s). Qed.
Print Assumptions C121_helix_partial.
(** C121: helix with interpolated angular velocity: the advance along the axis is slope times the angle turned *)
Theorem C121_interpolated_partial : forall ids w a ar z lin tu ts vs wr sl lk l s, ids <> [] -> NoDup ids -> norm2 a = 1 -> clumps_ok (world s) -> plain_all (world s) l -> engine s = InterpHelix w a ar z lin tu ts vs wr sl lk ->
  table ts vs -> increasing ts -> lookup_state lk ->
  exists s' w' ar' lin' th lk', sim_run ids l s = Done s' /\ engine s' = InterpHelix w' a ar' z lin' (tu + th) ts vs wr sl lk' /\ now s' = now s + duration l /\
    forall i b, In i ids -> prescribed l (world s) i b -> exists b', nb (world s') i = Some b' /\ screwed z a th (sl * th) (state_of b) (state_of b').
Proof. intros ids w a ar z lin tu ts vs wr sl lk l s A B. exact (interp_helix_run ids A B w a ar z lin tu ts vs wr sl lk l s). Qed.
Print Assumptions C121_interpolated_partial.
Example C121_interpolated_ex : table ex_times ex_values /\ increasing ex_times /\ lookup_state (2 ^ 64 - 1).
Proof. split; [exact ex_table|]. split; [exact ex_increasing|exact ex_state]. Qed.
(** C121 refuted: a body that is listed twice gets twice the velocity *)
Theorem C121_twice_refuted : forall m, exists w', kin_action [0; 0]%nat (Translation 1 (V 1 0 0)) m ex_w = Done (Translation 1 (V 1 0 0), w') /\
  exists b', nb w' 0%nat = Some b' /\ vel (state_of b') = V 2 0 0.
Proof. exact twice. Qed.
Print Assumptions C121_twice_refuted.

(** C122: a pedal stays on a circle of the given radius, in a plane normal to the axis, goes round by the angular
    velocity times the time that has passed, and does not turn *)
Theorem C122_circle_partial : forall ids w a ra fi l s, ids <> [] -> NoDup ids -> norm2 a = 1 -> clumps_ok (world s) -> plain_all (world s) l -> engine s = Pedal w a ra fi ->
  exists s', sim_run ids l s = Done s' /\ engine s' = Pedal w a ra (fi + w * duration l) /\
    forall i b, In i ids -> prescribed l (world s) i b -> exists b' c, nb (world s') i = Some b' /\
      norm (vsub (pos (state_of b)) c) = Rabs ra /\ dot (vsub (pos (state_of b)) c) a = 0 /\
      pos (state_of b') = vadd c (qrot (angle_axis (w * duration l) a) (vsub (pos (state_of b)) c)) /\ ori (state_of b') = ori (state_of b).
Proof.
  intros ids w a ra fi l s A B Ha K P E. destruct (pedal_run ids A B w a ra fi l s K P E) as (s' & R & E' & H). exists s'. split; [exact R|]. split; [exact E'|]. intros i b Hi Q. destruct (H i b Hi Q) as (b' & N & (X & O & _)).
  destruct (pedal_circle a ra fi (w * duration l) (pos (state_of b)) Ha) as (C1 & C2 & C3). exists b', (pedal_centre (pos (state_of b)) a ra fi). split; [exact N|]. split; [exact C2|]. split; [exact C3|]. split; [rewrite X; exact C1|exact O].
Qed.
Print Assumptions C122_circle_partial.
Example C122_ex : engine ex_pedal = Pedal (PI / 2) (V 0 0 1) 1 0 /\ clumps_ok (world ex_pedal) /\ plain_all (world ex_pedal) (map ex_step [1]) /\ prescribed (map ex_step [1]) (world ex_pedal) 0 (ex_body 1 63).
Proof. split; [reflexivity|]. split; [exact ex_clumps|]. split; [apply ex_plain_all; intros h [<-|[]]; lra|]. exact (ex_prescribed [1]). Qed.
(** C122 refuted: with initial phase 0 a quarter of a turn should take a pedal from (r,0) to (0,r) relative to the
    centre; it goes from (-r,0) to (0,-r): the phase is off by half a turn *)
Theorem C122_phase_refuted : exists s' b', sim_run ex_ids [ex_step 1] ex_pedal = Done s' /\ nb (world s') 0%nat = Some b' /\
  pos (state_of b') = V (1 + 1) (-1) 0 /\ pos (state_of b') <> vadd (V 1 0 0) (V (1 * cos (0 + PI / 2 * 1) - 1 * cos 0) (1 * sin (0 + PI / 2 * 1) - 1 * sin 0) 0).
Proof. exact wrong_phase. Qed.
Print Assumptions C122_phase_refuted.

(** C123: harmonic motion with a constant time step: exactly a harmonic motion, half a step late, with an amplitude
    multiplied by (w h/2)/sin(w h/2); it never drifts away *)
Theorem C123_harmonic_partial : forall ids A f fi h l s, ids <> [] -> NoDup ids -> (forall p, In p l -> dt (s_conf p) = h) ->
  (vx f = 0 \/ sin (PI * vx f * h) <> 0) -> (vy f = 0 \/ sin (PI * vy f * h) <> 0) -> (vz f = 0 \/ sin (PI * vz f * h) <> 0) ->
  clumps_ok (world s) -> plain_all (world s) l -> engine s = HarmonicMotion A f fi ->
  exists s', sim_run ids l s = Done s' /\ engine s' = engine s /\
    forall i b, In i ids -> prescribed l (world s) i b -> exists b', nb (world s') i = Some b' /\
      shifted (V (oscillation (vx A) (vx f) (vx fi) h (now s) (length l)) (oscillation (vy A) (vy f) (vy fi) h (now s) (length l)) (oscillation (vz A) (vz f) (vz fi) h (now s) (length l))) (state_of b) (state_of b').
Proof. intros ids A f fi h l s X Y. exact (harmonic_run ids X Y A f fi h l s). Qed.
Print Assumptions C123_harmonic_partial.
(** C123: the same for rotations *)
Theorem C123_rotation_partial : forall ids w0 a z A f fi h l s, ids <> [] -> NoDup ids -> norm2 a = 1 -> (forall p, In p l -> dt (s_conf p) = h) -> (f = 0 \/ sin (PI * f * h) <> 0) ->
  clumps_ok (world s) -> plain_all (world s) l -> engine s = HarmonicRotation w0 a true z A f fi ->
  exists s' w', sim_run ids l s = Done s' /\ engine s' = HarmonicRotation w' a true z A f fi /\
    forall i b, In i ids -> prescribed l (world s) i b -> exists b', nb (world s') i = Some b' /\ screwed z a (oscillation A f fi h (now s) (length l)) 0 (state_of b) (state_of b').
Proof. intros ids w0 a z A f fi h l s X Y. exact (harmonic_rotation_run ids X Y w0 a z A f fi h l s). Qed.
Print Assumptions C123_rotation_partial.
(** C123: the bound on the excursion does not depend on the number of steps *)
Theorem C123_bounded_partial : forall A f fi h t n, Rabs (oscillation A f fi h t n) <= 2 * Rabs ((2 * PI * f * h / 2) / sin (2 * PI * f * h / 2) * A).
Proof. exact osc_bound. Qed.
Print Assumptions C123_bounded_partial.
Example C123_ex : sin (PI * (1/4) * 2) <> 0 /\ (forall p, In p (map ex_step [2; 2]) -> dt (s_conf p) = 2) /\ plain_all ex_w (map ex_step [2; 2]) /\ prescribed (map ex_step [2; 2]) ex_w 0 (ex_body 1 63).
Proof. split; [exact ex_sin|]. split; [intros p [<-|[<-|[]]]; reflexivity|]. split; [apply ex_plain_all; intros h [<-|[<-|[]]]; lra|]. exact (ex_prescribed [2; 2]). Qed.
(** C123 refuted: with a time step of one period the body moves away for ever *)
Theorem C123_drift_refuted : forall n, exists s' b', sim_run ex_ids (map ex_step (repeat 1 n)) ex_drift = Done s' /\ nb (world s') 0%nat = Some b' /\ pos (state_of b') = V (1 - 2 * PI * INR n) 0 0.
Proof. exact drifts. Qed.
Print Assumptions C123_drift_refuted.

(** C124: whatever forces act, bodies moved by the controller never go faster than maxVelocity, do not rotate, and do
    not get farther than maxVelocity times the time *)
Theorem C124_speed_partial : forall ids p0 v0 a0 l s, ids <> [] -> NoDup ids -> clumps_ok (world s) -> plain_all (world s) l -> engine s = Servo v0 a0 p0 ->
  Rabs (curVel p0) <= Rabs (maxVelocity p0) -> ((iterPrevStart p0 < 0)%Z \/ norm2 (paxis p0) <= 1) ->
  exists s' v' a' p', sim_run ids l s = Done s' /\ engine s' = Servo v' a' p' /\ maxVelocity p' = maxVelocity p0 /\
    forall i b, In i ids -> prescribed l (world s) i b -> exists b', nb (world s') i = Some b' /\
      (l <> [] -> norm (vel (state_of b')) <= Rabs (maxVelocity p0) /\ angVel (state_of b') = vzero) /\
      norm (vsub (pos (state_of b')) (pos (state_of b))) <= Rabs (maxVelocity p0) * path_length l /\ ori (state_of b') = ori (state_of b).
Proof. exact servo_run. Qed.
Print Assumptions C124_speed_partial.
Example C124_speed_ex : Rabs (curVel (ex_pid (V 1 0 0))) <= Rabs (maxVelocity (ex_pid (V 1 0 0))) /\ (iterPrevStart (ex_pid (V 1 0 0)) < 0)%Z.
Proof. split; [|reflexivity]. cbn [ex_pid curVel maxVelocity]. rewrite Rabs_R0, Rabs_R1. lra. Qed.
(** C124: along a coordinate axis the controller compares the force on the bodies with the target *)
Theorem C124_measured_partial : forall p m ids w, (iterPrevStart p <? 0)%Z || (iterPeriod p <=? iter m - iterPrevStart p)%Z = true -> norm2 (paxis p) = 1 ->
  (vy (paxis p) = 0 /\ vz (paxis p) = 0) \/ (vx (paxis p) = 0 /\ vz (paxis p) = 0) \/ (vx (paxis p) = 0 /\ vy (paxis p) = 0) ->
  errorCur (regulate p m ids w) = Rabs (dot (total_force ids w) (paxis p)) - target p.
Proof. exact measured. Qed.
Print Assumptions C124_measured_partial.
(** C124 refuted: an inclined axis: the force along the axis is the target, yet the controller moves the bodies *)
Theorem C124_inclined_refuted : let w := mkW (nb ex_w) (fun i => if Nat.eqb i 0 then V 15 20 0 else vzero) (fun _ => vzero) in let a := V (3/5) (4/5) 0 in
  norm2 a = 1 /\ dot (total_force [0%nat] w) a = 25 /\ norm (total_force [0%nat] w) = 25 /\
  errorCur (regulate (ex_pid a) (mkM 0 1 0) [0%nat] w) < 0 /\ curVel (regulate (ex_pid a) (mkM 0 1 0) [0%nat] w) <> 0.
Proof. exact inclined. Qed.
Print Assumptions C124_inclined_refuted.
(** C124 refuted: pulling and pushing are the same to the controller *)
Theorem C124_sign_refuted : let w := mkW (nb ex_w) (fun i => if Nat.eqb i 0 then V (-25) 0 0 else vzero) (fun _ => vzero) in let a := V 1 0 0 in
  dot (total_force [0%nat] w) a = -25 /\ errorCur (regulate (ex_pid a) (mkM 0 1 0) [0%nat] w) = 0 /\ target (ex_pid a) = 25.
Proof. exact pulled. Qed.
Print Assumptions C124_sign_refuted.

(** C125: a combination gives each listed body the sum of the velocities the engines would give it alone; the
    attributes of the engines become what they would become alone; nothing else changes *)
Theorem C125_sum_partial : forall m ids es w, ids <> [] -> NoDup ids -> (forall e, In (false, e) es -> exists x, kin_action ids e m w = Done x) ->
  exists es' w', combined_action ids es m w = Done (es', w') /\
    Forall2 (fun x x' : bool * kin => fst x' = fst x /\ if fst x then snd x' = snd x else exists w1, kin_action ids (snd x) m w = Done (snd x', w1)) es es' /\
    force w' = force w /\ torque w' = torque w /\
    forall i, (~ In i ids -> nb w' i = nb w i) /\ (nb w i = None -> nb w' i = None) /\
      forall b, In i ids -> nb w i = Some b ->
        nb w' i = Some (with_velocities b (vsum (map (fun e => fst (imposed ids m w i e)) (live es))) (vsum (map (fun e => snd (imposed ids m w i e)) (live es)))).
Proof. exact combined_sum. Qed.
Print Assumptions C125_sum_partial.
(** C125: so the order of the engines does not matter *)
Theorem C125_order_partial : forall m ids es es2 w, ids <> [] -> NoDup ids -> (forall e, In (false, e) es -> exists x, kin_action ids e m w = Done x) -> Permutation es es2 ->
  exists es' es2' w' w2', combined_action ids es m w = Done (es', w') /\ combined_action ids es2 m w = Done (es2', w2') /\ forall i, nb w2' i = nb w' i.
Proof. exact combined_perm. Qed.
Print Assumptions C125_order_partial.
(** C125: an engine changes nothing but velocities of listed bodies *)
Theorem C125_frame_partial : forall m ids e w e' w', ids <> [] -> NoDup ids -> kin_action ids e m w = Done (e', w') ->
  force w' = force w /\ torque w' = torque w /\
  forall i, (~ In i ids -> nb w' i = nb w i) /\ (nb w i = None -> nb w' i = None) /\ forall b, nb w i = Some b -> exists v om, nb w' i = Some (with_velocities b v om).
Proof. exact single_frame. Qed.
Print Assumptions C125_frame_partial.
Example C125_ex : exists x y, kin_action ex_ids (Translation 1 (V 1 0 0)) (mkM 0 1 0) ex_w = Done x /\ kin_action ex_ids (Rotation 1 (V 0 0 1) true vzero) (mkM 0 1 0) ex_w = Done y.
Proof. eexists _, _. split; reflexivity. Qed.
(** C125 refuted: ab=a+b; abc=ab+c changes ab *)
Theorem C125_operator_refuted : exists h h1 h2 ab, kadd h 0 1 = Some (ab, h1) /\ kadd h1 ab 2 = Some (ab, h2) /\ nth_error h1 ab = Some (Combined [5] [0; 1])%nat /\ nth_error h2 ab = Some (Combined [5] [0; 1; 2])%nat.
Proof. exact operator_changes. Qed.
Print Assumptions C125_operator_refuted.
