(** Cases that meet the hypotheses of the theorems about imposed velocities, and cases that go wrong. *)
From Coq Require Import Reals List NArith ZArith Bool Lia Lra Psatz.
From Verif Require Import Vec_Model Vec_Proofs Rigid_Model Rigid_Spec Newton_Model Newton_Spec Newton_Proofs2 Interp_Model Interp_Spec Interp_Example Kine_Model Kine_Spec Kine_Proofs Kine_Proofs2 Kine_Proofs3 Kine_Proofs4.
Import ListNotations.
Local Open Scope R_scope.

(** two bodies that are moved, one that is not *)
Definition ex_body (x : R) (blocked : N) : nbody := mkB (mkS (mkR (V x 0 0) qid (V 7 0 0) vzero 1 (V 1 1 1)) vzero blocked true 1) false 1 None [] 0 false.
Definition ex_w : nworld := mkW (fun i => match i with 0 => Some (ex_body 1 63) | 2 => Some (ex_body 3 63) | 3 => Some (ex_body 5 0) | _ => None end)%nat (fun _ => vzero) (fun _ => vzero).
Definition ex_conf (h : R) : conf := mkC h 0 vzero (-1) false false false 0 mzero mzero false (fun _ => vzero) (fun _ => vzero) 0.
Definition ex_step (h : R) : one_step := mkStep (ex_conf h) [3; 0; 2]%nat (fun _ => V 1 2 3) (fun _ => vzero).
Definition ex_ids : list nat := [2; 0]%nat.
Lemma ex_clumps : clumps_ok ex_w.
Proof. split; intros i b; intros; destruct i as [|[|[|[|i]]]]; cbn [ex_w nb] in *; try discriminate; injection H as <-; discriminate. Qed.
Lemma ex_plain h : h <> 0 -> plain ex_w (ex_step h).
Proof.
  intros H. split; [|split; [|split; [exact H|split; reflexivity]]].
  - repeat constructor; cbn [In]; lia.
  - intros i b E. destruct i as [|[|[|[|i]]]]; cbn [ex_w nb] in E; try discriminate; cbn [ex_step s_ids In]; lia.
Qed.
Lemma ex_plain_all (l : list R) : (forall h, In h l -> h <> 0) -> plain_all ex_w (map ex_step l).
Proof. intros H p Hp. apply in_map_iff in Hp. destruct Hp as (h & <- & Hh). apply ex_plain, H, Hh. Qed.
Lemma ex_prescribed (l : list R) : prescribed (map ex_step l) ex_w 0 (ex_body 1 63).
Proof.
  split; [reflexivity|]. split; [reflexivity|]. split; [reflexivity|]. split; [reflexivity|]. split; [unfold state_of; cbn [ex_body st rs ori]; unfold qnorm2, qid, norm2, dot, vzero; cbn [qw qv vx vy vz]; ring|].
  intros p Hp. apply in_map_iff in Hp. destruct Hp as (h & <- & _). split; reflexivity.
Qed.
Lemma ex_ids_ok : ex_ids <> [] /\ NoDup ex_ids /\ In 0%nat ex_ids.
Proof. split; [discriminate|]. split; [repeat constructor; cbn [In ex_ids]; lia|]. right. left. reflexivity. Qed.
Lemma ex_axis : norm2 (V 0 0 1) = 1.
Proof. unfold norm2, dot. cbn [vx vy vz]. ring. Qed.
Lemma ex_sin : sin (PI * (1/4) * 2) <> 0.
Proof. replace (PI * (1/4) * 2) with (PI / 2) by field. rewrite sin_PI2. lra. Qed.

(** ** a body listed twice *)
Lemma twice : forall m, exists w', kin_action [0; 0]%nat (Translation 1 (V 1 0 0)) m ex_w = Done (Translation 1 (V 1 0 0), w') /\
  exists b', nb w' 0%nat = Some b' /\ vel (state_of b') = V 2 0 0.
Proof.
  intros m. eexists. split; [reflexivity|]. eexists. split; [reflexivity|]. unfold state_of. cbn [with_st with_rs st rs set_angVel set_vel vel fst]. unfold vadd, smul, vzero. cbn [vx vy vz]. f_equal; ring.
Qed.
(** ** a pedal: the first quarter of a turn *)
Lemma from_z_z : from_z (V 0 0 1) = qid.
Proof.
  unfold from_z. rewrite (vnormalize_unit _ ex_axis). cbn [vz]. destruct (Req_EM_T 1 (-1)); [lra|]. unfold cross, smul, qid, vzero. cbn [vx vy vz]. replace (sqrt ((1 + 1) * 2)) with 2; [f_equal; [field|f_equal; ring]|].
  replace ((1 + 1) * 2) with (Rsqr 2) by (unfold Rsqr; ring). symmetry. apply sqrt_Rsqr. lra.
Qed.
Definition ex_pedal : sim := mkSim (Pedal (PI / 2) (V 0 0 1) 1 0) 0 0 ex_w.
Lemma wrong_phase : exists s' b', sim_run ex_ids [ex_step 1] ex_pedal = Done s' /\ nb (world s') 0%nat = Some b' /\
  pos (state_of b') = V (1 + 1) (-1) 0 /\ pos (state_of b') <> vadd (V 1 0 0) (V (1 * cos (0 + PI / 2 * 1) - 1 * cos 0) (1 * sin (0 + PI / 2 * 1) - 1 * sin 0) 0).
Proof.
  destruct ex_ids_ok as (A & B & C).
  destruct (pedal_run ex_ids A B (PI / 2) (V 0 0 1) 1 0 [ex_step 1] ex_pedal ex_clumps (ex_plain_all [1] ltac:(intros h [<-|[]]; lra)) eq_refl) as (s' & R & _ & H).
  destruct (H 0%nat (ex_body 1 63) C (ex_prescribed [1])) as (b' & N & (Q & _)). exists s', b'. split; [exact R|]. split; [exact N|].
  assert (X : pos (state_of b') = V (1 + 1) (-1) 0).
  { rewrite Q, from_z_z, qrot_id. unfold duration, rsum. cbn [map fold_right ex_step s_conf ex_conf dt]. replace (0 + PI / 2 * (1 + 0)) with (PI / 2) by field. rewrite cos_0, sin_0, cos_PI2, sin_PI2. unfold state_of. cbn [ex_body st rs pos]. unfold vadd. cbn [vx vy vz]. f_equal; ring. }
  split; [exact X|]. rewrite X. replace (0 + PI / 2 * 1) with (PI / 2) by field. rewrite cos_0, sin_0, cos_PI2, sin_PI2. unfold vadd. cbn [vx vy vz]. intros E. injection E as E1 E2. lra.
Qed.
(** ** harmonic motion with a time step of one period *)
Definition ex_drift : sim := mkSim (HarmonicMotion (V 1 0 0) (V 1 0 0) (V (PI / 2) (PI / 2) (PI / 2))) 0 0 ex_w.
Lemma drifts : forall n, exists s' b', sim_run ex_ids (map ex_step (repeat 1 n)) ex_drift = Done s' /\ nb (world s') 0%nat = Some b' /\ pos (state_of b') = V (1 - 2 * PI * INR n) 0 0.
Proof.
  intros n. destruct ex_ids_ok as (A & B & C).
  destruct (drift_run ex_ids A B (map ex_step (repeat 1 n)) ex_drift) as (s' & R & H).
  - intros p Hp. apply in_map_iff in Hp. destruct Hp as (h & <- & Hh). apply repeat_spec in Hh. subst h. reflexivity.
  - exact ex_clumps.
  - apply ex_plain_all. intros h Hh. apply repeat_spec in Hh. subst h. lra.
  - reflexivity.
  - reflexivity.
  - destruct (H 0%nat (ex_body 1 63) C (ex_prescribed (repeat 1 n))) as (b' & N & (Q & _)). exists s', b'. split; [exact R|]. split; [exact N|]. rewrite Q. rewrite map_length, repeat_length. unfold state_of. cbn [ex_body st rs pos]. unfold vadd. cbn [vx vy vz]. f_equal; ring.
Qed.
(** ** servo *)
Definition ex_pid (a : vec) : pid := mkPid 1 a 25 vzero 1 0 0 0 0 0 0 100 (-1).
(** an inclined axis: the force along the axis is the target, but the controller sees an error *)
Lemma inclined : let w := mkW (nb ex_w) (fun i => if Nat.eqb i 0 then V 15 20 0 else vzero) (fun _ => vzero) in let a := V (3/5) (4/5) 0 in
  norm2 a = 1 /\ dot (total_force [0%nat] w) a = 25 /\ norm (total_force [0%nat] w) = 25 /\
  errorCur (regulate (ex_pid a) (mkM 0 1 0) [0%nat] w) < 0 /\ curVel (regulate (ex_pid a) (mkM 0 1 0) [0%nat] w) <> 0.
Proof.
  cbv zeta. set (a := V (3/5) (4/5) 0). assert (U : norm2 a = 1) by (unfold a, norm2, dot; cbn [vx vy vz]; field). split; [exact U|].
  set (w := mkW _ _ _). assert (T : total_force [0%nat] w = V 15 20 0) by (unfold total_force, w; cbn [map force Nat.eqb vsum fold_right]; unfold vadd, vzero; cbn [vx vy vz]; f_equal; ring). rewrite T.
  split; [unfold a, dot; cbn [vx vy vz]; field|]. split. { unfold norm, norm2, dot. cbn [vx vy vz]. replace (15 * 15 + 20 * 20 + 0 * 0) with (Rsqr 25) by (unfold Rsqr; ring). apply sqrt_Rsqr. lra. }
  assert (E : errorCur (regulate (ex_pid a) (mkM 0 1 0) [0%nat] w) = sqrt 337 - 25).
  { unfold regulate. cbn [ex_pid iterPrevStart Z.ltb Z.compare orb errorCur paxis target]. rewrite (vnormalize_unit a U), fold_force, vadd_0_l. fold (total_force [0%nat] w). rewrite T. f_equal. unfold norm, norm2, dot, vprod, a. cbn [vx vy vz]. f_equal. field. }
  assert (S : sqrt 337 < 19). { replace 19 with (sqrt (19 * 19)) by (apply sqrt_square; lra). apply sqrt_lt_1_alt. lra. }
  split; [rewrite E; lra|].
  assert (V' : curVel (regulate (ex_pid a) (mkM 0 1 0) [0%nat] w) = let v := sqrt 337 - 25 in if Rlt_dec (Rabs 1) (Rabs v) then v * (Rabs 1 / Rabs v) else v).
  { unfold regulate. cbn [ex_pid iterPrevStart Z.ltb Z.compare orb curVel paxis target kP kI kD iTerm errorPrev maxVelocity]. rewrite (vnormalize_unit a U), fold_force, vadd_0_l. fold (total_force [0%nat] w). rewrite T. 
    replace (norm (vprod (V 15 20 0) a)) with (sqrt 337) by (unfold norm, norm2, dot, vprod, a; cbn [vx vy vz]; f_equal; field).
    replace ((sqrt 337 - 25) * 1 + (0 + (sqrt 337 - 25) * 0) + (sqrt 337 - 25 - 0) * 0) with (sqrt 337 - 25) by ring. reflexivity. }
  rewrite V'. cbv zeta. pose proof (sqrt_pos 337). destruct (Rlt_dec (Rabs 1) (Rabs (sqrt 337 - 25))) as [L|L]; [|lra]. rewrite Rabs_R1, Rabs_left by lra. unfold Rdiv. intros Z. apply Rmult_integral in Z. destruct Z as [Z|Z]; [lra|]. apply Rmult_integral in Z. destruct Z as [Z|Z]; [lra|]. revert Z. apply Rinv_neq_0_compat. lra.
Qed.
(** the bodies are pulled with the target force instead of being pushed: no error *)
Lemma pulled : let w := mkW (nb ex_w) (fun i => if Nat.eqb i 0 then V (-25) 0 0 else vzero) (fun _ => vzero) in let a := V 1 0 0 in
  dot (total_force [0%nat] w) a = -25 /\ errorCur (regulate (ex_pid a) (mkM 0 1 0) [0%nat] w) = 0 /\ target (ex_pid a) = 25.
Proof.
  cbv zeta. set (a := V 1 0 0). assert (U : norm2 a = 1) by (unfold a, norm2, dot; cbn [vx vy vz]; ring). set (w := mkW _ _ _).
  assert (T : total_force [0%nat] w = V (-25) 0 0) by (unfold total_force, w; cbn [map force Nat.eqb vsum fold_right]; unfold vadd, vzero; cbn [vx vy vz]; f_equal; ring).
  assert (D : dot (total_force [0%nat] w) a = -25) by (rewrite T; unfold a, dot; cbn [vx vy vz]; ring). split; [exact D|]. split; [|reflexivity].
  rewrite (measured (ex_pid a) (mkM 0 1 0) [0%nat] w eq_refl U (or_introl (conj eq_refl eq_refl))). cbn [paxis ex_pid target]. rewrite D. rewrite Rabs_left by lra. lra.
Qed.
(** ** the operator + *)
Lemma operator_changes : exists h h1 h2 ab, kadd h 0 1 = Some (ab, h1) /\ kadd h1 ab 2 = Some (ab, h2) /\ nth_error h1 ab = Some (Combined [5] [0; 1])%nat /\ nth_error h2 ab = Some (Combined [5] [0; 1; 2])%nat.
Proof. exists [Single [5]; Single [6]; Single [7]]%nat. eexists _, _, _. split; [reflexivity|]. split; [reflexivity|]. split; reflexivity. Qed.
