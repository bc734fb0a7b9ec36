(** Proofs about engines that impose velocities: one step. *)
From Coq Require Import Reals List NArith ZArith Bool Lia Lra Psatz.
From Verif Require Import Vec_Model Vec_Proofs Rigid_Model Rigid_Spec Attr_Model Newton_Model Newton_Spec Newton_Proofs Newton_Proofs2 Interp_Model Interp_Spec Interp_Proofs Kine_Model Kine_Spec.
Import ListNotations.
Local Open Scope R_scope.

Definition inb (i : nat) (ids : list nat) : bool := existsb (Nat.eqb i) ids.
Lemma inb_spec i ids : inb i ids = true <-> In i ids.
Proof. apply existsb_in. Qed.

(** ** loops over ids *)
(** the effect of a loop: velocities of the listed bodies are changed by a function of the state *)
Definition touched (g : rstate -> vec * vec) (ids : list nat) (w w' : nworld) : Prop :=
  force w' = force w /\ torque w' = torque w /\
  forall i, nb w' i = match nb w i with Some b => if inb i ids then Some (with_velocities b (fst (g (state_of b))) (snd (g (state_of b)))) else Some b | None => None end.
Lemma fold_touched (h : nworld -> nat -> nworld) (g : rstate -> vec * vec) :
  (forall w i, force (h w i) = force w /\ torque (h w i) = torque w /\ forall j, nb (h w i) j = if Nat.eqb j i then match nb w i with Some b => Some (with_velocities b (fst (g (state_of b))) (snd (g (state_of b)))) | None => None end else nb w j) ->
  forall ids w, NoDup ids -> touched g ids w (fold_left h ids w).
Proof.
  intros H. induction ids as [|i ids IH]; intros w Hd; cbn [fold_left].
  - split; [reflexivity|]. split; [reflexivity|]. intros i. cbn [inb existsb]. destruct (nb w i); reflexivity.
  - inversion Hd as [|? ? Hi Hd']; subst. destruct (IH (h w i) Hd') as (A & B & C). destruct (H w i) as (A' & B' & C').
    split; [congruence|]. split; [congruence|]. intros j. rewrite C, C'. change (inb j (i :: ids)) with (Nat.eqb j i || inb j ids).
    destruct (Nat.eqb_spec j i) as [->|Hn]; cbn [orb]; [|reflexivity]. destruct (nb w i) as [b|]; [|reflexivity].
    destruct (inb i ids) eqn:E; [apply inb_spec in E; contradiction|reflexivity].
Qed.
Lemma reset_touched ids w : NoDup ids -> touched (fun _ => (vzero, vzero)) ids w (reset ids w).
Proof.
  apply fold_touched. intros w1 i. unfold reset_body. destruct (nb w1 i) as [b|] eqn:E; cbn [put nb force torque]; (split; [reflexivity|]; split; [reflexivity|]); intros j.
  - destruct (Nat.eqb_spec j i); reflexivity.
  - destruct (Nat.eqb_spec j i) as [->|]; [exact E|reflexivity].
Qed.
Lemma for_touched f ids w : NoDup ids -> touched (fun r => (vadd (vel r) (fst (f r)), vadd (angVel r) (snd (f r)))) ids w (for_ids f ids w).
Proof.
  apply fold_touched. intros w1 i. unfold increment. destruct (nb w1 i) as [b|] eqn:E; cbn [put nb force torque]; (split; [reflexivity|]; split; [reflexivity|]); intros j.
  - destruct (Nat.eqb_spec j i); reflexivity.
  - destruct (Nat.eqb_spec j i) as [->|]; [exact E|reflexivity].
Qed.
Lemma with_velocities_twice b v w v' w' : with_velocities (with_velocities b v w) v' w' = with_velocities b v' w'.
Proof. destruct b as [[r ? ? ? ?] ? ? ? ? ? ?]. destruct r. reflexivity. Qed.
Lemma state_with b v w : state_of (with_velocities b v w) = set_angVel (set_vel (state_of b) v) w.
Proof. reflexivity. Qed.
Lemma touched_trans g1 g2 ids w w1 w2 : touched g1 ids w w1 -> touched g2 ids w1 w2 ->
  touched (fun r => g2 (set_angVel (set_vel r (fst (g1 r))) (snd (g1 r)))) ids w w2.
Proof.
  intros (A1 & B1 & C1) (A2 & B2 & C2). split; [congruence|]. split; [congruence|]. intros i. rewrite C2, C1. destruct (nb w i) as [b|]; [|reflexivity].
  destruct (inb i ids) eqn:E; [|reflexivity]. rewrite with_velocities_twice, state_with. reflexivity.
Qed.
Lemma touched_ext g1 g2 ids w w' : (forall r, g1 r = g2 r) -> touched g1 ids w w' -> touched g2 ids w w'.
Proof. intros H (A & B & C). split; [exact A|]. split; [exact B|]. intros i. rewrite C. destruct (nb w i) as [b|]; [|reflexivity]. rewrite H. reflexivity. Qed.

(** ** what each engine adds: a function of position and orientation, of the moment and of the forces *)
Definition still (r : rstate) : rstate := mkR (pos r) (ori r) vzero vzero (mass r) (inertia r).
Definition blind (f : rstate -> vec * vec) : Prop := forall r v w, f (set_angVel (set_vel r v) w) = f r.
Definition plus (f : rstate -> vec * vec) (r : rstate) : vec * vec := (vadd (vel r) (fst (f r)), vadd (angVel r) (snd (f r))).
Definition effect (e : kin) (m : moment) (ids : list nat) (F : nat -> vec) : outcome (kin * (rstate -> vec * vec)) :=
  match e with
  | Translation v a => Done (e, fun _ => (smul v a, vzero))
  | HarmonicMotion A f fi => Done (e, fun _ => (harmonic A f fi (time m), vzero))
  | Rotation w a around z => Done (e, rotation w a around z m)
  | Helix w a _ z lin turned => Done (Helix w a true z lin (turned + w * sdt m), fun r => (vadd (smul lin a) (fst (rotation w a true z m r)), snd (rotation w a true z m r)))
  | InterpHelix _ a around z _ turned times vels wrap slope lookup =>
      match (if wrap then match get times 0, back times with Some t0, Some tn => Some (periodicWrap (time m) t0 tn) | _, _ => None end else Some (time m)) with
      | None => UB
      | Some t =>
        match linearInterpolate t times vels lookup with
        | Done (w, lookup') => Done (InterpHelix w a true z (w * slope) (turned + w * sdt m) times vels wrap slope lookup', fun r => (vadd (smul (w * slope) a) (fst (rotation w a true z m r)), snd (rotation w a true z m r)))
        | NaN p => NaN p | UB => UB | Hang => Hang
        end
      end
  | HarmonicRotation _ a around z A f fi =>
      let om := f * 2 * PI in let w := -1 * A * om * sin (om * time m + fi) in Done (HarmonicRotation w a around z A f fi, rotation w a around z m)
  | Servo _ _ p => let p' := regulate p m ids (mkW (fun _ => None) F F) in Done (Servo (curVel p') (paxis p') p', fun _ => (smul (curVel p') (paxis p'), vzero))
  | Pedal w a radius fi => let v := pedal w a radius fi (sdt m) in Done (Pedal w a radius (fi + w * sdt m), fun _ => (v, vzero))
  end.
Lemma regulate_force p m ids w w' : force w = force w' -> regulate p m ids w = regulate p m ids w'.
Proof. intros H. unfold regulate. rewrite H. reflexivity. Qed.
Lemma rotation_blind w a around z m : blind (rotation w a around z m).
Proof. intros r v u. reflexivity. Qed.
Lemma helix_touched w a z lin m ids nw : NoDup ids ->
  touched (plus (fun r => (vadd (smul lin a) (fst (rotation w a true z m r)), snd (rotation w a true z m r)))) ids nw (helix w a z lin m ids nw).
Proof.
  intros Hd. unfold helix. eapply touched_ext; [|eapply touched_trans; [apply for_touched, Hd|apply for_touched, Hd]]. intros r. unfold plus. cbv beta. rewrite rotation_blind. cbn [fst snd set_angVel set_vel vel angVel]. rewrite <- vadd_assoc, vadd_0_r. reflexivity.
Qed.
Lemma apply_effect e m ids w : ids <> [] -> NoDup ids ->
  match effect e m ids (force w) with
  | Done (e', f) => blind f /\ exists w', apply e m ids w = Done (e', w') /\ touched (plus f) ids w w'
  | NaN p => apply e m ids w = NaN p | UB => apply e m ids w = UB | Hang => apply e m ids w = Hang
  end.
Proof.
  intros Hne Hd. assert (N : nonempty ids = true) by (destruct ids; [congruence|reflexivity]).
  destruct e as [v a|A f fi|om a ar z|om a ar z lin tu|om a ar z lin tu ts vs wr sl lk|om a ar z A f fi|v a p|om a ra fi]; cbn [effect apply]; rewrite ?N.
  - split; [intros r ? ?; reflexivity|]. eexists. split; [reflexivity|]. exact (for_touched _ ids w Hd).
  - split; [intros r ? ?; reflexivity|]. eexists. split; [reflexivity|]. exact (for_touched _ ids w Hd).
  - split; [apply rotation_blind|]. eexists. split; [reflexivity|]. exact (for_touched _ ids w Hd).
  - split; [intros r ? ?; reflexivity|]. eexists. split; [reflexivity|]. apply helix_touched, Hd.
  - destruct (if wr then _ else _) as [t|]; [|reflexivity]. destruct (linearInterpolate t ts vs lk) as [[om' lk']|q| |]; try reflexivity.
    split; [intros r ? ?; reflexivity|]. eexists. split; [reflexivity|]. apply helix_touched, Hd.
  - split; [apply rotation_blind|]. eexists. split; [reflexivity|]. exact (for_touched _ ids w Hd).
  - rewrite (regulate_force p m ids (mkW (fun _ => None) (force w) (force w)) w eq_refl). split; [intros r ? ?; reflexivity|]. eexists. split; [reflexivity|]. exact (for_touched _ ids w Hd).
  - split; [intros r ? ?; reflexivity|]. eexists. split; [reflexivity|]. exact (for_touched _ ids w Hd).
Qed.
Lemma action_effect e m ids w : ids <> [] -> NoDup ids ->
  match effect e m ids (force w) with
  | Done (e', f) => exists w', kin_action ids e m w = Done (e', w') /\ touched f ids w w'
  | NaN p => kin_action ids e m w = NaN p | UB => kin_action ids e m w = UB | Hang => kin_action ids e m w = Hang
  end.
Proof.
  intros Hne Hd. assert (N : nonempty ids = true) by (destruct ids; [congruence|reflexivity]). unfold kin_action. rewrite N.
  pose proof (reset_touched ids w Hd) as T. pose proof (apply_effect e m ids (reset ids w) Hne Hd) as A. rewrite (proj1 T) in A.
  destruct (effect e m ids (force w)) as [[e' f]|p| |]; [|exact A|exact A|exact A]. destruct A as (B & w' & E & T'). exists w'. split; [exact E|].
  eapply touched_ext; [|exact (touched_trans _ _ _ _ _ _ T T')]. intros r. unfold plus. cbv beta. rewrite B. cbn [fst snd set_angVel set_vel vel angVel]. rewrite !vadd_0_l. destruct (f r); reflexivity.
Qed.

(** ** combinations *)
Fixpoint effects (es : list (bool * kin)) (m : moment) (ids : list nat) (F : nat -> vec) (r : rstate) : vec * vec :=
  match es with
  | [] => (vzero, vzero)
  | (true, _) :: es' => effects es' m ids F r
  | (false, e) :: es' => match effect e m ids F with Done (_, f) => (vadd (fst (f r)) (fst (effects es' m ids F r)), vadd (snd (f r)) (snd (effects es' m ids F r))) | _ => effects es' m ids F r end
  end.
Definition next (m : moment) (ids : list nat) (F : nat -> vec) (x : bool * kin) : bool * kin :=
  if fst x then x else match effect (snd x) m ids F with Done (e', _) => (false, e') | _ => x end.
Definition fine (m : moment) (ids : list nat) (F : nat -> vec) (es : list (bool * kin)) : Prop := forall e, In (false, e) es -> exists e' f, effect e m ids F = Done (e', f).
Lemma apply_all_effects m ids : ids <> [] -> NoDup ids -> forall es w, fine m ids (force w) es ->
  blind (effects es m ids (force w)) /\ exists w', apply_all es m ids w = Done (map (next m ids (force w)) es, w') /\ touched (plus (effects es m ids (force w))) ids w w'.
Proof.
  intros Hne Hd. induction es as [|[[|] e] es IH]; intros w Hf; cbn [apply_all map effects].
  - split; [intros r v u; reflexivity|]. exists w. split; [reflexivity|]. split; [reflexivity|]. split; [reflexivity|]. intros i. destruct (nb w i) as [b|]; [|reflexivity]. destruct (inb i ids); [|reflexivity]. unfold plus, state_of. cbn [fst snd]. rewrite !vadd_0_r. destruct b as [[r ? ? ? ?] ? ? ? ? ? ?]. destruct r. reflexivity.
  - destruct (IH w) as (B & w' & E & T). { intros e' H'. apply Hf. right. exact H'. } split; [exact B|]. exists w'. rewrite E. split; [reflexivity|exact T].
  - destruct (Hf e (or_introl eq_refl)) as (e' & f & Ee). pose proof (apply_effect e m ids w Hne Hd) as A. rewrite Ee in *. destruct A as (Bf & w1 & E1 & T1).
    destruct (IH w1) as (B & w' & E & T). { rewrite (proj1 T1). intros e2 H'. apply Hf. right. exact H'. }
    rewrite (proj1 T1) in *. split. { intros r v u. rewrite (Bf r v u), (B r v u). reflexivity. }
    exists w'. rewrite E1, E. unfold next at 2. cbn [fst snd]. rewrite Ee. split; [reflexivity|].
    eapply touched_ext; [|exact (touched_trans _ _ _ _ _ _ T1 T)]. intros r. unfold plus. cbv beta. rewrite B. cbn [fst snd set_angVel set_vel vel angVel]. rewrite <- !vadd_assoc. reflexivity.
Qed.
Lemma combined_effects m ids es w : ids <> [] -> NoDup ids -> fine m ids (force w) es ->
  exists w', combined_action ids es m w = Done (map (next m ids (force w)) es, w') /\ touched (effects es m ids (force w)) ids w w'.
Proof.
  intros Hne Hd Hf. assert (N : nonempty ids = true) by (destruct ids; [congruence|reflexivity]). unfold combined_action. rewrite N.
  pose proof (reset_touched ids w Hd) as T. destruct (apply_all_effects m ids Hne Hd es (reset ids w)) as (B & w' & E & T'). { rewrite (proj1 T). exact Hf. }
  rewrite (proj1 T) in *. exists w'. split; [exact E|]. eapply touched_ext; [|exact (touched_trans _ _ _ _ _ _ T T')]. intros r. unfold plus. cbv beta. rewrite B. cbn [fst snd set_angVel set_vel vel angVel]. rewrite !vadd_0_l. destruct (effects es m ids (force w) r); reflexivity.
Qed.

(** ** the integrator on prescribed bodies *)
Definition turn (w : vec) (h : R) (q : quat) : quat := if Req_EM_T (norm2 w) 0 then q else qmul (angle_axis (norm w * h) (smul (/ norm w) w)) q.
Lemma advance_prescribed c i b f m : blockedDOFs (st b) = 63%N -> isPeriodic c = false -> moveRotUsed c = false -> masked_in c b = true -> qnorm2 (ori (rs (st b))) = 1 ->
  advance c i b f m = with_rs (st b) (mkR (vadd (pos (rs (st b))) (smul (dt c) (vel (rs (st b))))) (turn (angVel (rs (st b))) (dt c) (ori (rs (st b)))) (vel (rs (st b))) (angVel (rs (st b))) (mass (rs (st b))) (inertia (rs (st b)))).
Proof.
  intros Hb Hp Hm Hk Hq. unfold advance, accelerate. rewrite Hb, Hp. change (63 =? DOF_ALL)%N with true. cbn [andb].
  assert (U : useAspherical c b = false). { unfold useAspherical. rewrite Hb. change (N.land 63 DOF_RXRYRZ =? DOF_NONE)%N with false. apply andb_false_r. }
  rewrite U. f_equal. unfold leapfrogSphericalRotate, leapfrogTranslate. rewrite Hp, Hm, Hk. cbn [andb pos ori vel angVel mass inertia]. f_equal.
  unfold impose_rot. rewrite Hm. unfold turn. apply qnormalize_id. destruct (Req_EM_T (norm2 (angVel (rs (st b)))) 0) as [|Hn]; [exact Hq|]. rewrite qnorm2_mul, Hq, angle_axis_unit; [ring|]. apply unit_dir, Hn.
Qed.
Lemma turn_unit w h q : qnorm2 q = 1 -> qnorm2 (turn w h q) = 1.
Proof. intros H. unfold turn. destruct (Req_EM_T (norm2 w) 0) as [|Hn]; [exact H|]. rewrite qnorm2_mul, H, angle_axis_unit; [ring|]. apply unit_dir, Hn. Qed.
Lemma turn_zero h q : turn vzero h q = q.
Proof. unfold turn. destruct (Req_EM_T (norm2 vzero) 0) as [|Hn]; [reflexivity|]. exfalso. apply Hn. unfold norm2, dot, vzero. cbn [vx vy vz]. ring. Qed.
Lemma norm_smul_unit k a : norm2 a = 1 -> norm (smul k a) = Rabs k.
Proof. intros H. unfold norm. replace (norm2 (smul k a)) with (k * k * norm2 a) by vring. rewrite H, Rmult_1_r. replace (k * k) with (Rsqr k) by reflexivity. apply sqrt_Rsqr_abs. Qed.
Lemma angle_axis_0 a : angle_axis 0 a = qid.
Proof. unfold angle_axis, qid. replace (0 / 2) with 0 by field. rewrite cos_0, sin_0. f_equal. vring. Qed.
Lemma turn_axis k a h q : norm2 a = 1 -> turn (smul k a) h q = qmul (angle_axis (k * h) a) q.
Proof.
  intros H. unfold turn. assert (E : norm2 (smul k a) = k * k). { replace (norm2 (smul k a)) with (k * k * norm2 a) by vring. rewrite H. ring. } rewrite E.
  destruct (Req_EM_T (k * k) 0) as [Z|N].
  - assert (k = 0) by nra. subst k. rewrite Rmult_0_l, angle_axis_0, qmul_id_l. reflexivity.
  - assert (k <> 0) by nra. rewrite (norm_smul_unit k a H). f_equal. unfold angle_axis. destruct (Rcase_abs k) as [L|G].
    + rewrite (Rabs_left k L). replace (- k * h / 2) with (- (k * h / 2)) by field. rewrite cos_neg, sin_neg. f_equal. replace (smul (/ - k) (smul k a)) with (smul (/ - k * k) a) by vring. replace (/ - k * k) with (-1) by (field; exact H0). vring.
    + rewrite (Rabs_right k G). f_equal. replace (smul (/ k) (smul k a)) with (smul (/ k * k) a) by vring. rewrite Rinv_l by exact H0. rewrite smul_1. reflexivity.
Qed.
