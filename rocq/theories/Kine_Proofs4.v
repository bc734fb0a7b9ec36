(** Proofs about engines that impose velocities: the servo controller, combinations, and what goes wrong. *)
From Coq Require Import Reals List NArith ZArith Bool Lia Lra Psatz Permutation.
From Verif Require Import Vec_Model Vec_Proofs Pred_Proofs Rigid_Model Rigid_Spec Attr_Model Newton_Model Newton_Spec Newton_Proofs Newton_Proofs2 Interp_Model Interp_Spec Interp_Proofs Kine_Model Kine_Spec Kine_Proofs Kine_Proofs2 Kine_Proofs3.
Import ListNotations.
Local Open Scope R_scope.

(** ** the servo controller *)
Lemma vnormalize_norm a : norm2 (vnormalize a) <= 1.
Proof.
  unfold vnormalize. destruct (Rlt_dec 0 (norm2 a)) as [H|H]; [|lra]. rewrite unit_dir; lra.
Qed.
Definition due (p : pid) (n : Z) : bool := (iterPrevStart p <? 0)%Z || (iterPeriod p <=? n - iterPrevStart p)%Z.
Lemma clamp_bound M v : Rabs (if Rlt_dec (Rabs M) (Rabs v) then v * (Rabs M / Rabs v) else v) <= Rabs M.
Proof.
  destruct (Rlt_dec (Rabs M) (Rabs v)) as [H|H]; [|lra]. pose proof (Rabs_pos M). unfold Rdiv. rewrite !Rabs_mult, Rabs_Rabsolu, Rabs_inv, Rabs_Rabsolu. right. field. lra.
Qed.
Lemma regulate_bound p m ids w : Rabs (curVel p) <= Rabs (maxVelocity p) -> Rabs (curVel (regulate p m ids w)) <= Rabs (maxVelocity p).
Proof. intros H. unfold regulate. destruct (_ || _); [|exact H]. cbn [curVel]. apply clamp_bound. Qed.
Lemma regulate_max p m ids w : maxVelocity (regulate p m ids w) = maxVelocity p.
Proof. unfold regulate. destruct (_ || _); reflexivity. Qed.
Lemma regulate_axis p m ids w : (iterPrevStart p < 0)%Z \/ norm2 (paxis p) <= 1 -> norm2 (paxis (regulate p m ids w)) <= 1.
Proof.
  intros H. unfold regulate. destruct (Z.ltb_spec (iterPrevStart p) 0); cbn [orb]; [cbn [paxis]; apply vnormalize_norm|]. destruct (_ <=? _)%Z; [cbn [paxis]; apply vnormalize_norm|]. destruct H; [lia|assumption].
Qed.
Lemma norm_le_1 a : norm2 a <= 1 -> norm a <= 1.
Proof. intros H. unfold norm. rewrite <- sqrt_1. apply sqrt_le_1_alt. exact H. Qed.
Lemma path_snoc d p : path_length (d ++ [p]) = path_length d + Rabs (dt (s_conf p)).
Proof. unfold path_length. rewrite map_app, rsum_app. f_equal. unfold rsum. cbn [map fold_right]. apply Rplus_0_r. Qed.
Lemma servo_run ids p0 v0 a0 l s : ids <> [] -> NoDup ids -> clumps_ok (world s) -> plain_all (world s) l -> engine s = Servo v0 a0 p0 ->
  Rabs (curVel p0) <= Rabs (maxVelocity p0) -> ((iterPrevStart p0 < 0)%Z \/ norm2 (paxis p0) <= 1) ->
  exists s' v' a' p', sim_run ids l s = Done s' /\ engine s' = Servo v' a' p' /\ maxVelocity p' = maxVelocity p0 /\
    forall i b, In i ids -> prescribed l (world s) i b -> exists b', nb (world s') i = Some b' /\
      (l <> [] -> norm (vel (state_of b')) <= Rabs (maxVelocity p0) /\ angVel (state_of b') = vzero) /\ norm (vsub (pos (state_of b')) (pos (state_of b))) <= Rabs (maxVelocity p0) * path_length l /\ ori (state_of b') = ori (state_of b).
Proof.
  intros Hne Hd K P E H1 H2. set (M := maxVelocity p0) in *.
  destruct (run_inv ids (fun d e t n => exists v a p, e = Servo v a p /\ maxVelocity p = M /\ Rabs (curVel p) <= Rabs M /\ ((iterPrevStart p < 0)%Z \/ norm2 (paxis p) <= 1))
             (fun i d e t r => forall b, nb (world s) i = Some b -> (d <> [] -> norm (vel r) <= Rabs M /\ angVel r = vzero) /\ norm (vsub (pos r) (pos (state_of b))) <= Rabs M * path_length d /\ ori r = ori (state_of b)) (fun p => True)) with (l := l) (d := @nil one_step) (s := s) as (s' & R & (v' & a' & p' & E1 & E2 & E3 & E4) & HB); try assumption; try (intros; exact I).
  - intros d p e t n _ Hdt (v & a & q & He & Hm & Hc & Hx). subst e. cbn [effect]. set (q' := regulate q (mkM t (dt (s_conf p)) n) ids (mkW (fun _ => None) (s_force p) (s_force p))).
    assert (C : Rabs (curVel q') <= Rabs M) by (rewrite <- Hm; apply regulate_bound; rewrite Hm; exact Hc). assert (X : norm2 (paxis q') <= 1) by (apply regulate_axis; exact Hx).
    eexists _, _. split; [reflexivity|]. split. { exists (curVel q'), (paxis q'), q'. split; [reflexivity|]. split; [unfold q'; rewrite regulate_max; exact Hm|]. split; [exact C|right; exact X]. }
    intros i r r' B _ X1 X2 X3 X4 X5 X6 b Hb. destruct (B b Hb) as (B1 & B2 & B3). cbn [fst snd] in *.
    assert (V1 : norm (smul (curVel q') (paxis q')) <= Rabs M). { rewrite norm_smul. pose proof (norm_le_1 _ X). pose proof (Rabs_pos (curVel q')). pose proof (norm_pos (paxis q')). apply Rle_trans with (Rabs (curVel q') * 1); [apply Rmult_le_compat_l; assumption|lra]. }
    split; [intros _; split; [rewrite X3; exact V1|exact X4]|]. split; [|rewrite X2, turn_zero; exact B3].
    rewrite X1, path_snoc. set (vv := smul (curVel q') (paxis q')) in *. replace (vsub (vadd (pos r) (smul (dt (s_conf p)) vv)) (pos (state_of b))) with (vadd (vsub (pos r) (pos (state_of b))) (smul (dt (s_conf p)) vv)) by (generalize (pos r) (pos (state_of b)) vv; clear; intros; vring).
    eapply Rle_trans; [apply norm_triangle|]. rewrite norm_smul. pose proof (Rabs_pos (dt (s_conf p))). assert (Rabs (dt (s_conf p)) * norm vv <= Rabs (dt (s_conf p)) * Rabs M) by (apply Rmult_le_compat_l; assumption). lra.
  - exists v0, a0, p0. split; [exact E|]. split; [reflexivity|]. split; assumption.
  - exists s', v', a', p'. split; [exact R|]. split; [exact E1|]. split; [exact E2|]. intros i b Hi Q. destruct (HB i b Hi Q) as (b' & N & B).
    + intros b0 Hb0. rewrite (proj1 Q) in Hb0. injection Hb0 as <-. split; [congruence|]. split; [|reflexivity]. rewrite vsub_self. unfold path_length. cbn [map rsum fold_right]. rewrite Rmult_0_r. unfold norm. replace (norm2 vzero) with 0 by vring. rewrite sqrt_0. lra.
    + exists b'. split; [exact N|]. exact (B b (proj1 Q)).
Qed.
Lemma fold_force (w : nworld) ids : forall f, fold_left (fun f i => vadd f (force w i)) ids f = vadd f (vsum (map (force w) ids)).
Proof. induction ids as [|i ids IH]; intros f; cbn [fold_left map vsum fold_right]; [rewrite vadd_0_r; reflexivity|]. rewrite IH. fold (vsum (map (force w) ids)). rewrite vadd_assoc. reflexivity. Qed.
(** along a coordinate axis the controller measures the force on the bodies *)
Lemma measured p m ids w : due p (iter m) = true -> norm2 (paxis p) = 1 ->
  (vy (paxis p) = 0 /\ vz (paxis p) = 0) \/ (vx (paxis p) = 0 /\ vz (paxis p) = 0) \/ (vx (paxis p) = 0 /\ vy (paxis p) = 0) ->
  errorCur (regulate p m ids w) = Rabs (dot (total_force ids w) (paxis p)) - target p.
Proof.
  intros D U C. unfold regulate. unfold due in D. rewrite D. cbn [errorCur]. rewrite (vnormalize_unit _ U), fold_force, vadd_0_l. fold (total_force ids w). f_equal.
  destruct (total_force ids w) as [f1 f2 f3], (paxis p) as [a1 a2 a3]. cbn [vx vy vz] in C. unfold norm, norm2, dot, vprod. cbn [vx vy vz]. rewrite <- sqrt_Rsqr_abs. f_equal. unfold Rsqr.
  destruct C as [(-> & ->)|[(-> & ->)|(-> & ->)]]; ring.
Qed.
(** ** combinations *)
Lemma imposed_effect ids m w i e b e' f : ids <> [] -> NoDup ids -> In i ids -> nb w i = Some b -> effect e m ids (force w) = Done (e', f) -> imposed ids m w i e = f (state_of b).
Proof.
  intros Hne Hd Hi Hb E. pose proof (action_effect e m ids w Hne Hd) as A. rewrite E in A. destruct A as (w' & A & (_ & _ & T)). unfold imposed. rewrite A, T, Hb, (proj2 (inb_spec i ids) Hi). rewrite state_with. cbn [set_angVel set_vel vel angVel]. destruct (f (state_of b)); reflexivity.
Qed.
Lemma effects_sum ids m w i b es : ids <> [] -> NoDup ids -> In i ids -> nb w i = Some b -> fine m ids (force w) es ->
  effects es m ids (force w) (state_of b) = (vsum (map (fun e => fst (imposed ids m w i e)) (live es)), vsum (map (fun e => snd (imposed ids m w i e)) (live es))).
Proof.
  intros Hne Hd Hi Hb. induction es as [|[[|] e] es IH]; intros Hf; unfold live; cbn [effects filter map fst snd negb].
  - reflexivity.
  - apply IH. intros e' H'. apply Hf. right. exact H'.
  - destruct (Hf e (or_introl eq_refl)) as (e' & f & E). rewrite E. rewrite IH by (intros e2 H'; apply Hf; right; exact H'). cbn [vsum fold_right fst snd]. fold (live es). rewrite (imposed_effect ids m w i e b e' f Hne Hd Hi Hb E). reflexivity.
Qed.
Lemma fine_alone m ids w es : ids <> [] -> NoDup ids -> (forall e, In (false, e) es -> exists x, kin_action ids e m w = Done x) -> fine m ids (force w) es.
Proof.
  intros Hne Hd H e He. destruct (H e He) as [x Ex]. pose proof (action_effect e m ids w Hne Hd) as A. destruct (effect e m ids (force w)) as [[e' f]|q| |]; [exists e', f; reflexivity|congruence|congruence|congruence].
Qed.
Lemma combined_sum m ids es w : ids <> [] -> NoDup ids -> (forall e, In (false, e) es -> exists x, kin_action ids e m w = Done x) ->
  exists es' w', combined_action ids es m w = Done (es', w') /\
    Forall2 (fun (x x' : bool * kin) => fst x' = fst x /\ if fst x then snd x' = snd x else exists w1, kin_action ids (snd x) m w = Done (snd x', w1)) es es' /\
    force w' = force w /\ torque w' = torque w /\
    forall i, (~ In i ids -> nb w' i = nb w i) /\ (nb w i = None -> nb w' i = None) /\
      forall b, In i ids -> nb w i = Some b ->
        nb w' i = Some (with_velocities b (vsum (map (fun e => fst (imposed ids m w i e)) (live es))) (vsum (map (fun e => snd (imposed ids m w i e)) (live es)))).
Proof.
  intros Hne Hd H. pose proof (fine_alone m ids w es Hne Hd H) as Hf. destruct (combined_effects m ids es w Hne Hd Hf) as (w' & E & (A & B & C)).
  exists (map (next m ids (force w)) es), w'. split; [exact E|]. split; [|split; [exact A|split; [exact B|]]].
  - clear - Hf Hne Hd. induction es as [|[[|] e] es IH]; cbn [map]; [constructor| |].
    + apply Forall2_cons; [split; reflexivity|]. apply IH. intros e' He'. apply Hf. right. exact He'.
    + apply Forall2_cons; [|apply IH; intros e' He'; apply Hf; right; exact He']. destruct (Hf e (or_introl eq_refl)) as (e' & f & Ee). pose proof (action_effect e m ids w Hne Hd) as X. rewrite Ee in X. destruct X as (w1 & X & _). unfold next. cbn [fst snd]. rewrite Ee. split; [reflexivity|]. exists w1. exact X.
  - intros i. split; [|split].
    + intros Hi. rewrite C. destruct (inb i ids) eqn:Ei; [apply inb_spec in Ei; contradiction|]. destruct (nb w i); reflexivity.
    + intros Hn. rewrite C, Hn. reflexivity.
    + intros b Hi Hb. rewrite C, Hb, (proj2 (inb_spec i ids) Hi). rewrite (effects_sum ids m w i b es Hne Hd Hi Hb Hf). reflexivity.
Qed.
Lemma vsum_perm l l' : Permutation l l' -> vsum l = vsum l'.
Proof.
  induction 1; cbn [vsum fold_right]; try fold (vsum l); try fold (vsum l'); [reflexivity|congruence| |congruence]. rewrite !vadd_assoc, (vadd_comm y x). reflexivity.
Qed.
Lemma live_perm es es' : Permutation es es' -> Permutation (live es) (live es').
Proof.
  intros H. unfold live. apply Permutation_map. induction H; cbn [filter]; [constructor| | |].
  - destruct (negb (fst x)); [constructor|]; assumption.
  - destruct (negb (fst x)), (negb (fst y)); try apply Permutation_refl. apply perm_swap.
  - eapply Permutation_trans; eassumption.
Qed.
Lemma combined_perm m ids es es2 w : ids <> [] -> NoDup ids -> (forall e, In (false, e) es -> exists x, kin_action ids e m w = Done x) -> Permutation es es2 ->
  exists es' es2' w' w2', combined_action ids es m w = Done (es', w') /\ combined_action ids es2 m w = Done (es2', w2') /\ forall i, nb w2' i = nb w' i.
Proof.
  intros Hne Hd H Hp. destruct (combined_sum m ids es w Hne Hd H) as (es' & w' & E & _ & _ & _ & X).
  destruct (combined_sum m ids es2 w Hne Hd) as (es2' & w2' & E2 & _ & _ & _ & X2). { intros e He. apply H. eapply Permutation_in; [apply Permutation_sym, Hp|exact He]. }
  exists es', es2', w', w2'. split; [exact E|]. split; [exact E2|]. intros i. destruct (X i) as (A & B & C), (X2 i) as (A2 & B2 & C2).
  destruct (in_dec Nat.eq_dec i ids) as [Hi|Hi]; [|rewrite (A Hi), (A2 Hi); reflexivity]. destruct (nb w i) as [b|] eqn:Eb; [|rewrite (B eq_refl), (B2 eq_refl); reflexivity].
  rewrite (C b Hi eq_refl), (C2 b Hi eq_refl). pose proof (live_perm es es2 Hp) as L. f_equal. f_equal; apply vsum_perm, Permutation_map, Permutation_sym, L.
Qed.
(** a single engine *)
Lemma single_frame m ids e w e' w' : ids <> [] -> NoDup ids -> kin_action ids e m w = Done (e', w') ->
  force w' = force w /\ torque w' = torque w /\
  forall i, (~ In i ids -> nb w' i = nb w i) /\ (nb w i = None -> nb w' i = None) /\ forall b, nb w i = Some b -> exists v om, nb w' i = Some (with_velocities b v om).
Proof.
  intros Hne Hd H. pose proof (action_effect e m ids w Hne Hd) as A. destruct (effect e m ids (force w)) as [[e1 f]|q| |]; [|congruence|congruence|congruence]. destruct A as (w1 & A & (T1 & T2 & T3)). rewrite H in A. injection A as -> ->.
  split; [exact T1|]. split; [exact T2|]. intros i. rewrite T3. split; [|split].
  - intros Hi. destruct (inb i ids) eqn:Ei; [apply inb_spec in Ei; contradiction|]. destruct (nb w i); reflexivity.
  - intros ->. reflexivity.
  - intros b ->. destruct (inb i ids); [eexists _, _; reflexivity|]. exists (vel (state_of b)), (angVel (state_of b)). destruct b as [[r ? ? ? ?] ? ? ? ? ? ?]. destruct r. reflexivity.
Qed.
