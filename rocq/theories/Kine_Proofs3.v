(** Proofs about engines that impose velocities: harmonic motions, pedals, the servo controller and combinations. *)
From Coq Require Import Reals List NArith ZArith Bool Lia Lra Psatz Permutation.
From Verif Require Import Vec_Model Vec_Proofs Pred_Proofs Rigid_Model Rigid_Spec Attr_Model Newton_Model Newton_Spec Newton_Proofs Newton_Proofs2 Interp_Model Interp_Spec Interp_Proofs Kine_Model Kine_Spec Kine_Proofs Kine_Proofs2.
Import ListNotations.
Local Open Scope R_scope.

(** ** oscillations *)
Lemma osc_0 A f fi h t : oscillation A f fi h t 0 = 0.
Proof. unfold oscillation. cbn [INR]. replace (t + 0 * h - h / 2) with (t - h / 2) by ring. ring. Qed.
Lemma osc_S A f fi h t n : f = 0 \/ sin (PI * f * h) <> 0 ->
  oscillation A f fi h t (S n) = oscillation A f fi h t n + (- sin (2 * PI * f * (t + INR n * h) + fi)) * A * (2 * PI * f) * h.
Proof.
  intros [->|H]; unfold oscillation; cbv zeta.
  - replace (2 * PI * 0 * h / 2) with 0 by field. unfold Rdiv. ring.
  - set (w := 2 * PI * f). assert (Hs : sin (w * h / 2) <> 0) by (replace (w * h / 2) with (PI * f * h) by (unfold w; field); exact H). rewrite S_INR. set (u := w * (t + INR n * h) + fi).
    replace (w * (t + (INR n + 1) * h - h / 2) + fi) with (u + w * h / 2) by (unfold u; field). replace (w * (t + INR n * h - h / 2) + fi) with (u - w * h / 2) by (unfold u; field).
    rewrite cos_plus, cos_minus. replace (- sin u * A * w * h) with (- sin u * A * (w * h / 2) * 2) by field. set (x := w * h / 2) in *. clearbody x u. field. exact Hs.
Qed.
Lemma osc_bound A f fi h t n : Rabs (oscillation A f fi h t n) <= 2 * Rabs ((2 * PI * f * h / 2) / sin (2 * PI * f * h / 2) * A).
Proof.
  unfold oscillation. cbv zeta. rewrite Rabs_mult. rewrite (Rmult_comm 2 (Rabs _)). apply Rmult_le_compat_l; [apply Rabs_pos|].
  match goal with |- Rabs (cos ?a - cos ?b) <= 2 => pose proof (COS_bound a); pose proof (COS_bound b); apply Rabs_le; lra end.
Qed.

Section Engines.
  Variable ids : list nat.
  Hypothesis Hne : ids <> [].
  Hypothesis Hd : NoDup ids.

  Lemma harmonic_run A f fi h l s : (forall p, In p l -> dt (s_conf p) = h) -> 
    (vx f = 0 \/ sin (PI * vx f * h) <> 0) -> (vy f = 0 \/ sin (PI * vy f * h) <> 0) -> (vz f = 0 \/ sin (PI * vz f * h) <> 0) ->
    clumps_ok (world s) -> plain_all (world s) l -> engine s = HarmonicMotion A f fi ->
    exists s', sim_run ids l s = Done s' /\ engine s' = engine s /\
      forall i b, In i ids -> prescribed l (world s) i b -> exists b', nb (world s') i = Some b' /\
        shifted (V (oscillation (vx A) (vx f) (vx fi) h (now s) (length l)) (oscillation (vy A) (vy f) (vy fi) h (now s) (length l)) (oscillation (vz A) (vz f) (vz fi) h (now s) (length l))) (state_of b) (state_of b').
  Proof.
    intros Hh Fx Fy Fz K P E.
    destruct (run_inv ids (fun d e t _ => e = HarmonicMotion A f fi /\ t = now s + INR (length d) * h)
               (fun i d e t r => forall b, nb (world s) i = Some b -> shifted (V (oscillation (vx A) (vx f) (vx fi) h (now s) (length d)) (oscillation (vy A) (vy f) (vy fi) h (now s) (length d)) (oscillation (vz A) (vz f) (vz fi) h (now s) (length d))) (state_of b) r) (fun p => dt (s_conf p) = h)) with (l := l) (d := @nil one_step) (s := s) as (s' & R & (E1 & E2) & HB); try assumption.
    - intros d p e t n Eh Hdt (He & Ht). subst e. cbn [effect]. eexists _, _. split; [reflexivity|]. rewrite app_length. cbn [length]. rewrite Nat.add_1_r. split; [split; [reflexivity|]; rewrite S_INR; rewrite Eh; lra|].
      intros i r r' B _ X1 X2 _ _ X5 X6 b Hb. destruct (B b Hb) as (B1 & B2 & B3 & B4). split; [|split; [|split; congruence]].
      + rewrite X1, B1. cbn [fst time]. rewrite Eh, Ht. unfold harmonic. rewrite !osc_S by assumption. 
        generalize (oscillation (vx A) (vx f) (vx fi) h (now s) (length d)) (oscillation (vy A) (vy f) (vy fi) h (now s) (length d)) (oscillation (vz A) (vz f) (vz fi) h (now s) (length d)). intros o1 o2 o3.
        cbn [smul vx vy vz]. set (s1 := sin _). set (s2 := sin (2 * PI * vy f * _ + _)). set (s3 := sin (2 * PI * vz f * _ + _)).
        generalize (pos (state_of b)). clearbody s1 s2 s3. clear. intros q. destruct q as [q1 q2 q3]. unfold vadd, smul, vprod. cbn [vx vy vz]. f_equal; ring.
      + rewrite X2. cbn [snd]. rewrite turn_zero. exact B2.
    - split; [exact E|]. cbn [length INR]. ring.
    - exists s'. split; [exact R|]. split; [congruence|]. intros i b Hi Q. destruct (HB i b Hi Q) as (b' & N & B).
      + intros b0 Hb0. rewrite (proj1 Q) in Hb0. injection Hb0 as <-. cbn [length]. rewrite !osc_0. split; [|repeat split; reflexivity]. generalize (pos (state_of b)). clear. intros; vring.
      + exists b'. split; [exact N|]. exact (B b (proj1 Q)).
  Qed.
  Lemma drift_run l s : (forall p, In p l -> dt (s_conf p) = 1) -> clumps_ok (world s) -> plain_all (world s) l -> now s = 0 -> engine s = HarmonicMotion (V 1 0 0) (V 1 0 0) (V (PI / 2) (PI / 2) (PI / 2)) ->
    exists s', sim_run ids l s = Done s' /\
      forall i b, In i ids -> prescribed l (world s) i b -> exists b', nb (world s') i = Some b' /\ shifted (V (- (2 * PI * INR (length l))) 0 0) (state_of b) (state_of b').
  Proof.
    intros Hh K P N0 E.
    destruct (run_inv ids (fun d e t _ => e = HarmonicMotion (V 1 0 0) (V 1 0 0) (V (PI / 2) (PI / 2) (PI / 2)) /\ t = INR (length d))
               (fun i d e t r => forall b, nb (world s) i = Some b -> shifted (V (- (2 * PI * INR (length d))) 0 0) (state_of b) r) (fun p => dt (s_conf p) = 1)) with (l := l) (d := @nil one_step) (s := s) as (s' & R & (E1 & E2) & HB); try assumption.
    - intros d p e t n Eh Hdt (He & Ht). subst e. cbn [effect]. eexists _, _. split; [reflexivity|]. rewrite app_length. cbn [length]. rewrite Nat.add_1_r. split; [split; [reflexivity|]; rewrite S_INR; rewrite Eh; lra|].
      intros i r r' B _ X1 X2 _ _ X5 X6 b Hb. destruct (B b Hb) as (B1 & B2 & B3 & B4). split; [|split; [|split; congruence]].
      + rewrite X1, B1. cbn [fst time]. rewrite Eh, Ht, S_INR. unfold harmonic. cbn [smul vx vy vz]. 
        replace (2 * PI * 1 * INR (length d) + PI / 2) with (PI / 2 + 2 * INR (length d) * PI) by ring. rewrite sin_period, sin_PI2.
        generalize (pos (state_of b)) (INR (length d)). clear. intros q x. destruct q as [q1 q2 q3]. unfold vadd, smul, vprod. cbn [vx vy vz]. f_equal; ring.
      + rewrite X2. cbn [snd]. rewrite turn_zero. exact B2.
    - split; [exact E|]. cbn [length INR]. exact N0.
    - exists s'. split; [exact R|]. intros i b Hi Q. destruct (HB i b Hi Q) as (b' & N & B).
      + intros b0 Hb0. rewrite (proj1 Q) in Hb0. injection Hb0 as <-. cbn [length INR]. split; [|repeat split; reflexivity]. generalize (pos (state_of b)). clear. intros q. destruct q as [q1 q2 q3]. unfold vadd. cbn [vx vy vz]. f_equal; ring.
      + exists b'. split; [exact N|]. exact (B b (proj1 Q)).
  Qed.
  Lemma harmonic_rotation_run w0 a z A f fi h l s : norm2 a = 1 -> (forall p, In p l -> dt (s_conf p) = h) -> (f = 0 \/ sin (PI * f * h) <> 0) ->
    clumps_ok (world s) -> plain_all (world s) l -> engine s = HarmonicRotation w0 a true z A f fi ->
    exists s' w', sim_run ids l s = Done s' /\ engine s' = HarmonicRotation w' a true z A f fi /\
      forall i b, In i ids -> prescribed l (world s) i b -> exists b', nb (world s') i = Some b' /\ screwed z a (oscillation A f fi h (now s) (length l)) 0 (state_of b) (state_of b').
  Proof.
    intros Ha Hh Ff K P E.
    destruct (run_inv ids (fun d e t _ => (exists w', e = HarmonicRotation w' a true z A f fi) /\ t = now s + INR (length d) * h)
               (fun i d e t r => forall b, nb (world s) i = Some b -> screwed z a (oscillation A f fi h (now s) (length d)) 0 (state_of b) r) (fun p => dt (s_conf p) = h)) with (l := l) (d := @nil one_step) (s := s) as (s' & R & ([w' E1] & E2) & HB); try assumption.
    - intros d p e t n Eh Hdt ([w1 He] & Ht). subst e. cbn [effect]. eexists _, _. split; [reflexivity|]. rewrite app_length. cbn [length]. rewrite Nat.add_1_r. split; [split; [eexists; reflexivity|]; rewrite S_INR; rewrite Eh; lra|].
      intros i r r' B _ X1 X2 _ _ X5 X6 b Hb. rewrite osc_S by assumption. cbn [time] in *.
      replace ((- sin (2 * PI * f * (now s + INR (length d) * h) + fi)) * A * (2 * PI * f) * h) with ((-1 * A * (f * 2 * PI) * sin (f * 2 * PI * t + fi)) * dt (s_conf p)).
      2:{ rewrite Eh, Ht. replace (f * 2 * PI * (now s + INR (length d) * h) + fi) with (2 * PI * f * (now s + INR (length d) * h) + fi) by ring. ring. }
      replace 0 with (0 + 0 * dt (s_conf p)) by ring.
      eapply screw_step; [exact Ha|exact Hdt|exact (B b Hb)| |exact X1|exact X2|exact X5|exact X6]. unfold rotation. cbn [fst sdt].
      match goal with |- smul _ (vsub (vadd ?x _) _) = _ => generalize x end. generalize (pos r). clear. intros; vring.
    - split; [exists w0; exact E|]. cbn [length INR]. ring.
    - exists s', w'. split; [exact R|]. split; [exact E1|]. intros i b Hi Q. destruct (HB i b Hi Q) as (b' & N & B).
      + intros b0 Hb0. rewrite (proj1 Q) in Hb0. injection Hb0 as <-. cbn [length]. rewrite osc_0. apply screw_0.
      + exists b'. split; [exact N|]. exact (B b (proj1 Q)).
  Qed.
  Lemma translation_run v a l s : clumps_ok (world s) -> plain_all (world s) l -> engine s = Translation v a ->
    exists s', sim_run ids l s = Done s' /\ engine s' = engine s /\
      forall i b, In i ids -> prescribed l (world s) i b -> exists b', nb (world s') i = Some b' /\ shifted (smul (v * duration l) a) (state_of b) (state_of b').
  Proof.
    intros K P E.
    destruct (run_inv ids (fun d e t _ => e = Translation v a)
               (fun i d e t r => forall b, nb (world s) i = Some b -> shifted (smul (v * duration d) a) (state_of b) r) (fun p => True)) with (l := l) (d := @nil one_step) (s := s) as (s' & R & E1 & HB); try assumption; try (intros; exact I).
    - intros d p e t n _ Hdt He. subst e. cbn [effect]. eexists _, _. split; [reflexivity|]. split; [reflexivity|].
      intros i r r' B _ X1 X2 _ _ X5 X6 b Hb. destruct (B b Hb) as (B1 & B2 & B3 & B4). split; [|split; [|split; congruence]].
      + rewrite X1, B1, duration_snoc. cbn [fst]. generalize (pos (state_of b)) (duration d) (dt (s_conf p)). clear. intros q x y. vring.
      + rewrite X2. cbn [snd]. rewrite turn_zero. exact B2.
    - exists s'. split; [exact R|]. split; [congruence|]. intros i b Hi Q. destruct (HB i b Hi Q) as (b' & N & B).
      + intros b0 Hb0. rewrite (proj1 Q) in Hb0. injection Hb0 as <-. rewrite duration_nil. split; [|repeat split; reflexivity]. generalize (pos (state_of b)). clear. intros; vring.
      + exists b'. split; [exact N|]. exact (B b (proj1 Q)).
  Qed.

  (** ** pedals *)
  Lemma pedal_run w a ra fi l s : clumps_ok (world s) -> plain_all (world s) l -> engine s = Pedal w a ra fi ->
    exists s', sim_run ids l s = Done s' /\ engine s' = Pedal w a ra (fi + w * duration l) /\
      forall i b, In i ids -> prescribed l (world s) i b -> exists b', nb (world s') i = Some b' /\
        shifted (qrot (from_z a) (V (ra * cos fi - ra * cos (fi + w * duration l)) (ra * sin fi - ra * sin (fi + w * duration l)) 0)) (state_of b) (state_of b').
  Proof.
    intros K P E.
    destruct (run_inv ids (fun d e t _ => e = Pedal w a ra (fi + w * duration d))
               (fun i d e t r => forall b, nb (world s) i = Some b -> shifted (qrot (from_z a) (V (ra * cos fi - ra * cos (fi + w * duration d)) (ra * sin fi - ra * sin (fi + w * duration d)) 0)) (state_of b) r) (fun p => True)) with (l := l) (d := @nil one_step) (s := s) as (s' & R & E1 & HB); try assumption; try (intros; exact I).
    - intros d p e t n _ Hdt He. subst e. cbn [effect]. eexists _, _. split; [reflexivity|]. split; [rewrite duration_snoc; cbn [sdt]; f_equal; ring|].
      intros i r r' B _ X1 X2 _ _ X5 X6 b Hb. destruct (B b Hb) as (B1 & B2 & B3 & B4). split; [|split; [|split; congruence]].
      + rewrite X1, B1, duration_snoc. cbn [fst sdt]. unfold pedal. replace (fi + w * (duration d + dt (s_conf p))) with (fi + w * duration d + w * dt (s_conf p)) by ring.
        rewrite <- qrot_smul, <- vadd_assoc, <- qrot_lin. do 2 f_equal. set (h := dt (s_conf p)) in *. generalize (cos (fi + w * duration d)) (sin (fi + w * duration d)) (cos (fi + w * duration d + w * h)) (sin (fi + w * duration d + w * h)). clearbody h. clear - Hdt. intros. vgoal. f_equal; field; exact Hdt.
      + rewrite X2. cbn [snd]. rewrite turn_zero. exact B2.
    - rewrite duration_nil. rewrite E. f_equal. ring.
    - exists s'. split; [exact R|]. split; [exact E1|]. intros i b Hi Q. destruct (HB i b Hi Q) as (b' & N & B).
      + intros b0 Hb0. rewrite (proj1 Q) in Hb0. injection Hb0 as <-. rewrite duration_nil, Rmult_0_r, Rplus_0_r. split; [|repeat split; reflexivity].
        replace (V (ra * cos fi - ra * cos fi) (ra * sin fi - ra * sin fi) 0) with vzero by (unfold vzero; f_equal; ring). rewrite qrot_zero, vadd_0_r. reflexivity.
      + exists b'. split; [exact N|]. exact (B b (proj1 Q)).
  Qed.
End Engines.

Lemma vnormalize_unit a : norm2 a = 1 -> vnormalize a = a.
Proof. intros H. unfold vnormalize, norm. rewrite H, sqrt_1, Rinv_1, smul_1. destruct (Rlt_dec 0 1); reflexivity. Qed.
Lemma unit_z_bound a : norm2 a = 1 -> -1 <= vz a <= 1.
Proof. intros H. destruct a as [x y z]. unfold norm2, dot in H. cbn [vx vy vz] in *. split; nra. Qed.
Lemma from_z_ok a : norm2 a = 1 -> qnorm2 (from_z a) = 1 /\ qrot (from_z a) (V 0 0 1) = a.
Proof.
  intros H. unfold from_z. rewrite (vnormalize_unit a H). pose proof (unit_z_bound a H) as [Z _]. destruct a as [x y z]. cbn [vz] in *. unfold norm2, dot in H. cbn [vx vy vz] in H. destruct (Req_EM_T z (-1)) as [->|N].
  - assert (x = 0) by nra. assert (y = 0) by nra. subst x y. split; [unfold qnorm2, norm2, dot; cbn [qw qv vx vy vz]; ring|]. vgoal. f_equal; ring.
  - assert (P : 0 < (1 + z) * 2) by lra. set (s := sqrt ((1 + z) * 2)). assert (Es : s * s = (1 + z) * 2) by (apply sqrt_sqrt; lra). assert (Ps : 0 < s) by (apply sqrt_lt_R0; exact P). clearbody s.
    assert (Ns : s <> 0) by lra. assert (Ez : z = s * s / 2 - 1) by lra. assert (Exy : x * x + y * y = 1 - z * z) by lra. unfold cross. cbn [vx vy vz]. split.
    + unfold qnorm2, norm2, dot, smul. cbn [qw qv vx vy vz]. apply Rmult_eq_reg_l with (s * s); [|nra]. 
      replace (s * s * (s / 2 * (s / 2) + (/ s * (0 * z - 1 * y) * (/ s * (0 * z - 1 * y)) + / s * (1 * x - 0 * z) * (/ s * (1 * x - 0 * z)) + / s * (0 * y - 0 * x) * (/ s * (0 * y - 0 * x))))) with (s * s * (s * s) / 4 + (x * x + y * y)) by (field; exact Ns).
      rewrite Exy, Ez. field.
    + vgoal. f_equal.
      * field. exact Ns.
      * field. exact Ns.
      * apply Rmult_eq_reg_l with (s * s); [|nra]. match goal with |- ?l = ?r => replace l with (s * s - 2 * (x * x + y * y)) by (field; exact Ns) end. rewrite Exy, Ez. field.
Qed.
(** turning the z axis and turning about it *)
Lemma conjugate q th v : qnorm2 q = 1 -> qmul q (angle_axis th v) = qmul (angle_axis th (qrot q v)) q.
Proof.
  intros H. rewrite qrot_unit by exact H. unfold angle_axis. generalize (cos (th / 2)) (sin (th / 2)). intros c s.
  assert (X : qmul (Q 0 (hrot q v)) q = qscale (qnorm2 q) (qmul q (Q 0 v))) by (unfold hrot; vring). rewrite H in X.
  replace (qmul (Q c (smul s (hrot q v))) q) with (qadd (qscale c q) (qscale s (qmul (Q 0 (hrot q v)) q))) by (generalize (hrot q v); clear; intros; vring).
  rewrite X. clear. vring.
Qed.
Lemma rot_z th x y : qrot (angle_axis th (V 0 0 1)) (V x y 0) = V (cos th * x - sin th * y) (sin th * x + cos th * y) 0.
Proof.
  unfold angle_axis. replace th with (2 * (th / 2)) at 3 4 5 6 by field. rewrite cos_2a, sin_2a. pose proof (sin2_cos2 (th / 2)) as E. unfold Rsqr in E. revert E. generalize (cos (th / 2)) (sin (th / 2)). intros c s E.
  assert (E' : c * c = 1 - s * s) by lra. vgoal. f_equal; [| |ring].
  - replace ((c * c - s * s) * x) with ((1 - s * s - s * s) * x) by (rewrite E'; ring). ring.
  - replace ((c * c - s * s) * y) with ((1 - s * s - s * s) * y) by (rewrite E'; ring). ring.
Qed.
Lemma pedal_circle a ra fi th p0 : norm2 a = 1 ->
  let c := pedal_centre p0 a ra fi in
  vadd p0 (qrot (from_z a) (V (ra * cos fi - ra * cos (fi + th)) (ra * sin fi - ra * sin (fi + th)) 0)) = vadd c (qrot (angle_axis th a) (vsub p0 c)) /\
  norm (vsub p0 c) = Rabs ra /\ dot (vsub p0 c) a = 0.
Proof.
  intros Ha. cbv zeta. destruct (from_z_ok a Ha) as [U Z]. unfold pedal_centre. set (q := from_z a) in *.
  set (e := V (ra * cos fi) (ra * sin fi) 0).
  assert (Ec : vsub p0 (vadd p0 (qrot q e)) = vopp (qrot q e)) by (generalize (qrot q e); clear; intros; vring). rewrite Ec.
  split; [|split].
  - replace (vopp (qrot q e)) with (qrot q (vopp e)) by (clear; vring).
    rewrite <- qrot_mul by (try apply angle_axis_unit; assumption). replace (qmul (angle_axis th a) q) with (qmul (angle_axis th (qrot q (V 0 0 1))) q) by (rewrite Z; reflexivity). rewrite <- conjugate by exact U.
    rewrite qrot_mul; [|exact U|apply angle_axis_unit; unfold norm2, dot; cbn [vx vy vz]; ring]. unfold e. unfold vopp at 1. cbn [vx vy vz]. replace (- 0) with 0 by ring. rewrite rot_z. rewrite <- vadd_assoc, <- qrot_lin. do 2 f_equal. unfold vadd. cbn [vx vy vz]. rewrite cos_plus, sin_plus. f_equal; ring.
  - unfold norm. replace (norm2 (vopp (qrot q e))) with (norm2 (qrot q e)) by (generalize (qrot q e); clear; intros; vring). rewrite qrot_norm by exact U. unfold e, norm2, dot. cbn [vx vy vz].
    replace (ra * cos fi * (ra * cos fi) + ra * sin fi * (ra * sin fi) + 0 * 0) with (Rsqr ra * (Rsqr (sin fi) + Rsqr (cos fi))) by (unfold Rsqr; ring). rewrite sin2_cos2, Rmult_1_r. apply sqrt_Rsqr_abs.
  - replace (dot (vopp (qrot q e)) a) with (- dot (qrot q e) a) by (generalize (qrot q e); clear; intros; vring). replace (dot (qrot q e) a) with (dot (qrot q e) (qrot q (V 0 0 1))) by (rewrite Z; reflexivity). rewrite qrot_dot by exact U. unfold e, dot. cbn [vx vy vz]. ring.
Qed.
