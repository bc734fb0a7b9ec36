(** Proofs about engines that impose velocities: any number of steps. *)
From Coq Require Import Reals List NArith ZArith Bool Lia Lra Psatz.
From Verif Require Import Vec_Model Vec_Proofs Rigid_Model Rigid_Spec Attr_Model Newton_Model Newton_Spec Newton_Proofs Newton_Proofs2 Interp_Model Interp_Spec Interp_Proofs Kine_Model Kine_Spec Kine_Proofs.
Import ListNotations.
Local Open Scope R_scope.

Lemma touched_clumps g ids w w' : touched g ids w w' -> same_clumps w w'.
Proof. intros (_ & _ & C) i. rewrite C. destruct (nb w i) as [b|]; [|exact I]. destruct (inb i ids); repeat split; reflexivity. Qed.
Lemma same_mover w w' i : same_clumps w w' -> mover w' i = mover w i.
Proof. intros H. specialize (H i). unfold mover. destruct (nb w i) as [b|], (nb w' i) as [b'|]; try contradiction; [|reflexivity]. destruct H as (-> & _). reflexivity. Qed.
(** what does not change in a body *)
Definition kept (b b' : nbody) : Prop :=
  blockedDOFs (st b') = blockedDOFs (st b) /\ groupMask b' = groupMask b /\ subdomain b' = subdomain b /\ isSubdomain b' = isSubdomain b.
Lemma kept_masked c b b' : kept b b' -> masked_in c b' = masked_in c b.
Proof. intros (_ & H & _). unfold masked_in. rewrite H. reflexivity. Qed.

(** one step: the velocities the engine imposes are followed exactly *)
Lemma sim_step_ok ids p s e' f : ids <> [] -> NoDup ids -> clumps_ok (world s) -> plain (world s) p ->
  effect (engine s) (mkM (now s) (dt (s_conf p)) (step_no s)) ids (s_force p) = Done (e', f) ->
  exists w', sim_step ids p s = Done (mkSim e' (now s + dt (s_conf p)) (step_no s + 1) w') /\ clumps_ok w' /\ (forall i, nb w' i = None <-> nb (world s) i = None) /\
    forall i b l, In i ids -> prescribed (p :: l) (world s) i b ->
      exists b', prescribed l w' i b' /\
        let r := state_of b in let r' := state_of b' in let v := fst (f r) in let om := snd (f r) in
        pos r' = vadd (pos r) (smul (dt (s_conf p)) v) /\ ori r' = turn om (dt (s_conf p)) (ori r) /\ vel r' = v /\ angVel r' = om /\ mass r' = mass r /\ inertia r' = inertia r.
Proof.
  intros Hne Hd K (P1 & P2 & P3 & P4 & P5) E. set (w0 := mkW (nb (world s)) (s_force p) (s_torque p)).
  pose proof (action_effect (engine s) (mkM (now s) (dt (s_conf p)) (step_no s)) ids w0 Hne Hd) as A. cbn [force w0] in A. unfold w0 in A. cbn [force] in A. rewrite E in A. fold w0 in A. destruct A as (w1 & E1 & T).
  unfold sim_step. fold w0. rewrite E1. pose proof (touched_clumps _ _ _ _ T) as S1. assert (K1 : clumps_ok w1) by (apply (same_clumps_ok w0 w1 S1); exact K).
  destruct T as (_ & _ & T). assert (D1 : forall i b, nb w1 i = Some b -> In i (s_ids p)). { intros i b H. rewrite T in H. destruct (nb w0 i) as [b0|] eqn:Eb; [|discriminate]. exact (P2 i b0 Eb). }
  destruct (action_exact (s_conf p) w1 (s_ids p) K1 P1 D1) as (w2 & E2 & H2). rewrite E2. exists w2. split; [reflexivity|].
  assert (S2 : same_clumps w1 w2). { intros i. rewrite H2. destruct (nb w1 i) as [b|] eqn:Eb; [|unfold owner; rewrite Eb; exact I]. destruct (match owner w1 i with Some s0 => Nat.eqb s0 (process (s_conf p)) | None => false end); [|auto]. destruct (moved_body_shape (s_conf p) w1 i b K1 Eb) as (s0 & ->). cbn. auto. }
  split; [exact (same_clumps_ok w1 w2 S2 K1)|]. split.
  { intros i. specialize (S2 i). specialize (S1 i). change (nb w0 i) with (nb (world s) i) in S1. destruct (nb (world s) i), (nb w1 i), (nb w2 i); split; intros; try discriminate; try contradiction; reflexivity. }
  intros i b l Hi (Q1 & Q2 & Q3 & Q4 & Q5 & Q6). destruct (Q6 p (or_introl eq_refl)) as [Q7 Q8].
  set (b1 := with_velocities b (fst (f (state_of b))) (snd (f (state_of b)))).
  assert (B1 : nb w1 i = Some b1). { rewrite T. change (nb w0 i) with (nb (world s) i). rewrite Q1. rewrite (proj2 (inb_spec i ids) Hi). reflexivity. }
  assert (M1 : mover w1 i = i) by (rewrite (same_mover w0 w1 i S1); exact Q3).
  assert (O1 : owner w1 i = Some (subdomain b)). { unfold owner. rewrite B1, M1, B1. unfold b1. cbn [with_velocities with_st isSubdomain subdomain]. rewrite Q4. reflexivity. }
  pose proof (H2 i) as Hi2. rewrite O1, Q7, Nat.eqb_refl in Hi2. unfold moved_body in Hi2. rewrite B1, M1, Nat.eqb_refl in Hi2. unfold moved in Hi2. destruct (load w1 i b1) as [ff mm].
  rewrite advance_prescribed in Hi2; [|exact Q2|exact P4|exact P5|exact Q8|exact Q5].
  eexists. split; [|split; [|split; [|split; [|split; [|split]]]]].
  - split; [exact Hi2|]. split; [exact Q2|]. split; [rewrite (same_mover w1 w2 i S2); exact M1|]. split; [exact Q4|]. split.
    + unfold state_of. cbn [with_st with_rs st rs ori]. apply turn_unit. exact Q5.
    + intros p' Hp'. exact (Q6 p' (or_intror Hp')).
  - reflexivity.
  - reflexivity.
  - reflexivity.
  - reflexivity.
  - reflexivity.
  - reflexivity.
Qed.

Lemma plain_domain w w' p : (forall i, nb w' i = None <-> nb w i = None) -> plain w p -> plain w' p.
Proof.
  intros D (A & B & C). split; [exact A|]. split; [|exact C]. intros i b E. destruct (nb w i) as [b0|] eqn:Eb; [exact (B i b0 Eb)|]. exfalso. apply D in Eb. congruence.
Qed.

(** any number of steps, by invariants of the engine and of each body *)
Section Run.
  Variable ids : list nat.
  Variable EInv : list one_step -> kin -> R -> Z -> Prop.
  Variable BInv : nat -> list one_step -> kin -> R -> rstate -> Prop.
  Variable Good : one_step -> Prop.
  Hypothesis stepE : forall d p e t n, Good p -> dt (s_conf p) <> 0 -> EInv d e t n ->
    exists e' f, effect e (mkM t (dt (s_conf p)) n) ids (s_force p) = Done (e', f) /\ EInv (d ++ [p]) e' (t + dt (s_conf p)) (n + 1)%Z /\
      forall i r r', BInv i d e t r -> qnorm2 (ori r) = 1 -> pos r' = vadd (pos r) (smul (dt (s_conf p)) (fst (f r))) -> ori r' = turn (snd (f r)) (dt (s_conf p)) (ori r) ->
        vel r' = fst (f r) -> angVel r' = snd (f r) -> mass r' = mass r -> inertia r' = inertia r -> BInv i (d ++ [p]) e' (t + dt (s_conf p)) r'.
  Lemma run_inv : ids <> [] -> NoDup ids -> forall l d s, (forall p, In p l -> Good p) -> clumps_ok (world s) -> plain_all (world s) l -> EInv d (engine s) (now s) (step_no s) ->
    exists s', sim_run ids l s = Done s' /\ EInv (d ++ l) (engine s') (now s') (step_no s') /\
      forall i b, In i ids -> prescribed l (world s) i b -> BInv i d (engine s) (now s) (state_of b) ->
        exists b', nb (world s') i = Some b' /\ BInv i (d ++ l) (engine s') (now s') (state_of b').
  Proof.
    intros Hne Hd. induction l as [|p l IH]; intros d s G K P E; cbn [sim_run].
    - exists s. rewrite app_nil_r. split; [reflexivity|]. split; [exact E|]. intros i b _ (Q & _) B. exists b. split; assumption.
    - pose proof (P p (or_introl eq_refl)) as Pp. destruct (stepE d p (engine s) (now s) (step_no s) (G p (or_introl eq_refl)) (proj1 (proj2 (proj2 Pp))) E) as (e' & f & Ef & E' & HB).
      destruct (sim_step_ok ids p s e' f Hne Hd K Pp Ef) as (w' & E1 & K' & D & HP). rewrite E1.
      destruct (IH (d ++ [p]) (mkSim e' (now s + dt (s_conf p)) (step_no s + 1) w') (fun p' H' => G p' (or_intror H')) K') as (s' & R & E2 & HB2).
      { intros p' Hp'. apply (plain_domain (world s)); [exact D|]. apply P. right. exact Hp'. } { exact E'. }
      rewrite <- app_assoc in E2, HB2. exists s'. split; [exact R|]. split; [exact E2|]. intros i b Hi Q B.
      destruct (HP i b l Hi Q) as (b1 & Q1 & X1 & X2 & X3 & X4 & X5 & X6). apply (HB2 i b1 Hi Q1). cbn [engine now].
      apply (HB i (state_of b)); try assumption. exact (proj1 (proj2 (proj2 (proj2 (proj2 Q))))).
  Qed.
End Run.

Lemma rsum_app (l l' : list R) : rsum (l ++ l') = rsum l + rsum l'.
Proof. unfold rsum. induction l as [|a l IH]; cbn [app fold_right]; [rewrite Rplus_0_l; reflexivity|]. rewrite IH. apply eq_sym, Rplus_assoc. Qed.
Lemma duration_snoc d p : duration (d ++ [p]) = duration d + dt (s_conf p).
Proof. unfold duration. rewrite map_app, rsum_app. f_equal. unfold rsum. cbn [map fold_right]. apply Rplus_0_r. Qed.
Lemma duration_nil : duration [] = 0.
Proof. reflexivity. Qed.

(** ** rotations about one axis *)
Lemma angle_axis_add x y a : norm2 a = 1 -> qmul (angle_axis x a) (angle_axis y a) = angle_axis (x + y) a.
Proof.
  intros H. unfold angle_axis. replace ((x + y) / 2) with (x / 2 + y / 2) by field. rewrite cos_plus, sin_plus. generalize (cos (x/2)) (sin (x/2)) (cos (y/2)) (sin (y/2)). intros c s c' s'.
  assert (E : dot (smul s a) (smul s' a) = s * s'). { replace (dot (smul s a) (smul s' a)) with (s * s' * norm2 a) by vring. rewrite H. ring. }
  unfold qmul. cbn [qw qv]. rewrite E. f_equal. vring.
Qed.
Lemma angle_axis_fix x a : norm2 a = 1 -> qrot (angle_axis x a) a = a.
Proof. intros _. unfold angle_axis, qrot. cbn [qw qv]. vring. Qed.
Lemma screw_step z a th d w lin h dv r0 r r' : norm2 a = 1 -> h <> 0 -> screwed z a th d r0 r ->
  dv = vadd (smul lin a) (smul (/ h) (vsub (vadd (qrot (angle_axis (w * h) a) (vsub (pos r) z)) z) (pos r))) ->
  pos r' = vadd (pos r) (smul h dv) -> ori r' = turn (smul w a) h (ori r) -> mass r' = mass r -> inertia r' = inertia r ->
  screwed z a (th + w * h) (d + lin * h) r0 r'.
Proof.
  intros Ha Hh (P & O & M & I) Dv P' O' M' I'. split; [|split; [|split; congruence]].
  - assert (X : pos r' = vadd (vadd (qrot (angle_axis (w * h) a) (vsub (pos r) z)) z) (smul (lin * h) a)).
    { rewrite P', Dv. set (A := qrot _ _). generalize (pos r) A. clear - Hh. intros q A. vdes. vgoal. f_equal; field; exact Hh. }
    rewrite X, P. replace (vsub (vadd (vadd z (qrot (angle_axis th a) (vsub (pos r0) z))) (smul d a)) z) with (vadd (qrot (angle_axis th a) (vsub (pos r0) z)) (smul d a)) by (generalize (qrot (angle_axis th a) (vsub (pos r0) z)); clear; intros; vring).
    rewrite qrot_lin, qrot_smul, angle_axis_fix by exact Ha. rewrite <- qrot_mul by (apply angle_axis_unit; exact Ha). rewrite angle_axis_add by exact Ha. rewrite (Rplus_comm (w * h) th). generalize (qrot (angle_axis (th + w * h) a) (vsub (pos r0) z)). clear. intros; vring.
  - rewrite O', O, turn_axis by exact Ha. rewrite qmul_assoc, angle_axis_add by exact Ha. rewrite (Rplus_comm (w * h) th). reflexivity.
Qed.
Lemma screw_0 z a r : screwed z a 0 0 r r.
Proof. split; [|split; [|split; reflexivity]]; rewrite angle_axis_0; [rewrite qrot_id; generalize (pos r); clear; intros; vring|rewrite qmul_id_l; reflexivity]. Qed.
Lemma spin_step a th w h r0 r r' : norm2 a = 1 -> spun a th r0 r -> pos r' = vadd (pos r) (smul h vzero) -> ori r' = turn (smul w a) h (ori r) -> mass r' = mass r -> inertia r' = inertia r -> spun a (th + w * h) r0 r'.
Proof.
  intros Ha (P & O & M & I) P' O' M' I'. split; [|split; [|split; congruence]].
  - rewrite P', P. generalize (pos r0). clear. intros; vring.
  - rewrite O', O, turn_axis by exact Ha. rewrite qmul_assoc, angle_axis_add by exact Ha. rewrite (Rplus_comm (w * h) th). reflexivity.
Qed.
Lemma spin_0 a r : spun a 0 r r.
Proof. split; [reflexivity|]. split; [|split; reflexivity]. rewrite angle_axis_0, qmul_id_l. reflexivity. Qed.

Section Engines.
  Variable ids : list nat.
  Hypothesis Hne : ids <> [].
  Hypothesis Hd : NoDup ids.

  Lemma rotation_run w a z l s : norm2 a = 1 -> clumps_ok (world s) -> plain_all (world s) l -> engine s = Rotation w a true z ->
    exists s', sim_run ids l s = Done s' /\ engine s' = engine s /\ now s' = now s + duration l /\
      forall i b, In i ids -> prescribed l (world s) i b -> exists b', nb (world s') i = Some b' /\ screwed z a (w * duration l) 0 (state_of b) (state_of b').
  Proof.
    intros Ha K P E.
    destruct (run_inv ids (fun d e t _ => e = Rotation w a true z /\ t = now s + duration d)
               (fun i d e t r => forall b, nb (world s) i = Some b -> screwed z a (w * duration d) 0 (state_of b) r) (fun _ => True)) with (l := l) (d := @nil one_step) (s := s) as (s' & R & (E1 & E2) & HB); try assumption; try (intros; exact I).
    - intros d p e t n _ Hdt (He & Ht). subst e. cbn [effect]. eexists _, _. split; [reflexivity|]. split; [split; [reflexivity|]; rewrite duration_snoc; lra|].
      intros i r r' B _ X1 X2 _ _ X5 X6 b Hb. rewrite duration_snoc. replace (w * (duration d + dt (s_conf p))) with (w * duration d + w * dt (s_conf p)) by ring. replace 0 with (0 + 0 * dt (s_conf p)) by ring.
      eapply screw_step; [exact Ha|exact Hdt|exact (B b Hb)| |exact X1|exact X2|exact X5|exact X6]. unfold rotation. cbn [fst sdt]. generalize (qrot (angle_axis (w * dt (s_conf p)) a) (vsub (pos r) z)) (pos r). clear. intros; vring.
    - split; [exact E|]. rewrite duration_nil. lra.
    - exists s'. split; [exact R|]. split; [congruence|]. split; [exact E2|]. intros i b Hi Q. destruct (HB i b Hi Q) as (b' & N & B).
      + intros b0 Hb0. rewrite (proj1 Q) in Hb0. injection Hb0 as <-. rewrite duration_nil. rewrite Rmult_0_r. apply screw_0.
      + exists b'. split; [exact N|]. exact (B b (proj1 Q)).
  Qed.
  Lemma spin_run w a z l s : norm2 a = 1 -> clumps_ok (world s) -> plain_all (world s) l -> engine s = Rotation w a false z ->
    exists s', sim_run ids l s = Done s' /\ engine s' = engine s /\ now s' = now s + duration l /\
      forall i b, In i ids -> prescribed l (world s) i b -> exists b', nb (world s') i = Some b' /\ spun a (w * duration l) (state_of b) (state_of b').
  Proof.
    intros Ha K P E.
    destruct (run_inv ids (fun d e t _ => e = Rotation w a false z /\ t = now s + duration d)
               (fun i d e t r => forall b, nb (world s) i = Some b -> spun a (w * duration d) (state_of b) r) (fun _ => True)) with (l := l) (d := @nil one_step) (s := s) as (s' & R & (E1 & E2) & HB); try assumption; try (intros; exact I).
    - intros d p e t n _ Hdt (He & Ht). subst e. cbn [effect]. eexists _, _. split; [reflexivity|]. split; [split; [reflexivity|]; rewrite duration_snoc; lra|].
      intros i r r' B _ X1 X2 _ _ X5 X6 b Hb. rewrite duration_snoc. replace (w * (duration d + dt (s_conf p))) with (w * duration d + w * dt (s_conf p)) by ring.
      eapply spin_step; [exact Ha|exact (B b Hb)|exact X1|exact X2|exact X5|exact X6].
    - split; [exact E|]. rewrite duration_nil. lra.
    - exists s'. split; [exact R|]. split; [congruence|]. split; [exact E2|]. intros i b Hi Q. destruct (HB i b Hi Q) as (b' & N & B).
      + intros b0 Hb0. rewrite (proj1 Q) in Hb0. injection Hb0 as <-. rewrite duration_nil. rewrite Rmult_0_r. apply spin_0.
      + exists b'. split; [exact N|]. exact (B b (proj1 Q)).
  Qed.
  Lemma helix_run w a ar z lin tu l s : norm2 a = 1 -> clumps_ok (world s) -> plain_all (world s) l -> engine s = Helix w a ar z lin tu -> 
    exists s' ar', sim_run ids l s = Done s' /\ engine s' = Helix w a ar' z lin (tu + w * duration l) /\ now s' = now s + duration l /\
      forall i b, In i ids -> prescribed l (world s) i b -> exists b', nb (world s') i = Some b' /\ screwed z a (w * duration l) (lin * duration l) (state_of b) (state_of b').
  Proof.
    intros Ha K P E.
    destruct (run_inv ids (fun d e t _ => (exists ar', e = Helix w a ar' z lin (tu + w * duration d)) /\ t = now s + duration d)
               (fun i d e t r => forall b, nb (world s) i = Some b -> screwed z a (w * duration d) (lin * duration d) (state_of b) r) (fun _ => True)) with (l := l) (d := @nil one_step) (s := s) as (s' & R & ([ar' E1] & E2) & HB); try assumption; try (intros; exact I).
    - intros d p e t n _ Hdt ([ar' He] & Ht). subst e. cbn [effect]. eexists _, _. split; [reflexivity|]. split; [split; [exists true; rewrite duration_snoc; f_equal; cbn [sdt]; ring|]; rewrite duration_snoc; lra|].
      intros i r r' B _ X1 X2 _ _ X5 X6 b Hb. rewrite duration_snoc. replace (w * (duration d + dt (s_conf p))) with (w * duration d + w * dt (s_conf p)) by ring. replace (lin * (duration d + dt (s_conf p))) with (lin * duration d + lin * dt (s_conf p)) by ring.
      eapply screw_step; [exact Ha|exact Hdt|exact (B b Hb)| |exact X1|exact X2|exact X5|exact X6]. reflexivity.
    - split; [exists ar; rewrite E; f_equal; rewrite duration_nil; ring|]. rewrite duration_nil. lra.
    - exists s', ar'. split; [exact R|]. split; [exact E1|]. split; [exact E2|]. intros i b Hi Q. destruct (HB i b Hi Q) as (b' & N & B).
      + intros b0 Hb0. rewrite (proj1 Q) in Hb0. injection Hb0 as <-. rewrite duration_nil. rewrite !Rmult_0_r. apply screw_0.
      + exists b'. split; [exact N|]. exact (B b (proj1 Q)).
  Qed.
  Lemma interp_helix_run w a ar z lin tu ts vs wr sl lk l s : norm2 a = 1 -> clumps_ok (world s) -> plain_all (world s) l -> engine s = InterpHelix w a ar z lin tu ts vs wr sl lk ->
    table ts vs -> increasing ts -> lookup_state lk ->
    exists s' w' ar' lin' th lk', sim_run ids l s = Done s' /\ engine s' = InterpHelix w' a ar' z lin' (tu + th) ts vs wr sl lk' /\ now s' = now s + duration l /\
      forall i b, In i ids -> prescribed l (world s) i b -> exists b', nb (world s') i = Some b' /\ screwed z a th (sl * th) (state_of b) (state_of b').
  Proof.
    intros Ha K P E Tb Inc Lk.
    destruct (run_inv ids (fun d e t _ => (exists w' ar' lin' th lk', e = InterpHelix w' a ar' z lin' (tu + th) ts vs wr sl lk' /\ lookup_state lk') /\ t = now s + duration d)
               (fun i d e t r => forall b w' ar' lin' th lk', nb (world s) i = Some b -> e = InterpHelix w' a ar' z lin' (tu + th) ts vs wr sl lk' -> screwed z a th (sl * th) (state_of b) r) (fun _ => True)) with (l := l) (d := @nil one_step) (s := s) as (s' & R & ((w' & ar' & lin' & th & lk' & E1 & _) & E2) & HB); try assumption; try (intros; exact I).
    - intros d p e t n _ Hdt ((w1 & ar1 & lin1 & th & lk1 & He & Hl) & Ht). subst e. cbn [effect].
      assert (X : exists t', (if wr then match get ts 0, back ts with Some t0, Some tn => Some (periodicWrap (time (mkM t (dt (s_conf p)) n)) t0 tn) | _, _ => None end else Some (time (mkM t (dt (s_conf p)) n))) = Some t').
      { destruct wr; [|eexists; reflexivity]. destruct Tb as (T0 & _). rewrite get0, back_nat by exact T0. destruct (nth_some ts 0) as [x Hx]; [exact T0|]. destruct (nth_some ts (length ts - 1)) as [y Hy]; [lia|]. rewrite Hx, Hy. eexists. reflexivity. }
      destruct X as [t' Et']. rewrite Et'. destruct (interp_value t' ts vs lk1 Tb Inc Hl) as (om & lk2 & Ei & _). rewrite Ei.
      assert (Hl2 : lookup_state lk2). { destruct (interp_ends t' ts vs lk1 Tb Hl) as [(v2 & p2 & E2 & L)|(p2 & E2 & L)]; rewrite Ei in E2; [injection E2 as _ <-; exact L|discriminate]. }
      eexists _, _. split; [reflexivity|]. split.
      + split; [|rewrite duration_snoc; lra]. exists om, true, (om * sl), (th + om * dt (s_conf p)), lk2. split; [f_equal; cbn [sdt]; ring|exact Hl2].
      + intros i r r' B _ X1 X2 _ _ X5 X6 b w2 ar2 lin2 th2 lk3 Hb Ee. injection Ee as _ _ _ Eth _. cbn [sdt] in Eth. assert (Et : th2 = th + om * dt (s_conf p)) by lra. rewrite Et.
        replace (sl * (th + om * dt (s_conf p))) with (sl * th + (om * sl) * dt (s_conf p)) by ring.
        eapply screw_step; [exact Ha|exact Hdt|exact (B b _ _ _ th _ Hb eq_refl)| |exact X1|exact X2|exact X5|exact X6]. reflexivity.
    - split; [exists w, ar, lin, 0, lk; split; [rewrite E; f_equal; ring|exact Lk]|]. rewrite duration_nil. lra.
    - exists s', w', ar', lin', th, lk'. split; [exact R|]. split; [exact E1|]. split; [exact E2|]. intros i b Hi Q. destruct (HB i b Hi Q) as (b' & N & B).
      + intros b0 w1 ar1 lin1 th1 lk1 Hb0 Ee. rewrite (proj1 Q) in Hb0. injection Hb0 as <-. rewrite E in Ee. injection Ee as _ _ _ Eth _. assert (Et : th1 = 0) by lra. rewrite Et, Rmult_0_r. apply screw_0.
      + exists b'. split; [exact N|]. exact (B b _ _ _ th _ (proj1 Q) E1).
  Qed.
End Engines.
