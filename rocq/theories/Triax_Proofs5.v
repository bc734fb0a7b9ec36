(** too fast; reloading; growth; other ids *)
From Coq Require Import Reals List ZArith Bool Arith Lra Lia.
From Verif Require Import Vec_Model Law_Model Triax_Model Triax_Spec Triax_Proofs Triax_Proofs2 Triax_Proofs3 Triax_Proofs4.
Import ListNotations.
Local Open Scope R_scope.

Definition idc (c : tconf) : Prop := forall w, ids c w = w.
Lemma closing_at g v w : is_wall w -> closing g v w = Some (mkW (vadd (if Nat.even w then vzero else V 1 1 1) (smul g (inward w))) (smul v (inward w))).
Proof. intro H. unfold closing. apply Nat.ltb_lt in H. rewrite H. reflexivity. Qed.
Lemma closing_sane c it f g v : idc c -> intervals_ok c -> sane c (slow it f) (closing g v).
Proof.
  intros I J. split; [|split; [exact J|exists 0; reflexivity]]. split; [intros a b _ _; rewrite !I; intro Q; exact Q|]. intros w H. rewrite I, (closing_at g v w H). discriminate.
Qed.
Lemma closing_inner c g v a : idc c -> (a < 3)%nat -> inner c (closing g v) 0 a = 1 - 2 * g.
Proof.
  intros I Ha. unfold inner, position. rewrite !I, (closing_at g v _ (low_wall a Ha)), (closing_at g v _ (high_wall a Ha)). cbn [wpos].
  assert (D : a = 0%nat \/ a = 1%nat \/ a = 2%nat) by lia. destruct D as [-> | [-> | -> ]]; unfold low, high, inward, coord, vadd, smul, vzero; cbn [Nat.mul Nat.add Nat.even nth vx vy vz]; lra.
Qed.
Lemma closing_box c it f s g v : idc c -> thickness s = 0 -> 2 * g < 1 -> positive_box c (slow it f) s (closing g v).
Proof. intros I T G a Ha. rewrite (used_thick _ s) by lra. rewrite T, (closing_inner c g v a I Ha). lra. Qed.
Lemma closing_vmax c it f s g v a : idc c -> thickness s = 0 -> 2 * g < 1 -> (a < 3)%nat -> vmax c (slow it f) s (closing g v) a = max_vel c.
Proof.
  intros I T G Ha. unfold vmax, max_vels. rewrite comp_coord, coord_box by exact Ha. unfold box_size. cbn [vx vy vz]. rewrite (used_thick _ s) by lra. rewrite T, !(closing_inner c g v) by (assumption || lia). field. lra.
Qed.
Lemma closing_cross c it f s g v a : idc c -> thickness s = 0 -> (a < 3)%nat -> cross c (closing g v) (used_thickness (slow it f) s) a = (1 - 2 * g) * (1 - 2 * g).
Proof.
  intros I T Ha. rewrite (used_thick _ s) by lra. rewrite T. unfold cross. rewrite !(closing_inner c g v) by (assumption || lia). destruct a as [|[|a]]; reflexivity.
Qed.

Lemma fast_ok : idc fast /\ intervals_ok fast.
Proof. split; [intro w; reflexivity|]. unfold intervals_ok; cbn; repeat split; lia. Qed.
Lemma fast_in w : is_wall w -> in_stress fast (axis w) /\ activated fast w = true.
Proof. intro H. split; [|reflexivity]. walls H; reflexivity. Qed.
Lemma fast_step it s g v p : (it < 100)%Z -> thickness s = 0 -> 2 * g < 1 -> (forall w, is_wall w -> previousTranslation s w = smul p (inward w)) ->
  exists s' W', action fast (slow it (fun _ => vzero)) s (closing g v) = Done s' W' None /\ thickness s' = 0 /\ (forall w, is_wall w -> previousTranslation s' w = smul (75/10000 + 8/10 * p) (inward w)) /\
  (forall w, is_wall w -> position fast W' w = position fast (closing g v) w) /\ (forall w, is_wall w -> velocity fast W' w = smul (75/100 + 80 * p) (inward w)).
Proof.
  intros IT T G PP. destruct fast_ok as [I J]. pose proof (closing_sane fast it (fun _ => vzero) g v I J) as SA.
  destruct (stress_wall fast (slow it (fun _ => vzero)) s (closing g v) SA eq_refl) as [s' [W' [E [SF [SW _]]]]]. exists s', W'. split; [exact E|].
  destruct (sizes_are_measured _ _ s _ SA) as [s3 [W3 [g3 [E3 [TH _]]]]]. destruct (done_eq _ _ _ _ _ _ _ _ _ _ E E3) as [-> [-> _]].
  destruct (only_walls _ _ s _ SA) as [s4 [W4 [g4 [E4 [PO _]]]]]. destruct (done_eq _ _ _ _ _ _ _ _ _ _ E E4) as [-> [-> _]].
  split; [rewrite TH, used_thick by lra; exact T|].
  assert (K : forall w, stiffness s' w = 0). { intro w. rewrite SF. unfold prepared1. assert (B : counts_stiffness fast (slow it (fun _ => vzero))) by (right; exact IT). apply stiff_bool in B. rewrite B. reflexivity. }
  assert (Q : forall w, is_wall w -> previousTranslation s' w = smul (75/10000 + 8/10 * p) (inward w)).
  { intros w H. destruct (fast_in w H) as [B A]. destruct (SW w H B A) as [Q _]. rewrite Q, K, (PP w H), smul_smul, smul_add. f_equal.
    rewrite (closing_vmax fast) by (assumption || exact (axis_lt w H)). unfold excess. rewrite (closing_cross fast) by (assumption || exact (axis_lt w H)). unfold slow at 2. cbn [force]. rewrite dot_zero.
    assert (GA : coord (axis w) (goal fast) = -1) by (walls H; reflexivity). rewrite GA.
    assert (S0 : 0 < 0 - -1 * ((1 - 2 * g) * (1 - 2 * g))). { pose proof (Rmult_lt_0_compat (1 - 2 * g) (1 - 2 * g) ltac:(lra) ltac:(lra)). lra. }
    unfold translation. destruct (Req_EM_T _ 0); [lra|]. destruct (Req_EM_T 0 0); [|contradiction]. rewrite sign_pos by exact S0. unfold fast, conf0, slow. cbn [stressDamping max_vel dt]. lra. }
  split; [exact Q|]. split; [exact PO|]. intros w H. destruct (fast_in w H) as [B A]. destruct (SW w H B A) as [_ V1]. rewrite V1, (Q w H), smul_smul. f_equal. unfold slow. cbn [dt]. field.
Qed.
Lemma too_fast : exists s1 W1 s2 W2, action fast (slow 0 (fun _ => vzero)) fresh (closing 0 0) = Done s1 W1 None /\ moves fast (1/100) W1 (closing (75/10000) (75/100)) /\
  action fast (slow 1 (fun _ => vzero)) s1 (closing (75/10000) (75/100)) = Done s2 W2 None /\ max_vel fast = 1 /\
  forall a, (a < 3)%nat -> inner fast (closing (75/10000) (75/100)) 0 a = 985/1000 /\ velocity fast W2 (low a) = smul (135/100) (inward (low a)).
Proof.
  destruct (fast_step 0 fresh 0 0 0) as [s1 [W1 [E1 [T1 [P1 [Q1 V1]]]]]]; [lia|reflexivity|lra|intros w H; rewrite smul_0; reflexivity|].
  destruct (fast_step 1 s1 (75/10000) (75/100) (75/10000)) as [s2 [W2 [E2 [_ [_ [_ V2]]]]]]; [lia|exact T1|lra|intros w H; rewrite (P1 w H); f_equal; lra|].
  exists s1, W1, s2, W2. split; [exact E1|]. split; [|split; [exact E2|split; [reflexivity|]]].
  - intros w H. destruct fast_ok as [I _]. rewrite I, (closing_at _ _ w H), (V1 w H), (Q1 w H). f_equal. unfold position. rewrite I, (closing_at _ _ w H). cbn [wpos]. f_equal; [|f_equal; lra].
    destruct (if Nat.even w then vzero else V 1 1 1) as [x y z]. destruct (inward w) as [i j k]. unfold vadd, smul; cbn [vx vy vz]; f_equal; lra.
  - intros a Ha. destruct fast_ok as [I _]. split; [rewrite (closing_inner fast _ _ a I Ha); lra|]. rewrite (V2 _ (low_wall a Ha)). f_equal. lra.
Qed.

(** C184 *)
Lemma reload_continues c e s W junk : sane c e W -> first s = false -> wall_id s = ids c -> previousTranslation s = (fun _ => vzero) -> counts_stiffness c e -> measures c e -> volumes (solids e) = Some (particlesVolume s) ->
  action c e (reload s junk) W = action c e s W.
Proof.
  intros SA F WI PZ C M VO. rewrite !(action_unfold c e _ W SA).
  assert (PP : prepared c e (reload s junk) W = prepared c e s W).
  { rewrite !(prepared_measured c e _ W M). unfold prepared1. pose proof C as C'. apply stiff_bool in C'. rewrite C'. cbv zeta.
    assert (SV : solid_volume e (reload s junk) = particlesVolume s) by (unfold solid_volume; cbn [reload first orb]; rewrite VO; reflexivity).
    assert (SV2 : solid_volume e s = particlesVolume s) by (unfold solid_volume; rewrite F, VO; destruct (updatePorosity s); reflexivity).
    unfold prepared0. rewrite SV, SV2, F. change (box_size c e (reload s junk) W) with (box_size c e s W). change (used_thickness e (reload s junk)) with (used_thickness e s).
    unfold setNumbers, setStiffness, computeStressStrain, updateStiffness, reload. cbn [first wall_id previousTranslation stiffness strain stress particlesVolume porosity thickness size size0 maxMultiplier previousMultiplier previousStress meanStress volumetricStrain externalWork updatePorosity].
    rewrite PZ, WI. reflexivity. }
  change (box_size c e (reload s junk) W) with (box_size c e s W). rewrite PP. reflexivity.
Qed.
Lemma used_step k it s : (100 <= it)%Z -> ~ (it mod 10 = 0)%Z -> thickness s = 0 -> (forall w, is_wall w -> known fast s w = w) -> (forall w, is_wall w -> previousTranslation s w = vzero) -> (forall w, is_wall w -> stiffness s w = k) ->
  exists s' W', action fast (slow it half) s (closing 0 0) = Done s' W' None /\ forall w, is_wall w -> velocity fast W' w = smul (75 * translation (1/100) k 1 (1/2)) (inward w).
Proof.
  intros IT NM T KN PZ KK. destruct fast_ok as [I J]. pose proof (closing_sane fast it half 0 0 I J) as SA.
  destruct (stress_wall fast (slow it half) s (closing 0 0) SA eq_refl) as [s' [W' [E [SF [SW _]]]]]. exists s', W'. split; [exact E|]. intros w H.
  destruct (fast_in w H) as [B A]. destruct (SW w H B A) as [Q V1]. rewrite V1, Q, (PZ w H), smul_z, vadd_z, smul_smul. f_equal.
  assert (K : stiffness s' w = k). { rewrite SF. unfold prepared1. destruct (_ || _)%bool eqn:X; [|apply KK, H]. exfalso. change ((it mod 10 =? 0)%Z || (it <? 100)%Z = true) in X. apply Bool.orb_true_iff in X. rewrite Z.eqb_eq, Z.ltb_lt in X. lia. }
  rewrite K. rewrite (closing_vmax fast) by (assumption || lra || exact (axis_lt w H)). unfold excess. rewrite (closing_cross fast) by (assumption || exact (axis_lt w H)). unfold slow at 3. cbn [force]. unfold half. rewrite (KN w H), dot_smul, (dot_inward w H).
  assert (GA : coord (axis w) (goal fast) = -1) by (walls H; reflexivity). rewrite GA. replace (-1 / 2 * 1 - -1 * ((1 - 2 * 0) * (1 - 2 * 0))) with (1/2) by lra. unfold fast, conf0, slow. cbn [stressDamping max_vel dt]. field.
Qed.
Lemma reload_jumps junk : exists s1 W1 s2 W2, action fast (slow 105 half) (used 1000 (fun _ => vzero)) (closing 0 0) = Done s1 W1 None /\ action fast (slow 105 half) (reload (used 1000 (fun _ => vzero)) junk) (closing 0 0) = Done s2 W2 None /\
  velocity fast W1 0 = V (375/10000) 0 0 /\ velocity fast W2 0 = V (75/100) 0 0.
Proof.
  destruct (used_step 1000 105 (used 1000 (fun _ => vzero))) as [s1 [W1 [E1 V1]]]; [lia|vm_compute; discriminate|reflexivity|reflexivity|reflexivity|reflexivity|].
  destruct (used_step 0 105 (reload (used 1000 (fun _ => vzero)) junk)) as [s2 [W2 [E2 V2]]]; [lia|vm_compute; discriminate|reflexivity|reflexivity|reflexivity|reflexivity|].
  exists s1, W1, s2, W2. split; [exact E1|]. split; [exact E2|].
  assert (H : is_wall 0) by (unfold is_wall; lia). rewrite (V1 _ H), (V2 _ H). unfold inward, smul. cbn [nth vx vy vz].
  assert (A : translation (1/100) 1000 1 (1/2) = 5/10000). { unfold translation. destruct (Req_EM_T (1/2) 0); [lra|]. destruct (Req_EM_T 1000 0); [lra|]. rewrite sign_pos, Rabs_right by lra. unfold Rmin. destruct (Rle_dec _ _); lra. }
  assert (B : translation (1/100) 0 1 (1/2) = 1/100). { unfold translation. destruct (Req_EM_T (1/2) 0); [lra|]. destruct (Req_EM_T 0 0); [|contradiction]. rewrite sign_pos by lra. lra. }
  rewrite A, B. split; f_equal; lra.
Qed.

(** C188 *)
Lemma ids_learnt_once c e s W : sane c e W -> exists s' W' g, action c e s W = Done s' W' g /\ first s' = false /\ (forall c' w, known c' s' w = known c s w).
Proof.
  intro SA. destruct (action_measures c e s W SA) as [s' [W' [g [E [F [WI _]]]]]]. exists s', W', g. split; [exact E|].
  destruct (prepared_fields c e s W) as [F1 [WI1 _]]. cbv zeta in *. rewrite F1 in F. rewrite WI1 in WI. split; [exact F|]. intros c' w. unfold known at 1. rewrite F, WI. apply known_eq.
Qed.
Lemma old_wall_watched : exists s' W', action (ids7 fast) (slow 105 (fun i => if Nat.eqb i 7 then V (-1) 0 0 else vzero)) (used 1000 (fun _ => vzero)) (with7 0 0) = Done s' W' None /\
  normal_stress 1 0 (V (-1) 0 0) = coord 0 (goal fast) /\ velocity (ids7 fast) W' 0 = V (75/1000) 0 0.
Proof.
  remember (slow 105 (fun i => if Nat.eqb i 7 then V (-1) 0 0 else vzero)) as e. remember (used 1000 (fun _ => vzero)) as s.
  assert (AT : forall w, is_wall w -> with7 0 0 (ids (ids7 fast) w) = closing 0 0 w). { intros w H. walls H; reflexivity. }
  assert (SA : sane (ids7 fast) e (with7 0 0)).
  { split; [|split; [unfold intervals_ok; cbn; repeat split; lia|rewrite Heqe; exists 0; reflexivity]]. split; [intros a b HA HB; walls HA; walls HB; cbn; intro X; (reflexivity || discriminate)|]. intros w H. rewrite (AT w H), (closing_at 0 0 w H). discriminate. }
  destruct (stress_wall (ids7 fast) e s (with7 0 0) SA eq_refl) as [s' [W' [E [SF [SW _]]]]]. exists s', W'. split; [exact E|].
  split; [unfold normal_stress, inward, dot, coord; cbn [nth vx vy vz]; unfold fast, conf0; cbn [goal vx]; lra|].
  assert (H : is_wall 0) by (unfold is_wall; lia). destruct (SW 0%nat H eq_refl eq_refl) as [Q V1]. rewrite V1, Q. replace (previousTranslation s 0) with vzero by (rewrite Heqs; reflexivity). rewrite smul_z, vadd_z, smul_smul.
  assert (K : stiffness s' 0 = 1000) by (rewrite SF, Heqs, Heqe; reflexivity). rewrite K.
  assert (IN : forall a, (a < 3)%nat -> inner (ids7 fast) (with7 0 0) 0 a = 1).
  { intros a Ha. assert (X := closing_inner fast 0 0 a (proj1 fast_ok) Ha). unfold inner, position in *. rewrite (AT _ (low_wall a Ha)), (AT _ (high_wall a Ha)). unfold fast, conf0 in X. cbn [ids] in X. lra. }
  assert (TH : used_thickness e s = 0) by (rewrite used_thick; rewrite Heqs; cbn [used thickness]; lra).
  assert (VM : vmax (ids7 fast) e s (with7 0 0) (axis 0) = 1).
  { unfold vmax, max_vels. rewrite comp_coord, coord_box by (cbn; lia). unfold box_size. cbn [vx vy vz]. rewrite TH, !IN by (cbn; lia). cbn [max_vel ids7 fast conf0]. lra. }
  assert (EX : excess (ids7 fast) e s (with7 0 0) 0 = 1).
  { unfold excess, cross. cbn [axis Nat.div Nat.divmod fst]. rewrite TH, !IN by lia. rewrite Heqe, Heqs. cbn [slow force known used first wall_id Nat.eqb]. rewrite dot_zero. unfold coord, fast, conf0, ids7. cbn [nth goal vx]. lra. }
  rewrite VM, EX. assert (D : dt e = 1/100) by (rewrite Heqe; reflexivity). rewrite D.
  assert (A : translation (1/100) 1000 1 1 = 1/1000). { unfold translation. destruct (Req_EM_T 1 0); [lra|]. destruct (Req_EM_T 1000 0); [lra|]. rewrite sign_pos, Rabs_right by lra. unfold Rmin. destruct (Rle_dec _ _); lra. }
  rewrite A. unfold inward, smul, fast, conf0, ids7. cbn [nth vx vy vz stressDamping]. f_equal; lra.
Qed.
