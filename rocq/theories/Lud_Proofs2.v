From Coq Require Import Reals List ZArith Bool Lra Lia.
From Verif Require Import Vec_Model Vec_Proofs Rigid_Model Rigid_Spec Law_Model Law_Spec Law_Proofs Pred_Proofs Lud_Model Lud_Spec Lud_Proofs.
Import ListNotations.
Local Open Scope R_scope.

Lemma ip2_params m1 m2 s1 s2 p : ip2 m1 m2 s1 s2 = LPhys p ->
  (0 < lkc m1 -> 0 < lkc m2 -> harmonic (lkc m1) (lkc m2) (kc p)) /\ (0 < lks m1 -> 0 < lks m2 -> harmonic (lks m1) (lks m2) (lks_ p)) /\ (0 < lG0 m1 -> 0 < lG0 m2 -> harmonic (lG0 m1) (lG0 m2) (G0 p)) /\
  ltan p = tan (Rmin (lfrict m1) (lfrict m2)).
Proof.
  unfold ip2. destruct (radii s1 s2) as [(a & b)|]; [|discriminate]. cbv zeta. destruct (Rle_dec _ _); [discriminate|]. intros E. injection E as <-. cbn [kc lks_ G0 ltan]. split; [|split; [|split; [|reflexivity]]]; intros A B; apply (reduced_mean _ _ A B).
Qed.
(** steps, computed *)
Definition moved (p : lphys) (k m n D : R) : lphys := mkLP (k1 p) (kp p) (kc p) (lks_ p) (G0 p) (ltan p) (Some k) m (Some n) (DeltPMax p) (DeltPNull p) D (lshear p).
Lemma step_grow p D k x : sound p -> unloading (k1 p) (kp p) (DeltPMax p) (DeltMax p) = k -> DeltMax p < D -> Rmin ((1 - k1 p / k) * D) (DeltPNull p) = x ->
  hysteresis p D = Some (if Rlt_dec D (DeltPMax p) then k1 p * D else k * (D - x), moved p k D x D).
Proof.
  intros S U G X. pose proof S as (A & B & C & P & EP & M & n & EN & NR & NP). pose proof (stiffness2_spec p S) as (E2 & E1). pose proof (unloading_range p S (DeltMax p) M) as UR. pose proof (pnull_pos p S) as PN. rewrite U in *. unfold hysteresis. cbv zeta. rewrite E1, E2. destruct (Rlt_dec (DeltMax p) D) as [_|]; [|contradiction].
  destruct (plastic_spec (k1 p) k D (DeltPNull p)) as (y & X1 & X2 & X3 & X4 & X5); [lra|lra|lra|]. rewrite X in X4. subst y. rewrite X1. unfold branch. destruct (Rle_dec (k1 p * D) (k * (D - x))) as [_|N]; [|exfalso; apply N; lra]. reflexivity.
Qed.
Lemma step_stay p D k n : sound p -> unloading (k1 p) (kp p) (DeltPMax p) (DeltMax p) = k -> 0 <= D <= DeltMax p -> DeltNull p = Some n -> k * (D - n) < k1 p * D -> - (kc p * D) < k * (D - n) \/ DeltPrev p <= D ->
  hysteresis p D = Some (k * (D - n), moved p k (DeltMax p) n D).
Proof.
  intros S U G EN T L. pose proof (stiffness2_spec p S) as (E2 & E1). rewrite U in *. unfold hysteresis. cbv zeta. rewrite E1, E2. destruct (Rlt_dec (DeltMax p) D) as [|_]; [exfalso; lra|]. rewrite EN. unfold branch. destruct (Rle_dec _ _) as [|_]; [exfalso; lra|]. destruct (Rlt_dec _ _) as [|N]; [reflexivity|]. destruct (Rlt_dec (D - DeltPrev p) 0); [exfalso; lra|]. reflexivity.
Qed.
(** pulling on the limit of adhesion: the contact follows it, and is left as if it had been loaded to the overlap where both limits meet *)
Lemma step_pull p D k n : sound p -> unloading (k1 p) (kp p) (DeltPMax p) (DeltMax p) = k -> 0 < D <= DeltMax p -> DeltNull p = Some n -> k * (D - n) <= - (kc p * D) -> D < DeltPrev p ->
  hysteresis p D = Some (- (kc p * D), moved p k (D * (k + kc p) / (k - k1 p)) (Rmin ((1 - k1 p / k) * (D * (k + kc p) / (k - k1 p))) (DeltPNull p)) D).
Proof.
  intros S U G EN T L. pose proof S as (A & B & C & P & EP & M & n' & EN' & NR & NP). pose proof (stiffness2_spec p S) as (E2 & E1). assert (M0 : 0 < DeltMax p) by lra. pose proof (unloading_strict p (DeltMax p) S M0) as US. pose proof (pnull_pos p S) as PN. rewrite U in *. assert (CD : 0 <= kc p * D) by (apply Rmult_le_pos; lra). assert (KD : 0 < k1 p * D) by (apply Rmult_lt_0_compat; lra).
  unfold hysteresis. cbv zeta. rewrite E1, E2. destruct (Rlt_dec (DeltMax p) D) as [|_]; [exfalso; lra|]. rewrite EN. unfold branch. destruct (Rle_dec _ _) as [|_]; [exfalso; lra|]. destruct (Rlt_dec _ _) as [|_]; [exfalso; lra|]. destruct (Rlt_dec (D - DeltPrev p) 0) as [_|]; [|exfalso; lra]. destruct (Req_EM_T (k - k1 p) 0) as [|_]; [exfalso; lra|]. cbv zeta.
  assert (X0 : 0 <= D * (k + kc p) / (k - k1 p)) by (apply Rmult_le_pos; [apply Rmult_le_pos; lra|left; apply Rinv_0_lt_compat; lra]). destruct (plastic_spec (k1 p) k (D * (k + kc p) / (k - k1 p)) (DeltPNull p)) as (y & X1 & X2 & X3 & X4 & X5); [lra|lra|lra|]. rewrite X1, X4. unfold moved. rewrite <- Ropp_mult_distr_l. reflexivity.
Qed.
Lemma pull_limit p D f q n : sound p -> 0 < D <= DeltMax p -> D < DeltPrev p -> hysteresis p D = Some (f, q) -> DeltNull p = Some n -> let k := unloading (k1 p) (kp p) (DeltPMax p) (DeltMax p) in k * (D - n) <= - (kc p * D) ->
  f = - (kc p * D) /\ (k - k1 p) * DeltMax q = (k + kc p) * D /\ DeltNull q = Some (Rmin ((1 - k1 p / k) * DeltMax q) (DeltPNull p)).
Proof.
  intros S H L E EN k T. rewrite (step_pull p D _ n S eq_refl H EN T L) in E. assert (M0 : 0 < DeltMax p) by lra. pose proof (unloading_strict p (DeltMax p) S M0) as US. fold k in E, US. injection E as <- <-. cbn [moved DeltMax DeltNull]. split; [reflexivity|]. split; [field; lra|reflexivity].
Qed.
Lemma fresh_sound P : 0 < P -> sound (fresh_contact P).
Proof. intros H. unfold sound, fresh_contact. cbn [k1 kp kc DeltPMax DeltPNull DeltMax DeltNull]. split; [lra|]. split; [lra|]. split; [lra|]. split; [lra|]. split; [field|]. split; [lra|]. exists 0. split; [reflexivity|]. lra. Qed.
Lemma unl K1 KP P M k : (k = KP /\ KP <= K1 + (KP - K1) * (M / P)) \/ (k = K1 + (KP - K1) * (M / P) /\ k <= KP) -> unloading K1 KP P M = k.
Proof. unfold unloading. intros [(-> & H)|(-> & H)]; [apply Rmin_left|apply Rmin_right]; exact H. Qed.
(** ** refutations *)
Lemma jump_refuted : exists q, hysteresis (fresh_contact 1) 2 = Some (2, q) /\ DeltPMax (fresh_contact 1) = 1 /\ kp (fresh_contact 1) * (2 - DeltPNull (fresh_contact 1)) = 3.
Proof.
  eexists. split; [|split; [reflexivity|cbn [fresh_contact kp DeltPNull]; lra]]. rewrite (step_grow (fresh_contact 1) 2 1 0 (fresh_sound 1 ltac:(lra))).
  - cbn [fresh_contact DeltPMax k1]. destruct (Rlt_dec 2 1); [exfalso; lra|]. replace (1 * (2 - 0)) with 2 by ring. reflexivity.
  - apply unl. cbn [fresh_contact k1 kp DeltPMax DeltMax]. lra.
  - cbn [fresh_contact DeltMax]. lra.
  - cbn [fresh_contact k1 DeltPNull]. rewrite Rmin_left; lra.
Qed.
Lemma facet_refuted m1 m2 r D : positive_mat m1 -> positive_mat m2 -> lk1 m1 < lkp m1 -> lk1 m2 < lkp m2 -> 0 < r -> 0 < D ->
  exists p q, ip2 m1 m2 None (Some r) = LPhys p /\ hysteresis p D = Some (0, q).
Proof.
  intros (A1 & A2 & A3 & A4) (B1 & B2 & B3 & B4) HA HB R1 HD. unfold ip2, radii. cbv zeta. pose proof (reduced_less _ _ _ _ A1 B1 HA HB) as L. destruct (Rle_dec _ _) as [N|_]; [exfalso; lra|]. eexists. eexists. split; [reflexivity|]. unfold hysteresis, stiffness2. cbn [DeltPMax DeltMax k1 kp kc DeltPNull DeltPrev DeltNull lks_ G0 ltan lshear]. cbv zeta.
  destruct (Req_EM_T _ 0) as [_|N]; [|exfalso; apply N; unfold Rdiv; ring]. destruct (Req_EM_T 0 0) as [_|]; [|contradiction]. cbn [stiffness1 k1 branch]. reflexivity.
Qed.
Definition at_state (k m n D : R) : lphys := moved (fresh_contact 1) k m n D.
Lemma at_sound k m n D : 0 <= n <= m -> n <= 1/2 -> sound (at_state k m n D).
Proof. intros H H'. unfold sound, at_state, moved, fresh_contact. cbn [k1 kp kc DeltPMax DeltPNull DeltMax DeltNull]. split; [lra|]. split; [lra|]. split; [lra|]. split; [lra|]. split; [field|]. split; [lra|]. exists n. split; [reflexivity|]. lra. Qed.
Ltac fields := cbn [at_state moved fresh_contact k1 kp kc lks_ G0 ltan DeltPMax DeltPNull DeltMax DeltNull DeltPrev lshear].
Lemma hold_refuted : let p := fresh_contact 1 in exists q, response p [1/2; 1; 1/6; 3/20; 3/20] = Some ([1/2; 1; -1/6; -3/20; -7/40], q) /\ -7/40 < - (kc p * (3/20)).
Proof.
  cbv zeta. eexists. split; [|cbn [fresh_contact kc]; lra]. cbn [response].
  assert (E1 : hysteresis (fresh_contact 1) (1/2) = Some (1/2, at_state 1 (1/2) 0 (1/2))).
  { rewrite (step_grow (fresh_contact 1) (1/2) 1 0 (fresh_sound 1 ltac:(lra))); [|apply unl; fields; lra|fields; lra|fields; rewrite Rmin_left; lra]. fields. destruct (Rlt_dec (1/2) 1); [|exfalso; lra]. rewrite Rmult_1_l. reflexivity. }
  assert (E2 : hysteresis (at_state 1 (1/2) 0 (1/2)) 1 = Some (1, at_state (3/2) 1 (1/3) 1)).
  { rewrite (step_grow (at_state 1 (1/2) 0 (1/2)) 1 (3/2) (1/3)); [|apply at_sound; lra|apply unl; fields; lra|fields; lra|fields; rewrite Rmin_left; lra]. fields. destruct (Rlt_dec 1 1); [exfalso; lra|]. replace (3/2 * (1 - 1/3)) with 1 by lra. reflexivity. }
  assert (E3 : hysteresis (at_state (3/2) 1 (1/3) 1) (1/6) = Some (-1/6, at_state 2 (1/2) (1/4) (1/6))).
  { rewrite (step_pull (at_state (3/2) 1 (1/3) 1) (1/6) 2 (1/3)); [|apply at_sound; lra|apply unl; fields; lra|fields; lra|reflexivity|fields; lra|fields; lra]. fields. replace (1/6 * (2 + 1) / (2 - 1)) with (1/2) by lra. rewrite Rmin_left by lra. replace ((1 - 1/2) * (1/2)) with (1/4) by lra. replace (- (1 * (1/6))) with (-1/6) by lra. reflexivity. }
  assert (E4 : hysteresis (at_state 2 (1/2) (1/4) (1/6)) (3/20) = Some (-3/20, at_state (3/2) (3/4) (1/4) (3/20))).
  { rewrite (step_pull (at_state 2 (1/2) (1/4) (1/6)) (3/20) (3/2) (1/4)); [|apply at_sound; lra|apply unl; fields; lra|fields; lra|reflexivity|fields; lra|fields; lra]. fields. replace (3/20 * (3/2 + 1) / (3/2 - 1)) with (3/4) by lra. rewrite Rmin_left by lra. replace ((1 - 1/(3/2)) * (3/4)) with (1/4) by lra. replace (- (1 * (3/20))) with (-3/20) by lra. reflexivity. }
  assert (E5 : hysteresis (at_state (3/2) (3/4) (1/4) (3/20)) (3/20) = Some (-7/40, at_state (7/4) (3/4) (1/4) (3/20))).
  { rewrite (step_stay (at_state (3/2) (3/4) (1/4) (3/20)) (3/20) (7/4) (1/4)); [|apply at_sound; lra|apply unl; fields; lra|fields; lra|reflexivity|fields; lra|right; fields; lra]. fields. replace (7/4 * (3/20 - 1/4)) with (-7/40) by lra. reflexivity. }
  rewrite E1, E2, E3, E4, E5. reflexivity.
Qed.
(** unloading is not a function of the largest overlap *)
Lemma history_refuted : let p := fresh_contact 1 in exists q q', response p [3/4; 1/2] = Some ([3/4; 1/2], q) /\ response p [1/2; 3/4; 1/2] = Some ([1/2; 3/4; 7/16], q').
Proof.
  cbv zeta. eexists. eexists. cbn [response].
  assert (E0 : hysteresis (fresh_contact 1) (3/4) = Some (3/4, at_state 1 (3/4) 0 (3/4))).
  { rewrite (step_grow (fresh_contact 1) (3/4) 1 0 (fresh_sound 1 ltac:(lra))); [|apply unl; fields; lra|fields; lra|fields; rewrite Rmin_left; lra]. fields. destruct (Rlt_dec (3/4) 1); [|exfalso; lra]. rewrite Rmult_1_l. reflexivity. }
  assert (E1 : hysteresis (fresh_contact 1) (1/2) = Some (1/2, at_state 1 (1/2) 0 (1/2))).
  { rewrite (step_grow (fresh_contact 1) (1/2) 1 0 (fresh_sound 1 ltac:(lra))); [|apply unl; fields; lra|fields; lra|fields; rewrite Rmin_left; lra]. fields. destruct (Rlt_dec (1/2) 1); [|exfalso; lra]. rewrite Rmult_1_l. reflexivity. }
  assert (E2 : hysteresis (at_state 1 (1/2) 0 (1/2)) (3/4) = Some (3/4, at_state (3/2) (3/4) (1/4) (3/4))).
  { rewrite (step_grow (at_state 1 (1/2) 0 (1/2)) (3/4) (3/2) (1/4)); [|apply at_sound; lra|apply unl; fields; lra|fields; lra|fields; rewrite Rmin_left; lra]. fields. destruct (Rlt_dec (3/4) 1); [|exfalso; lra]. rewrite Rmult_1_l. reflexivity. }
  assert (E3 : hysteresis (at_state (3/2) (3/4) (1/4) (3/4)) (1/2) = Some (7/16, at_state (7/4) (3/4) (1/4) (1/2))).
  { rewrite (step_stay (at_state (3/2) (3/4) (1/4) (3/4)) (1/2) (7/4) (1/4)); [|apply at_sound; lra|apply unl; fields; lra|fields; lra|reflexivity|fields; lra|left; fields; lra]. fields. replace (7/4 * (1/2 - 1/4)) with (7/16) by lra. reflexivity. }
  assert (E4 : hysteresis (at_state 1 (3/4) 0 (3/4)) (1/2) = Some (1/2, at_state (7/4) (3/4) 0 (1/2))).
  { assert (S : sound (at_state 1 (3/4) 0 (3/4))) by (apply at_sound; lra). pose proof (stiffness2_spec _ S) as (F2 & F1). unfold hysteresis. cbv zeta. rewrite F1, F2. rewrite (unl _ _ _ _ (7/4)) by (fields; lra). fields. destruct (Rlt_dec (3/4) (1/2)); [exfalso; lra|]. unfold branch. destruct (Rle_dec _ _) as [_|N]; [|exfalso; lra]. destruct (Rlt_dec (1/2) 1); [|exfalso; lra]. rewrite Rmult_1_l. reflexivity. }
  rewrite E0, E1, E2, E3, E4. split; reflexivity.
Qed.
(** ** C255: the law *)
Lemma sqrt_limit a t : 0 <= t -> sqrt (norm2 a * (t * t)) = norm a * t.
Proof. intros T. rewrite sqrt_mult; [|apply norm2_pos|apply Rle_0_sqr]. rewrite sqrt_square by exact T. reflexivity. Qed.
Lemma norm_le_iff a x : 0 <= x -> (norm a <= x <-> norm2 a <= x * x).
Proof.
  intros X. pose proof (norm_pos a) as N. pose proof (norm_sq a) as Q. rewrite <- Q. split; intros H; [apply Rmult_le_compat; assumption|]. apply Rnot_lt_le. intros L. assert (x * x < norm a * norm a); [|lra]. apply Rle_lt_trans with (x * norm a); [apply Rmult_le_compat_l; lra|apply Rmult_lt_compat_r; lra].
Qed.
Lemma law_spec (fresh active : bool) dt g p id1 s1 id2 s2 shift2 shiftVel : sound p -> 0 <= ltan p -> 0 <= penetrationDepth g ->
  let v := relvel g s1 s2 shift2 shiftVel in let vs := vsub v (smul (dot (normal g) v) (normal g)) in let trial := vadd (rotate g (if fresh then vzero else lshear p)) (smul (lks_ p * dt) vs) in
  exists fh q (sh visc nf : vec) a, hysteresis p (penetrationDepth g) = Some (fh, q) /\ law fresh active dt g p id1 s1 id2 s2 shift2 shiftVel = LKept (lset q sh) nf a /\
    nf = smul (fh + G0 p * dot (normal g) v) (normal g) /\ norm sh <= ltan p * norm nf /\
    (norm trial <= ltan p * norm nf -> sh = trial /\ visc = smul (G0 p) vs) /\ (ltan p * norm nf < norm trial -> visc = vzero /\ sh = smul (ltan p * norm nf / norm trial) trial) /\
    a = if active then let f := vadd (vadd nf sh) visc in [(id1, (vopp f, vopp (cross (vsub (contactPoint g) (pos s1)) f))); (id2, (f, cross (vsub (vsub (contactPoint g) (pos s2)) shift2) f))] else [].
Proof.
  intros S T P v vs trial. destruct (hysteresis_step p _ S P) as (fh & q & E & _). unfold law. destruct (Rlt_dec (penetrationDepth g) 0) as [|_]; [exfalso; lra|]. rewrite E. cbv zeta. fold (relvel g s1 s2 shift2 shiftVel). fold v. fold vs. fold trial. remember (smul (fh + G0 p * dot (normal g) v) (normal g)) as nf. clearbody v. clearbody vs. clearbody trial.
  assert (NT : 0 <= ltan p * norm nf) by (apply Rmult_le_pos; [exact T|apply norm_pos]). rewrite (sqrt_limit nf (ltan p) T), (Rmult_comm (norm nf)).
  assert (Q : norm2 nf * (ltan p * ltan p) = (ltan p * norm nf) * (ltan p * norm nf)) by (rewrite <- (norm_sq nf); ring). rewrite Q. pose proof (norm_le_iff trial _ NT) as I.
  destruct (Rlt_dec _ (norm2 trial)) as [L|L].
  - assert (TP : ltan p * norm nf < norm trial) by (apply Rnot_le_lt; intros H; apply I in H; lra). eexists fh, q, _, _, _, _. split; [reflexivity|]. split; [reflexivity|]. split; [exact Heqnf|]. split; [|split; [intros; exfalso; lra|split; [auto|reflexivity]]].
    apply norm_le_iff; [exact NT|]. rewrite norm2_smul, <- (norm_sq trial). right. field. lra.
  - assert (TP : norm trial <= ltan p * norm nf) by (apply I; lra). eexists fh, q, _, _, _, _. split; [reflexivity|]. split; [reflexivity|]. split; [exact Heqnf|]. split; [exact TP|split; [auto|split; [intros; exfalso; lra|reflexivity]]].
Qed.
Lemma balance fresh active dt g p id1 s1 id2 s2 shift2 shiftVel q nf a o at_ : law fresh active dt g p id1 s1 id2 s2 shift2 shiftVel = LKept q nf a -> at_ id1 = pos s1 -> at_ id2 = vadd (pos s2) shift2 ->
  total_force a = vzero /\ total_moment o at_ a = vzero /\ (active = false -> a = []).
Proof.
  unfold law. destruct (Rlt_dec _ _); [discriminate|]. destruct (hysteresis _ _) as [(fh & q0)|]; [|discriminate]. cbv zeta. destruct (if Rlt_dec _ _ then _ else _) as (sh & visc). intros E X1 X2. injection E as _ _ <-. destruct active; [|split; [reflexivity|split; [reflexivity|reflexivity]]].
  match goal with |- context [vopp ?x] => remember x as f end. split; [|split; [|discriminate]]; unfold total_force, total_moment, vsum, moment; cbn [map fst snd fold_right]; [|rewrite X1, X2]; clear; destruct f as [a b c]; unfold vadd, vopp, vsub, cross, vzero; cbn [vx vy vz]; f_equal; ring.
Qed.
Lemma erased fresh active dt g p id1 s1 id2 s2 shift2 shiftVel : sound p -> (law fresh active dt g p id1 s1 id2 s2 shift2 shiftVel = LErase <-> penetrationDepth g < 0) /\ law fresh active dt g p id1 s1 id2 s2 shift2 shiftVel <> LInfinite.
Proof.
  intros S. unfold law. destruct (Rlt_dec _ _) as [L|L]; [split; [tauto|discriminate]|]. destruct (hysteresis_step p (penetrationDepth g) S ltac:(lra)) as (f & q & E & _). rewrite E. cbv zeta. destruct (if Rlt_dec _ _ then _ else _). split; [split; [discriminate|contradiction]|discriminate].
Qed.
(** the viscous part of the tangential force is not limited *)
Lemma hyst_half : hysteresis (fresh_contact 1) (1/2) = Some (1/2, at_state 1 (1/2) 0 (1/2)).
Proof. rewrite (step_grow (fresh_contact 1) (1/2) 1 0 (fresh_sound 1 ltac:(lra))); [|apply unl; fields; lra|fields; lra|fields; rewrite Rmin_left; lra]. fields. destruct (Rlt_dec (1/2) 1); [|exfalso; lra]. rewrite Rmult_1_l. reflexivity. Qed.
Lemma norm_x x : 0 <= x -> norm (V x 0 0) = x.
Proof. intros H. unfold norm. replace (norm2 (V x 0 0)) with (x * x) by (unfold norm2, dot; cbn [vx vy vz]; ring). apply sqrt_square. exact H. Qed.
Lemma viscous_refuted s1 s2 : pos s1 = vzero -> angVel s1 = vzero -> vel s1 = V 0 1 0 -> pos s2 = vzero -> angVel s2 = vzero -> vel s2 = vzero ->
  exists q t1 t2 e1, law true true (1/1000) sliding_geom (fresh_contact 1) 0 s1 1 s2 vzero vzero = LKept q (V (1/2) 0 0) [e1; (1%nat, (V (1/2) (10001/1000) 0, t2))] /\ fst (snd e1) = vopp (V (1/2) (10001/1000) 0) /\ snd (snd e1) = t1 /\ ltan (fresh_contact 1) * norm (V (1/2) 0 0) = 1/4.
Proof.
  intros P1 A1 V1 P2 A2 V2. pose proof (law_spec true true (1/1000) sliding_geom (fresh_contact 1) 0 s1 1 s2 vzero vzero (fresh_sound 1 ltac:(lra)) ltac:(cbn [fresh_contact ltan]; lra) ltac:(cbn [sliding_geom penetrationDepth]; lra)) as H. cbv zeta in H.
  assert (RV : relvel sliding_geom s1 s2 vzero vzero = V 0 1 0) by (unfold relvel; rewrite P1, A1, V1, P2, A2, V2; unfold sliding_geom, vadd, vsub, cross, vzero; cbn [contactPoint vx vy vz]; f_equal; ring). rewrite RV in H.
  assert (DV : dot (normal sliding_geom) (V 0 1 0) = 0) by (unfold sliding_geom, dot; cbn [normal vx vy vz]; ring). rewrite DV in H.
  assert (VS : vsub (V 0 1 0) (smul 0 (normal sliding_geom)) = V 0 1 0) by (unfold sliding_geom, vsub, smul; cbn [normal vx vy vz]; f_equal; ring). rewrite VS in H.
  assert (TR : vadd (rotate sliding_geom vzero) (smul (lks_ (fresh_contact 1) * (1/1000)) (V 0 1 0)) = V 0 (1/1000) 0) by (unfold rotate, sliding_geom, vsub, vadd, cross, smul, vzero; cbn [fresh_contact lks_ orthonormal_axis twist_axis vx vy vz]; f_equal; ring). rewrite TR in H.
  destruct H as (fh & q & sh & visc & nf & a & E & EL & EN & _ & ST & _ & EA). cbn [sliding_geom penetrationDepth] in E. rewrite hyst_half in E. injection E as <- <-.
  assert (N : nf = V (1/2) 0 0) by (rewrite EN; unfold sliding_geom, smul; cbn [normal vx vy vz]; f_equal; ring). clear EN. subst nf. rewrite (norm_x (1/2)) in * by lra.
  assert (NT : norm (V 0 (1/1000) 0) = 1/1000) by (unfold norm; replace (norm2 (V 0 (1/1000) 0)) with (1/1000 * (1/1000)) by (unfold norm2, dot; cbn [vx vy vz]; ring); apply sqrt_square; lra). rewrite NT in ST. cbn [fresh_contact ltan G0] in ST. destruct (ST ltac:(lra)) as (-> & ->).
  assert (F : vadd (vadd (V (1/2) 0 0) (V 0 (1/1000) 0)) (smul 10 (V 0 1 0)) = V (1/2) (10001/1000) 0) by (unfold vadd, smul; cbn [vx vy vz]; f_equal; lra). rewrite EL, EA. cbv zeta. rewrite F. eexists. eexists. eexists. eexists. split; [reflexivity|]. cbn [fst snd]. split; [reflexivity|]. split; [reflexivity|]. cbn [fresh_contact ltan]. lra.
Qed.
