(** Properties C250-C255: contacts of Luding, with plastic overlap and adhesion *)
From Coq Require Import Reals List ZArith Lra Lia.
From Verif Require Import Vec_Model Rigid_Model Rigid_Spec Law_Model Law_Spec Lud_Model Lud_Spec Lud_Proofs Lud_Proofs2.
Import ListNotations.
Local Open Scope R_scope.

(** C250. For positive values the common parameter is their harmonic mean, between the two, whatever their order. *)
Theorem C250_mean_partial a b : 0 < a -> 0 < b -> harmonic a b (reduced a b) /\ Rmin a b <= reduced a b <= Rmax a b /\ reduced a b = reduced b a.
Proof. exact (reduced_mean a b). Qed.
Print Assumptions C250_mean_partial.
Example C250_mean_case : 0 < lk1 putty /\ 0 < lkp putty.
Proof. cbn [fresh_contact k1 kp kc DeltPMax DeltPNull DeltMax DeltNull DeltPrev ltan putty lk1 lkp lkc lPhi]. lra. Qed.
(** C250. This is so for adhesion, shear stiffness and viscosity; the friction angle is the smaller one. *)
Theorem C250_parameters_partial m1 m2 s1 s2 p : ip2 m1 m2 s1 s2 = LPhys p ->
  (0 < lkc m1 -> 0 < lkc m2 -> harmonic (lkc m1) (lkc m2) (kc p)) /\ (0 < lks m1 -> 0 < lks m2 -> harmonic (lks m1) (lks m2) (lks_ p)) /\ (0 < lG0 m1 -> 0 < lG0 m2 -> harmonic (lG0 m1) (lG0 m2) (G0 p)) /\
  ltan p = tan (Rmin (lfrict m1) (lfrict m2)).
Proof. exact (ip2_params m1 m2 s1 s2 p). Qed.
Print Assumptions C250_parameters_partial.
Example C250_parameters_case : exists p, ip2 putty putty (Some 1) (Some 1) = LPhys p.
Proof. destruct (ip2_accepts putty putty 1 1) as (p & E & _); unfold positive_mat; cbn [fresh_contact k1 kp kc DeltPMax DeltPNull DeltMax DeltNull DeltPrev ltan putty lk1 lkp lkc lPhi]; try lra. exists p. exact E. Qed.
(** C250 is refuted if one of the values is zero: the common one is twice the other, more than both. *)
Theorem C250_zero_refuted a : 0 < a -> reduced 0 a = 2 * a /\ Rmax 0 a < reduced 0 a.
Proof. exact (reduced_zero a). Qed.
Print Assumptions C250_zero_refuted.
Example C250_zero_case : 0 < 1.
Proof. lra. Qed.
(** C251. Spheres of materials with 0 < k1 < kp make a contact with sound parameters, and without history; beyond the plastic limit its overlap at rest is the harmonic mean of radii times PhiF. *)
Theorem C251_accepted_partial m1 m2 r1 r2 : positive_mat m1 -> positive_mat m2 -> lk1 m1 < lkp m1 -> lk1 m2 < lkp m2 -> 0 < r1 -> 0 < r2 ->
  exists p, ip2 m1 m2 (Some r1) (Some r2) = LPhys p /\ sound p /\ harmonic (lk1 m1) (lk1 m2) (k1 p) /\ harmonic (lkp m1) (lkp m2) (kp p) /\ DeltMax p = 0 /\ DeltNull p = Some 0 /\ lshear p = vzero /\
    DeltPNull p = reduced (lPhi m1) (lPhi m2) * (2 * (r1 * r2) / (r1 + r2)).
Proof. exact (ip2_accepts m1 m2 r1 r2). Qed.
Print Assumptions C251_accepted_partial.
Example C251_accepted_case : positive_mat putty /\ lk1 putty < lkp putty.
Proof. unfold positive_mat. cbn [fresh_contact k1 kp kc DeltPMax DeltPNull DeltMax DeltNull DeltPrev ltan putty lk1 lkp lkc lPhi]. lra. Qed.
(** C251. Materials are rejected exactly if the common k1 is not less than the common kp, *)
Theorem C251_rejected_partial m1 m2 s1 s2 : s1 <> None \/ s2 <> None -> (ip2 m1 m2 s1 s2 = LThrows <-> reduced (lkp m1) (lkp m2) <= reduced (lk1 m1) (lk1 m2)).
Proof. exact (ip2_rejects m1 m2 s1 s2). Qed.
Print Assumptions C251_rejected_partial.
Example C251_rejected_case : Some 1 <> None.
Proof. discriminate. Qed.
(** so that C251 is refuted: both materials have k1 < kp, but k1 is zero for one of them. *)
Theorem C251_rejected_refuted : let m1 := mkLM 0 1 0 0 0 1 0 in let m2 := mkLM 3 4 0 0 0 1 0 in lk1 m1 < lkp m1 /\ lk1 m2 < lkp m2 /\ ip2 m1 m2 (Some 1) (Some 1) = LThrows.
Proof. exact (reject_refuted). Qed.
Print Assumptions C251_rejected_refuted.

(** C251 is refuted if neither of the bodies is a sphere: a null pointer is read. *)
Theorem C251_null_refuted m1 m2 : ip2 m1 m2 None None = LNull.
Proof. exact (null_refuted m1 m2). Qed.
Print Assumptions C251_null_refuted.

(** C252. As long as overlaps grow and are below the plastic limit, the force is k1 times the overlap, whatever the steps. *)
Theorem C252_virgin_partial p ds : sound p -> rising (DeltMax p) ds -> Forall (fun d => d < DeltPMax p) ds -> exists q, response p ds = Some (map (fun d => k1 p * d) ds, q).
Proof. exact (virgin p ds). Qed.
Print Assumptions C252_virgin_partial.
Example C252_virgin_case : sound (fresh_contact 1) /\ rising (DeltMax (fresh_contact 1)) [1/4; 1/2] /\ Forall (fun d => d < DeltPMax (fresh_contact 1)) [1/4; 1/2].
Proof. split; [apply fresh_sound; lra|]. cbn [rising fresh_contact DeltMax DeltPMax]. split; [repeat split; lra|]. repeat (apply Forall_cons; [lra|]). apply Forall_nil. Qed.
(** C252. Once the plastic limit was reached, growing overlaps have force kp times the overlap beyond the one at rest. *)
Theorem C252_limit_partial p D : sound p -> DeltPMax p <= DeltMax p -> DeltMax p < D -> exists q, hysteresis p D = Some (kp p * (D - DeltPNull p), q) /\ sound q /\ same_contact p q /\ DeltMax q = D.
Proof. exact (limit_step p D). Qed.
Print Assumptions C252_limit_partial.
Example C252_limit_case : exists p, sound p /\ DeltPMax p <= DeltMax p.
Proof. exists (at_state 2 1 (1/2) 1). split; [apply at_sound; lra|]. cbn [at_state moved fresh_contact DeltPMax DeltMax]. lra. Qed.
(** C252 is refuted if the limit is passed in one step: the stiffness is that of the step before. *)
Theorem C252_jump_refuted : exists q, hysteresis (fresh_contact 1) 2 = Some (2, q) /\ DeltPMax (fresh_contact 1) = 1 /\ kp (fresh_contact 1) * (2 - DeltPNull (fresh_contact 1)) = 3.
Proof. exact (jump_refuted). Qed.
Print Assumptions C252_jump_refuted.

(** C252 is refuted for a sphere and a body which is none: the plastic limit is zero, and there is no force in the first step, however large the overlap. *)
Theorem C252_facet_refuted m1 m2 r D : positive_mat m1 -> positive_mat m2 -> lk1 m1 < lkp m1 -> lk1 m2 < lkp m2 -> 0 < r -> 0 < D ->
  exists p q, ip2 m1 m2 None (Some r) = LPhys p /\ hysteresis p D = Some (0, q).
Proof. exact (facet_refuted m1 m2 r D). Qed.
Print Assumptions C252_facet_refuted.
Example C252_facet_case : positive_mat putty /\ lk1 putty < lkp putty.
Proof. unfold positive_mat. cbn [fresh_contact k1 kp kc DeltPMax DeltPNull DeltMax DeltNull DeltPrev ltan putty lk1 lkp lkc lPhi]. lra. Qed.
(** C253. For every history of overlaps forces are defined and at most k1 times the overlap below the plastic limit, kp times the overlap always; the contact stays sound and keeps its parameters. *)
Theorem C253_history_partial p ds : sound p -> nonneg ds -> exists fs q, response p ds = Some (fs, q) /\ sound q /\ same_contact p q /\
  Forall2 (fun d f => (d < DeltPMax p -> f <= k1 p * d) /\ f <= kp p * d) ds fs.
Proof. exact (history p ds). Qed.
Print Assumptions C253_history_partial.
Example C253_history_case : sound (fresh_contact 1) /\ nonneg [1/2; 1; 1/6].
Proof. split; [apply fresh_sound; lra|]. unfold nonneg. repeat (apply Forall_cons; [lra|]). apply Forall_nil. Qed.
(** C253. The stiffness of unloading is between k1 and kp. *)
Theorem C253_stiffness_partial p : sound p -> forall M, 0 <= M -> k1 p <= unloading (k1 p) (kp p) (DeltPMax p) M <= kp p.
Proof. exact (unloading_range p). Qed.
Print Assumptions C253_stiffness_partial.
Example C253_stiffness_case : sound (fresh_contact 1).
Proof. apply fresh_sound. lra. Qed.
(** C253. While bodies move apart, attraction is at most kc times the overlap; *)
Theorem C253_unload_partial p D f q : sound p -> 0 <= D -> hysteresis p D = Some (f, q) -> D < DeltPrev p -> - (kc p * D) <= f.
Proof. exact (unload_limit p D f q). Qed.
Print Assumptions C253_unload_partial.
Example C253_unload_case : sound (at_state 1 (1/2) 0 (1/2)) /\ 1/4 < DeltPrev (at_state 1 (1/2) 0 (1/2)).
Proof. split; [apply at_sound; lra|]. cbn [at_state moved DeltPrev]. lra. Qed.
(** on this limit the force is just that, and the contact is left as if it was loaded to the overlap from which unloading leads there. *)
Theorem C253_pull_partial p D f q n : sound p -> 0 < D <= DeltMax p -> D < DeltPrev p -> hysteresis p D = Some (f, q) -> DeltNull p = Some n -> let k := unloading (k1 p) (kp p) (DeltPMax p) (DeltMax p) in k * (D - n) <= - (kc p * D) ->
  f = - (kc p * D) /\ (k - k1 p) * DeltMax q = (k + kc p) * D /\ DeltNull q = Some (Rmin ((1 - k1 p / k) * DeltMax q) (DeltPNull p)).
Proof. exact (pull_limit p D f q n). Qed.
Print Assumptions C253_pull_partial.
Example C253_pull_case : sound (at_state (3/2) 1 (1/3) 1) /\ 0 < 1/6 <= DeltMax (at_state (3/2) 1 (1/3) 1) /\ 1/6 < DeltPrev (at_state (3/2) 1 (1/3) 1).
Proof. split; [apply at_sound; lra|]. cbn [at_state moved DeltMax DeltPrev]. lra. Qed.
(** C253 is refuted if bodies stop after moving apart: attraction is beyond the limit. *)
Theorem C253_hold_refuted : let p := fresh_contact 1 in exists q, response p [1/2; 1; 1/6; 3/20; 3/20] = Some ([1/2; 1; -1/6; -3/20; -7/40], q) /\ -7/40 < - (kc p * (3/20)).
Proof. exact (hold_refuted). Qed.
Print Assumptions C253_hold_refuted.

(** C254. Between the limits, and below the largest overlap, any path is elastic: the force is a function of the overlap only. *)
Theorem C254_reversible_partial ds : forall p n, sound p -> DeltNull p = Some n -> let k := unloading (k1 p) (kp p) (DeltPMax p) (DeltMax p) in
  Forall (fun D => 0 <= D <= DeltMax p /\ - (kc p * D) < k * (D - n) < k1 p * D) ds -> exists q, response p ds = Some (map (fun D => k * (D - n)) ds, q).
Proof. exact (reversible ds). Qed.
Print Assumptions C254_reversible_partial.
Example C254_reversible_case : sound (at_state (3/2) 1 (1/3) 1) /\ - (kc (at_state (3/2) 1 (1/3) 1) * (1/2)) < unloading 1 2 1 1 * (1/2 - 1/3) < k1 (at_state (3/2) 1 (1/3) 1) * (1/2).
Proof. split; [apply at_sound; lra|]. rewrite (unl 1 2 1 1 2) by lra. cbn [at_state moved fresh_contact kc k1]. lra. Qed.
(** C254 is refuted: the same largest overlap, reached in one or in two steps, gives different forces on unloading. *)
Theorem C254_steps_refuted : let p := fresh_contact 1 in exists q q', response p [3/4; 1/2] = Some ([3/4; 1/2], q) /\ response p [1/2; 3/4; 1/2] = Some ([1/2; 3/4; 7/16], q').
Proof. exact (history_refuted). Qed.
Print Assumptions C254_steps_refuted.

(** C255. The normal force is that of the hysteresis and the viscous one; the shear force kept is elastic, or within Coulomb's limit in its direction and then without viscous part; forces are opposite. *)
Theorem C255_law_partial (fresh active : bool) dt g p id1 s1 id2 s2 shift2 shiftVel : sound p -> 0 <= ltan p -> 0 <= penetrationDepth g ->
  let v := relvel g s1 s2 shift2 shiftVel in let vs := vsub v (smul (dot (normal g) v) (normal g)) in let trial := vadd (rotate g (if fresh then vzero else lshear p)) (smul (lks_ p * dt) vs) in
  exists fh q (sh visc nf : vec) a, hysteresis p (penetrationDepth g) = Some (fh, q) /\ law fresh active dt g p id1 s1 id2 s2 shift2 shiftVel = LKept (lset q sh) nf a /\
    nf = smul (fh + G0 p * dot (normal g) v) (normal g) /\ norm sh <= ltan p * norm nf /\
    (norm trial <= ltan p * norm nf -> sh = trial /\ visc = smul (G0 p) vs) /\ (ltan p * norm nf < norm trial -> visc = vzero /\ sh = smul (ltan p * norm nf / norm trial) trial) /\
    a = if active then let f := vadd (vadd nf sh) visc in [(id1, (vopp f, vopp (cross (vsub (contactPoint g) (pos s1)) f))); (id2, (f, cross (vsub (vsub (contactPoint g) (pos s2)) shift2) f))] else [].
Proof. exact (law_spec fresh active dt g p id1 s1 id2 s2 shift2 shiftVel). Qed.
Print Assumptions C255_law_partial.
Example C255_law_case : sound (fresh_contact 1) /\ 0 <= ltan (fresh_contact 1) /\ 0 <= penetrationDepth sliding_geom.
Proof. split; [apply fresh_sound; lra|]. cbn [fresh_contact ltan sliding_geom penetrationDepth]. lra. Qed.
(** C255. Forces and moments add no momentum and no angular momentum, for the image of the second body which is touched; a contact that is not active adds none at all. *)
Theorem C255_balance_partial fresh active dt g p id1 s1 id2 s2 shift2 shiftVel q nf a o at_ : law fresh active dt g p id1 s1 id2 s2 shift2 shiftVel = LKept q nf a -> at_ id1 = pos s1 -> at_ id2 = vadd (pos s2) shift2 ->
  total_force a = vzero /\ total_moment o at_ a = vzero /\ (active = false -> a = []).
Proof. exact (balance fresh active dt g p id1 s1 id2 s2 shift2 shiftVel q nf a o at_). Qed.
Print Assumptions C255_balance_partial.
Example C255_balance_case : exists q nf a s, law true true (1/1000) sliding_geom (fresh_contact 1) 0 s 1 s vzero vzero = LKept q nf a.
Proof. set (s := mkR vzero qid vzero vzero 1 vzero). destruct (law_spec true true (1/1000) sliding_geom (fresh_contact 1) 0 s 1 s vzero vzero) as (fh & q & sh & vi & nf & a & _ & E & _); [apply fresh_sound; lra|cbn [fresh_contact ltan]; lra|cbn [sliding_geom penetrationDepth]; lra|]. eauto. Qed.
(** C255. A contact is erased exactly if there is no overlap, and its state stays finite. *)
Theorem C255_erased_partial fresh active dt g p id1 s1 id2 s2 shift2 shiftVel : sound p -> (law fresh active dt g p id1 s1 id2 s2 shift2 shiftVel = LErase <-> penetrationDepth g < 0) /\ law fresh active dt g p id1 s1 id2 s2 shift2 shiftVel <> LInfinite.
Proof. exact (erased fresh active dt g p id1 s1 id2 s2 shift2 shiftVel). Qed.
Print Assumptions C255_erased_partial.
Example C255_erased_case : sound (fresh_contact 1).
Proof. apply fresh_sound. lra. Qed.
(** C255 is refuted for the whole tangential force: the viscous part is added after the limit is applied; it is 10.001 here, the limit 1/4. *)
Theorem C255_viscous_refuted s1 s2 : pos s1 = vzero -> angVel s1 = vzero -> vel s1 = V 0 1 0 -> pos s2 = vzero -> angVel s2 = vzero -> vel s2 = vzero ->
  exists q t1 t2 e1, law true true (1/1000) sliding_geom (fresh_contact 1) 0 s1 1 s2 vzero vzero = LKept q (V (1/2) 0 0) [e1; (1%nat, (V (1/2) (10001/1000) 0, t2))] /\ fst (snd e1) = vopp (V (1/2) (10001/1000) 0) /\ snd (snd e1) = t1 /\ ltan (fresh_contact 1) * norm (V (1/2) 0 0) = 1/4.
Proof. exact (viscous_refuted s1 s2). Qed.
Print Assumptions C255_viscous_refuted.
Example C255_viscous_case : exists s1, pos s1 = vzero /\ angVel s1 = vzero /\ vel s1 = V 0 1 0.
Proof. exists (mkR vzero qid (V 0 1 0) vzero 1 vzero). auto. Qed.
