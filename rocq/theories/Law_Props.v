(** Contacts between spheres: C40, C68-C72, C74-C76. *)
From Coq Require Import Reals Lra List ZArith Bool.
From Verif Require Import Vec_Model Vec_Proofs Rigid_Model Rigid_Spec Law_Model Law_Spec Law_Proofs Law_Proofs2 Law_Example.
Import ListNotations.
Local Open Scope R_scope.

(** C40: whatever the contact, forces applied at the contact point are opposite and have
    no total moment *)
Theorem C40_contact_point_partial : forall L g p i1 p1 i2 p2 p' e o, law L g p i1 p1 i2 p2 = Some (p', e) -> periodic L = false -> sphericalBodies L = false ->
  exists f t1 t2, added e = [(i1, (f, t1)); (i2, (vopp f, t2))] /\ vadd (moment o p1 f t1) (moment o p2 (vopp f) t2) = vzero.
Proof. exact contact_point_balance. Qed.
Print Assumptions C40_contact_point_partial.
(** between spheres this also holds with the defaults of the law, and in a periodic scene, where
    body 2 counts at the place q2 of its image in contact *)
Theorem C40_spheres_partial : forall L g p i1 p1 i2 p2 q2 p' e o r1 r2, law L g p i1 p1 i2 p2 = Some (p', e) -> touching r1 r2 p1 q2 g -> (periodic L = false -> q2 = p2) ->
  exists f t1 t2, added e = [(i1, (f, t1)); (i2, (vopp f, t2))] /\ vadd (moment o p1 f t1) (moment o q2 (vopp f) t2) = vzero.
Proof. exact spheres_balance. Qed.
Print Assumptions C40_spheres_partial.
(** all geometries made by the sphere-sphere functor are such *)
Theorem C40_touching : forall dt f av r1 r2 s1 s2 sh sv fo re old g, ig2 dt f av r1 r2 s1 s2 sh sv fo re old = Contact g ->
  touching r1 r2 (pos s1) (vadd (pos s2) sh) g.
Proof. exact ig2_touching. Qed.
Print Assumptions C40_touching.
(** both ways of computing torques agree on spheres *)
Theorem C40_ways_agree : forall L L' g p i1 p1 i2 p2 r1 r2, touching r1 r2 p1 p2 g -> neverErase L = neverErase L' ->
  match law L g p i1 p1 i2 p2, law L' g p i1 p1 i2 p2 with
  | Some (p', e), Some (p'', e') => p' = p'' /\ added e = added e'
  | None, None => True | _, _ => False end.
Proof. exact branches_agree. Qed.
Print Assumptions C40_ways_agree.
(** all contacts of a scene of spheres together give no force and no moment *)
Theorem C40_scene_partial : forall S balls o cs cs' a, loop S balls cs = Some (cs', a) -> (forall c, In c cs -> shift2 c = vzero) ->
  total_force a = vzero /\ total_moment o (place_of balls) a = vzero.
Proof. exact loop_balance. Qed.
Print Assumptions C40_scene_partial.
Example C40_scene_ex : exists cs' a f t, loop sim0 balls0 [ct0; ct1] = Some (cs', a) /\ In (0%nat, (f, t)) a /\ vx f = -2.
Proof. exact loop0. Qed.
(** with the defaults of the law a sphere on a wall (at the origin, normal z) gives a total moment:
    the law takes the wall for a sphere *)
Theorem C40_action_reaction_refuted : exists g L p p' e,
  ig2_wall (1/10) true 2 0 1 wall_state ball_state vzero vzero true true None = Contact g /\
  neverErase L = false /\ sphericalBodies L = true /\ periodic L = false /\
  law L g p 0 (pos wall_state) 1 (pos ball_state) = Some (p', e) /\
  total_moment vzero (fun i => match i with O => pos wall_state | _ => pos ball_state end) (added e) <> vzero.
Proof.
  destruct wall_contact as (g & E & N & D & S & C). exists g, L0, p_old.
  destruct (law L0 g p_old 0 (pos wall_state) 1 (pos ball_state)) as [[p' e]|] eqn:X; [|apply law_resets in X; lra]. exists p', e. do 4 (split; [first [exact E|reflexivity]|]). split; [reflexivity|].
  pose proof (law_shape _ _ _ _ _ _ _ _ _ X) as Sh. cbv zeta in Sh. cbn [L0 negb periodic sphericalBodies andb] in Sh. rewrite Sh.
  assert (F : normalForce p' = V 0 0 2 /\ shearForce p' = vzero).
  { unfold law in X. cbv zeta in X. rewrite D, N, S in X. destruct (Rlt_dec (1/2) 0); [lra|]. cbn [negb andb neverErase L0] in X. destruct (slip p_old _ _) as [fs dis] eqn:Sl. injection X as <- <-. cbn [normalForce shearForce]. rewrite Rmax_left by lra. split; [cbn [kn p_old]; vgoal; f_equal; field|]. apply slip_spec in Sl. destruct Sl as (_ & _ & k & _ & ->). cbn [p_old shearForce ks]. unfold rotate. generalize (orthonormal_axis g) (twist_axis g). clear. vring. }
  destruct F as [-> ->]. rewrite N, D. unfold total_moment, moment, vsum. cbn [map fold_right fst snd pos wall_state ball_state]. generalize (radius1 g) (radius2 g). clear. intros a b. vgoal. intros H. injection H as _ H _. lra.
Qed.
Print Assumptions C40_action_reaction_refuted.

(** C68: the normal force is kn times the overlap and never attractive, the shear force
    is the force nearest to the elastic trial force that friction admits, and a contact that opens
    has no force or is reset *)
Theorem C68_coulomb : forall L g p i1 p1 i2 p2 p' e, law L g p i1 p1 i2 p2 = Some (p', e) ->
  normalForce p' = smul (kn p * Rmax (penetrationDepth g) 0) (normal g) /\
  nearest (tanPhi p * tanPhi p) (normalForce p') (trial_force g p) (shearForce p') /\
  kn p' = kn p /\ ks p' = ks p /\ tanPhi p' = tanPhi p /\
  (penetrationDepth g < 0 -> normalForce p' = vzero /\ shearForce p' = vzero).
Proof. exact law_forces. Qed.
Print Assumptions C68_coulomb.
Theorem C68_nearest_unique : forall m fn t s s', 0 <= m -> nearest m fn t s -> nearest m fn t s' -> s = s'.
Proof. exact nearest_unique. Qed.
Print Assumptions C68_nearest_unique.
Theorem C68_reset_iff_open : forall L g p i1 p1 i2 p2, law L g p i1 p1 i2 p2 = None <-> penetrationDepth g < 0 /\ neverErase L = false.
Proof. exact law_resets. Qed.
Print Assumptions C68_reset_iff_open.
(** a contact is found exactly when the spheres, enlarged by the factor, touch; one that
    exists stays *)
Theorem C68_detection : forall dt f av r1 r2 s1 s2 sh sv old,
  (ig2 dt f av r1 r2 s1 s2 sh sv false false old = NoContact <-> Rsqr (f * (r1 + r2)) < norm2 (vsub (vadd (pos s2) sh) (pos s1))) /\
  forall fo, ig2 dt f av r1 r2 s1 s2 sh sv fo true old <> NoContact.
Proof. intros. split; [apply ig2_detects|intros fo; apply ig2_real]. Qed.
Print Assumptions C68_detection.
(** sliding: the trial force is too large *)
Example C68_coulomb_ex : exists p' e, law L0 g_old p_sheared 0 vzero 1 (V (3/2) 0 0) = Some (p', e) /\ normalForce p' = V 2 0 0 /\ shearForce p' = V 0 1 0.
Proof.
  unfold law. cbv zeta. change (penetrationDepth g_old) with (1/2). destruct (Rlt_dec (1/2) 0); [lra|]. change (normal g_old) with n0. change (shearInc g_old) with vzero. cbn [negb andb neverErase L0]. change (shearForce p_sheared) with (V 0 3 0). change (kn p_sheared) with 4. change (ks p_sheared) with 2. rewrite Rmax_left by lra.
  assert (T : vsub (rotate g_old (V 0 3 0)) (smul 2 vzero) = V 0 3 0) by (unfold rotate, g_old; cbn [orthonormal_axis twist_axis]; vring). rewrite T.
  assert (F : smul (4 * (1/2)) n0 = V 2 0 0) by (unfold n0; vgoal; f_equal; field). rewrite F.
  unfold slip. cbn [tanPhi p_sheared]. assert (A : norm2 (V 2 0 0) * (1/2 * (1/2)) = 1) by (vgoal; field). rewrite A. assert (B : norm2 (V 0 3 0) = 9) by (vgoal; ring). unfold norm. rewrite B. destruct (Rlt_dec 1 9); [|lra]. eexists _, _. split; [reflexivity|]. split; [reflexivity|]. cbn [shearForce]. rewrite sqrt_1. replace 9 with (3 * 3) by ring. rewrite sqrt_square by lra. vgoal. f_equal; field.
Qed.

(** C69: tracing energies does not change forces *)
Theorem C69_tracing_neutral : forall L L' g p i1 p1 i2 p2, neverErase L = neverErase L' -> sphericalBodies L = sphericalBodies L' -> periodic L = periodic L' ->
  match law L g p i1 p1 i2 p2, law L' g p i1 p1 i2 p2 with
  | Some (p', e), Some (p'', e') => p' = p'' /\ added e = added e'
  | None, None => True | _, _ => False end.
Proof. exact energy_neutral. Qed.
Print Assumptions C69_tracing_neutral.
(** what is added to one of the two counters is not negative; together with the elastic
    energies before and after it accounts for the energy of the trial force but for the
    elastic energy of the force that is cut off *)
Theorem C69_plastic_work_partial : forall L g p i1 p1 i2 p2 p' e, law L g p i1 p1 i2 p2 = Some (p', e) -> 0 < ks p -> traceEnergy L || trackEnergy L = true ->
  let w := plasticDissipation e + plastDissip e in let t := trial_force g p in
  0 <= w /\ norm2 t / (2 * ks p) = norm2 (shearForce p') / (2 * ks p) + w + norm2 (vsub t (shearForce p')) / (2 * ks p) /\
  elastPotential e = norm2 (normalForce p') / (2 * kn p) + norm2 (shearForce p') / (2 * ks p).
Proof. exact plastic_work. Qed.
Print Assumptions C69_plastic_work_partial.
(** O.trackEnergy asks for O.energy['plastDissip']: nothing is added there if the functor's own
    traceEnergy is on *)
Theorem C69_tracked_dissipation_refuted : exists L g p p' e, trackEnergy L = true /\ 0 < ks p /\ law L g p 0 vzero 1 (V (3/2) 0 0) = Some (p', e) /\
  plastDissip e = 0 /\ shearForce p' <> trial_force g p /\ 0 < plasticDissipation e.
Proof.
  exists (mkL false true true true false), g_old, p_sheared. unfold law, trial_force. cbv zeta. change (penetrationDepth g_old) with (1/2). destruct (Rlt_dec (1/2) 0); [lra|]. change (normal g_old) with n0. change (shearInc g_old) with vzero. change (shearForce p_sheared) with (V 0 3 0). change (kn p_sheared) with 4. change (ks p_sheared) with 2. cbn [negb andb neverErase traceEnergy trackEnergy orb]. rewrite Rmax_left by lra.
  assert (T : vsub (rotate g_old (V 0 3 0)) (smul 2 vzero) = V 0 3 0) by (unfold rotate, g_old; cbn [orthonormal_axis twist_axis]; vring). rewrite T.
  assert (F : smul (4 * (1/2)) n0 = V 2 0 0) by (unfold n0; vgoal; f_equal; field). rewrite F.
  unfold slip. cbn [tanPhi p_sheared ks]. assert (A : norm2 (V 2 0 0) * (1/2 * (1/2)) = 1) by (vgoal; field). rewrite A. assert (B : norm2 (V 0 3 0) = 9) by (vgoal; ring). unfold norm. rewrite B. destruct (Rlt_dec 1 9); [|lra]. eexists _, _. split; [reflexivity|]. split; [lra|]. split; [reflexivity|]. split; [reflexivity|]. cbn [shearForce plasticDissipation]. rewrite sqrt_1. replace 9 with (3 * 3) by ring. rewrite sqrt_square by lra. split; [vgoal; intros H; injection H as H; lra|vgoal; lra].
Qed.
Print Assumptions C69_tracked_dissipation_refuted.

(** C70: if both spheres move like parts of one rigid body, contact gets no shear
    increment, in whatever mode *)
Theorem C70_rigid_motion : forall dt f av r1 r2 s1 s2 sh sv fo re old g v0 w, ig2 dt f av r1 r2 s1 s2 sh sv fo re old = Contact g ->
  moves_rigidly v0 w (pos s1) (vel s1) (angVel s1) -> moves_rigidly v0 w (vadd (pos s2) sh) (vadd (vel s2) sv) (angVel s2) -> shearInc g = vzero.
Proof. exact rigid_no_shear. Qed.
Print Assumptions C70_rigid_motion.
Example C70_rigid_motion_ex : let w := V 0 0 2 in let s1 := here (V 1 0 0) w in let s2 := at_dir n0 (3/2) (V 1 3 0) w in
  moves_rigidly (V 1 0 0) w (pos s1) (vel s1) (angVel s1) /\ moves_rigidly (V 1 0 0) w (vadd (pos s2) vzero) (vadd (vel s2) vzero) (angVel s2) /\
  exists g, ig2 (1/10) 1 true 1 1 s1 s2 vzero vzero true true None = Contact g.
Proof.
  cbv zeta. unfold moves_rigidly, here, at_dir, n0. cbn [pos vel angVel]. split; [split; [vring|reflexivity]|]. split; [split; [vgoal; f_equal; field|reflexivity]|].
  destruct (ig2 (1/10) 1 true 1 1 _ _ vzero vzero true true None) as [|g|] eqn:E; [exfalso; exact (ig2_real _ _ _ _ _ _ _ _ _ _ _ E)|eauto|]. exfalso. unfold ig2 in E. cbv zeta in E. cbn [negb andb pos] in E. destruct (Req_EM_T _ 0) as [Z|]; [|discriminate]. clear E. unfold norm in Z. apply sqrt_eq_0 in Z; [|apply norm2_pos]. revert Z. vgoal. lra.
Qed.

(** C71: with avoidGranularRatcheting, moving one sphere to and fro along the line of centres
    while turning it gives a total shear displacement that depends on the total angle only: a cycle leaves none *)
Theorem C71_no_ratcheting_partial : forall dt r1 r2 p1 n o1 o2 i1 i2 m1 m2, norm2 n = 1 -> forall l old, (forall q, In q l -> 0 < fst (fst q)) ->
  exists x, increments dt true r1 r2 old (map (fun q => (mkR p1 o1 vzero vzero m1 i1, mkR (vadd p1 (smul (fst (fst q)) n)) o2 (smul (snd (fst q)) n) (snd q) m2 i2)) l) = Some x /\
  vsum x = smul (- dt * r2) (cross (vsum (map snd l)) n).
Proof. exact no_ratcheting. Qed.
Print Assumptions C71_no_ratcheting_partial.
Example C71_no_ratcheting_ex : norm2 n0 = 1 /\ (forall q, In q [((3/2, -5), V 0 0 1); ((1, 5), V 0 0 (-1))] -> 0 < fst (fst q)) /\ vsum (map (snd (A:=R*R)) [((3/2, -5), V 0 0 1); ((1, 5), V 0 0 (-1))]) = vzero.
Proof. split; [exact n0_unit|]. split; [intros q [<-|[<-|[]]]; cbn [fst]; lra|]. unfold vsum. cbn [map fold_right snd]. vring. Qed.
(** without it, turning to and fro at different distances leaves a shear displacement *)
Theorem C71_no_ratcheting_refuted : exists l x, increments (1/10) false 1 1 None l = Some x /\
  vsum (map (fun q => angVel (fst q)) l) = vzero /\ vsum (map (fun q => angVel (snd q)) l) = vzero /\ vsum x <> vzero.
Proof.
  destruct (line (1/10) false 1 1 (3/2) (-5) (V 0 0 1) None ltac:(lra)) as (g1 & E1 & S1 & _). destruct (line (1/10) false 1 1 1 5 (V 0 0 (-1)) (Some g1) ltac:(lra)) as (g2 & E2 & S2 & _).
  exists [(here vzero vzero, there (3/2) (smul (-5) n0) (V 0 0 1)); (here vzero vzero, there 1 (smul 5 n0) (V 0 0 (-1)))], [shearInc g1; shearInc g2]. split; [cbn [increments]; rewrite E1, E2; reflexivity|]. unfold vsum. cbn [map fold_right fst snd here there angVel]. split; [vring|]. split; [vring|]. rewrite S1, S2. unfold n0. vgoal. intros H. injection H as _ H _. lra.
Qed.
Print Assumptions C71_no_ratcheting_refuted.

(** C72: the shear force is carried along with the contact.  Its magnitude never decreases,
    and grows by second-order terms only *)
Theorem C72_magnitude_partial : forall g s, norm2 s <= norm2 (rotate g s) <= norm2 s * (1 + norm2 (orthonormal_axis g)) * (1 + norm2 (twist_axis g)).
Proof. exact rotate_bounds. Qed.
Print Assumptions C72_magnitude_partial.
(** its component along the new normal is what the angle between the normals leaves *)
Theorem C72_tangent_partial : forall dt f av r1 r2 s1 s2 sh sv fo re g0 g s, ig2 dt f av r1 r2 s1 s2 sh sv fo re (Some g0) = Contact g ->
  dot (normal g0) s = 0 -> dot (normal g0) (vadd (angVel s1) (angVel s2)) = 0 ->
  dot (normal g) (rotate g s) = (1 - dot (normal g0) (normal g)) * dot (normal g) s.
Proof. exact rotate_tangent. Qed.
Print Assumptions C72_tangent_partial.
Example C72_tangent_ex : exists g, ig2 (1/10) 1 true 1 1 (here vzero vzero) (at_dir (V 0 1 0) (3/2) (smul 0 (V 0 1 0)) vzero) vzero vzero true true (Some g_old) = Contact g /\
  dot (normal g_old) (V 0 1 0) = 0 /\ dot (normal g_old) (vadd vzero vzero) = 0.
Proof.
  destruct (line_dir (V 0 1 0) (1/10) true 1 1 (3/2) 0 vzero (Some g_old) ltac:(vring) ltac:(lra)) as (g & E & _). exists g. split; [exact E|]. unfold g_old, n0. cbn [normal]. split; vring.
Qed.
(** a tangential force does not stay tangential, nor of the same magnitude *)
Theorem C72_carried_along_refuted : exists s2 g s, ig2 (1/10) 1 true 1 1 (here vzero vzero) s2 vzero vzero true true (Some g_old) = Contact g /\
  angVel s2 = vzero /\ dot (normal g_old) s = 0 /\ dot (normal g) (rotate g s) <> 0 /\ norm2 (rotate g s) <> norm2 s.
Proof.
  destruct (line_dir (V 0 1 0) (1/10) true 1 1 (3/2) 0 vzero (Some g_old) ltac:(vring) ltac:(lra)) as (g & E & _ & N & _). exists (at_dir (V 0 1 0) (3/2) (smul 0 (V 0 1 0)) vzero), g, (V 0 1 0). split; [exact E|]. split; [reflexivity|]. destruct (ig2_axes _ _ _ _ _ _ _ _ _ _ _ _ _ E) as [O T]. rewrite N in *. unfold rotate. rewrite O, T. unfold g_old, n0, here, at_dir. cbn [normal angVel]. split; [vring|]. split; vgoal; lra.
Qed.
Print Assumptions C72_carried_along_refuted.

(** C74: stiffness of a new contact is that of two springs in series, the friction
    angle the smaller of both; an existing contact keeps its own *)
Theorem C74_series_partial : forall m1 m2 g, 0 < young m1 -> 0 < young m2 -> 0 < poisson m1 -> 0 < poisson m2 -> 0 < radius1 g -> 0 < radius2 g ->
  let a := young m1 * radius1 g in let b := young m2 * radius2 g in let va := a * poisson m1 in let vb := b * poisson m2 in
  exists p, ip2 None m1 m2 g None = Phys p /\ 0 < kn p /\ 0 < ks p /\ / kn p = / (2 * a) + / (2 * b) /\ / ks p = / (2 * va) + / (2 * vb) /\
  tanPhi p = tan (Rmin (frictionAngle m1) (frictionAngle m2)) /\ normalForce p = vzero /\ shearForce p = vzero.
Proof. exact ip2_new. Qed.
Print Assumptions C74_series_partial.
Theorem C74_once : forall fa m1 m2 g p, ip2 fa m1 m2 g (Some p) = Phys p.
Proof. exact ip2_once. Qed.
Print Assumptions C74_once.
Example C74_series_ex : 0 < young mat0 /\ 0 < poisson mat0 /\ 0 < radius1 g_old /\ 0 < radius2 g_old.
Proof. unfold mat0, g_old. cbn [young poisson radius1 radius2]. lra. Qed.
(** materials without shear stiffness: 0/0 *)
Theorem C74_series_refuted : exists m1 m2 g, 0 < young m1 /\ 0 < young m2 /\ poisson m1 = 0 /\ poisson m2 = 0 /\ 0 < radius1 g /\ 0 < radius2 g /\ ip2 None m1 m2 g None = NotANumber.
Proof.
  exists (mkMat 0 1 0 0), (mkMat 0 1 0 0), g_old. unfold ip2, g_old. cbv zeta. cbn [young poisson radius1 radius2]. do 6 (split; [lra|]). destruct (Rlt_dec 0 1); [|lra]. destruct (Req_EM_T (1 * 1 + 1 * 1) 0); [lra|]. destruct (Req_EM_T _ 0); [reflexivity|lra].
Qed.
Print Assumptions C74_series_refuted.

(** C75: an interaction treated with its bodies exchanged gives the mirrored contact, and
    the same forces on the same bodies *)
Theorem C75_order_of_bodies : forall S c b1 b2, (periodic (lawc S) = false -> shift2 c = vzero) -> treat S (swap_contact c) b2 b1 = swap_treated (treat S c b1 b2).
Proof. exact treat_swap. Qed.
Print Assumptions C75_order_of_bodies.
Theorem C75_same_forces : forall S c b1 b2 c' e, (periodic (lawc S) = false -> shift2 c = vzero) -> treat S c b1 b2 = Kept c' e ->
  exists e', treat S (swap_contact c) b2 b1 = Kept (swap_contact c') e' /\
  (forall i f t, In (i, (f, t)) (added e') <-> In (i, (f, t)) (added e)) /\ length (added e') = length (added e) /\
  plasticDissipation e' = plasticDissipation e /\ plastDissip e' = plastDissip e /\ elastPotential e' = elastPotential e.
Proof.
  intros S c b1 b2 c' e Z T. eexists. rewrite treat_swap by exact Z. rewrite T. split; [reflexivity|]. cbn [added plasticDissipation plastDissip elastPotential]. split; [|split; [apply rev_length|auto]]. intros i f t. symmetry. apply in_rev.
Qed.
Print Assumptions C75_same_forces.
Example C75_same_forces_ex : exists c' e f t1 t2, treat sim0 ct0 (mkBall 1 mat0 (here vzero vzero)) (mkBall 1 mat0 (there (3/2) (smul (-1) n0) (V 0 0 1))) = Kept c' e /\
  added e = [(0%nat, (f, t1)); (1%nat, (vopp f, t2))] /\ vx f = -2 /\ shift2 ct0 = vzero.
Proof. destruct treat0 as (c' & e & T & f & t1 & t2 & A & F). exists c', e, f, t1, t2. auto. Qed.

(** C76: a MatchMaker gives the value of the first match for the pair of ids, in either order, and
    else the fallback *)
Theorem C76_first_match : forall a v ms i j v1 v2 x, first_match ms i j = Some x -> mm_call (postLoad a v ms) i j v1 v2 = Some x.
Proof. exact mm_first. Qed.
Print Assumptions C76_first_match.
Theorem C76_symmetric : forall m i j v1 v2, mm_call m i j v1 v2 = mm_call m j i v2 v1.
Proof. exact mm_symmetric. Qed.
Print Assumptions C76_symmetric.
Theorem C76_fallback : forall a v ms i j v1 v2, first_match ms i j = None -> mm_call (postLoad a v ms) i j v1 v2 =
  match a with
  | Aval => Some v
  | Azero => Some 0
  | _ => match v1, v2 with
         | Some x, Some y => match a with Aavg => Some ((x + y) / 2) | Amin => Some (Rmin x y) | Amax => Some (Rmax x y)
                             | _ => if Req_EM_T (x + y) 0 then None else Some (2 * x * y / (x + y)) end
         | _, _ => None end
  end.
Proof. exact mm_fallback. Qed.
Print Assumptions C76_fallback.
Example C76_ex : first_match [(1%Z, 2%Z, 5); (3%Z, 1%Z, 6); (2%Z, 1%Z, 7)] 2 1 = Some 5 /\ first_match [(1%Z, 2%Z, 5); (3%Z, 1%Z, 6); (2%Z, 1%Z, 7)] 1 3 = Some 6 /\ first_match [(1%Z, 2%Z, 5); (3%Z, 1%Z, 6); (2%Z, 1%Z, 7)] 2 2 = None.
Proof. repeat split. Qed.
