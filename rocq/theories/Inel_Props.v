(** Properties C263-C271: inelastic cohesive contacts *)
From Coq Require Import Reals List ZArith Bool Lra Lia.
From Verif Require Import Vec_Model Vec_Proofs Rigid_Model Rigid_Spec Law_Model Law_Spec Inel_Model Inel_Spec Inel_Proofs Inel_Proofs2.
Import ListNotations.
Local Open Scope R_scope.

(** C263. For every history of elongations within the largest, while the force stays one of tension, the tension of a new contact is that of its curve (elastic, then creep) at the largest elongation so far, less unloading from there; *)
Theorem C263_pulled k t c l : 0 < knT k -> 0 <= t -> Forall (fun x => 0 <= x <= maxExten k) l -> Forall (fun f => 0 <= f) (expected (knT k) (kCrp k) (kUnl k) t 0 l) ->
  answers k (new_contact t c) (map Ropp l) = map (fun f => NForce (- f)) (expected (knT k) (kCrp k) (kUnl k) t 0 l).
Proof. exact (pulled k t c l). Qed.
Print Assumptions C263_pulled.
Example C263_pulled_case : 0 < knT soft /\ Forall (fun x => 0 <= x <= maxExten soft) [1; 3; 2] /\ Forall (fun f => 0 <= f) (expected (knT soft) (kCrp soft) (kUnl soft) 1 0 [1; 3; 2]).
Proof. split; [cbn [soft knT]; lra|]. split; [cbn [soft maxExten]; repeat (apply Forall_cons; [lra|]); apply Forall_nil|]. cbn [expected]. rewrite (Rmax_right 0 1), (Rmax_right 1 3), (Rmax_left 3 2) by lra. unfold hysteretic, curve. cbn [soft knT knC kCrp kUnl maxExten maxContract]. repeat match goal with |- context [Rle_dec ?a ?b] => destruct (Rle_dec a b); try (exfalso; lra) end. repeat (apply Forall_cons; [lra|]); apply Forall_nil. Qed.
(** and so is the compression for every history of overlaps. *)
Theorem C263_compressed k t c l : 0 < knC k -> 0 <= c -> Forall (fun x => 0 < x <= maxContract k) l -> Forall (fun f => 0 <= f) (expected (knC k) (kCrp k) (kUnl k) c 0 l) ->
  answers k (new_contact t c) l = map NForce (expected (knC k) (kCrp k) (kUnl k) c 0 l).
Proof. exact (compressed k t c l). Qed.
Print Assumptions C263_compressed.
Example C263_compressed_case : 0 < knC soft /\ Forall (fun x => 0 < x <= maxContract soft) [1; 3; 2] /\ Forall (fun f => 0 <= f) (expected (knC soft) (kCrp soft) (kUnl soft) 1 0 [1; 3; 2]).
Proof. split; [cbn [soft knC]; lra|]. split; [cbn [soft maxContract]; repeat (apply Forall_cons; [lra|]); apply Forall_nil|]. cbn [expected]. rewrite (Rmax_right 0 1), (Rmax_right 1 3), (Rmax_left 3 2) by lra. unfold hysteretic, curve. cbn [soft knT knC kCrp kUnl maxExten maxContract]. repeat match goal with |- context [Rle_dec ?a ?b] => destruct (Rle_dec a b); try (exfalso; lra) end. repeat (apply Forall_cons; [lra|]); apply Forall_nil. Qed.
(** C264. Within elasticity the force is linear on both sides of zero, so without jumps, for every history. *)
Theorem C264_elastic_partial k t c l : Forall (fun d => - maxExten k <= d <= maxContract k /\ - t <= bilinear (knT k) (knC k) d <= c) l ->
  answers k (new_contact t c) l = map (fun d => NForce (bilinear (knT k) (knC k) d)) l.
Proof. exact (elastic k t c l). Qed.
Print Assumptions C264_elastic_partial.
Example C264_elastic_case : Forall (fun d => - maxExten soft <= d <= maxContract soft /\ - 1 <= bilinear (knT soft) (knC soft) d <= 1) [1/2; -(1/2)].
Proof. cbn [soft maxExten maxContract knT knC]. unfold bilinear. repeat (apply Forall_cons; [destruct (Rle_dec _ 0); lra|]). apply Forall_nil. Qed.
(** Tension beyond its limit makes compression plastic too, compression beyond its limit only itself; elastic steps change neither and nothing is taken back. *)
Theorem C264_flags_partial k s d : let s' := snd (normal_law k s d) in
  (isBroken s = false -> - maxExten k <= d - unp s <= 0 -> elT s < knT k * (unp s - d) -> onT s' = true /\ onC s' = true) /\
  (isBroken s = false -> 0 < d - unp s <= maxContract k -> elC s < knC k * (d - unp s) -> onC s' = true /\ onT s' = onT s) /\
  (isBroken s = false -> 0 < d - unp s <= maxContract k -> onC s = false -> knC k * (d - unp s) <= elC s -> onC s' = false) /\
  (isBroken s = false -> - maxExten k <= d - unp s <= 0 -> onT s = false -> knT k * (unp s - d) <= elT s -> onT s' = false /\ onC s' = onC s) /\
  (onT s = true -> onT s' = true) /\ (onC s = true -> onC s' = true).
Proof. exact (plastic_flags k s d). Qed.
Print Assumptions C264_flags_partial.
Example C264_flags_case : isBroken (new_contact 1 10) = false /\ - maxExten soft <= -3 - unp (new_contact 1 10) <= 0 /\ elT (new_contact 1 10) < knT soft * (unp (new_contact 1 10) - -3).
Proof. cbn [new_contact unp isBroken elT soft maxExten knT]. split; [reflexivity|lra]. Qed.
(** C264. But once tension was plastic, the least compression beyond the new equilibrium has the force of the creep curve of compression: here it jumps from 1/2 to more than 5, however small the displacement. *)
Theorem C264_jump_refuted eps : 0 < eps < 1 -> exists f, answers soft (new_contact 1 10) [-3; -(1/2); -(1/2) + eps] = [NForce (-2); NForce (1/2); NForce f] /\ 5 < f.
Proof. exact (jumps_refuted eps). Qed.
Print Assumptions C264_jump_refuted.
Example C264_jump_case : 0 < 1/1000 < 1.
Proof. lra. Qed.
(** C265. If creep is not stiffer than elasticity, the tension while loading never exceeds the elastic one; *)
Theorem C265_pulled_partial k t c l d : 0 < knT k -> kCrp k <= knT k -> 0 <= t -> Forall (fun x => 0 <= x <= maxExten k) (l ++ [d]) -> Forall (fun f => 0 <= f) (expected (knT k) (kCrp k) (kUnl k) t 0 (l ++ [d])) ->
  Forall (fun x => x <= d) l -> exists fs f, answers k (new_contact t c) (map Ropp (l ++ [d])) = fs ++ [NForce (- f)] /\ 0 <= f <= knT k * d.
Proof. exact (pulled_below k t c l d). Qed.
Print Assumptions C265_pulled_partial.
Example C265_pulled_case : 0 < knT soft /\ kCrp soft <= knT soft /\ Forall (fun x => x <= 3) [1].
Proof. cbn [soft knT kCrp]. split; [lra|]. split; [lra|]. repeat (apply Forall_cons; [lra|]); apply Forall_nil. Qed.
(** and so for the compression. *)
Theorem C265_compressed_partial k t c l d : 0 < knC k -> kCrp k <= knC k -> 0 <= c -> Forall (fun x => 0 < x <= maxContract k) (l ++ [d]) -> Forall (fun f => 0 <= f) (expected (knC k) (kCrp k) (kUnl k) c 0 (l ++ [d])) ->
  Forall (fun x => x <= d) l -> exists fs f, answers k (new_contact t c) (l ++ [d]) = fs ++ [NForce f] /\ 0 <= f <= knC k * d.
Proof. exact (compressed_below k t c l d). Qed.
Print Assumptions C265_compressed_partial.
Example C265_compressed_case : 0 < knC soft /\ kCrp soft <= knC soft /\ Forall (fun x => x <= 3) [1].
Proof. cbn [soft knC kCrp]. split; [lra|]. split; [lra|]. repeat (apply Forall_cons; [lra|]); apply Forall_nil. Qed.
(** C265. But creep in compression is a fraction of the stiffness of tension: with a coefficient 1/2 of a stiffness of tension of 10, and a stiffness of compression of 1, the plastic force is 6 where the elastic one is 2. *)
Theorem C265_stiff_refuted : kCrp stiffT = knT stiffT * (1/2) /\ answers stiffT (new_contact 1 1) [2] = [NForce 6] /\ bilinear (knT stiffT) (knC stiffT) 2 = 2.
Proof. exact (compressed_refuted). Qed.
Print Assumptions C265_stiff_refuted.

(** C266. A contact stretched or shortened beyond its limits breaks; *)
Theorem C266_breaks_partial k s d : d < unp s - maxExten k /\ 0 <= maxExten k \/ unp s + maxContract k < d /\ 0 <= maxContract k -> isBroken (snd (normal_law k s d)) = true.
Proof. exact (breaks k s d). Qed.
Print Assumptions C266_breaks_partial.
Example C266_breaks_case : unp (new_contact 1 1) + maxContract soft < 5 /\ 0 <= maxContract soft.
Proof. cbn [new_contact unp soft maxContract]. lra. Qed.
(** only then, *)
Theorem C266_only_partial k s d : isBroken s = false -> - maxExten k <= d - unp s <= maxContract k -> isBroken (snd (normal_law k s d)) = false /\ exists f, fst (normal_law k s d) = NForce f.
Proof. exact (breaks_only k s d). Qed.
Print Assumptions C266_only_partial.
Example C266_only_case : isBroken (new_contact 1 1) = false /\ - maxExten soft <= 2 - unp (new_contact 1 1) <= maxContract soft.
Proof. cbn [new_contact unp isBroken soft maxExten maxContract]. split; [reflexivity|lra]. Qed.
(** for ever, *)
Theorem C266_forever_partial k l : forall s, isBroken s = true -> isBroken (after k s l) = true /\ Forall (fun a => a = NErase \/ a = NSpent) (answers k s l).
Proof. exact (broken_forever k l). Qed.
Print Assumptions C266_forever_partial.
Example C266_forever_case : isBroken (snd (normal_law soft (new_contact 1 1) 5)) = true.
Proof. apply breaks. right. cbn [new_contact unp soft maxContract]. lra. Qed.
(** without any force or moment, *)
Theorem C266_silent_partial k st x i j : isBroken (snd (normal_law (nco k) (nst st) (penetrationDepth (sg x)))) = true -> 
  let r := law k st x i j in snd r = [] /\ nforce (snd (fst r)) = vzero /\ sforce (sst (snd (fst r))) = vzero /\ mtwist (tst (snd (fst r))) = vzero /\ mbend (bst (snd (fst r))) = vzero.
Proof. exact (silent k st x i j). Qed.
Print Assumptions C266_silent_partial.
Example C266_silent_case : isBroken (snd (normal_law soft (new_contact 1 1) 5)) = true.
Proof. apply breaks. right. cbn [new_contact unp soft maxContract]. lra. Qed.
(** and is erased only if the spheres are apart or closer to it than the plastic equilibrium. *)
Theorem C266_erased_partial k s d : fst (normal_law k s d) = NErase -> d <= Rmax 0 (unp s) /\ isBroken (snd (normal_law k s d)) = true.
Proof. exact (erased k s d). Qed.
Print Assumptions C266_erased_partial.
Example C266_erased_case : fst (normal_law soft (new_contact 1 1) (-5)) = NErase.
Proof. unfold normal_law. cbv zeta. cbn [new_contact unp isBroken soft maxExten]. rewrite leR_t, ltR_t by lra. reflexivity. Qed.
(** C266. But after plastic compression it is erased while the spheres overlap (here by 1/8), to be made anew, sound, in the next step. *)
Theorem C266_overlap_refuted : answers brittle (new_contact 1 1) [3; 1/2; 1/8] = [NForce 2; NForce (-(1/2)); NErase].
Proof. exact (erased_refuted). Qed.
Print Assumptions C266_overlap_refuted.

(** C267. The shear force is the elastic one up to the adhesion, or the friction if there is none; *)
Theorem C267_kept_partial ks tp g Fn s trial lim : trial = vadd (rotate g (sforce s)) (smul ks (shearInc g)) -> lim = Rmax 0 (if Req_EM_T (adhesion s) 0 then Fn * tp else adhesion s) ->
  norm trial <= lim -> shear_law ks tp g Fn s = mkSS (adhesion s) (cohesionBroken s) trial.
Proof. exact (shear_kept ks tp g Fn s trial lim). Qed.
Print Assumptions C267_kept_partial.
Example C267_kept_case : norm (V 0 2 0) <= Rmax 0 (if Req_EM_T 10 0 then 0 * (1/2) else 10).
Proof. rewrite norm_y by lra. destruct (Req_EM_T 10 0); [lra|]. rewrite Rmax_right; lra. Qed.
(** beyond, a contact that was broken or has no adhesion keeps the direction and is limited, *)
Theorem C267_slips_partial ks tp g Fn s trial lim : trial = vadd (rotate g (sforce s)) (smul ks (shearInc g)) -> lim = Rmax 0 (if Req_EM_T (adhesion s) 0 then Fn * tp else adhesion s) ->
  lim < norm trial -> cohesionBroken s = true \/ adhesion s = 0 ->
  let s' := shear_law ks tp g Fn s in cohesionBroken s' = true /\ adhesion s' = adhesion s /\ norm (sforce s') = lim /\ exists j, 0 <= j <= 1 /\ sforce s' = smul j trial.
Proof. exact (shear_slips ks tp g Fn s trial lim). Qed.
Print Assumptions C267_slips_partial.
Example C267_slips_case : Rmax 0 (if Req_EM_T 0 0 then 2 * (1/2) else 0) < norm (V 0 2 0) /\ (false = true \/ 0 = 0).
Proof. split; [|right; reflexivity]. rewrite norm_y by lra. destruct (Req_EM_T 0 0) as [_ | X]; [|contradiction X; reflexivity]. rewrite Rmax_right; lra. Qed.
(** and a contact with adhesion loses it, with a force equal to the friction. *)
Theorem C267_breaks_partial ks tp g Fn s trial : trial = vadd (rotate g (sforce s)) (smul ks (shearInc g)) -> adhesion s <> 0 -> cohesionBroken s = false -> Rmax 0 (adhesion s) < norm trial ->
  let s' := shear_law ks tp g Fn s in cohesionBroken s' = true /\ adhesion s' = 0 /\ norm (sforce s') = Rmax 0 (Fn * tp) /\ exists j, 0 <= j /\ sforce s' = smul j trial.
Proof. exact (shear_breaks ks tp g Fn s trial). Qed.
Print Assumptions C267_breaks_partial.
Example C267_breaks_case : 1 <> 0 /\ Rmax 0 1 < norm (V 0 2 0).
Proof. split; [lra|]. rewrite norm_y by lra. rewrite Rmax_right; lra. Qed.
(** C267. But that force may be larger than the elastic one: breaking multiplies a shear force of 2 by ten, *)
Theorem C267_amplified_refuted : sforce (shear_law 1 (1/2) (flat_geom (V 0 2 0)) 40 (mkSS 1 false vzero)) = V 0 20 0 /\ vadd (rotate (flat_geom (V 0 2 0)) vzero) (smul 1 (V 0 2 0)) = V 0 2 0.
Proof. exact (amplified_refuted). Qed.
Print Assumptions C267_amplified_refuted.

(** and a contact whose cohesion was broken by twist keeps its adhesion: without any normal force it bears a shear force of 2, and more up to 10. *)
Theorem C267_adheres_refuted : let st1 := steps glue (made (mkSS 10 false vzero)) [sheared 2] in let st2 := steps glue st1 [sheared 2] in
  cohesionBroken (sst st1) = true /\ nforce st2 = vzero /\ sforce (sst st2) = V 0 2 0.
Proof. exact (adheres_refuted). Qed.
Print Assumptions C267_adheres_refuted.

(** C268. Once the cohesion is broken there is no twist moment any more; the bending moment stays as it was, *)
Theorem C268_torn_partial k l : forall st x, cohesionBroken (sst st) = true -> isBroken (nst (steps k st (l ++ [x]))) = false ->
  mbend (bst (steps k st (l ++ [x]))) = mbend (bst st) /\ mtwist (tst (steps k st (l ++ [x]))) = vzero /\ cohesionBroken (sst (steps k st (l ++ [x]))) = true.
Proof. exact (frozen k l). Qed.
Print Assumptions C268_torn_partial.
Example C268_torn_case : cohesionBroken (sst (steps glue (made (mkSS 10 false vzero)) [sheared 2])) = true.
Proof. exact (proj1 adheres_refuted). Qed.
(** and it is released if bending itself broke the cohesion. *)
Theorem C268_fails_partial k g dt w1 w2 s : snd (bend_law k g dt w1 w2 s) = true -> mbend (fst (bend_law k g dt w1 w2 s)) = vzero.
Proof. exact (bending_fails k g dt w1 w2 s). Qed.
Print Assumptions C268_fails_partial.
Example C268_fails_case : snd (bend_law (mkBC 1 1 1 0 (1/2)) (flat_geom vzero) 1 vzero (V 0 1 0) (mkBS false vzero vzero vzero 1)) = true.
Proof. unfold bend_law. cbv zeta. cbn [mbend creep cB kDam onB kr krCrp krUnl elB maxBend]. rewrite !flat_rotate. cbn [flat_geom normal]. assert (W : smul 1 (vsub (vsub (V 0 1 0) vzero) (smul (dot (V 1 0 0) (vsub (V 0 1 0) vzero)) (V 1 0 0))) = V 0 1 0) by (vgoal; f_equal; ring). rewrite W. assert (D : vsub vzero (smul 1 (V 0 1 0)) = V 0 (-1) 0) by (vgoal; f_equal; ring). rewrite D. assert (N1 : norm (V 0 (-1) 0) = 1) by (unfold norm; replace (norm2 (V 0 (-1) 0)) with (1 * 1) by (unfold norm2, dot; cbn [vx vy vz]; ring); apply sqrt_square; lra). assert (N0 : norm vzero = 0) by (unfold vzero; apply norm_y; lra). rewrite ?N1, ?N0. rewrite (ltR_t 0 1), (ltR_f 1 0) by lra. cbn [orb]. rewrite ?N1, ?N0. rewrite (ltR_t (1/2) 1) by lra. reflexivity. Qed.
(** C268. But if shear or twist broke it, the bending moment of that time acts for ever, whatever the bodies do: it does not even turn with the contact. *)
Theorem C268_bending_refuted l x : let st := steps glue (made (mkSS 10 false vzero)) [bent 0; bent 2] in
  cohesionBroken (sst st) = true /\ isBroken (nst st) = false /\
  (isBroken (nst (steps glue st (l ++ [x]))) = false -> mbend (bst (steps glue st (l ++ [x]))) = V 0 (-1) 0 /\
     exists e1 e2, snd (law glue (steps glue st l) x 0 1) = [e1; e2; (0%nat, (vzero, V 0 1 0)); (1%nat, (vzero, V 0 (-1) 0))]).
Proof. exact (bending_refuted l x). Qed.
Print Assumptions C268_bending_refuted.
Example C268_bending_case : isBroken (nst (steps glue (made (mkSS 10 false vzero)) [bent 0; bent 2])) = false.
Proof. exact (proj1 (proj2 (bending_refuted [] (bent 0)))). Qed.
(** C269. Twist in one sense and in the other have opposite moments, in every state; *)
Theorem C269_odd k fr n gt s : gt - twp s <> 0 -> twist_law k fr n (- gt) (reversed s) = (reversed (fst (twist_law k fr n gt s)), snd (twist_law k fr n gt s)).
Proof. exact (twist_odd k fr n gt s). Qed.
Print Assumptions C269_odd.
Example C269_odd_case : 1 - twp (mkTS 10 false 0 0 0 vzero) <> 0.
Proof. cbn [twp]. lra. Qed.
(** it is elastic within the elastic moment, *)
Theorem C269_elastic k fr n gt s : onTw s = false -> Rabs (gt - twp s) <= maxTwist k -> Rabs ((gt - twp s) * ktw k) <= elTw s ->
  twist_law k fr n gt s = (mkTS (elTw s) false (twp s) (gt - twp s) ((gt - twp s) * ktw k) (smul ((gt - twp s) * ktw k) n), false).
Proof. exact (twist_elastic k fr n gt s). Qed.
Print Assumptions C269_elastic.
Example C269_elastic_case : Rabs ((1 - 0) * 1) <= 10 /\ Rabs (1 - 0) <= 1.
Proof. replace ((1 - 0) * 1) with 1 by ring. replace (1 - 0) with 1 by ring. rewrite Rabs_right by lra. lra. Qed.
(** creeps beyond it, and unloads with its own stiffness from the largest twist, *)
Theorem C269_plastic k fr n gt s : Rabs (gt - twp s) <= maxTwist k -> elTw s < Rabs ((gt - twp s) * ktw k) \/ onTw s = true -> dot (mtwist s) (smul ((gt - twp s) * ktw k) n) >= 0 ->
  let t := gt - twp s in let r := twist_law k fr n gt s in snd r = false /\ onTw (fst r) = true /\ elTw (fst r) = elTw s /\ twp (fst r) = twp s /\
  (Rabs (cW0 s) <= Rabs t -> cW0 (fst r) = t /\ mtwist (fst r) = smul (sgn t * elTw s + ktwCrp k * (t - sgn t * elTw s / ktw k)) n) /\
  (Rabs t < Rabs (cW0 s) -> cW0 (fst r) = cW0 s /\ cW1 (fst r) = cW1 s /\ mtwist (fst r) = smul (cW1 s + ktwUnl k * (t - cW0 s)) n).
Proof. exact (twist_plastic k fr n gt s). Qed.
Print Assumptions C269_plastic.
Example C269_plastic_case : Rabs (20 - 0) <= 30 /\ 10 < Rabs ((20 - 0) * 1) /\ dot vzero (smul ((20 - 0) * 1) (V 1 0 0)) >= 0.
Proof. replace ((20 - 0) * 1) with 20 by ring. replace (20 - 0) with 20 by ring. rewrite Rabs_right by lra. split; [lra|]. split; [lra|]. replace (dot vzero (smul 20 (V 1 0 0))) with 0 by (vgoal; ring). lra. Qed.
(** and too much twist breaks the cohesion, without moment. *)
Theorem C269_breaks k fr n gt s : maxTwist k < Rabs (gt - twp s) -> snd (twist_law k fr n gt s) = true /\ mtwist (fst (twist_law k fr n gt s)) = vzero.
Proof. exact (twist_breaks k fr n gt s). Qed.
Print Assumptions C269_breaks.
Example C269_breaks_case : 1 < Rabs (2 - 0).
Proof. rewrite Rabs_right; lra. Qed.
(** C270. The contact of two materials does not depend on their order; *)
Theorem C270_sym_partial m1 m2 r1 r2 : ip2 m1 m2 r1 r2 = ip2 m2 m1 r2 r1.
Proof. exact (ip2_sym m1 m2 r1 r2). Qed.
Print Assumptions C270_sym_partial.

(** for positive moduli the stiffnesses are between those of the two, *)
Theorem C270_stiff_partial m1 m2 r1 r2 : 0 < mC m1 * r1 -> 0 < mC m2 * r2 -> 0 < mT m1 * r1 -> 0 < mT m2 * r2 ->
  exists kC kT, iknC (ip2 m1 m2 r1 r2) = Some kC /\ iknT (ip2 m1 m2 r1 r2) = Some kT /\ Rmin (mC m1 * r1) (mC m2 * r2) <= kC <= Rmax (mC m1 * r1) (mC m2 * r2) /\ Rmin (mT m1 * r1) (mT m2 * r2) <= kT <= Rmax (mT m1 * r1) (mT m2 * r2) /\
  ikTCrp (ip2 m1 m2 r1 r2) = Some (kT * Rmin (mcreep m1) (mcreep m2)) /\ ikTUnld (ip2 m1 m2 r1 r2) = Some (kT * Rmin (munload m1) (munload m2)).
Proof. exact (ip2_stiff m1 m2 r1 r2). Qed.
Print Assumptions C270_stiff_partial.
Example C270_stiff_case : 0 < mC (mkIM 1 1 1 2 2 0 0 0 0 0 0 0 0) * 1.
Proof. cbn [mC]. lra. Qed.
(** and the limits are not above those of either. *)
Theorem C270_limits_partial m1 m2 r1 r2 : 0 <= r1 -> 0 <= r2 -> 0 <= sC m1 -> 0 <= sC m2 -> 0 <= sT m1 -> 0 <= sT m2 -> 0 <= sS m1 -> 0 <= sS m2 ->
  let p := ip2 m1 m2 r1 r2 in
  (0 <= imaxElC p <= sC m1 * (r1 * r1) /\ imaxElC p <= sC m2 * (r2 * r2)) /\ (0 <= imaxElT p <= sT m1 * (r1 * r1) /\ imaxElT p <= sT m2 * (r2 * r2)) /\ (0 <= iadh p <= sS m1 * (r1 * r1) /\ iadh p <= sS m2 * (r2 * r2)) /\
  (imaxExten p <= eT m1 * r1 /\ imaxExten p <= eT m2 * r2 /\ (imaxExten p = eT m1 * r1 \/ imaxExten p = eT m2 * r2)) /\ (imaxContract p <= eC m1 * r1 /\ imaxContract p <= eC m2 * r2 /\ (imaxContract p = eC m1 * r1 \/ imaxContract p = eC m2 * r2)).
Proof. exact (ip2_limits m1 m2 r1 r2). Qed.
Print Assumptions C270_limits_partial.
Example C270_limits_case : 0 <= sC default_mat /\ 0 <= sS default_mat.
Proof. cbn [default_mat sC sS]. lra. Qed.
(** C270. But materials as made by default have stiffnesses that are not numbers. *)
Theorem C270_default_refuted r1 r2 : iknC (ip2 default_mat default_mat r1 r2) = None /\ iknT (ip2 default_mat default_mat r1 r2) = None.
Proof. exact (ip2_refuted r1 r2). Qed.
Print Assumptions C270_default_refuted.

(** C271. Forces and moments of the law are in balance about every point, in every state. *)
Theorem C271_balance k st x i j at_ o : at_ i = at1 x -> at_ j = at2 x -> total_force (snd (law k st x i j)) = vzero /\ total_moment o at_ (snd (law k st x i j)) = vzero.
Proof. exact (balance k st x i j at_ o). Qed.
Print Assumptions C271_balance.
Example C271_balance_case : (fun i : nat => if Nat.eqb i 0 then V (-1) 0 0 else V 1 0 0) 0%nat = at1 (bent 0) /\ (fun i : nat => if Nat.eqb i 0 then V (-1) 0 0 else V 1 0 0) 1%nat = at2 (bent 0).
Proof. split; reflexivity. Qed.
(** C266. The contact is erased exactly when its normal law says so. *)
Theorem C266_leaves_partial k st x i j : fst (fst (law k st x i j)) = false <-> fst (normal_law (nco k) (nst st) (penetrationDepth (sg x))) = NErase.
Proof. exact (leaves k st x i j). Qed.
Print Assumptions C266_leaves_partial.

(** C268. While bending is elastic, its moment resists the relative rotation across the normal, *)
Theorem C268_elastic_partial k g dt w1 w2 s e : onB s = false -> e = vsub (rotate g (mbend s)) (smul (kr k * dt) (vsub (vsub w2 w1) (smul (dot (normal g) (vsub w2 w1)) (normal g)))) -> norm e <= elB k ->
  bend_law k g dt w1 w2 s = (mkBS false e e e (krCrp k), false).
Proof. exact (bending_elastic k g dt w1 w2 s e). Qed.
Print Assumptions C268_elastic_partial.
Example C268_elastic_case : norm (V 0 1 0) <= elB (mkBC 1 1 1 10 20).
Proof. rewrite norm_y by lra. cbn [elB]. lra. Qed.
(** and both moments act on the bodies while shear and twist leave the cohesion. *)
Theorem C268_sound_partial k st x i j Fn n' : normal_law (nco k) (nst st) (penetrationDepth (sg x)) = (NForce Fn, n') ->
  cohesionBroken (shear_law (ksh k) (tanPhi_ k) (sg x) Fn (mkSS (adhesion (sst st)) (cohesionBroken (sst st)) (if fresh x then vzero else sforce (sst st)))) = false ->
  snd (twist_law (tco k) (fresh x) (normal (sg x)) (stwist x) (tst st)) = false ->
  let t := fst (twist_law (tco k) (fresh x) (normal (sg x)) (stwist x) (tst st)) in let b := bend_law (bco k) (sg x) (sdt x) (om1 x) (om2 x) (bst st) in
  tst (snd (fst (law k st x i j))) = t /\ bst (snd (fst (law k st x i j))) = fst b /\ cohesionBroken (sst (snd (fst (law k st x i j)))) = snd b /\
  exists e1 e2, snd (law k st x i j) = [e1; e2; (i, (vzero, vsub (vopp (mbend (fst b))) (mtwist t))); (j, (vzero, vadd (mbend (fst b)) (mtwist t)))].
Proof. exact (moments_sound k st x i j Fn n'). Qed.
Print Assumptions C268_sound_partial.
Example C268_sound_case : snd (twist_law (mkTC 1 1 1 1) false (V 1 0 0) 0 (mkTS 10 false 0 0 0 vzero)) = false.
Proof. rewrite twist_elastic; [reflexivity|reflexivity| |]; cbn [twp maxTwist ktw elTw]; rewrite ?Rmult_1_r, Rminus_0_r, Rabs_R0; lra. Qed.
(** C271. The force on the first body is the shear force and the normal force, positive in compression, against the normal; that on the second is opposite; a new contact starts without shear force. *)
Theorem C271_applied k st x i j Fn n' : i <> j -> normal_law (nco k) (nst st) (penetrationDepth (sg x)) = (NForce Fn, n') ->
  let s := shear_law (ksh k) (tanPhi_ k) (sg x) Fn (mkSS (adhesion (sst st)) (cohesionBroken (sst st)) (if fresh x then vzero else sforce (sst st))) in
  let r := law k st x i j in
  fst (fst r) = true /\ nst (snd (fst r)) = n' /\ nforce (snd (fst r)) = vopp (smul Fn (normal (sg x))) /\ sforce (sst (snd (fst r))) = sforce s /\ adhesion (sst (snd (fst r))) = adhesion s /\
  force_on (snd r) i = vsub (sforce s) (smul Fn (normal (sg x))) /\ force_on (snd r) j = vsub (smul Fn (normal (sg x))) (sforce s).
Proof. exact (applied k st x i j Fn n'). Qed.
Print Assumptions C271_applied.
Example C271_applied_case : exists n', normal_law soft (new_contact 1 1) 0 = (NForce 0, n').
Proof. destruct (moved_step _ new_moved) as (n' & E & _). exists n'. exact E. Qed.
