(** Properties C189-C197: factories of spheres, their collision probe, and limits of the domain *)
From Coq Require Import Reals List ZArith Bool Arith Lra Lia.
From Verif Require Import Vec_Model Vec_Proofs Fact_Model Fact_Spec Fact_Proofs Fact_Proofs2 Fact_Proofs3 Fact_Proofs4 Fact_Proofs5.
Import ListNotations.
Local Open Scope R_scope.

(** C189. Over any history nothing made before is changed; the totals of mass, volume and number grow by those of the new spheres; each has the mass of a ball of the density of the material, and a velocity along the direction asked for with a speed in the range. *)
Theorem C189_accounts c s s' : history c s s' -> exists new,
  made s' = made s ++ new /\ totalMass s' = totalMass s + masses new /\ totalVolume s' = totalVolume s + volumes new
  /\ numParticles s' = (numParticles s + Z.of_nat (length new))%Z /\ (forall b, In b new -> thrown c b).
Proof. exact (accounts c s s'). Qed.
Print Assumptions C189_accounts.
Example C189_accounts_case : exists s, history (rowconf [] 100) (fresh 2 1 []) s /\ length (made s) = 2%nat.
Proof. destruct max_mass_ignored as (s & E & L & _). exists s. split; [|exact L]. eapply H1; [apply H0|exact no_rnd_ok|left; exact E]. Qed.
(** C189. This speed is the norm of the velocity. *)
Theorem C189_speed c v : norm (aim c) <> 0 -> norm (smul (v / norm (aim c)) (aim c)) = Rabs v.
Proof. exact (aim_speed c v). Qed.
Print Assumptions C189_speed.
Example C189_speed_case : norm (aim (rowconf [] 100)) <> 0.
Proof. unfold aim, rowconf, norm, norm2, dot. cbn [normalVel normal vx vy vz]. replace (0 * 0 + 0 * 0 + 1 * 1) with 1 by lra. rewrite sqrt_1. lra. Qed.
(** C189. Without a grading, radii are in the range given. *)
Theorem C189_radii c s s' : rMin c <= rMax c -> PSDcum s = [] -> PSDuse s = false -> history c s s' ->
  PSDcum s' = [] /\ PSDuse s' = false /\ (forall b, In b (made s') -> In b (made s) \/ rMin c <= bradius b <= rMax c).
Proof. exact (radii c s s'). Qed.
Print Assumptions C189_radii.
Example C189_radii_case : rMin (rowconf [] 100) <= rMax (rowconf [] 100) /\ exists s, history (rowconf [] 100) (fresh 2 1 []) s /\ length (made s) = 2%nat.
Proof. split; [unfold rowconf; cbn [rMin rMax]; lra|]. destruct max_mass_ignored as (s & E & L & _). exists s. split; [|exact L]. eapply H1; [apply H0|exact no_rnd_ok|left; exact E]. Qed.
(** C189. With an unknown material nothing is made (the step throws). *)
Theorem C189_material c s s' : given_density c = None -> history c s s' -> made s' = made s.
Proof. exact (no_material c s s'). Qed.
Print Assumptions C189_material.
Example C189_material_case : given_density (mkF 1 1 0 0 0 (V 0 0 1) None [] (-1) 1 1 false true true [] false row) = None.
Proof. reflexivity. Qed.
(** C190. There are never more than maxParticles, *)
Theorem C190_number_partial c s s' : (0 <= maxParticles c)%Z -> (numParticles s <= maxParticles c)%Z -> history c s s' -> (numParticles s' <= maxParticles c)%Z.
Proof. exact (number_limit c s s'). Qed.
Print Assumptions C190_number_partial.
Example C190_number_case : exists s, history (rowconf [] 100) (fresh 2 1 []) s /\ length (made s) = 2%nat.
Proof. destruct max_mass_ignored as (s & E & L & _). exists s. split; [|exact L]. eapply H1; [apply H0|exact no_rnd_ok|left; exact E]. Qed.
(** C190. nor more mass than was to be attained at the end of the step and one particle, nor than maxMass and one particle if maxParticles is not positive; *)
Theorem C190_mass_partial c rnd probe junk dt fuel s s' : outcome (action c rnd probe junk dt fuel s) s' ->
  made s' = made s \/ exists l b, made s' = l ++ [b] /\ totalMass s' - bmass b < goalMass s + massFlowRate s * dt
    /\ ((maxParticles c <= 0)%Z -> maxMass s < 0 \/ totalMass s' - bmass b < maxMass s).
Proof. exact (mass_limit c rnd probe junk dt fuel s s'). Qed.
Print Assumptions C190_mass_partial.
Example C190_mass_case : exists s, history (rowconf [] 100) (fresh 2 1 []) s /\ length (made s) = 2%nat.
Proof. destruct max_mass_ignored as (s & E & L & _). exists s. split; [|exact L]. eapply H1; [apply H0|exact no_rnd_ok|left; exact E]. Qed.
(** C190. a step that ends without failure has reached one of the limits. *)
Theorem C190_done_partial c rnd probe junk dt fuel s s' : action c rnd probe junk dt fuel s = Done s' ->
  goalMass s + massFlowRate s * dt <= totalMass s' \/ ((0 <= maxParticles c <= numParticles s')%Z) \/ (0 <= maxMass s' <= totalMass s').
Proof. exact (done_limits c rnd probe junk dt fuel s s'). Qed.
Print Assumptions C190_done_partial.
Example C190_done_case : exists s, history (rowconf [] 100) (fresh 2 1 []) s /\ length (made s) = 2%nat.
Proof. destruct max_mass_ignored as (s & E & L & _). exists s. split; [|exact L]. eapply H1; [apply H0|exact no_rnd_ok|left; exact E]. Qed.
(** C190 is refuted: with maxParticles at its default maxMass is ignored. Here it is 1, and 2 are made. *)
Theorem C190_max_mass_refuted : exists s, action (rowconf [] 100) no_rnd nothing 0 1 2 (fresh 2 1 []) = Done s /\ length (made s) = 2%nat /\ totalMass s = 2 /\ totalMass (fresh 2 1 []) = 0.
Proof. exact (max_mass_ignored). Qed.
Print Assumptions C190_max_mass_refuted.

(** C191. In any history of a new factory, with a curve that ends at 1, the material in each bin is what the curve asks for of all material, up to the weight of as many of the heaviest spheres as there are bins. *)
Theorem C191_grading_partial c flow mmass cum rho s k : graded c cum -> given_density c = Some rho -> 0 < rho -> history c (fresh flow mmass cum) s -> (k < length cum)%nat ->
  - heaviest c rho <= whole c (made s) * asked cum k - part c k (made s) <= (INR (length cum) - 1) * heaviest c rho.
Proof. exact (grading_given c flow mmass cum rho s k). Qed.
Print Assumptions C191_grading_partial.
Example C191_grading_case : graded (rowconf [1; 2] (-1)) [2 / 3; 1] /\ given_density (rowconf [1; 2] (-1)) = Some (6 / PI) /\ 0 < 6 / PI /\ exists s, history (rowconf [1; 2] (-1)) (fresh (INR 1) (-1) [2 / 3; 1]) s /\ length (made s) = 1%nat.
Proof.
  split; [|split; [reflexivity|]; split; [apply Rdiv_lt_0_compat; [lra|exact PI_RGT_0]|]].
  - unfold graded, rowconf, increasing, item. cbn [PSDsizes exactDiam length nth last]. split; [lia|]. split; [reflexivity|]. split; [split; [lra|intros [|i] H; [lra|lia]]|]. split; [split; [lra|intros [|i] H; [lra|lia]]|reflexivity].
  -  destruct graded_begins as (s & O & l & E & L & _). exists s. split; [eapply H1; [apply H0|exact no_rnd_ok|exact O]|]. rewrite E. exact L.
Qed.
(** C191. So shares tend to those asked for as more is made. *)
Theorem C191_tends_partial c cum rho k eps flow mmass s : graded c cum -> given_density c = Some rho -> 0 < rho -> 0 < eps -> history c (fresh flow mmass cum) s -> (k < length cum)%nat ->
  INR (length cum) * heaviest c rho <= eps * whole c (made s) -> 0 < whole c (made s) -> Rabs (part c k (made s) / whole c (made s) - asked cum k) <= eps.
Proof. exact (grading_tends c cum rho k eps flow mmass s). Qed.
Print Assumptions C191_tends_partial.
Example C191_tends_case : graded (rowconf [1; 2] (-1)) [2 / 3; 1] /\ given_density (rowconf [1; 2] (-1)) = Some (6 / PI) /\ 0 < 6 / PI /\ exists s, history (rowconf [1; 2] (-1)) (fresh (INR 1) (-1) [2 / 3; 1]) s /\ length (made s) = 1%nat.
Proof.
  split; [|split; [reflexivity|]; split; [apply Rdiv_lt_0_compat; [lra|exact PI_RGT_0]|]].
  - unfold graded, rowconf, increasing, item. cbn [PSDsizes exactDiam length nth last]. split; [lia|]. split; [reflexivity|]. split; [split; [lra|intros [|i] H; [lra|lia]]|]. split; [split; [lra|intros [|i] H; [lra|lia]]|reflexivity].
  -  destruct graded_begins as (s & O & l & E & L & _). exists s. split; [eapply H1; [apply H0|exact no_rnd_ok|exact O]|]. rewrite E. exact L.
Qed.
(** C191. No array is read outside of its bounds when choosing. *)
Theorem C191_safe_partial c flow mmass cum rho s rnd probe junk dt fuel : graded c cum -> given_density c = Some rho -> 0 < rho -> history c (fresh flow mmass cum) s -> randoms rnd ->
  action c rnd probe junk dt fuel s <> UB.
Proof. exact (grading_safe_given c flow mmass cum rho s rnd probe junk dt fuel). Qed.
Print Assumptions C191_safe_partial.
Example C191_safe_case : graded (rowconf [1; 2] (-1)) [2 / 3; 1] /\ given_density (rowconf [1; 2] (-1)) = Some (6 / PI) /\ 0 < 6 / PI /\ exists s, history (rowconf [1; 2] (-1)) (fresh (INR 1) (-1) [2 / 3; 1]) s /\ length (made s) = 1%nat.
Proof.
  split; [|split; [reflexivity|]; split; [apply Rdiv_lt_0_compat; [lra|exact PI_RGT_0]|]].
  - unfold graded, rowconf, increasing, item. cbn [PSDsizes exactDiam length nth last]. split; [lia|]. split; [reflexivity|]. split; [split; [lra|intros [|i] H; [lra|lia]]|]. split; [split; [lra|intros [|i] H; [lra|lia]]|reflexivity].
  -  destruct graded_begins as (s & O & l & E & L & _). exists s. split; [eapply H1; [apply H0|exact no_rnd_ok|exact O]|]. rewrite E. exact L.
Qed.
(** C191 is refuted for a curve in percent, which is normalized except its first value: only the smallest size is made, however many (10 percent are asked for). *)
Theorem C191_percent_refuted n : exists flow s, outcome (action (rowconf [1; 2; 3] (-1)) no_rnd nothing 0 1 n (fresh flow (-1) percent)) s
  /\ length (made s) = n /\ (forall b, In b (made s) -> bradius b = 1 / 2).
Proof. exact (percent_smallest n). Qed.
Print Assumptions C191_percent_refuted.
Example C191_percent_case : ascending percent = true /\ increasing percent.
Proof. exact percent_graded. Qed.
(** C191 is refuted for such curves also in that the outcome depends on memory behind the array. *)
Theorem C191_junk_refuted flow : 1 < flow -> exists s1 s2 b1 b2, outcome (action (rowconf [1; 2; 3] (-1)) no_rnd nothing 0 1 1 (fresh flow (-1) percent)) s1 /\ outcome (action (rowconf [1; 2; 3] (-1)) no_rnd nothing 1 1 1 (fresh flow (-1) percent)) s2
  /\ made s1 = [b1] /\ made s2 = [b2] /\ bradius b1 = 1 / 2 /\ bradius b2 = 3 / 2.
Proof. exact (junk_counts flow). Qed.
Print Assumptions C191_junk_refuted.
Example C191_junk_case : 1 < 2.
Proof. lra. Qed.
(** C191 is refuted after saving and loading: bins are taken to be empty though the total is kept, so that of N made before as many as N / 2 new ones are all of the first bin. *)
Theorem C191_reload_refuted N m : (2 * m <= N)%nat -> exists flow, forall mk_, 
  exists s', outcome (action (rowconf [1; 2] (-1)) no_rnd nothing 0 1 m (reload (used N flow mk_))) s' /\ exists l, made s' = mk_ ++ l /\ length l = m /\ (forall b, In b l -> bradius b = 1 / 2).
Proof. exact (reload_forgets N m). Qed.
Print Assumptions C191_reload_refuted.
Example C191_reload_case : (2 * 50 <= 100)%nat.
Proof. lia. Qed.
(** C192. Spheres made in a step do not overlap each other nor anything the collider finds, if the number of attempts is not negative. *)
Theorem C192_overlap_partial c rnd probe junk dt fuel s s' : (0 <= maxAttempt c)%Z -> outcome (action c rnd probe junk dt fuel s) s' ->
  exists new, made s' = made s ++ new /\ pairwise no_overlap new /\ (forall b, In b new -> probe (bcenter b) (bradius b) = false) /\ (forall b, In b new -> exists sd, fst (pick c rnd sd (bradius b)) = bcenter b).
Proof. exact (clear_of c rnd probe junk dt fuel s s'). Qed.
Print Assumptions C192_overlap_partial.
Example C192_overlap_case : (0 <= maxAttempt (rowconf [] 100))%Z /\ exists s, history (rowconf [] 100) (fresh 2 1 []) s /\ length (made s) = 2%nat.
Proof. split; [unfold rowconf; cbn [maxAttempt]; lia|]. destruct max_mass_ignored as (s & E & L & _). exists s. split; [|exact L]. eapply H1; [apply H0|exact no_rnd_ok|left; exact E]. Qed.
(** C192 is refuted for a negative number of attempts: all are put at the origin, over each other and whatever else is there. *)
Theorem C192_negative_refuted probe : exists s b b', outcome (action anywhere no_rnd probe 0 1 2 (fresh 2 (-1) [])) s /\ made s = [b; b'] /\ bcenter b = vzero /\ bcenter b' = vzero /\ 0 < bradius b.
Proof. exact (negative_attempts probe). Qed.
Print Assumptions C192_negative_refuted.

(** C193. Spheres of CircularFactory are inside of the cylinder across its axis, with centers inside along it, if they are not larger than it. *)
Theorem C193_circular_partial c q n center rad len s s' b : pick c = circular q n center rad len -> qnorm2 q = 1 -> qrot q (V 0 0 1) = n -> 0 <= len -> (0 <= maxAttempt c)%Z ->
  made s = [] -> history c s s' -> In b (made s') -> bradius b <= rad ->
  let d := vsub (bcenter b) center in - (len / 2) <= dot d n <= len / 2 /\ norm (vsub d (smul (dot d n) n)) + bradius b <= rad.
Proof. exact (circular_history c q n center rad len s s' b). Qed.
Print Assumptions C193_circular_partial.
Example C193_circular_case : qnorm2 qid = 1 /\ qrot qid (V 0 0 1) = V 0 0 1 /\ (1/2 <= 1)%R.
Proof. split; [unfold qnorm2, qid, norm2, dot, vzero; cbn [qw qv vx vy vz]; lra|]. split; [apply qrot_id|lra]. Qed.
(** C193. Centers of spheres of BoxFactory are inside of the box. *)
Theorem C193_boxed_partial c q center ext s s' b : pick c = boxed q center ext -> qnorm2 q = 1 -> 0 <= vx ext -> 0 <= vy ext -> 0 <= vz ext -> (0 <= maxAttempt c)%Z ->
  made s = [] -> history c s s' -> In b (made s') ->
  let d := qrot (qconj q) (vsub (bcenter b) center) in - vx ext <= vx d <= vx ext /\ - vy ext <= vy d <= vy ext /\ - vz ext <= vz d <= vz ext.
Proof. exact (boxed_history c q center ext s s' b). Qed.
Print Assumptions C193_boxed_partial.
Example C193_boxed_case : qnorm2 qid = 1.
Proof. unfold qnorm2, qid, norm2, dot, vzero. cbn [qw qv vx vy vz]. lra. Qed.
(** C193 is refuted for BoxFactory: spheres reach out of the box. *)
Theorem C193_boxed_refuted : let x := fst (boxed qid vzero (V 1 1 1) no_rnd 0 (1/2)) in vx x - 1/2 < - 1.
Proof. exact (boxed_sticks_out). Qed.
Print Assumptions C193_boxed_refuted.

(** C194. After a failure, with stopIfFailed, nothing is made any more. *)
Theorem C194_failure_partial c rnd probe junk dt fuel s s1 s2 : stopIfFailed c = true -> action c rnd probe junk dt fuel s = Failed s1 -> history c s1 s2 -> made s2 = made s1.
Proof. exact (failure_final c rnd probe junk dt fuel s s1 s2). Qed.
Print Assumptions C194_failure_partial.
Example C194_failure_case : exists s, action (mkF (1/2) (1/2) 0 0 0 (V 0 0 1) None [6 / PI] (-1) (-1) 0 true true true [] false row) no_rnd nothing 0 1 1 (fresh 1 (-1) []) = Failed s.
Proof. unfold action, initPSD, fresh. cbn [PSDuse PSDcum length Nat.eqb orb maxMass]. destruct (Rlt_dec 0 (-1)); [lra|]. cbn [andb loop]. unfold wants. cbn [totalMass goalMass massFlowRate maxMass maxParticles numParticles]. destruct (Rlt_dec 0 (0 + 1 * 1)); [|lra]. destruct (Rlt_dec (-1) 0); [|lra]. cbn [Z.ltb Z.compare andb orb]. eexists. reflexivity. Qed.
(** C194 is refuted for silent, documented to disable the factory. *)
Theorem C194_silent_refuted : exists s s', action quiet no_rnd (fun _ _ => true) 0 1 1 (fresh 1 (-1) []) = Failed s /\ silent quiet = true /\ massFlowRate s = 1 /\ outcome (action quiet no_rnd nothing 0 1 1 s) s' /\ length (made s') = 1%nat.
Proof. exact (silent_goes_on). Qed.
Print Assumptions C194_silent_refuted.

(** C195. A step ends if there is a limit on the number of particles, *)
Theorem C195_number_partial c rnd probe junk dt s s' : (0 <= maxParticles c)%Z -> action c rnd probe junk dt (Z.to_nat (maxParticles c - numParticles s)) s <> More s'.
Proof. exact (ends_by_number c rnd probe junk dt s s'). Qed.
Print Assumptions C195_number_partial.
Example C195_number_case : (0 <= maxParticles (rowconf [] 100))%Z.
Proof. unfold rowconf. cbn [maxParticles]. lia. Qed.
(** C195. or if radii and density are positive. *)
Theorem C195_mass_partial c rnd probe junk dt s rho : randoms rnd -> 0 < rMin c <= rMax c -> PSDcum s = [] -> PSDuse s = false -> given_density c = Some rho -> 0 < rho ->
  exists n, forall fuel s', (n <= fuel)%nat -> action c rnd probe junk dt fuel s <> More s'.
Proof. exact (ends_by_mass_given c rnd probe junk dt s rho). Qed.
Print Assumptions C195_mass_partial.
Example C195_mass_case : 0 < rMin (rowconf [] (-1)) <= rMax (rowconf [] (-1)) /\ given_density (rowconf [] (-1)) = Some (6 / PI) /\ 0 < 6 / PI /\ randoms no_rnd.
Proof. split; [unfold rowconf; cbn [rMin rMax]; lra|]. split; [reflexivity|]. split; [apply Rdiv_lt_0_compat; [lra|exact PI_RGT_0]|exact no_rnd_ok]. Qed.
(** C195 is refuted for spheres of radius zero without such a limit. *)
Theorem C195_endless_refuted fuel : exists s, action dust no_rnd nothing 0 1 fuel (fresh 1 (-1) []) = More s /\ length (made s) = fuel.
Proof. exact (endless fuel). Qed.
Print Assumptions C195_endless_refuted.

(** C196. What the probe finds is there: a body with a box that meets the one probed, *)
Theorem C196_sound_partial l lo hi i : In i (probeBB l lo hi) -> exists e, In e l /\ eid e = i /\ apart e lo hi = false /\ isMin e = true /\ hasBB e = true /\ exists_ e = true.
Proof. exact (probe_sound l lo hi i). Qed.
Print Assumptions C196_sound_partial.
Example C196_sound_case : exists e, ordered [e] /\ stands_for e vzero 1 /\ 0 <= sweep e + vx (disp e).
Proof. exists (mkEn 7 (-3) true true (V (-3) (-2) (-2)) (V 1 2 2) 1 (V 1 0 0) true). split; [split; [intros e' []|exact I]|]. split; [|cbn [sweep disp vx]; lra]. unfold stands_for. cbn [isMin hasBB exists_ coord bmin bmax disp sweep vx]. unfold vadd, vsub, vzero. cbn [vx vy vz]. repeat (split; [reflexivity|]). split; f_equal; lra. Qed.
(** C196. which for a sphere is the smallest box around it where it is now. *)
Theorem C196_box_partial e p r lo hi : stands_for e p r -> (apart e lo hi = false <-> boxes_meet (fst (cube p r)) (snd (cube p r)) lo hi).
Proof. exact (stands_apart e p r lo hi). Qed.
Print Assumptions C196_box_partial.
Example C196_box_case : exists e, ordered [e] /\ stands_for e vzero 1 /\ 0 <= sweep e + vx (disp e).
Proof. exists (mkEn 7 (-3) true true (V (-3) (-2) (-2)) (V 1 2 2) 1 (V 1 0 0) true). split; [split; [intros e' []|exact I]|]. split; [|cbn [sweep disp vx]; lra]. unfold stands_for. cbn [isMin hasBB exists_ coord bmin bmax disp sweep vx]. unfold vadd, vsub, vzero. cbn [vx vy vz]. repeat (split; [reflexivity|]). split; f_equal; lra. Qed.
(** C196. Every such sphere is found, if it has not moved back along x by more than the margin of its box. *)
Theorem C196_complete_partial l lo hi e p r : ordered l -> In e l -> stands_for e p r -> 0 <= sweep e + vx (disp e) -> boxes_meet (fst (cube p r)) (snd (cube p r)) lo hi -> In (eid e) (probeBB l lo hi).
Proof. exact (probe_complete l lo hi e p r). Qed.
Print Assumptions C196_complete_partial.
Example C196_complete_case : exists e, ordered [e] /\ stands_for e vzero 1 /\ 0 <= sweep e + vx (disp e).
Proof. exists (mkEn 7 (-3) true true (V (-3) (-2) (-2)) (V 1 2 2) 1 (V 1 0 0) true). split; [split; [intros e' []|exact I]|]. split; [|cbn [sweep disp vx]; lra]. unfold stands_for. cbn [isMin hasBB exists_ coord bmin bmax disp sweep vx]. unfold vadd, vsub, vzero. cbn [vx vy vz]. repeat (split; [reflexivity|]). split; f_equal; lra. Qed.
(** C196. So where nothing is found there is no overlap with a sphere the collider knows. *)
Theorem C196_clear_partial l x r e p rb : ordered l -> In e l -> stands_for e p rb -> 0 <= sweep e + vx (disp e) -> probeBB l (fst (cube x r)) (snd (cube x r)) = [] -> r + rb <= norm (vsub x p).
Proof. exact (probe_clear l x r e p rb). Qed.
Print Assumptions C196_clear_partial.
Example C196_clear_case : exists e, ordered [e] /\ stands_for e vzero 1 /\ 0 <= sweep e + vx (disp e).
Proof. exists (mkEn 7 (-3) true true (V (-3) (-2) (-2)) (V 1 2 2) 1 (V 1 0 0) true). split; [split; [intros e' []|exact I]|]. split; [|cbn [sweep disp vx]; lra]. unfold stands_for. cbn [isMin hasBB exists_ coord bmin bmax disp sweep vx]. unfold vadd, vsub, vzero. cbn [vx vy vz]. repeat (split; [reflexivity|]). split; f_equal; lra. Qed.
(** C196 is refuted for a body that moved further: it is not found although it is in the middle of the box probed. *)
Theorem C196_moved_refuted : stands_for mover vzero 1 /\ probeBB [mover] (fst (cube vzero 1)) (snd (cube vzero 1)) = [].
Proof. exact (mover_missed). Qed.
Print Assumptions C196_moved_refuted.

(** C197. Deleted are just the selected spheres and clumps with a center that is a number outside, clumps with all their members; nothing else is changed, and number, mass and volume are counted. *)
Theorem C197_limits_partial n B l B' l' : consistent n B -> limit n B l = (B', l') -> exists o,
  NoDup o /\ (forall i, In i o <-> exists b, B i = Some b /\ selected l b /\ left_box l (bpos b))
  /\ (forall i, B' i = None <-> B i = None \/ In i o \/ (exists b j, B i = Some b /\ clumpOf b = Some j /\ In j o))
  /\ (forall i b, B' i = Some b -> B i = Some b)
  /\ lo l' = lo l /\ hi l' = hi l /\ lmask l' = lmask l
  /\ nDeleted l' = (nDeleted l + Z.of_nat (length o))%Z /\ mDeleted l' = mDeleted l + sum_of (mass_of B) o /\ vDeleted l' = vDeleted l + sum_of (volume_of B) o.
Proof. exact (limiter_exact n B l B' l'). Qed.
Print Assumptions C197_limits_partial.
Example C197_limits_case : consistent 4 four /\ exists B' l', limit 4 four (mkL (V (-2) (-2) (-2)) (V 2 2 2) (-1) 0 0 0) = (B', l').
Proof. split; [exact four_consistent|]. destruct (limit 4 four _) as [B' l']. eauto. Qed.
(** C197. For places that are numbers, to have left the box is not to be within it. *)
Theorem C197_number_partial l p : number p -> (left_box l p <-> ~ within l p).
Proof. exact (number_left l p). Qed.
Print Assumptions C197_number_partial.
Example C197_number_case : number (P3 (Some 0) (Some 5) (Some 0)) /\ ~ within (mkL (V (-2) (-2) (-2)) (V 2 2 2) (-1) 0 0 0) (P3 (Some 0) (Some 5) (Some 0)).
Proof. split; [split; [discriminate|split; discriminate]|]. intros (_ & (y & E & H) & _). cbn [py lo hi vy] in *. injection E as <-. lra. Qed.
(** C197 is refuted for places that are not numbers: such bodies are never deleted. *)
Theorem C197_nan_refuted n B l B' l' i b : consistent n B -> limit n B l = (B', l') -> B i = Some b -> clumpOf b = None -> bpos b = P3 None None None -> B' i = Some b.
Proof. exact (nan_never n B l B' l' i b). Qed.
Print Assumptions C197_nan_refuted.
Example C197_nan_case : consistent 4 four /\ exists B' l', limit 4 four (mkL (V (-2) (-2) (-2)) (V 2 2 2) (-1) 0 0 0) = (B', l').
Proof. split; [exact four_consistent|]. destruct (limit 4 four _) as [B' l']. eauto. Qed.
(** C197 is refuted for members of clumps: they stay wherever they are while the center of the clump is inside. *)
Theorem C197_member_refuted n B l B' l' i b j c : consistent n B -> limit n B l = (B', l') -> B i = Some b -> clumpOf b = Some j -> B j = Some c -> within l (bpos c) -> B' i = Some b.
Proof. exact (member_stays n B l B' l' i b j c). Qed.
Print Assumptions C197_member_refuted.
Example C197_member_case : consistent 4 four /\ exists B' l', limit 4 four (mkL (V (-2) (-2) (-2)) (V 2 2 2) (-1) 0 0 0) = (B', l').
Proof. split; [exact four_consistent|]. destruct (limit 4 four _) as [B' l']. eauto. Qed.
