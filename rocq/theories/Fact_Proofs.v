(** Invariants of the loop of SpheresFactory; accounts, limits, failure, end of the loop. *)
From Coq Require Import Reals List ZArith Bool Arith Lra Lia.
From Verif Require Import Vec_Model Vec_Proofs Fact_Model Fact_Spec.
Import ListNotations.
Local Open Scope R_scope.

Definition born (x : vec) (r : R) (vel : vec) (rho : R) : ball := mkBall x r vel (sphereVolume r * rho).

Lemma loop_inv c rnd probe vel (P : list ball -> fstate -> Prop) :
  (forall new s r id sd sd' x rho, wants c s = true -> radius c rnd s = Some (r, id, sd) -> place c rnd probe new r sd = (Some x, sd') -> density c = Some rho ->
     P new s -> P (new ++ [born x r vel rho]) (add c s id sd' (born x r vel rho))) ->
  (forall new s sd, P new s -> P new (fail c s sd)) -> (forall new s sd, P new s -> P new (setSeed s sd)) ->
  forall fuel new s s', P new s -> outcome (loop c rnd probe vel fuel new s) s' -> exists new', P new' s'.
Proof.
  intros A F T fuel. induction fuel as [|fuel IH]; intros new s s' Hp O; cbn [loop] in O.
  - destruct (wants c s); destruct O as [O|[O|[O|O]]]; try discriminate; injection O as <-; eauto.
  - destruct (wants c s) eqn:W.
    + destruct (radius c rnd s) as [[[r id] sd]|] eqn:Er; [|destruct O as [O|[O|[O|O]]]; discriminate].
      destruct (place c rnd probe new r sd) as [[x|] sd'] eqn:Ep.
      * destruct (density c) as [rho|] eqn:Ed.
        -- eapply IH; [|exact O]. eapply A; eauto.
        -- destruct O as [O|[O|[O|O]]]; try discriminate; injection O as <-; eauto.
      * destruct O as [O|[O|[O|O]]]; try discriminate; injection O as <-; eauto.
    + destruct O as [O|[O|[O|O]]]; try discriminate; injection O as <-; eauto.
Qed.

(** the state in which the loop begins *)
Definition started (c : fconf) (dt : R) (s s1 : fstate) : Prop :=
  goalMass s1 = goalMass s + massFlowRate s * dt /\ totalMass s1 = totalMass s /\ totalVolume s1 = totalVolume s /\ numParticles s1 = numParticles s
  /\ massFlowRate s1 = massFlowRate s /\ made s1 = made s
  /\ maxMass s1 = (if (if Rlt_dec 0 (maxMass s) then true else false) && (0 <? maxParticles c)%Z then -1 else maxMass s).

Lemma initPSD_same c junk s s1 : initPSD c junk s = Some s1 ->
  goalMass s1 = goalMass s /\ totalMass s1 = totalMass s /\ totalVolume s1 = totalVolume s /\ numParticles s1 = numParticles s
  /\ massFlowRate s1 = massFlowRate s /\ made s1 = made s /\ maxMass s1 = maxMass s /\ seed s1 = seed s.
Proof.
  unfold initPSD. destruct (PSDuse s || _); [intros E; injection E as <-; repeat (split; [reflexivity|]); reflexivity|].
  destruct (exactDiam c && _); [discriminate|]. destruct (negb (exactDiam c) && _); [discriminate|]. destruct (negb _); [discriminate|].
  intros E; injection E as <-. repeat (split; [reflexivity|]); reflexivity.
Qed.

Definition throwing (s : fstate) (dt : R) : fstate :=
  mkS (goalMass s + massFlowRate s * dt) (totalMass s) (totalVolume s) (numParticles s) (massFlowRate s) (maxMass s) (PSDcum s) (PSDuse s) (PSDNeedProc s) (PSDCurMean s) (PSDCurProc s) (seed s) (made s).
Definition speed (c : fconf) (rnd : nat -> R) (s : fstate) : R := vMin c + rnd (seed s) * (vMax c - vMin c).

Lemma action_loop c rnd probe junk dt fuel s :
  (initPSD c junk (throwing s dt) = None /\ action c rnd probe junk dt fuel s = Throws (throwing s dt))
  \/ (exists s0 s1, initPSD c junk (throwing s dt) = Some s0 /\ started c dt s s1 /\ PSDcum s1 = PSDcum s0 /\ PSDuse s1 = PSDuse s0 /\ PSDNeedProc s1 = PSDNeedProc s0
        /\ PSDCurMean s1 = PSDCurMean s0 /\ PSDCurProc s1 = PSDCurProc s0
        /\ action c rnd probe junk dt fuel s = loop c rnd probe (smul (speed c rnd s) (direction c)) fuel [] s1).
Proof.
  unfold action. cbv zeta. fold (throwing s dt). destruct (initPSD c junk (throwing s dt)) as [s0|] eqn:E; [right|left; split; reflexivity].
  destruct (initPSD_same _ _ _ _ E) as (A & B & C & D & F & G & H & I). cbn [throwing goalMass totalMass totalVolume numParticles massFlowRate made maxMass seed] in *.
  exists s0. eexists. split; [reflexivity|]. split; [|split; [|split; [|split; [|split; [|split; [|unfold speed; rewrite I; reflexivity]]]]]; reflexivity].
  unfold started. cbn [goalMass totalMass totalVolume numParticles massFlowRate made maxMass]. rewrite A, B, C, D, F, G, H. repeat (split; [reflexivity|]). reflexivity.
Qed.

(** an invariant of states that does not see grading, random numbers or which obstacle *)
Lemma action_inv c rnd probe junk dt fuel (P : list ball -> fstate -> Prop) s s' :
  (forall new s r id sd sd' x rho, wants c s = true -> radius c rnd s = Some (r, id, sd) -> place c rnd probe new r sd = (Some x, sd') -> density c = Some rho ->
     P new s -> P (new ++ [born x r (smul (speed c rnd s') (direction c)) rho]) (add c s id sd' (born x r (smul (speed c rnd s') (direction c)) rho))) ->
  (forall new s sd, P new s -> P new (fail c s sd)) -> (forall new s sd, P new s -> P new (setSeed s sd)) ->
  P [] (throwing s' dt) -> (forall s0 s1, initPSD c junk (throwing s' dt) = Some s0 -> started c dt s' s1 ->
    PSDcum s1 = PSDcum s0 -> PSDuse s1 = PSDuse s0 -> PSDNeedProc s1 = PSDNeedProc s0 -> PSDCurMean s1 = PSDCurMean s0 -> PSDCurProc s1 = PSDCurProc s0 -> P [] s1) ->
  outcome (action c rnd probe junk dt fuel s') s -> exists new, P new s.
Proof.
  intros A F T P0 P1 O. destruct (action_loop c rnd probe junk dt fuel s') as [(E & X)|(s0 & s1 & E & St & C1 & C2 & C3 & C4 & C5 & X)]; rewrite X in O.
  - destruct O as [O|[O|[O|O]]]; try discriminate. injection O as <-. eauto.
  - eapply (loop_inv _ _ _ _ P A F T); [|exact O]. eapply P1; eauto.
Qed.

Lemma masses_app l l' : masses (l ++ l') = masses l + masses l'.
Proof. induction l as [|b l IH]; cbn [masses app]; [lra|rewrite IH; lra]. Qed.
Lemma volumes_app l l' : volumes (l ++ l') = volumes l + volumes l'.
Proof. induction l as [|b l IH]; cbn [volumes app]; [lra|rewrite IH; lra]. Qed.
Lemma whole_app c l l' : whole c (l ++ l') = whole c l + whole c l'.
Proof. induction l as [|b l IH]; cbn [whole app]; [lra|rewrite IH; lra]. Qed.
Lemma part_app c k l l' : part c k (l ++ l') = part c k l + part c k l'.
Proof. induction l as [|b l IH]; cbn [part app]; [lra|rewrite IH; lra]. Qed.

(** ** accounts *)
Definition account (s0 : fstate) (new : list ball) (s : fstate) : Prop :=
  made s = made s0 ++ new /\ totalMass s = totalMass s0 + masses new /\ totalVolume s = totalVolume s0 + volumes new /\ numParticles s = (numParticles s0 + Z.of_nat (length new))%Z.
Lemma account_app s0 s1 s2 n m : account s0 n s1 -> account s1 m s2 -> account s0 (n ++ m) s2.
Proof.
  intros (A & B & C & D) (A' & B' & C' & D'). unfold account. rewrite A', B', C', D', A, B, C, D, masses_app, volumes_app, app_assoc, app_length, Nat2Z.inj_add.
  split; [reflexivity|]. split; [lra|]. split; [lra|lia].
Qed.
Lemma account_add c s id sd x r vel rho : account s [born x r vel rho] (add c s id sd (born x r vel rho)).
Proof. unfold account, add, born. cbn [made totalMass totalVolume numParticles masses volumes length bmass bradius]. unfold sphereVolume. split; [reflexivity|]. split; [lra|]. split; [ring|lia]. Qed.
Lemma account_same s s' : made s' = made s -> totalMass s' = totalMass s -> totalVolume s' = totalVolume s -> numParticles s' = numParticles s -> account s [] s'.
Proof. intros A B C D. unfold account. rewrite A, B, C, D, app_nil_r. cbn [masses volumes length]. split; [reflexivity|]. split; [lra|]. split; [lra|lia]. Qed.

Definition proper (c : fconf) (rho v : R) (b : ball) : Prop :=
  bmass b = rho * (4 / 3 * PI * bradius b ^ 3) /\ bvel b = smul v (direction c).
Lemma account_step c rnd probe junk dt fuel s s' : outcome (action c rnd probe junk dt fuel s) s' ->
  exists new, account s new s' /\ (forall b, In b new -> exists rho, density c = Some rho /\ proper c rho (speed c rnd s) b).
Proof.
  apply (action_inv c rnd probe junk dt fuel (fun new s' => account s new s' /\ (forall b, In b new -> exists rho, density c = Some rho /\ proper c rho (speed c rnd s) b))).
  - intros new s1 r id sd sd' x rho _ _ _ D (A & B). split; [eapply account_app; [exact A|apply account_add]|].
    intros b [I|[<-|[]]]%in_app_or; [auto|]. exists rho. split; [exact D|]. unfold proper, born, sphereVolume. cbn [bmass bradius bvel]. split; [ring|reflexivity].
  - intros new s1 sd (A & B). split; [|exact B]. rewrite <- (app_nil_r new). eapply account_app; [exact A|]. apply account_same; reflexivity.
  - intros new s1 sd (A & B). split; [|exact B]. rewrite <- (app_nil_r new). eapply account_app; [exact A|]. apply account_same; reflexivity.
  - split; [apply account_same; reflexivity|intros b []].
  - intros s0 s1 E (_ & A & B & C & _ & D & _) _ _ _ _ _. split; [apply account_same; assumption|intros b []].
Qed.

(** unit vectors *)
Lemma norm_smul k v : norm (smul k v) = Rabs k * norm v.
Proof.
  unfold norm. replace (norm2 (smul k v)) with ((k * k) * norm2 v) by (unfold norm2, dot, smul; cbn [vx vy vz]; ring).
  rewrite sqrt_mult; [|apply Rle_0_sqr|apply norm2_pos]. f_equal. apply sqrt_Rsqr_abs.
Qed.
Lemma norm_pos v : 0 <= norm v. Proof. apply sqrt_pos. Qed.
Lemma norm_unit v : norm v <> 0 -> norm (smul (/ norm v) v) = 1.
Proof. intros H. rewrite norm_smul. pose proof (norm_pos v). rewrite Rabs_pos_eq; [field; exact H|]. left. apply Rinv_0_lt_compat. lra. Qed.
Lemma direction_unit c : norm (normal c) <> 0 -> norm (direction c) = 1.
Proof. intros H. unfold direction. destruct (normalVel c) as [v|]; [destruct (Rlt_dec 0 (norm v)) as [L|L]|]; apply norm_unit; try exact H. lra. Qed.

Lemma radius_plain c rnd s r id sd : PSDuse s = false -> radius c rnd s = Some (r, id, sd) -> r = rMin c + rnd (seed s) * (rMax c - rMin c).
Proof. unfold radius. intros -> E. injection E as <- _ _. reflexivity. Qed.

Lemma between a b u : a <= b -> 0 <= u < 1 -> a <= a + u * (b - a) <= b.
Proof. intros H (U & V). split; [|]. - pose proof (Rmult_le_pos u (b - a)). lra. - pose proof (Rmult_le_compat_r (b - a) u 1). lra. Qed.

(** accounts over any history, with speeds and densities *)
Lemma density_given c : density c = given_density c.
Proof.
  unfold density, given_density. cbv zeta. remember (densities c) as l. destruct (0 <=? materialId c)%Z eqn:E.
  - apply Z.leb_le in E. destruct (_ || _) eqn:O; [|reflexivity]. symmetry. apply nth_error_None. apply orb_true_iff in O. destruct O as [O|O]; [apply Z.ltb_lt in O; lia|apply Z.leb_le in O; lia].
  - apply Z.leb_gt in E. destruct (_ || _) eqn:O.
    + symmetry. apply nth_error_None. rewrite rev_length. apply orb_true_iff in O. destruct O as [O|O]; [apply Z.ltb_lt in O; lia|apply Z.leb_le in O; lia].
    + apply orb_false_iff in O. destruct O as (O1 & O2). apply Z.ltb_ge in O1. apply Z.leb_gt in O2.
      rewrite (nth_error_nth' l 0) by lia. rewrite (nth_error_nth' (rev l) 0) by (rewrite rev_length; lia). rewrite rev_nth by lia. do 2 f_equal. lia.
Qed.
Lemma smul_smul a b v : smul a (smul b v) = smul (a * b) v.
Proof. destruct v as [v1 v2 v3]. unfold smul. cbn [vx vy vz]. f_equal; ring. Qed.
Lemma direction_aim c v : smul v (direction c) = smul (v / norm (aim c)) (aim c).
Proof. unfold direction, aim. destruct (normalVel c) as [w|]; [destruct (Rlt_dec 0 (norm w))|]; apply smul_smul. Qed.
Lemma accounts c s s' : history c s s' -> exists new,
  made s' = made s ++ new /\ totalMass s' = totalMass s + masses new /\ totalVolume s' = totalVolume s + volumes new
  /\ numParticles s' = (numParticles s + Z.of_nat (length new))%Z /\ (forall b, In b new -> thrown c b).
Proof.
  intros H. enough (X : exists new, account s new s' /\ (forall b, In b new -> thrown c b)).
  { destruct X as (new & (A & B & C & D) & T). exists new. auto 6. }
  induction H as [|rnd probe junk dt fuel s1 s2 H (n1 & A & T) R O].
  - exists []. split; [apply account_same; reflexivity|intros b []].
  - destruct (account_step _ _ _ _ _ _ _ _ O) as (n2 & A2 & T2). exists (n1 ++ n2). split; [eapply account_app; eauto|].
    intros b [I|I]%in_app_or; [auto|]. destruct (T2 b I) as (rho & D & M & V). rewrite density_given in D. split; [exists rho; auto|]. exists (speed c rnd s1). split; [rewrite V; apply direction_aim|].
    intros L. apply between; auto.
Qed.

(** without a grading, radii are in the range *)
Lemma radii c s s' : rMin c <= rMax c -> PSDcum s = [] -> PSDuse s = false -> history c s s' ->
  PSDcum s' = [] /\ PSDuse s' = false /\ (forall b, In b (made s') -> In b (made s) \/ rMin c <= bradius b <= rMax c).
Proof.
  intros L Hc Hu H. induction H as [|rnd probe junk dt fuel s1 s2 H IH R O]; [auto|].
  set (P := fun (_ : list ball) s' => PSDcum s' = [] /\ PSDuse s' = false /\ (forall b, In b (made s') -> In b (made s) \/ rMin c <= bradius b <= rMax c)).
  assert (X : exists new, P new s2); [|destruct X as (nw & X); exact X].
  revert O. apply (action_inv c rnd probe junk dt fuel P).
  - intros new s3 r id sd sd' x rho _ Er _ _ (A & B & C). unfold P, add. cbn [PSDcum PSDuse made]. split; [exact A|]. split; [exact B|].
    intros b [I|[<-|[]]]%in_app_or; [auto|]. right. rewrite (radius_plain _ _ _ _ _ _ B Er). cbn [born bradius]. apply between; auto.
  - intros new s3 sd Q. exact Q.
  - intros new s3 sd Q. exact Q.
  - exact IH.
  - intros s0 s3 E (_ & _ & _ & _ & _ & M & _) C1 C2 _ _ _. destruct IH as (A & B & C).
    unfold initPSD, throwing in E. cbn [PSDcum PSDuse] in E. rewrite A, orb_true_r in E. injection E as <-. cbn [PSDcum PSDuse] in C1, C2.
    unfold P. rewrite M, C1, C2. auto.
Qed.

(** ** limits *)
Lemma wants_spec c s : wants c s = true <-> totalMass s < goalMass s /\ ((maxParticles c < 0)%Z \/ (numParticles s < maxParticles c)%Z) /\ (maxMass s < 0 \/ totalMass s < maxMass s).
Proof.
  unfold wants. rewrite !andb_true_iff, !orb_true_iff, !Z.ltb_lt.
  destruct (Rlt_dec (totalMass s) (goalMass s)), (Rlt_dec (maxMass s) 0), (Rlt_dec (totalMass s) (maxMass s)); intuition congruence.
Qed.
Lemma number_limit c s s' : (0 <= maxParticles c)%Z -> (numParticles s <= maxParticles c)%Z -> history c s s' -> (numParticles s' <= maxParticles c)%Z.
Proof.
  intros M L H. induction H as [|rnd probe junk dt fuel s1 s2 H IH R O]; [auto|].
  set (P := fun (_ : list ball) s' => (numParticles s' <= maxParticles c)%Z).
  assert (X : exists new, P new s2); [|destruct X as (nw & X); exact X].
  revert O. apply (action_inv c rnd probe junk dt fuel P); unfold P.
  - intros new s3 r id sd sd' x rho W _ _ _ _. apply wants_spec in W. unfold add. cbn [numParticles]. lia.
  - intros new s3 sd Q. exact Q.
  - intros new s3 sd Q. exact Q.
  - exact IH.
  - intros s0 s3 E (_ & _ & _ & A & _) _ _ _ _ _. rewrite A. exact IH.
Qed.
(** before the last particle the goal, and the largest mass, had not been reached *)
Lemma mass_limit c rnd probe junk dt fuel s s' : outcome (action c rnd probe junk dt fuel s) s' ->
  made s' = made s \/ exists l b, made s' = l ++ [b] /\ totalMass s' - bmass b < goalMass s + massFlowRate s * dt
    /\ ((maxParticles c <= 0)%Z -> maxMass s < 0 \/ totalMass s' - bmass b < maxMass s).
Proof.
  set (P := fun (_ : list ball) s' => goalMass s' <= goalMass s + massFlowRate s * dt /\ ((maxParticles c <= 0)%Z -> maxMass s' = maxMass s)
       /\ (made s' = made s \/ exists l b, made s' = l ++ [b] /\ totalMass s' - bmass b < goalMass s + massFlowRate s * dt
    /\ ((maxParticles c <= 0)%Z -> maxMass s < 0 \/ totalMass s' - bmass b < maxMass s))).
  set (Q := fun (_ : list ball) s' => (wants c s' = true -> P [] s') /\ (made s' = made s \/ exists l b, made s' = l ++ [b] /\ totalMass s' - bmass b < goalMass s + massFlowRate s * dt
    /\ ((maxParticles c <= 0)%Z -> maxMass s < 0 \/ totalMass s' - bmass b < maxMass s)) /\ ((maxParticles c <= 0)%Z -> maxMass s' = maxMass s) ).
  intros O. assert (X : exists new, Q new s'); [|destruct X as (nw & _ & X & _); exact X].
  revert O. apply (action_inv c rnd probe junk dt fuel Q).
  - intros new s3 r id sd sd' x rho W _ _ _ (A & B & C). specialize (A W). destruct A as (G & MM & _).
    assert (Z : made (add c s3 id sd' (born x r (smul (speed c rnd s) (direction c)) rho)) = made s \/ exists l b, made (add c s3 id sd' (born x r (smul (speed c rnd s) (direction c)) rho)) = l ++ [b]
       /\ totalMass (add c s3 id sd' (born x r (smul (speed c rnd s) (direction c)) rho)) - bmass b < goalMass s + massFlowRate s * dt
       /\ ((maxParticles c <= 0)%Z -> maxMass s < 0 \/ totalMass (add c s3 id sd' (born x r (smul (speed c rnd s) (direction c)) rho)) - bmass b < maxMass s)).
    { right. exists (made s3), (born x r (smul (speed c rnd s) (direction c)) rho). unfold add. cbn [made totalMass]. apply wants_spec in W. destruct W as (W1 & _ & W3). split; [reflexivity|]. split; [lra|].
      intros N. rewrite (MM N) in W3. destruct W3; [auto|right; lra]. }
    unfold Q. split; [|split; [exact Z|]]. + intros W'. unfold P. split; [exact G|]. split; [exact C|exact Z]. + exact C.
  - intros new s3 sd (A & B & C). unfold Q, P, fail. cbn [made goalMass maxMass totalMass]. split; [|auto]. intros W. destruct (stopIfFailed c) eqn:SF.
    + apply wants_spec in W. cbn [goalMass totalMass] in W. lra.
    + split; [|auto]. apply A. exact W.
  - intros new s3 sd A. exact A.
  - unfold Q, P, throwing. cbn [made goalMass maxMass totalMass]. split; [|auto]. intros _. split; [lra|]. auto.
  - intros s0 s3 E (A & B & C & D & F & G & HM) _ _ _ _ _.
    assert (M' : (maxParticles c <= 0)%Z -> maxMass s3 = maxMass s).
    { intros N. rewrite HM. replace (0 <? maxParticles c)%Z with false by (symmetry; apply Z.ltb_ge; lia). rewrite andb_false_r. reflexivity. }
    unfold Q, P. split; [|auto]. intros _. split; [lra|]. auto.
Qed.
(** a step that ends well ends because a limit is reached *)
Lemma done_limits c rnd probe junk dt fuel s s' : action c rnd probe junk dt fuel s = Done s' ->
  goalMass s + massFlowRate s * dt <= totalMass s' \/ ((0 <= maxParticles c <= numParticles s')%Z) \/ (0 <= maxMass s' <= totalMass s').
Proof.
  assert (L : forall vel fuel new s1, loop c rnd probe vel fuel new s1 = Done s' -> wants c s' = false /\ goalMass s' = goalMass s1).
  { intros vel fu. induction fu as [|fu IH]; intros new s1 E; cbn [loop] in E; destruct (wants c s1) eqn:W; try discriminate; try (injection E as <-; auto).
    destruct (radius c rnd s1) as [[[r id] sd]|]; [|discriminate]. destruct (place c rnd probe new r sd) as [[x|] sd']; [|discriminate].
    destruct (density c) as [rho|]; [|discriminate]. apply IH in E. destruct E as (E1 & E2). split; [exact E1|]. rewrite E2. reflexivity. }
  destruct (action_loop c rnd probe junk dt fuel s) as [(E & X)|(s0 & s1 & E & St & C1 & C2 & C3 & C4 & C5 & X)]; rewrite X; [discriminate|].
  intros D. destruct (L _ _ _ _ D) as (W & G). destruct St as (A & _). rewrite <- A, <- G.
  destruct (Rle_lt_dec (goalMass s') (totalMass s')) as [L1|L1]; [left; exact L1|]. right.
  destruct (Z_lt_le_dec (maxParticles c) 0) as [L2|L2]; [|destruct (Z_lt_le_dec (numParticles s') (maxParticles c)) as [L3|L3]; [|left; lia]].
  - right. destruct (Rlt_le_dec (maxMass s') 0) as [L4|L4]; [|destruct (Rlt_le_dec (totalMass s') (maxMass s')) as [L5|L5]; [|lra]];
    (assert (wants c s' = true) by (apply wants_spec; auto); congruence).
  - right. destruct (Rlt_le_dec (maxMass s') 0) as [L4|L4]; [|destruct (Rlt_le_dec (totalMass s') (maxMass s')) as [L5|L5]; [|lra]];
    (assert (wants c s' = true) by (apply wants_spec; auto); congruence).
Qed.

(** ** failure *)
Lemma stopped_stays c s s' : totalMass s = goalMass s -> massFlowRate s = 0 -> history c s s' -> made s' = made s /\ totalMass s' = goalMass s' /\ massFlowRate s' = 0.
Proof.
  intros T M H. induction H as [|rnd probe junk dt fuel s1 s2 H IH R O]; [auto|]. destruct IH as (I1 & I2 & I3).
  destruct (action_loop c rnd probe junk dt fuel s1) as [(E & X)|(s0 & s3 & E & St & C1 & C2 & C3 & C4 & C5 & X)]; rewrite X in O.
  - destruct O as [O|[O|[O|O]]]; try discriminate. injection O as <-. unfold throwing. cbn [made totalMass goalMass massFlowRate]. split; [exact I1|]. split; [rewrite I3; lra|exact I3].
  - destruct St as (A & B & C & D & F & G & HM).
    assert (W : wants c s3 = false). { destruct (wants c s3) eqn:W; [|reflexivity]. apply wants_spec in W. rewrite A, B, I3 in W. lra. }
    destruct fuel; cbn [loop] in O; rewrite W in O; destruct O as [O|[O|[O|O]]]; try discriminate; injection O as <-; rewrite G, A, B, F, I3; split; auto; split; try lra.
Qed.
Lemma failed_state c rnd probe junk dt fuel s s' : stopIfFailed c = true -> action c rnd probe junk dt fuel s = Failed s' -> totalMass s' = goalMass s' /\ massFlowRate s' = 0.
Proof.
  intros SF.
  assert (L : forall vel fuel new s1, loop c rnd probe vel fuel new s1 = Failed s' -> totalMass s' = goalMass s' /\ massFlowRate s' = 0).
  { intros vel fu. induction fu as [|fu IH]; intros new s1 E; cbn [loop] in E; destruct (wants c s1) eqn:W; try discriminate.
    destruct (radius c rnd s1) as [[[r id] sd]|]; [|discriminate]. destruct (place c rnd probe new r sd) as [[x|] sd'].
    - destruct (density c) as [rho|]; [|discriminate]. exact (IH _ _ E).
    - injection E as <-. unfold fail. rewrite SF. cbn [totalMass goalMass massFlowRate]. auto. }
  destruct (action_loop c rnd probe junk dt fuel s) as [(E & X)|(s0 & s1 & E & St & C1 & C2 & C3 & C4 & C5 & X)]; rewrite X; [discriminate|]. apply L.
Qed.
Lemma failure_final c rnd probe junk dt fuel s s1 s2 : stopIfFailed c = true -> action c rnd probe junk dt fuel s = Failed s1 -> history c s1 s2 -> made s2 = made s1.
Proof. intros SF E H. destruct (failed_state _ _ _ _ _ _ _ _ SF E) as (A & B). apply (stopped_stays c s1 s2 A B H). Qed.

(** ** the loop ends *)
Lemma loop_ends_number c rnd probe vel fuel : forall new s, (0 <= maxParticles c)%Z -> (maxParticles c - numParticles s <= Z.of_nat fuel)%Z -> forall s', loop c rnd probe vel fuel new s <> More s'.
Proof.
  induction fuel as [|fuel IH]; intros new s M L s'; cbn [loop]; destruct (wants c s) eqn:W; try discriminate.
  - apply wants_spec in W. cbn in L. lia.
  - destruct (radius c rnd s) as [[[r id] sd]|]; [|discriminate]. destruct (place c rnd probe new r sd) as [[x|] sd']; [|discriminate].
    destruct (density c) as [rho|]; [|discriminate]. apply IH; [exact M|]. unfold add. cbn [numParticles]. lia.
Qed.
Lemma loop_ends_mass c rnd probe vel w fuel : (forall s r id sd rho, radius c rnd s = Some (r, id, sd) -> density c = Some rho -> w <= sphereVolume r * rho) ->
  forall new s, goalMass s - totalMass s <= INR fuel * w -> forall s', loop c rnd probe vel fuel new s <> More s'.
Proof.
  intros Hw. induction fuel as [|fuel IH]; intros new s L s'; cbn [loop]; destruct (wants c s) eqn:W; try discriminate.
  - apply wants_spec in W. cbn in L. lra.
  - destruct (radius c rnd s) as [[[r id] sd]|] eqn:Er; [|discriminate]. destruct (place c rnd probe new r sd) as [[x|] sd']; [|discriminate].
    destruct (density c) as [rho|] eqn:Ed; [|discriminate]. apply IH. unfold add. cbn [goalMass totalMass bmass]. specialize (Hw _ _ _ _ _ Er eq_refl). rewrite S_INR in L. lra.
Qed.
Lemma ends_by_number c rnd probe junk dt s s' : (0 <= maxParticles c)%Z -> action c rnd probe junk dt (Z.to_nat (maxParticles c - numParticles s)) s <> More s'.
Proof.
  intros M. destruct (action_loop c rnd probe junk dt (Z.to_nat (maxParticles c - numParticles s)) s) as [(E & X)|(s0 & s1 & E & St & C1 & C2 & C3 & C4 & C5 & X)]; rewrite X; [discriminate|].
  apply loop_ends_number; [exact M|]. destruct St as (_ & _ & _ & D & _). rewrite D. lia.
Qed.
Lemma cube_mono a b : 0 <= a -> a <= b -> a * a * a <= b * b * b.
Proof. intros A B. assert (a * a <= b * b) by (apply Rmult_le_compat; lra). apply Rmult_le_compat; try lra. apply Rle_0_sqr. Qed.
Lemma volume_mono a b : 0 <= a -> a <= b -> sphereVolume a <= sphereVolume b.
Proof. intros A B. unfold sphereVolume. apply Rmult_le_compat_l; [pose proof PI_RGT_0; lra|]. apply cube_mono; lra. Qed.
Lemma volume_pos a : 0 < a -> 0 < sphereVolume a.
Proof. intros A. unfold sphereVolume. apply Rmult_lt_0_compat; [pose proof PI_RGT_0; lra|]. apply Rmult_lt_0_compat; [apply Rmult_lt_0_compat|]; lra. Qed.
Lemma archimed_nat x w : 0 < w -> exists n, x <= INR n * w.
Proof.
  intros W. assert (U : exists n, x / w < INR n).
  { exists (Z.to_nat (up (x / w))). destruct (archimed (x / w)) as (A & _). rewrite INR_IZR_INZ. destruct (Z_le_gt_dec 0 (up (x / w))) as [G|G].
    - rewrite Z2Nat.id; [lra|exact G].
    - assert (IZR (up (x / w)) <= 0) by (apply (IZR_le _ 0); lia). assert (0 <= IZR (Z.of_nat (Z.to_nat (up (x / w))))) by (apply (IZR_le 0); lia). lra. }
  destruct U as (n & N). exists n. apply (Rmult_lt_compat_r w) in N; [|exact W].
  unfold Rdiv in N. rewrite Rmult_assoc, Rinv_l, Rmult_1_r in N; lra.
Qed.
Lemma ends_by_mass c rnd probe junk dt s rho : randoms rnd -> 0 < rMin c <= rMax c -> PSDcum s = [] -> PSDuse s = false -> density c = Some rho -> 0 < rho ->
  exists n, forall fuel s', (n <= fuel)%nat -> action c rnd probe junk dt fuel s <> More s'.
Proof.
  intros R L Hc Hu D Rp. assert (Wp : 0 < sphereVolume (rMin c) * rho) by (apply Rmult_lt_0_compat; [apply volume_pos; lra|exact Rp]).
  destruct (archimed_nat (goalMass s + massFlowRate s * dt - totalMass s) _ Wp) as (n & N). exists n. intros fuel s' F.
  destruct (action_loop c rnd probe junk dt fuel s) as [(E & X)|(s0 & s1 & E & St & C1 & C2 & C3 & C4 & C5 & X)]; rewrite X; [discriminate|].
  destruct St as (A & B & _).
  assert (U : PSDuse s1 = false). { unfold initPSD, throwing in E. cbn [PSDcum PSDuse] in E. rewrite Hc, orb_true_r in E. injection E as <-. rewrite C2. exact Hu. }
  assert (G : forall vel fuel new s, PSDuse s = false -> goalMass s - totalMass s <= INR fuel * (sphereVolume (rMin c) * rho) -> loop c rnd probe vel fuel new s <> More s').
  { intros vel fu. induction fu as [|fu IH]; intros new s2 Us Ls; cbn [loop]; destruct (wants c s2) eqn:W; try discriminate.
    - apply wants_spec in W. cbn in Ls. lra.
    - destruct (radius c rnd s2) as [[[r id] sd]|] eqn:Er; [|discriminate]. destruct (place c rnd probe new r sd) as [[x|] sd']; [|discriminate].
      rewrite D. apply IH; [exact Us|]. unfold add. cbn [goalMass totalMass bmass]. rewrite (radius_plain _ _ _ _ _ _ Us Er).
      assert (V : sphereVolume (rMin c) * rho <= sphereVolume (rMin c + rnd (seed s2) * (rMax c - rMin c)) * rho).
      { apply Rmult_le_compat_r; [lra|]. apply volume_mono; [lra|]. apply (between (rMin c) (rMax c)); [lra|apply R]. }
      rewrite S_INR in Ls. lra. }
  apply G; [exact U|]. rewrite A, B. apply le_INR in F. pose proof (Rmult_le_compat_r (sphereVolume (rMin c) * rho) _ _ (Rlt_le _ _ Wp) F). lra.
Qed.
