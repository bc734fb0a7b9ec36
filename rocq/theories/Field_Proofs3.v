From Coq Require Import List ZArith Bool Reals Arith Lia Lra.
From Verif Require Interp_Model Interp_Spec Interp_Proofs Kine_Model Newton_Model Rigid_Model Rigid_Spec Rigid_Proofs.
From Verif Require Import Vec_Model Vec_Proofs Field_Model Field_Spec Field_Proofs Field_Proofs2.
Import ListNotations.
Local Open Scope R_scope.

(** ** interpolated magnitude *)
Theorem interpolating times mags dir w time st ids c F F' d st' : interpolatingForceEngine times mags dir w time st ids c F = Interp_Model.Done (F', d, st') -> dir <> vzero ->
  norm2 d = 1 /\ dir = smul (norm dir) d /\
  exists t a, Interp_Model.linearInterpolate t times mags st = Interp_Model.Done (a, st') /\ (w = false -> t = time) /\
    (w = true -> exists t0 t1, nth_error times 0 = Some t0 /\ nth_error times (length times - 1) = Some t1 /\ t = Interp_Model.periodicWrap time t0 t1) /\
    (forall i x, is_body c i -> F i = Some x -> F' i = Some (given (smul a d) ids i x)) /\ (forall i, ~ is_body c i \/ ~ In (Z.of_nat i) ids -> F' i = F i).
Proof.
  intros E N. assert (NZ : norm2 dir <> 0) by (intros X; apply N, norm2_zero, X). destruct (normalize_unit dir NZ) as [U S].
  unfold interpolatingForceEngine in E.
  assert (G : forall t, match Interp_Model.linearInterpolate t times mags st with
               | Interp_Model.Done (a, st') => Interp_Model.Done (forceEngine (smul a (vnormalize dir)) ids c F, vnormalize dir, st')
               | Interp_Model.NaN p => Interp_Model.NaN p | Interp_Model.UB => Interp_Model.UB | Interp_Model.Hang => Interp_Model.Hang end = Interp_Model.Done (F', d, st') ->
    d = vnormalize dir /\ exists a, Interp_Model.linearInterpolate t times mags st = Interp_Model.Done (a, st') /\ F' = forceEngine (smul a d) ids c F).
  { intros t X. destruct (Interp_Model.linearInterpolate t times mags st) as [[a s]| | |]; try discriminate. injection X as <- <- <-. split; [reflexivity|]. exists a. split; reflexivity. }
  destruct w.
  - destruct (Interp_Model.get times 0) as [t0|] eqn:T0; [|discriminate]. destruct (Interp_Model.back times) as [t1|] eqn:T1; [|discriminate]. destruct (Req_EM_T t1 t0); [discriminate|]. apply G in E. destruct E as [-> [a [L ->]]].
    split; [exact U|]. split; [exact S|]. exists (Interp_Model.periodicWrap time t0 t1), a. split; [exact L|]. split; [discriminate|]. split.
    + intros _. exists t0, t1. unfold Interp_Model.back, Interp_Model.get, Interp_Model.size in *. cbn [Z.ltb Z.compare Z.to_nat] in T0. split; [exact T0|]. split; [|reflexivity]. destruct (Z.ltb_spec (Z.of_nat (length times) - 1) 0); [discriminate|]. rewrite <- T1. f_equal. lia.
    + split; [intros; apply force_given; assumption|intros; apply force_others; assumption].
  - apply G in E. destruct E as [-> [a [L ->]]]. split; [exact U|]. split; [exact S|]. exists time, a. split; [exact L|]. split; [reflexivity|]. split; [discriminate|]. split; [intros; apply force_given; assumption|intros; apply force_others; assumption].
Qed.
Lemma wrap_one t mags dir time st ids c F : interpolatingForceEngine [t] mags dir true time st ids c F = Interp_Model.NaN st.
Proof. unfold interpolatingForceEngine, Interp_Model.back, Interp_Model.get, Interp_Model.size. cbn [length Z.of_nat Pos.of_succ_nat Z.sub Z.ltb Z.compare Z.to_nat nth_error Z.add Z.opp Z.pos_sub]. destruct (Req_EM_T t t); [reflexivity|contradiction]. Qed.

(** ** drag *)
Lemma drag_is Rho Cd r v : dragForce Rho Cd r v = smul (- (1/2 * Rho * (PI * (r * r)) * Cd * norm v)) v.
Proof.
  unfold dragForce. destruct (vec_zero_dec v) as [->|N]; [vring|]. assert (NZ : norm2 v <> 0) by (intros X; apply N, norm2_zero, X). destruct (normalize_unit v NZ) as [_ S]. cbv zeta.
  rewrite S at 4. rewrite <- (norm_sq v). generalize (vnormalize v) (norm v). clear. intros u x. destruct u as [u1 u2 u3]. unfold smul. cbn [vx vy vz]. f_equal; field.
Qed.
Lemma linear_is nu r v : linearDragForce nu r v = smul (- (6 * PI * nu * r)) v.
Proof. unfold linearDragForce. destruct (vec_zero_dec v) as [->|N]; [vring|reflexivity]. Qed.
(** what the law gives for a sphere *)
Definition sphere_law (law : R -> vec -> vec) (b : fbody) : option vec := match fradius b with Some r => Some (law r (fvel b)) | None => None end.
Lemma drag_listed law ids c F : (forall id, In id ids -> (0 <= id < Z.of_nat (length c))%Z) -> dragEngine law ids c F = Some (fold_left (listed c (sphere_law law)) ids F).
Proof.
  unfold dragEngine. revert F. induction ids as [|id ids IH]; intros F H; [reflexivity|]. cbn [fold_left]. pose proof (H id (or_introl eq_refl)) as I. assert (O : outside c id = false). { unfold outside. apply orb_false_iff. split; [apply Z.ltb_ge; lia|apply Z.leb_gt; lia]. }
  rewrite O. unfold listed, exists_. destruct (Z.ltb_spec id 0); [lia|]. rewrite <- IH by (intros x X; apply H; right; exact X). destruct (body c (Z.to_nat id)) as [b|]; [|reflexivity]. unfold sphere_law. destruct (fradius b); reflexivity.
Qed.
Lemma drag_none law ids c : fold_left (fun o id => match o with
    | None => None
    | Some F => if outside c id then None
                else match body c (Z.to_nat id) with
                     | Some b => match fradius b with Some r => Some (addForce F (Z.to_nat id) (Some (law r (fvel b)))) | None => Some F end
                     | None => Some F
                     end
    end) ids (None : option forces) = None.
Proof. induction ids as [|id ids IH]; [reflexivity|exact IH]. Qed.
Theorem drag_defined law ids c : forall F, dragEngine law ids c F = None <-> exists id, In id ids /\ ~ (0 <= id < Z.of_nat (length c))%Z.
Proof.
  unfold dragEngine. induction ids as [|id ids IH]; intros F; [split; [discriminate|intros [id [[] _]]]|]. cbn [fold_left]. destruct (outside c id) eqn:O.
  - split; [intros _; exists id; split; [left; reflexivity|]|intros _; apply drag_none]. unfold outside in O. apply orb_true_iff in O. rewrite Z.ltb_lt, Z.leb_le in O. lia.
  - unfold outside in O. apply orb_false_iff in O. rewrite Z.ltb_ge, Z.leb_gt in O.
    assert (E : exists F1, match body c (Z.to_nat id) with Some b => match fradius b with Some r => Some (addForce F (Z.to_nat id) (Some (law r (fvel b)))) | None => Some F end | None => Some F end = Some F1).
    { destruct (body c (Z.to_nat id)) as [b|]; [destruct (fradius b)|]; eexists; reflexivity. } destruct E as [F1 E]. rewrite E, IH. split; intros [x [X Y]]; [exists x; split; [right; exact X|exact Y]|]. destruct X as [<-|X]; [lia|]. exists x. split; assumption.
Qed.
Theorem drag_given law ids c F F' i b r a : dragEngine law ids c F = Some F' -> body c i = Some b -> fradius b = Some r -> F i = Some a -> F' i = Some (given (law r (fvel b)) ids i a).
Proof.
  intros E B R A. assert (H : forall id, In id ids -> (0 <= id < Z.of_nat (length c))%Z).
  { intros id I. destruct (Z_lt_dec id 0) as [L|L]; [exfalso|destruct (Z_lt_dec id (Z.of_nat (length c))); [lia|exfalso]]; (assert (X : dragEngine law ids c F = None) by (apply drag_defined; exists id; split; [exact I|lia]); congruence). }
  rewrite (drag_listed law ids c F H) in E. injection E as <-. apply (listed_some c _ ids F i b _ a B); [|exact A]. unfold sphere_law. rewrite R. reflexivity.
Qed.
Theorem drag_others law ids c F F' i : dragEngine law ids c F = Some F' -> (forall b, body c i = Some b -> fradius b = None) \/ ~ In (Z.of_nat i) ids -> F' i = F i.
Proof.
  intros E O. assert (H : forall id, In id ids -> (0 <= id < Z.of_nat (length c))%Z).
  { intros id I. destruct (Z_lt_dec id 0) as [L|L]; [exfalso|destruct (Z_lt_dec id (Z.of_nat (length c))); [lia|exfalso]]; (assert (X : dragEngine law ids c F = None) by (apply drag_defined; exists id; split; [exact I|lia]); congruence). }
  rewrite (drag_listed law ids c F H) in E. injection E as <-. destruct O as [O|O].
  - apply listed_none. intros b f B. unfold sphere_law. rewrite (O b B). discriminate.
  - clear H. revert F. induction ids as [|id ids IH]; intros F; [reflexivity|]. cbn [fold_left]. rewrite IH by (intros X; apply O; right; exact X). unfold listed. destruct (exists_ c id) as [[j b]|] eqn:E; [|reflexivity]. apply exists_of in E. destruct E as [-> _]. destruct (sphere_law law b); [|reflexivity].
    unfold addForce. destruct (Nat.eqb_spec i j) as [->|]; [|reflexivity]. destruct O. left. reflexivity.
Qed.
(** the velocity after one step of the integrator without damping, under a force -k v *)
Lemma step_drag k m dt v : vadd v (smul dt (Newton_Model.computeAccel vzero (smul (- k) v) m 0%N)) = smul (1 - dt * (k / m)) v.
Proof. unfold Newton_Model.computeAccel. cbn [N.eqb]. unfold Rdiv. generalize (/ m). intros q. vring. Qed.
Theorem slower k m dt v : 0 <= k -> 0 < m -> 0 <= dt -> dt * k <= m -> exists s, 0 <= s <= 1 /\ vadd v (smul dt (Newton_Model.computeAccel vzero (smul (- k) v) m 0%N)) = smul s v.
Proof.
  intros K M D H. exists (1 - dt * (k / m)). split; [|apply step_drag]. assert (E : dt * (k / m) * m = dt * k) by (field; lra). assert (P : 0 <= dt * k) by (apply Rmult_le_pos; assumption). split.
  - apply (Rmult_le_reg_r m); [exact M|]. rewrite Rmult_0_l, Rmult_minus_distr_r, E. lra.
  - apply (Rmult_le_reg_r m); [exact M|]. rewrite Rmult_minus_distr_r, E. lra.
Qed.
Theorem faster k m dt v : 0 < m -> v <> vzero -> 2 * m < dt * k -> norm2 v < norm2 (vadd v (smul dt (Newton_Model.computeAccel vzero (smul (- k) v) m 0%N))).
Proof.
  intros M N H. rewrite step_drag. assert (NZ : norm2 v <> 0) by (intros X; apply N, norm2_zero, X). pose proof (norm2_pos v) as P. remember (1 - dt * (k / m)) as s eqn:S.
  assert (E : dt * (k / m) * m = dt * k) by (field; lra). assert (L : s < -1). { apply (Rmult_lt_reg_r m); [exact M|]. rewrite S, Rmult_minus_distr_r, E. lra. }
  assert (X : norm2 (smul s v) = s * s * norm2 v) by vring. rewrite X. rewrite <- (Rmult_1_l (norm2 v)) at 1. apply Rmult_lt_compat_r; [lra|]. nra.
Qed.

(** ** clumps under the two kinds of gravity *)
Theorem clump_fall g cst ms w (F : nat -> vec) T f t (mass_of : nat -> R) : Rigid_Model.addForceTorqueFromMembers cst ms w F T vzero vzero = Some (f, t) -> (forall i l, In (i, l) ms -> F i = smul (mass_of i) g) ->
  Newton_Model.computeAccel vzero f (Rigid_Model.mass cst) 0%N = smul (rsum (fun il => mass_of (fst il)) ms / Rigid_Model.mass cst) g.
Proof.
  intros E H. assert (S : forall ms f0 t0, (forall i l, In (i, l) ms -> F i = smul (mass_of i) g) -> Rigid_Model.addForceTorqueFromMembers cst ms w F T f0 t0 = Some (f, t) -> f = vadd f0 (smul (rsum (fun il => mass_of (fst il)) ms) g)).
  { clear E H ms. induction ms as [|[i l] ms IH]; intros f0 t0 H E; cbn [Rigid_Model.addForceTorqueFromMembers rsum fst] in *.
    - injection E as <- _. generalize f0. clear. intros. vring.
    - destruct (w i) as [s|]; [|discriminate]. apply IH in E; [|intros j k I; apply (H j k); right; exact I]. rewrite E, (H i l (or_introl eq_refl)). generalize (rsum (fun il => mass_of (fst il)) ms) (mass_of i) f0. clear. intros. vring. }
  rewrite (S ms vzero vzero H E). unfold Newton_Model.computeAccel. cbn [N.eqb]. unfold Rdiv. generalize (rsum (fun il => mass_of (fst il)) ms) (/ Rigid_Model.mass cst). clear. intros. vring.
Qed.
Lemma newton_fall g m : Newton_Model.computeAccel g vzero m 0%N = g.
Proof. unfold Newton_Model.computeAccel. cbn [N.eqb]. generalize (/ m). intros. vring. Qed.
Lemma twins_mass eig c ms : Rigid_Model.updateProperties eig (Rigid_Model.overlapping [vzero] 2) [twin 0; twin 1] = Some (c, ms) -> Rigid_Model.mass c = 8 /\ map fst ms = [0%nat; 1%nat].
Proof.
  cbn [Rigid_Model.updateProperties]. intros E. injection E as <- <-. split; [|reflexivity]. unfold Rigid_Model.clump_state, Rigid_Model.overlapping, Rigid_Model.at_point, Rigid_Model.no_sums. cbn [fold_left twin Rigid_Model.sphere Rigid_Model.density Rigid_Model.m_state Rigid_Model.pos].
  destruct (Rlt_dec (norm2 (vsub vzero vzero)) (1 ^ 2)) as [_|X]; [|destruct X; rewrite vsub_self; unfold norm2, dot, vzero; cbn [vx vy vz]; lra]. destruct (eig _) as [ev lam]. cbn [Rigid_Model.mass]. lra.
Qed.
Theorem twins_fall eig c ms : Rigid_Model.updateProperties eig (Rigid_Model.overlapping [vzero] 2) [twin 0; twin 1] = Some (c, ms) -> forall g, g <> vzero ->
  smul (rsum (fun il => Rigid_Model.mass (Rigid_Model.m_state (twin (fst il)))) ms / Rigid_Model.mass c) g <> g.
Proof.
  intros E g N. destruct (twins_mass _ _ _ E) as [M I]. rewrite M. assert (S : rsum (fun il : nat * Rigid_Model.se3 => Rigid_Model.mass (Rigid_Model.m_state (twin (fst il)))) ms = 8/3 * PI).
  { destruct ms as [|[i1 l1] [|[i2 l2] [|x ms]]]; try discriminate I. cbn [rsum fst twin Rigid_Model.m_state Rigid_Model.mass]. lra. }
  rewrite S. intros X. apply N. assert (K : 8/3 * PI / 8 <> 1). { pose proof PI2_3_2 as L. lra. }
  remember (8/3 * PI / 8) as k. destruct g as [g1 g2 g3]. unfold smul in X. cbn [vx vy vz] in X. injection X as X1 X2 X3. assert (Z : forall x, k * x = x -> x = 0). { intros x Hx. assert (Q : (k - 1) * x = 0) by lra. apply Rmult_integral in Q. destruct Q; [lra|assumption]. }
  rewrite (Z _ X1), (Z _ X2), (Z _ X3). reflexivity.
Qed.
