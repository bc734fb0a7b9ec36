From Coq Require Import Reals Lra Lia List ZArith Bool.
From Verif Require Import Vec_Model Vec_Proofs Rigid_Model Rigid_Spec Law_Model Law_Spec.
Import ListNotations.
Local Open Scope R_scope.

(** ** sums *)
Lemma total_force_app a b : total_force (a ++ b) = vadd (total_force a) (total_force b).
Proof. unfold total_force. induction a as [|x a IH]; cbn [app map vsum fold_right]; [symmetry; apply vadd_0_l|]. fold (vsum (map (fun e : nat * (vec * vec) => fst (snd e)) (a ++ b))). fold (vsum (map (fun e : nat * (vec * vec) => fst (snd e)) a)). rewrite IH. apply vadd_assoc. Qed.
Lemma total_moment_app o p a b : total_moment o p (a ++ b) = vadd (total_moment o p a) (total_moment o p b).
Proof. unfold total_moment. induction a as [|x a IH]; cbn [app map vsum fold_right]; [symmetry; apply vadd_0_l|]. unfold vsum in IH. rewrite IH. apply vadd_assoc. Qed.

(** ** geometry *)
Lemma norm_pos v : 0 <= norm v. Proof. apply sqrt_pos. Qed.
Lemma unit_of v : norm v <> 0 -> norm2 (smul (/ norm v) v) = 1.
Proof. intros N. replace (norm2 (smul (/ norm v) v)) with (/ norm v * / norm v * norm2 v) by vring. rewrite <- norm_sq. field. exact N. Qed.
Lemma unit_scale v : norm v <> 0 -> smul (norm v) (smul (/ norm v) v) = v.
Proof. intros N. generalize dependent (norm v). intros k N. destruct v. vgoal. f_equal; field; exact N. Qed.

Lemma ig2_touching dt f av r1 r2 s1 s2 sh sv fo re old g : ig2 dt f av r1 r2 s1 s2 sh sv fo re old = Contact g ->
  touching r1 r2 (pos s1) (vadd (pos s2) sh) g.
Proof.
  unfold ig2. cbv zeta. set (n := vsub (vadd (pos s2) sh) (pos s1)). destruct (_ && _ && _); [discriminate|]. destruct (Req_EM_T (norm n) 0) as [|N]; [discriminate|].
  intros E. injection E as <-. unfold touching, precompute. cbn [normal contactPoint penetrationDepth radius1 radius2].
  pose proof (norm_pos n). pose proof (unit_of n N) as U. pose proof (unit_scale n N) as S. set (k := smul (/ norm n) n) in *. set (d := norm n) in *.
  assert (P : vadd (pos s2) sh = vadd (pos s1) (smul d k)) by (rewrite S; subst n; symmetry; apply vadd_sub). rewrite P.
  split; [exact U|]. split; [f_equal; f_equal; ring|]. split; [lra|]. split; [reflexivity|]. split; [|auto].
  clearbody k d. clear. generalize (pos s1). vring. all: try field.
Qed.
Lemma ig2_detects dt f av r1 r2 s1 s2 sh sv old : ig2 dt f av r1 r2 s1 s2 sh sv false false old = NoContact <-> Rsqr (f * (r1 + r2)) < norm2 (vsub (vadd (pos s2) sh) (pos s1)).
Proof.
  unfold ig2. cbv zeta. cbn [negb andb]. set (n := vsub (vadd (pos s2) sh) (pos s1)). destruct (Rlt_dec _ 0) as [L|L]; [split; [intros _; lra|reflexivity]|]. split; [|intros; lra].
  destruct (Req_EM_T (norm n) 0); discriminate.
Qed.
Lemma ig2_real dt f av r1 r2 s1 s2 sh sv fo old : ig2 dt f av r1 r2 s1 s2 sh sv fo true old <> NoContact.
Proof. unfold ig2. cbv zeta. cbn [negb andb]. destruct (Req_EM_T _ 0); discriminate. Qed.

(** ** action and reaction *)
Lemma law_shape L g p i1 p1 i2 p2 p' e : law L g p i1 p1 i2 p2 = Some (p', e) ->
  let f := vsub (vopp (normalForce p')) (shearForce p') in
  added e = (if negb (periodic L) && negb (sphericalBodies L) then applyForceAtContactPoint f (contactPoint g) i1 p1 i2 p2
      else [(i1, (f, smul (radius1 g - 1/2 * penetrationDepth g) (cross (normal g) f)));
            (i2, (vopp f, smul (radius2 g - 1/2 * penetrationDepth g) (cross (normal g) f)))]).
Proof.
  unfold law. destruct (_ && negb (neverErase L)); [discriminate|]. destruct (slip _ _ _) as [fs d]. intros E. injection E as <- <-. reflexivity.
Qed.
Theorem contact_point_balance L g p i1 p1 i2 p2 p' e o : law L g p i1 p1 i2 p2 = Some (p', e) -> periodic L = false -> sphericalBodies L = false ->
  exists f t1 t2, added e = [(i1, (f, t1)); (i2, (vopp f, t2))] /\ vadd (moment o p1 f t1) (moment o p2 (vopp f) t2) = vzero.
Proof.
  intros E P S. apply law_shape in E. cbv zeta in E. rewrite P, S in E. cbn [negb andb] in E. unfold applyForceAtContactPoint in E. do 3 eexists. split; [exact E|]. generalize (vsub (vopp (normalForce p')) (shearForce p')) (contactPoint g). clear. unfold moment. vring.
Qed.
Theorem spheres_balance L g p i1 p1 i2 p2 q2 p' e o r1 r2 : law L g p i1 p1 i2 p2 = Some (p', e) -> touching r1 r2 p1 q2 g -> (periodic L = false -> q2 = p2) ->
  exists f t1 t2, added e = [(i1, (f, t1)); (i2, (vopp f, t2))] /\ vadd (moment o p1 f t1) (moment o q2 (vopp f) t2) = vzero.
Proof.
  intros E T Q. apply law_shape in E. cbv zeta in E. destruct T as (_ & T1 & _ & _ & _ & T2 & T3). destruct (negb (periodic L) && negb (sphericalBodies L)) eqn:B.
  - apply andb_true_iff in B. destruct B as [B _]. apply negb_true_iff in B. rewrite (Q B). unfold applyForceAtContactPoint in E. do 3 eexists. split; [exact E|]. generalize (vsub (vopp (normalForce p')) (shearForce p')) (contactPoint g). clear. unfold moment. vring.
  - do 3 eexists. split; [exact E|]. rewrite T1, T2, T3. generalize (vsub (vopp (normalForce p')) (shearForce p')) (normal g) (penetrationDepth g). clear. unfold moment. intros. vring. all: try field.
Qed.
(** both ways to compute torques agree for spheres *)
Theorem branches_agree L L' g p i1 p1 i2 p2 r1 r2 : touching r1 r2 p1 p2 g -> neverErase L = neverErase L' ->
  match law L g p i1 p1 i2 p2, law L' g p i1 p1 i2 p2 with
  | Some (p', e), Some (p'', e') => p' = p'' /\ added e = added e'
  | None, None => True | _, _ => False end.
Proof.
  intros (_ & T1 & _ & T4 & T5 & T2 & T3) N. unfold law. rewrite N. destruct (_ && negb (neverErase L')); [exact I|]. destruct (slip _ _ _) as [fs d]. split; [reflexivity|]. cbn [added]. set (f := vsub _ fs).
  assert (A : applyForceAtContactPoint f (contactPoint g) i1 p1 i2 p2 = [(i1, (f, smul (radius1 g - 1/2 * penetrationDepth g) (cross (normal g) f))); (i2, (vopp f, smul (radius2 g - 1/2 * penetrationDepth g) (cross (normal g) f)))]).
  { unfold applyForceAtContactPoint. rewrite T2, T3. f_equal; [rewrite T4; f_equal; f_equal|f_equal; rewrite T5; f_equal; f_equal]; generalize f (normal g) (penetrationDepth g); clear; intros; vring. }
  rewrite A. destruct (negb (periodic L) && _), (negb (periodic L') && _); reflexivity.
Qed.

(** ** a whole scene *)
Lemma law_totals L g p i1 p1 i2 p2 p' e o at_ : law L g p i1 p1 i2 p2 = Some (p', e) -> (exists r1 r2, touching r1 r2 p1 p2 g) -> at_ i1 = p1 -> at_ i2 = p2 ->
  total_force (added e) = vzero /\ total_moment o at_ (added e) = vzero.
Proof.
  intros E [r1 [r2 T]] A1 A2. destruct (spheres_balance L g p i1 p1 i2 p2 p2 p' e o r1 r2 E T (fun _ => eq_refl)) as (f & t1 & t2 & -> & M). unfold total_force, total_moment. cbn [map vsum fold_right fst snd]. split; [clear; vring|]. rewrite A1, A2, vadd_0_r. exact M.
Qed.
Theorem loop_balance S balls o : forall cs cs' a, loop S balls cs = Some (cs', a) -> (forall c, In c cs -> shift2 c = vzero) ->
  total_force a = vzero /\ total_moment o (place_of balls) a = vzero.
Proof.
  induction cs as [|c cs IH]; intros cs' a E Z; cbn [loop] in E; [injection E as <- <-; split; reflexivity|].
  destruct (loop S balls cs) as [[r a0]|] eqn:El; [|discriminate]. specialize (IH r a0 eq_refl (fun c' H => Z c' (or_intror H))). pose proof (Z c (or_introl eq_refl)) as Zc.
  destruct (balls (id1 c)) as [b1|] eqn:B1; [|injection E as <- <-; exact IH]. destruct (balls (id2 c)) as [b2|] eqn:B2; [|injection E as <- <-; exact IH].
  destruct (treat S c b1 b2) as [c' e| | |] eqn:T; [|injection E as <- <-; exact IH|injection E as <- <-; exact IH|discriminate]. injection E as <- <-.
  unfold treat in T. cbv zeta in T. destruct (ig2 _ _ _ _ _ _ _ _ _ _ _ _) as [|g|] eqn:G; [discriminate| |discriminate]. apply ig2_touching in G. rewrite Zc, vadd_0_r in G. destruct (ip2 _ _ _ _ _) as [p|]; [|discriminate]. destruct (law _ _ _ _ _ _ _) as [[p' e']|] eqn:E; [|discriminate]. injection T as <- <-.
  assert (P1 : place_of balls (id1 c) = pos (state b1)) by (unfold place_of; rewrite B1; reflexivity). assert (P2 : place_of balls (id2 c) = pos (state b2)) by (unfold place_of; rewrite B2; reflexivity).
  assert (T : exists r1 r2, touching r1 r2 (pos (state b1)) (pos (state b2)) g) by (exists (radius b1), (radius b2); exact G). destruct (law_totals _ _ _ _ _ _ _ _ _ o (place_of balls) E T P1 P2) as [F M]. rewrite total_force_app, total_moment_app, F, M. destruct IH as [-> ->]. split; apply vadd_0_l.
Qed.

(** ** friction *)
Lemma cauchy a b : dot a b * dot a b <= norm2 a * norm2 b.
Proof. pose proof (lagrange a b). pose proof (norm2_pos (cross a b)). lra. Qed.
Lemma dot_le a b x y : 0 <= x -> 0 <= y -> norm2 a <= x * x -> norm2 b <= y * y -> dot a b <= x * y.
Proof.
  intros Hx Hy Ha Hb. pose proof (cauchy a b) as C. pose proof (norm2_pos a). pose proof (norm2_pos b). assert (D : norm2 a * norm2 b <= (x * y) * (x * y)). { replace ((x * y) * (x * y)) with ((x * x) * (y * y)) by ring. apply Rmult_le_compat; assumption. }
  assert (P : 0 <= x * y) by (apply Rmult_le_pos; assumption). destruct (Rle_dec (dot a b) (x * y)) as [|N]; [assumption|]. exfalso. assert ((x * y) * (x * y) < dot a b * dot a b) by (apply Rmult_le_0_lt_compat; lra). lra.
Qed.
Lemma norm2_sub a b : norm2 (vsub a b) = norm2 a - 2 * dot a b + norm2 b. Proof. vring. Qed.
Lemma norm2_smul k a : norm2 (smul k a) = k * k * norm2 a. Proof. vring. Qed.
Lemma slip_spec p fn t s d : slip p fn t = (s, d) ->
  nearest (tanPhi p * tanPhi p) fn t s /\ d = dot (smul (1 / ks p) (vsub t s)) s /\ (exists k, 0 <= k <= 1 /\ s = smul k t).
Proof.
  unfold slip. cbv zeta. set (m := norm2 fn * (tanPhi p * tanPhi p)). assert (M : 0 <= m) by (apply Rmult_le_pos; [apply norm2_pos|apply Rle_0_sqr]).
  assert (A : forall x, admitted (tanPhi p * tanPhi p) fn x <-> norm2 x <= m) by (intros x; unfold admitted, m; rewrite Rmult_comm; reflexivity).
  destruct (Rlt_dec m (norm2 t)) as [L|L]; intros E; injection E as <- <-.
  - set (k := sqrt m / norm t). assert (Nt : 0 < norm t) by (apply sqrt_lt_R0; lra). pose proof (sqrt_pos m) as Sm. assert (Hk : 0 <= k). { unfold k, Rdiv. apply Rmult_le_pos; [exact Sm|left; apply Rinv_0_lt_compat; exact Nt]. }
    assert (Ek : k * norm t = sqrt m) by (unfold k; field; lra). assert (Km : k * k * norm2 t = m). { rewrite <- norm_sq. replace (k * k * (norm t * norm t)) with ((k * norm t) * (k * norm t)) by ring. rewrite Ek. apply sqrt_def. exact M. }
    assert (Sl : sqrt m < norm t) by (unfold norm; apply sqrt_lt_1; lra). assert (K1 : k <= 1). { destruct (Rle_dec k 1); [assumption|]. exfalso. assert (norm t < k * norm t) by (rewrite <- (Rmult_1_l (norm t)) at 1; apply Rmult_lt_compat_r; lra). lra. }
    split; [|split; [reflexivity|exists k; auto]]. split.
    + apply A. rewrite norm2_smul, Km. lra.
    + intros x Hx. apply A in Hx. rewrite !norm2_sub, norm2_smul, Km. replace (dot t (smul k t)) with (k * norm2 t) by vring.
      assert (D : dot t x <= norm t * sqrt (norm2 x)). { apply dot_le; [lra|apply sqrt_pos|rewrite norm_sq; lra|rewrite sqrt_def; [lra|apply norm2_pos]]. }
      set (y := sqrt (norm2 x)) in *. assert (Y : y * y = norm2 x) by (apply sqrt_def, norm2_pos). assert (Y0 : 0 <= y) by apply sqrt_pos. assert (Ym : y <= sqrt m) by (apply sqrt_le_1; [apply norm2_pos|exact M|exact Hx]).
      assert (S2 : sqrt m * sqrt m = m) by (apply sqrt_def; exact M). rewrite <- Y. replace (k * norm2 t) with (norm t * sqrt m) by (rewrite <- norm_sq, <- Ek; ring). clearbody k y. revert S2 Ym Ek Sm Sl. generalize (sqrt m). intros z S2 Ym Ek Sm Sl.
      assert (Q : 0 <= (z - y) * (2 * norm t - z - y)) by (apply Rmult_le_pos; lra). lra.
  - split; [|split; [replace (vsub t t) with vzero by vring; vgoal; ring|exists 1; split; [lra|symmetry; apply smul_1]]]. split; [apply A; lra|]. intros x _. rewrite vsub_self. replace (norm2 vzero) with 0 by vring. apply norm2_pos.
Qed.
Theorem law_forces L g p i1 p1 i2 p2 p' e : law L g p i1 p1 i2 p2 = Some (p', e) ->
  normalForce p' = smul (kn p * Rmax (penetrationDepth g) 0) (normal g) /\
  nearest (tanPhi p * tanPhi p) (normalForce p') (trial_force g p) (shearForce p') /\
  kn p' = kn p /\ ks p' = ks p /\ tanPhi p' = tanPhi p /\
  (penetrationDepth g < 0 -> normalForce p' = vzero /\ shearForce p' = vzero).
Proof.
  unfold law. cbv zeta. destruct (_ && negb (neverErase L)); [discriminate|]. fold (trial_force g p). set (a := if Rlt_dec (penetrationDepth g) 0 then true else false).
  assert (Ea : (if a then vzero else shearForce p) = (if Rlt_dec (penetrationDepth g) 0 then vzero else shearForce p)) by (subst a; destruct (Rlt_dec _ 0); reflexivity). rewrite Ea. fold (trial_force g p).
  destruct (slip p _ (trial_force g p)) as [fs d] eqn:E. intros X. injection X as <- <-. cbn [kn ks tanPhi normalForce shearForce]. apply slip_spec in E. destruct E as (N & _ & _).
  split; [reflexivity|]. split; [exact N|]. do 3 (split; [reflexivity|]). intros H. assert (Z : smul (kn p * Rmax (penetrationDepth g) 0) (normal g) = vzero). { rewrite Rmax_right by lra. rewrite Rmult_0_r. vring. }
  split; [exact Z|]. destruct N as [N _]. unfold admitted in N. rewrite Z in N. replace (norm2 vzero) with 0 in N by vring. apply norm2_zero. pose proof (norm2_pos fs). lra.
Qed.
Theorem law_resets L g p i1 p1 i2 p2 : law L g p i1 p1 i2 p2 = None <-> penetrationDepth g < 0 /\ neverErase L = false.
Proof.
  unfold law. cbv zeta. destruct (Rlt_dec (penetrationDepth g) 0), (neverErase L); cbn [andb negb]; try (destruct (slip _ _ _)); split; intros H; try discriminate H; try (destruct H; discriminate); try reflexivity; try (split; [assumption|reflexivity]); destruct H; contradiction.
Qed.
(** the nearest force is unique *)
Lemma nearest_unique m fn t s s' : 0 <= m -> nearest m fn t s -> nearest m fn t s' -> s = s'.
Proof.
  intros Hm [A B] [A' B']. set (x := smul (1/2) (vadd s s')). assert (X : admitted m fn x).
  { unfold admitted in *. pose proof (norm2_pos (vsub s s')) as P. replace (norm2 x) with (1/2 * norm2 s + 1/2 * norm2 s' - 1/4 * norm2 (vsub s s')) by (subst x; destruct s, s'; vgoal; field). lra. }
  pose proof (B x X) as H1. pose proof (B' x X) as H2. replace (norm2 (vsub t x)) with (1/2 * norm2 (vsub t s) + 1/2 * norm2 (vsub t s') - 1/4 * norm2 (vsub s s')) in * by (subst x; destruct s, s', t; vgoal; field).
  pose proof (B s' A') as H3. pose proof (B' s A) as H4. pose proof (norm2_pos (vsub s s')) as P. assert (Z : norm2 (vsub s s') = 0) by lra. apply norm2_zero in Z. destruct s, s'. revert Z. vgoal. intros Z. injection Z. intros. f_equal; lra.
Qed.

(** ** energy *)
Theorem energy_neutral L L' g p i1 p1 i2 p2 : neverErase L = neverErase L' -> sphericalBodies L = sphericalBodies L' -> periodic L = periodic L' ->
  match law L g p i1 p1 i2 p2, law L' g p i1 p1 i2 p2 with
  | Some (p', e), Some (p'', e') => p' = p'' /\ added e = added e'
  | None, None => True | _, _ => False end.
Proof. intros A B C. unfold law. rewrite A, B, C. destruct (_ && negb (neverErase L')); [exact I|]. destruct (slip _ _ _) as [fs d]. split; reflexivity. Qed.
Theorem plastic_work L g p i1 p1 i2 p2 p' e : law L g p i1 p1 i2 p2 = Some (p', e) -> 0 < ks p -> traceEnergy L || trackEnergy L = true ->
  let w := plasticDissipation e + plastDissip e in let t := trial_force g p in
  0 <= w /\ norm2 t / (2 * ks p) = norm2 (shearForce p') / (2 * ks p) + w + norm2 (vsub t (shearForce p')) / (2 * ks p) /\
  elastPotential e = norm2 (normalForce p') / (2 * kn p) + norm2 (shearForce p') / (2 * ks p).
Proof.
  unfold law. cbv zeta. destruct (_ && negb (neverErase L)); [discriminate|]. set (a := if Rlt_dec (penetrationDepth g) 0 then true else false).
  assert (Ea : (if a then vzero else shearForce p) = (if Rlt_dec (penetrationDepth g) 0 then vzero else shearForce p)) by (subst a; destruct (Rlt_dec _ 0); reflexivity). rewrite Ea. fold (trial_force g p).
  destruct (slip p _ (trial_force g p)) as [fs d] eqn:E. intros X K T. injection X as <- <-. cbn [kn ks tanPhi normalForce shearForce plasticDissipation plastDissip elastPotential]. rewrite orb_comm in T. rewrite T. apply slip_spec in E. destruct E as (_ & Ed & k & Hk & Es). set (t := trial_force g p) in *.
  assert (Ed2 : d = (1 / ks p) * (k * (1 - k) * norm2 t)). { rewrite Ed, Es. clear. set (j := 1 / ks p). clearbody j. vring. }
  assert (D : 0 <= d). { rewrite Ed2. apply Rmult_le_pos; [unfold Rdiv; rewrite Rmult_1_l; left; apply Rinv_0_lt_compat; exact K|]. apply Rmult_le_pos; [apply Rmult_le_pos; lra|apply norm2_pos]. }
  assert (W : (if traceEnergy L then d else 0) + (if true && negb (traceEnergy L) then if Rlt_dec 0 d then d else 0 else 0) = d). { destruct (traceEnergy L); cbn [andb negb]; [ring|]. destruct (Rlt_dec 0 d); lra. }
  rewrite W. split; [exact D|]. split.
  - rewrite Ed2, Es, norm2_sub, norm2_smul. replace (dot t (smul k t)) with (k * norm2 t) by (clear; vring). field. lra.
  - destruct (Req_dec (kn p) 0) as [Z|Z]; [|field; lra]. rewrite Z. unfold Rdiv. replace (2 * 0) with 0 by ring. rewrite !Rinv_mult. assert (/ 0 = 0) by (apply Rinv_0). rewrite H. field. lra.
Qed.
