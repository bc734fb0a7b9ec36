From Coq Require Import Reals List ZArith Bool Lra Lia Permutation.
From Verif Require Import Vec_Model Pcell_Model Pcell_Spec Pcell_Proofs Pcell_Proofs2.
From Verif Require Cell_Model Vec_Proofs.
Import ListNotations.
Local Open Scope R_scope.

(** ** one action of the triaxial controller *)
Theorem tri_done cf b l masses iter dt pvg u t c t' c' h : tri_action cf b l masses iter dt pvg u t c = TDone t' c' h -> exists t1 m,
  (forall k, (k < 3)%nat -> 21/10 * comp (maxBodySpan t') k <= comp (Cell_Model.size c) k) /\ maxBodySpan t1 = maxBodySpan t' /\ (0 < vx (maxBodySpan t) -> maxBodySpan t' = maxBodySpan t) /\ prevGrow t1 = prevGrow t /\ tUnb t1 = tUnb t /\ externalWork t1 = externalWork t /\
  ((Z.rem iter (globUpdate cf) = 0%Z \/ vmin (stiff t) <= 0 \/ dynCell cf = true) -> log_strain c = Some (strain t1) /\ stressTensor t1 = love c l /\ stress t1 = mdiag (love c l) /\ stiff t1 = avg_stiff (dynCell cf) l) /\
  (~ (Z.rem iter (globUpdate cf) = 0%Z \/ vmin (stiff t) <= 0 \/ dynCell cf = true) -> strain t1 = strain t /\ stressTensor t1 = stressTensor t /\ stress t1 = stress t /\ stiff t1 = stiff t) /\
  (dynCell cf = true -> tmass t' = Some m /\ m <> 0 /\ (forall x, tmass t = Some x -> m = x) /\ (tmass t = None -> m = fold_left Rplus masses 0)) /\
  c' = with_rates c (strainRate t') /\ prevGrow t' = strainRate t' /\ (forall k, (k < 3)%nat -> comp (strainRate t') k = rate cf t1 (Cell_Model.size c) dt m (comp (mdiag (Cell_Model.velGrad c)) k) k) /\
  strain t' = vadd (strain t1) (smul dt (strainRate t')) /\ stressTensor t' = stressTensor t1 /\ stiff t' = stiff t1 /\
  (forall k, (k < 3)%nat -> comp (stress t') k = if dynCell cf then comp (stress t1) k else if Rlt_dec 0 (comp (stiff t1) k) then comp (stress t1) k + comp (strainRate t') k * dt / comp (Cell_Model.size c) k * (comp (stiff t1) k / comp (areas (Cell_Model.size c)) k) else comp (stress t1) k) /\
  externalWork t' = externalWork t + trace (mmul (mscale (1/2) (madd pvg (Cell_Model.velGrad c'))) (stressTensor t')) * dt * det (Cell_Model.hSize c) /\
  (let ok := axis_ok cf t1 (strain t') 0 && axis_ok cf t1 (strain t') 1 && axis_ok cf t1 (strain t') 2 in
   (h = true <-> ok = true /\ exists x, tUnb t' = Some x /\ x < tMaxUnb cf) /\
   (ok = true -> Z.rem iter (globUpdate cf) = 0%Z -> tUnb t' = Some u) /\ (ok = false \/ Z.rem iter (globUpdate cf) <> 0%Z /\ (forall x, tUnb t = Some x -> 0 <= x) -> tUnb t' = tUnb t)).
Proof.
  unfold tri_action. cbv zeta. cbn [maxBodySpan stressTensor stress strain strainRate stiff tUnb prevGrow tmass externalWork].
  remember (Cell_Model.size c) as size. remember (if Rle_dec (vx (maxBodySpan t)) 0 then spans_of size b (maxBodySpan t) else maxBodySpan t) as span.
  destruct (Rlt_dec (vx size) (21/10 * vx span)) as [|S1]; [discriminate|]. destruct (Rlt_dec (vy size) (21/10 * vy span)) as [|S2]; [discriminate|]. destruct (Rlt_dec (vz size) (21/10 * vz span)) as [|S3]; [discriminate|]. destruct (globUpdate cf =? 0)%Z; [discriminate|].
  assert (SP : forall k, (k < 3)%nat -> 21/10 * comp span k <= comp size k) by (intros [|[|[|k]]] K; cbn [comp]; try lra; lia).
  assert (SS : 0 < vx (maxBodySpan t) -> span = maxBodySpan t) by (intros; rewrite Heqspan; destruct (Rle_dec (vx (maxBodySpan t)) 0); [lra|reflexivity]).
  remember (mkT span (stressTensor t) (stress t) (strain t) (strainRate t) (stiff t) (tUnb t) (prevGrow t) (tmass t) (externalWork t)) as t0.
  destruct (if (Z.rem iter (globUpdate cf) =? 0)%Z || (if Rle_dec (vmin (stiff t)) 0 then true else false) || dynCell cf then update cf c l t0 else Some t0) as [t1|] eqn:UP; [|discriminate].
  assert (F : maxBodySpan t1 = span /\ prevGrow t1 = prevGrow t /\ tUnb t1 = tUnb t /\ externalWork t1 = externalWork t /\ tmass t1 = tmass t /\
    ((Z.rem iter (globUpdate cf) = 0%Z \/ vmin (stiff t) <= 0 \/ dynCell cf = true) -> log_strain c = Some (strain t1) /\ stressTensor t1 = love c l /\ stress t1 = mdiag (love c l) /\ stiff t1 = avg_stiff (dynCell cf) l) /\
    (~ (Z.rem iter (globUpdate cf) = 0%Z \/ vmin (stiff t) <= 0 \/ dynCell cf = true) -> strain t1 = strain t /\ stressTensor t1 = stressTensor t /\ stress t1 = stress t /\ stiff t1 = stiff t)).
  { assert (D : (Z.rem iter (globUpdate cf) = 0%Z \/ vmin (stiff t) <= 0 \/ dynCell cf = true) <-> (Z.rem iter (globUpdate cf) =? 0)%Z || (if Rle_dec (vmin (stiff t)) 0 then true else false) || dynCell cf = true).
    { rewrite !orb_true_iff, Z.eqb_eq. destruct (Rle_dec (vmin (stiff t)) 0); intuition (try lra; try discriminate). }
    destruct ((Z.rem iter (globUpdate cf) =? 0)%Z || (if Rle_dec (vmin (stiff t)) 0 then true else false) || dynCell cf).
    - unfold update in UP. destruct (log_strain c) as [e|]; [|discriminate]. injection UP as <-. rewrite Heqt0. cbn [maxBodySpan stressTensor stress strain strainRate stiff tUnb prevGrow tmass externalWork]. repeat (split; [reflexivity|]). split; [intros _; repeat split|]. intros N. destruct N. apply D. reflexivity.
    - injection UP as <-. rewrite Heqt0. cbn [maxBodySpan stressTensor stress strain strainRate stiff tUnb prevGrow tmass externalWork]. repeat (split; [reflexivity|]). split; [intros N; apply D in N; discriminate|]. intros _. repeat split. }
  destruct F as [F1 [F2 [F3 [F4 [F5 [F6 F7]]]]]].
  remember (if dynCell cf then match tmass t1 with None => Some (fold_left Rplus masses 0) | m => m end else tmass t1) as mass. remember (match mass with Some x => x | None => 1 end) as m.
  destruct (dynCell cf && (if Req_EM_T m 0 then true else false)) eqn:MZ; [discriminate|]. intros E. injection E as <- <- <-. cbn [maxBodySpan stressTensor stress strain strainRate stiff tUnb prevGrow tmass externalWork]. exists t1, m.
  split; [exact SP|]. split; [exact F1|]. split; [exact SS|]. split; [exact F2|]. split; [exact F3|]. split; [exact F4|]. split; [exact F6|]. split; [exact F7|].
  split. { intros DY. rewrite DY in *. cbn [andb] in MZ. rewrite F5 in Heqmass. destruct (Req_EM_T m 0) as [|NZ]; [discriminate|]. destruct (tmass t) as [x|]; rewrite Heqmass in Heqm; subst m; rewrite Heqmass; (split; [reflexivity|]); (split; [exact NZ|]); split; intros; congruence. }
  split; [reflexivity|]. split; [reflexivity|]. split; [intros k K; rewrite comp_tab by exact K; reflexivity|]. split; [reflexivity|]. split; [reflexivity|]. split; [reflexivity|].
  split. { intros k K. destruct (dynCell cf); [reflexivity|]. rewrite comp_tab by exact K. reflexivity. }
  split; [rewrite F4; reflexivity|]. rewrite F3.
  match goal with |- context [axis_ok cf t1 ?s 0] => remember (axis_ok cf t1 s 0 && axis_ok cf t1 s 1 && axis_ok cf t1 s 2) as ok end.
  split; [|split].
  - destruct ok; cbn [andb]; [|split; [discriminate|intros [X _]; discriminate]]. match goal with |- (match ?x with _ => _ end = true <-> _) => destruct x as [y|] end; [|split; [discriminate|intros [_ [z [X _]]]; discriminate]]. destruct (Rlt_dec y (tMaxUnb cf)) as [L|L].
    + split; [intros _; split; [reflexivity|]; exists y; split; [reflexivity|exact L]|reflexivity].
    + split; [discriminate|]. intros [_ [z [X Y]]]. injection X as <-. contradiction.
  - intros -> Z. rewrite Z. cbn [Z.eqb orb]. reflexivity.
  - intros [-> | [N PO]]; [reflexivity|]. destruct ok; [|reflexivity]. apply Z.eqb_neq in N. rewrite N. cbn [orb]. destruct (tUnb t) as [x|]; [|reflexivity]. destruct (Rlt_dec x 0) as [L|_]; [|reflexivity]. specialize (PO x eq_refl). lra.
Qed.
(** ** limits of the rate *)
Theorem tri_limits cf b l masses iter dt pvg u t c t' c' h k : tri_action cf b l masses iter dt pvg u t c = TDone t' c' h -> 0 < dt -> (k < 3)%nat -> 0 <= comp (maxStrainRate cf) k ->
  Rabs (comp (strainRate t') k) <= comp (maxStrainRate cf) k /\ - (comp (Cell_Model.size c) k - 21/10 * comp (maxBodySpan t') k) / dt <= comp (strainRate t') k.
Proof.
  intros E DT K MR. destruct (tri_done _ _ _ _ _ _ _ _ _ _ _ _ _ E) as [t1 [m [SP [MS [_ [_ [_ [_ [_ [_ [_ [_ [_ [RT _]]]]]]]]]]]]]]. rewrite (RT k K). unfold rate. cbv zeta. rewrite MS. specialize (SP k K). assert (- (comp (Cell_Model.size c) k - 21 / 10 * comp (maxBodySpan t') k) / dt <= 0).
  { unfold Rdiv. rewrite <- Ropp_mult_distr_l. assert (0 <= (comp (Cell_Model.size c) k - 21 / 10 * comp (maxBodySpan t') k) * / dt) by (apply Rmult_le_pos; [lra|left; apply Rinv_0_lt_compat, DT]). lra. }
  split; [apply Rmax_abs; [exact MR|apply clip_le, MR|assumption]|apply Rmax_r].
Qed.
Theorem tri_size cf b l masses iter dt pvg u t c t' c' h k : tri_action cf b l masses iter dt pvg u t c = TDone t' c' h -> 0 < dt -> (k < 3)%nat -> 0 <= comp (maxStrainRate cf) k -> 0 < comp (Cell_Model.size c) k <= 1 ->
  21/10 * comp (maxBodySpan t') k <= (1 + dt * comp (strainRate t') k) * comp (Cell_Model.size c) k.
Proof.
  intros E DT K MR [S1 S2]. destruct (tri_limits _ _ _ _ _ _ _ _ _ _ _ _ _ k E DT K MR) as [_ LB]. destruct (tri_done _ _ _ _ _ _ _ _ _ _ _ _ _ E) as [t1 [m [SP _]]]. specialize (SP k K). remember (comp (Cell_Model.size c) k) as s. remember (21/10 * comp (maxBodySpan t') k) as p. remember (comp (strainRate t') k) as r.
  assert (B : - (s - p) <= dt * r). { apply Rmult_le_compat_l with (r := dt) in LB; [|lra]. replace (dt * (- (s - p) / dt)) with (- (s - p)) in LB by (field; lra). exact LB. }
  assert (- (s - p) * s <= dt * r * s) by (apply Rmult_le_compat_r; lra). assert ((s - p) * s <= (s - p) * 1) by (apply Rmult_le_compat_l; lra). lra.
Qed.
(** ** strain *)
Lemma log_comp c e k : log_strain c = Some e -> (k < 3)%nat -> 0 < comp (mdiag (Cell_Model.trsf c)) k /\ comp e k = ln (comp (mdiag (Cell_Model.trsf c)) k).
Proof.
  unfold log_strain. cbv zeta. destruct (Rlt_dec 0 (vx _)) as [A|]; [|discriminate]. destruct (Rlt_dec 0 (vy _)) as [B|]; [|discriminate]. destruct (Rlt_dec 0 (vz _)) as [C|]; [|discriminate]. intros E K. injection E as <-. destruct k as [|[|[|k]]]; cbn [comp vx vy vz]; [tauto|tauto|tauto|lia].
Qed.
(** without damping (dynCell) the goal is reached in one step unless limits are met *)
Theorem tri_strain cf b l masses iter dt pvg u t c t' c' h k : tri_action cf b l masses iter dt pvg u t c = TDone t' c' h -> 0 < dt -> (k < 3)%nat -> dynCell cf = true \/ (growDamping cf = 0 /\ comp (prevGrow t) k = 0 /\ Z.rem iter (globUpdate cf) = 0%Z) -> controls_stress cf k = false ->
  let x := comp (mdiag (Cell_Model.trsf c)) k in let r := (exp (comp (goal cf) k) / x - 1) / dt in
  Rabs r <= comp (maxStrainRate cf) k -> - (comp (Cell_Model.size c) k - 21/10 * comp (maxBodySpan t') k) / dt <= r -> 0 < x /\ (1 + dt * comp (strainRate t') k) * x = exp (comp (goal cf) k).
Proof.
  intros E DT K DY CS x r R1 R2. destruct (tri_done _ _ _ _ _ _ _ _ _ _ _ _ _ E) as [t1 [m [_ [MS [_ [PG [_ [_ [UP [_ [_ [_ [_ [RT _]]]]]]]]]]]]]]. destruct UP as [LS _]; [tauto|]. destruct (log_comp c _ k LS K) as [XP SE]. fold x in XP, SE. split; [exact XP|].
  assert (RR : rate cf t1 (Cell_Model.size c) dt m (comp (mdiag (Cell_Model.velGrad c)) k) k = r).
  { unfold rate. cbv zeta. assert (RW : raw_rate cf t1 (Cell_Model.size c) dt m (comp (mdiag (Cell_Model.velGrad c)) k) k = r). { unfold raw_rate. rewrite CS. unfold r. rewrite SE. unfold Rminus at 2. rewrite exp_plus, exp_Ropp, exp_ln by exact XP. reflexivity. }
    rewrite RW. assert (DM : (if dynCell cf then r else (1 - growDamping cf) * r + 8 / 10 * comp (prevGrow t1) k) = r). { destruct (dynCell cf); [reflexivity|]. destruct DY as [|[D1 [D2 _]]]; [discriminate|]. rewrite D1, PG, D2. ring. }
    rewrite DM, clip_id by exact R1. rewrite MS. apply Rmax_left. exact R2. }
  rewrite (RT k K), RR. unfold r. field. lra.
Qed.
(** with damping, a cell that has the strain wanted leaves it *)
Theorem tri_leaves cf b l masses iter dt pvg u t c t' c' h k p : tri_action cf b l masses iter dt pvg u t c = TDone t' c' h -> 0 < dt -> (k < 3)%nat -> dynCell cf = false -> Z.rem iter (globUpdate cf) = 0%Z -> controls_stress cf k = false -> comp (mdiag (Cell_Model.trsf c)) k = exp (comp (goal cf) k) ->
  comp (prevGrow t) k = p -> 0 < p -> 8/10 * p <= comp (maxStrainRate cf) k -> comp (strainRate t') k = 8/10 * p.
Proof.
  intros E DT K DY IT CS X PP P0 PM. destruct (tri_done _ _ _ _ _ _ _ _ _ _ _ _ _ E) as [t1 [m [SP [MS [_ [PG [_ [_ [UP [_ [_ [_ [_ [RT _]]]]]]]]]]]]]]. destruct UP as [LS _]; [tauto|]. destruct (log_comp c _ k LS K) as [XP SE]. rewrite (RT k K). unfold rate. cbv zeta. rewrite DY, PG, PP. unfold raw_rate. rewrite CS, SE, X, ln_exp. replace (comp (goal cf) k - comp (goal cf) k) with 0 by ring. rewrite exp_0.
  replace ((1 - growDamping cf) * ((1 - 1) / dt) + 8 / 10 * p) with (8/10 * p) by (field; lra). rewrite clip_id by (rewrite Rabs_right; lra). apply Rmax_left. rewrite MS. specialize (SP k K). unfold Rdiv. rewrite <- Ropp_mult_distr_l. assert (0 <= (comp (Cell_Model.size c) k - 21 * / 10 * comp (maxBodySpan t') k) * / dt) by (apply Rmult_le_pos; [lra|left; apply Rinv_0_lt_compat, DT]). lra.
Qed.
(** ** the stress between updates is a guess, right only for an edge of one *)
Lemma tri_guess0 cf b l masses iter dt pvg u t c t' c' h k : tri_action cf b l masses iter dt pvg u t c = TDone t' c' h -> 0 < dt -> (k < 3)%nat -> dynCell cf = false -> controls_stress cf k = true -> growDamping cf = 0 -> comp (prevGrow t) k = 0 ->
  Z.rem iter (globUpdate cf) <> 0%Z -> 0 < vmin (stiff t) -> 0 < comp (Cell_Model.size c) k -> 0 < comp (areas (Cell_Model.size c)) k ->
  let r := 1 / dt * (comp (goal cf) k - comp (stress t) k) * comp (areas (Cell_Model.size c)) k / comp (stiff t) k in
  Rabs r <= comp (maxStrainRate cf) k -> - (comp (Cell_Model.size c) k - 21/10 * comp (maxBodySpan t') k) / dt <= r ->
  comp (stress t') k - comp (goal cf) k = (1 - 1 / comp (Cell_Model.size c) k) * (comp (stress t) k - comp (goal cf) k).
Proof.
  intros E DT K DY CS GD PP IT VM SP AP r R1 R2. destruct (tri_done _ _ _ _ _ _ _ _ _ _ _ _ _ E) as [t1 [m [_ [MS [_ [PG [_ [_ [_ [NU [_ [_ [_ [RT [_ [_ [_ [ST _]]]]]]]]]]]]]]]]]]. destruct NU as [_ [_ [ST1 SF1]]]; [rewrite DY; intuition (try lra; try discriminate)|].
  assert (SK : 0 < comp (stiff t) k) by (pose proof (comp_min (stiff t) k); lra). rewrite (ST k K), DY, SF1, ST1. destruct (Rlt_dec 0 (comp (stiff t) k)) as [_|]; [|contradiction].
  assert (RR : comp (strainRate t') k = r).
  { rewrite (RT k K). unfold rate. cbv zeta. rewrite DY, GD, PG, PP. unfold raw_rate. rewrite CS, DY, ST1, SF1. unfold kdiv. destruct (Rlt_dec 0 (comp (stiff t) k)) as [_|]; [|contradiction]. fold r. replace ((1 - 0) * r + 8 / 10 * 0) with r by ring. rewrite clip_id by exact R1. rewrite MS. apply Rmax_left. exact R2. }
  rewrite RR. unfold r. field. lra.
Qed.
Theorem tri_guess cf b l masses iter dt pvg u t c t' c' h k : tri_action cf b l masses iter dt pvg u t c = TDone t' c' h -> 0 < dt -> (k < 3)%nat -> dynCell cf = false -> controls_stress cf k = true -> growDamping cf = 0 -> comp (prevGrow t) k = 0 ->
  Z.rem iter (globUpdate cf) <> 0%Z -> 0 < vmin (stiff t) -> 0 < comp (Cell_Model.size c) k -> 0 < face (Cell_Model.size c) k ->
  let r := 1 / dt * (comp (goal cf) k - comp (stress t) k) * face (Cell_Model.size c) k / comp (stiff t) k in
  Rabs r <= comp (maxStrainRate cf) k -> - (comp (Cell_Model.size c) k - 21/10 * comp (maxBodySpan t') k) / dt <= r ->
  comp (stress t') k - comp (goal cf) k = (1 - 1 / comp (Cell_Model.size c) k) * (comp (stress t) k - comp (goal cf) k).
Proof.
  intros E DT K DY CS GD PP IT VM SP AP.
  assert (F : face (Cell_Model.size c) k = comp (areas (Cell_Model.size c)) k).
  { unfold face, areas. destruct k as [|[|k]]; cbn [comp vx vy vz] in *; field; lra. }
  rewrite F in *. exact (tri_guess0 cf b l masses iter dt pvg u t c t' c' h k E DT K DY CS GD PP IT VM SP AP).
Qed.
(** ** the hook *)
Lemma beyond_meets g rel ab x : beyond g rel ab x = false -> meets g rel ab x.
Proof.
  unfold beyond, meets. intros H. apply orb_false_iff in H. destruct H as [H1 H2]. split; [|destruct (Rlt_dec ab (Rabs (x - g))); [discriminate|lra]]. intros N. destruct (Req_EM_T g 0); [contradiction|]. destruct (Rlt_dec rel (Rabs ((x - g) / g))) as [|L]; [discriminate|]. apply Rnot_lt_le in L. unfold Rdiv in L. rewrite Rabs_mult, Rabs_inv in L. assert (0 < Rabs g) by (apply Rabs_pos_lt, N). apply Rmult_le_compat_r with (r := Rabs g) in L; [|lra]. rewrite Rmult_assoc, Rinv_l, Rmult_1_r in L by lra. lra.
Qed.
Theorem tri_hook cf b l masses iter dt pvg u t c t' c' : tri_action cf b l masses iter dt pvg u t c = TDone t' c' true ->
  (forall k, (k < 3)%nat -> controls_stress cf k = false -> meets (comp (goal cf) k) (1/1000000) (1/1000000) (comp (strain t') k)) /\
  (Z.rem iter (globUpdate cf) = 0%Z -> u < tMaxUnb cf /\ forall k, (k < 3)%nat -> controls_stress cf k = true -> meets (comp (goal cf) k) (relStressTol cf) (absStressTol cf) (comp (mdiag (love c l)) k)) /\
  exists x, tUnb t' = Some x /\ x < tMaxUnb cf.
Proof.
  intros E. destruct (tri_done _ _ _ _ _ _ _ _ _ _ _ _ _ E) as [t1 [m H]]. do 6 (destruct H as [_ H]). destruct H as [UP H]. do 9 (destruct H as [_ H]). destruct H as [_ [H [HU _]]]. destruct (proj1 H eq_refl) as [OK [x [X XM]]].
  assert (AO : forall k, (k < 3)%nat -> axis_ok cf t1 (strain t') k = true). { apply andb_true_iff in OK. destruct OK as [OK O2]. apply andb_true_iff in OK. destruct OK as [O0 O1]. intros [|[|[|k]]] K; [exact O0|exact O1|exact O2|lia]. }
  split; [|split].
  - intros k K CS. specialize (AO k K). unfold axis_ok in AO. rewrite CS in AO. apply negb_true_iff in AO. apply beyond_meets, AO.
  - intros Z. specialize (HU OK Z). rewrite HU in X. injection X as <-. split; [exact XM|]. intros k K CS. specialize (AO k K). unfold axis_ok in AO. rewrite CS in AO. apply negb_true_iff in AO. destruct UP as [_ [_ [<- _]]]; [tauto|]. apply beyond_meets, AO.
  - exists x. split; assumption.
Qed.
Theorem tri_stale cf b l masses iter dt pvg u u' t c x : Z.rem iter (globUpdate cf) <> 0%Z -> tUnb t = Some x -> 0 <= x -> tri_action cf b l masses iter dt pvg u t c = tri_action cf b l masses iter dt pvg u' t c.
Proof.
  intros N X P. apply Z.eqb_neq in N. unfold tri_action. cbv zeta. cbn [maxBodySpan stressTensor stress strain strainRate stiff tUnb prevGrow tmass externalWork]. destruct (if Rlt_dec _ _ then true else _); [reflexivity|]. destruct (globUpdate cf =? 0)%Z; [reflexivity|].
  rewrite N. cbn [orb]. match goal with |- context [if ?z || dynCell cf then update cf c l ?y else Some ?y] => remember y as t0; remember z as zz end. destruct (if zz || dynCell cf then update cf c l t0 else Some t0) as [t1|] eqn:UP; [|reflexivity].
  assert (T1 : tUnb t1 = Some x). { destruct (zz || dynCell cf); [unfold update in UP; destruct (log_strain c); [|discriminate]; injection UP as <-|injection UP as <-]; rewrite Heqt0; exact X. }
  rewrite T1. destruct (Rlt_dec x 0); [lra|]. reflexivity.
Qed.
(** ** stress of contacts *)
Lemma love_sum c l : love c l = mscale (/ det (Cell_Model.hSize c)) (msum (map (contact_stress c) l)).
Proof.
  unfold love. f_equal. assert (G : forall m, fold_left (fun m k => madd m (contact_stress c k)) l m = madd m (msum (map (contact_stress c) l))).
  { induction l as [|k l IH]; intros m; cbn [fold_left map msum fold_right]; [destruct m as [[a1 a2 a3] [b1 b2 b3] [c1 c2 c3]]; unfold madd, mzero, vadd, vzero; cbn [r0 r1 r2 vx vy vz]; f_equal; f_equal; ring|]. rewrite IH. fold (msum (map (contact_stress c) l)). generalize (contact_stress c k), (msum (map (contact_stress c) l)). clear. intros A B. destruct m as [[a1 a2 a3] [b1 b2 b3] [c1 c2 c3]], A as [[d1 d2 d3] [e1 e2 e3] [f1 f2 f3]], B as [[g1 g2 g3] [h1 h2 h3] [i1 i2 i3]]. unfold madd, vadd. cbn [r0 r1 r2 vx vy vz]. f_equal; f_equal; ring. }
  rewrite G. generalize (msum (map (contact_stress c) l)). clear. intros A. destruct A as [[d1 d2 d3] [e1 e2 e3] [f1 f2 f3]]. unfold madd, vadd, mzero, vzero. cbn [r0 r1 r2 vx vy vz]. f_equal; f_equal; ring.
Qed.
Lemma stress_reversed c k : contact_stress c (reversed k) = contact_stress c k.
Proof.
  destruct k as [[n1 n2 n3] [s1 s2 s3] nn kk kz [p1 p2 p3] [q1 q2 q3] [d1 d2 d3]]. unfold contact_stress, branch, reversed. cbn [normalForce shearForce pos1 pos2 cellDist]. destruct (Cell_Model.hSize c) as [[a1 a2 a3] [b1 b2 b3] [c1 c2 c3]]. unfold outer, smul, vadd, vsub, vopp, mulv, dot. cbn [r0 r1 r2 vx vy vz]. f_equal; f_equal; ring.
Qed.
Lemma contact_stiff_reversed k : contact_stiff (reversed k) = contact_stiff k.
Proof. destruct k as [n s [n1 n2 n3] a b p q d]. unfold contact_stiff, reversed, tab. cbn [normal kn ks comp vopp vx vy vz]. rewrite !Rabs_Ropp. reflexivity. Qed.
Lemma madd_comm A B : madd A B = madd B A.
Proof. destruct A as [[a1 a2 a3] [b1 b2 b3] [c1 c2 c3]], B as [[g1 g2 g3] [h1 h2 h3] [i1 i2 i3]]. unfold madd, vadd. cbn [r0 r1 r2 vx vy vz]. f_equal; f_equal; ring. Qed.
Lemma madd_assoc3 A B C : madd A (madd B C) = madd B (madd A C).
Proof. destruct A as [[a1 a2 a3] [b1 b2 b3] [c1 c2 c3]], B as [[g1 g2 g3] [h1 h2 h3] [i1 i2 i3]], C as [[j1 j2 j3] [k1 k2 k3] [l1 l2 l3]]. unfold madd, vadd. cbn [r0 r1 r2 vx vy vz]. f_equal; f_equal; ring. Qed.
Lemma msum_perm l l' : Permutation l l' -> msum l = msum l'.
Proof. induction 1; cbn [msum fold_right]; [reflexivity|unfold msum in *; f_equal; assumption|apply madd_assoc3|congruence]. Qed.
Theorem love_spec c l l' : love c l = mscale (/ det (Cell_Model.hSize c)) (msum (map (contact_stress c) l)) /\ (Permutation l l' -> love c l' = love c l) /\ love c (map reversed l) = love c l.
Proof.
  split; [apply love_sum|]. split; [intros P; rewrite !love_sum; f_equal; symmetry; apply msum_perm, Permutation_map, P|]. rewrite !love_sum. f_equal. f_equal. rewrite map_map. apply map_ext. intros k. apply stress_reversed.
Qed.
(** force on the second body *)
Theorem contact_stress_spec c k i j : (i < 3)%nat -> (j < 3)%nat -> comp (match i with O => r0 (contact_stress c k) | 1%nat => r1 (contact_stress c k) | _ => r2 (contact_stress c k) end) j = - (comp (normalForce k) i + comp (shearForce k) i) * comp (branch c k) j.
Proof. intros I J. unfold contact_stress, outer, smul, vadd. destruct i as [|[|[|i]]]; [| | |lia]; (destruct j as [|[|[|j]]]; [| | |lia]); cbn [r0 r1 r2 comp vx vy vz]; ring. Qed.
(** stiffness: between the smallest and the largest one *)
Theorem stiff_between l lo hi k : l <> [] -> (k < 3)%nat -> (forall q, In q l -> lo <= kn q <= hi /\ lo <= ks q <= hi /\ Rabs (comp (normal q) k) <= 1) -> lo <= comp (avg_stiff false l) k <= hi.
Proof.
  intros NE K H. assert (G : forall l v, (forall q, In q l -> lo <= comp (contact_stiff q) k <= hi) -> comp v k + INR (length l) * lo <= comp (fold_left (fun v q => vadd v (contact_stiff q)) l v) k <= comp v k + INR (length l) * hi).
  { clear. induction l as [|q l IH]; intros v H; cbn [fold_left length]; [cbn [INR]; lra|]. specialize (IH (vadd v (contact_stiff q)) (fun x I => H x (or_intror I))). specialize (H q (or_introl eq_refl)). rewrite S_INR. assert (A : comp (vadd v (contact_stiff q)) k = comp v k + comp (contact_stiff q) k) by (destruct k as [|[|k]]; reflexivity). rewrite A in IH. lra. }
  assert (C : forall q, In q l -> lo <= comp (contact_stiff q) k <= hi).
  { intros q I. destruct (H q I) as [A [B N]]. unfold contact_stiff. rewrite comp_tab by exact K. remember (Rabs (comp (normal q) k)) as x. assert (0 <= x) by (rewrite Heqx; apply Rabs_pos). assert (x * lo <= x * kn q) by (apply Rmult_le_compat_l; lra). assert (x * kn q <= x * hi) by (apply Rmult_le_compat_l; lra). assert ((1 - x) * lo <= (1 - x) * ks q) by (apply Rmult_le_compat_l; lra). assert ((1 - x) * ks q <= (1 - x) * hi) by (apply Rmult_le_compat_l; lra). lra. }
  unfold avg_stiff. destruct l as [|q0 l0] eqn:EL; [contradiction|]. rewrite <- EL in *. specialize (G l vzero C). assert (N : 0 < INR (length l)) by (apply lt_0_INR; rewrite EL; cbn [length]; lia). replace (comp (smul (1 / INR (length l)) (fold_left (fun v k => vadd v (contact_stiff k)) l vzero)) k) with (1 / INR (length l) * comp (fold_left (fun v k => vadd v (contact_stiff k)) l vzero) k) by (destruct k as [|[|k]]; reflexivity).
  remember (comp (fold_left (fun v k => vadd v (contact_stiff k)) l vzero) k) as x. replace (comp vzero k) with 0 in G by (destruct k as [|[|k]]; reflexivity). clear Heqx. split.
  - apply Rmult_le_reg_l with (INR (length l)); [exact N|]. replace (INR (length l) * (1 / INR (length l) * x)) with x by (field; lra). lra.
  - apply Rmult_le_reg_l with (INR (length l)); [exact N|]. replace (INR (length l) * (1 / INR (length l) * x)) with x by (field; lra). lra.
Qed.
