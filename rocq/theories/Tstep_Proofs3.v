(** Proofs about the automatic time step: what computeTimeStep computes. *)
From Coq Require Import List ZArith Bool Arith Reals Lra Lia.
From Verif Require Import Vec_Model Vec_Proofs Tstep_Model Tstep_Spec Tstep_Proofs Tstep_Proofs2.
Import ListNotations.
Local Open Scope R_scope.

Definition vnn (v : vec) : Prop := 0 <= vx v /\ 0 <= vy v /\ 0 <= vz v.
Lemma isZ_true x : isZ x = true -> x = 0. Proof. unfold isZ. destruct (Req_EM_T x 0); congruence. Qed.
Lemma isZ_false x : isZ x = false -> x <> 0. Proof. unfold isZ. destruct (Req_EM_T x 0); congruence. Qed.
Lemma isZ_of_true x : x = 0 -> isZ x = true. Proof. unfold isZ. destruct (Req_EM_T x 0); congruence. Qed.
Lemma isZ_of_false x : x <> 0 -> isZ x = false. Proof. unfold isZ. destruct (Req_EM_T x 0); congruence. Qed.
Lemma isZv_true v : isZv v = true -> v = vzero.
Proof. unfold isZv. rewrite !andb_true_iff. intros ((A & C) & D). destruct v as [x y z]. cbn [vx vy vz] in *. rewrite (isZ_true _ A), (isZ_true _ C), (isZ_true _ D). reflexivity. Qed.
Lemma isZv_zero : isZv vzero = true. Proof. unfold isZv. cbn [vx vy vz vzero]. rewrite (isZ_of_true 0 eq_refl). reflexivity. Qed.
Lemma vnn_add a b : vnn a -> vnn b -> vnn (vadd a b). Proof. unfold vnn. cbn [vadd vx vy vz]. intros (A1 & A2 & A3) (B1 & B2 & B3). repeat split; lra. Qed.
Lemma vnn_zero : vnn vzero. Proof. unfold vnn. cbn [vzero vx vy vz]. lra. Qed.
Lemma vnn_smul s a : 0 <= s -> vnn a -> vnn (smul s a). Proof. unfold vnn. cbn [smul vx vy vz]. intros H (A1 & A2 & A3). repeat split; apply Rmult_le_pos; assumption. Qed.
Lemma vnn_when b v : vnn v -> vnn (when b v). Proof. destruct b; [auto|intros _; exact vnn_zero]. Qed.
Lemma unit_parts n : norm2 n = 1 -> sq (vx n) <= 1 /\ sq (vy n) <= 1 /\ sq (vz n) <= 1 /\ sq (vx n) + sq (vy n) + sq (vz n) = 1.
Proof. unfold norm2, dot, sq. intros H. pose proof (sqr_pos (vx n)). pose proof (sqr_pos (vy n)). pose proof (sqr_pos (vz n)). repeat split; lra. Qed.
Lemma vnn_diag n k t : norm2 n = 1 -> 0 <= k -> 0 <= t -> vnn (diag_stiffness n k t).
Proof.
  intros N K T. destruct (unit_parts n N) as (A1 & A2 & A3 & _). unfold vnn, diag_stiffness, normal2. cbn [vadd smul vx vy vz].
  assert (G : forall a, 0 <= sq a -> sq a <= 1 -> 0 <= (k - t) * sq a + t * 1). { intros a P Q. replace ((k - t) * sq a + t * 1) with (k * sq a + t * (1 - sq a)) by ring. apply Rplus_le_le_0_compat; apply Rmult_le_pos; lra. }
  repeat split; apply G; try assumption; apply sqr_pos.
Qed.
Lemma vnn_Rdiag n t : 0 <= t -> vnn (diag_Rstiffness n t).
Proof. intros T. apply vnn_smul; [exact T|]. unfold vnn, sq. cbn [vx vy vz]. pose proof (sqr_pos (vx n)). pose proof (sqr_pos (vy n)). pose proof (sqr_pos (vz n)). lra. Qed.
Section Contacts.
Variable n : nat.
Lemma vnn_stiff c k : loaded n c -> vnn (stiff_of c k).
Proof. intros (_ & _ & N & K & T & _). apply vnn_diag; lra. Qed.
Lemma vnn_Rstiff c k : loaded n c -> vnn (Rstiff_of c k).
Proof. intros (_ & _ & N & K & T & T1 & T2 & _). apply vnn_add; [apply vnn_smul; [apply sqr_pos|apply vnn_Rdiag; lra]|apply vnn_diag; lra]. Qed.
Lemma vnn_contribution two c i : (forall k, vnn (two c k)) -> vnn (contribution two c i).
Proof. intros H. unfold contribution. destruct (isZ (fn2 c)); [apply vnn_zero|]. apply vnn_add; apply vnn_when; apply H. Qed.
Lemma vnn_total two cs i : (forall c k, In c cs -> vnn (two c k)) -> vnn (total two cs i).
Proof.
  unfold total. induction cs as [|c cs IH]; intros H; [apply vnn_zero|]. cbn [map fold_right]. apply vnn_add; [apply vnn_contribution; intros k; apply H; left; reflexivity|apply IH; intros c' k Hc; apply H; right; exact Hc].
Qed.
Lemma total_untouched two cs i : (forall c, In c cs -> c1 c <> i /\ c2 c <> i) -> total two cs i = vzero.
Proof.
  unfold total. induction cs as [|c cs IH]; intros H; [reflexivity|]. cbn [map fold_right]. rewrite IH by (intros c' Hc; apply H; right; exact Hc). destruct (H c (or_introl eq_refl)) as (A & C). unfold contribution. rewrite (proj2 (Nat.eqb_neq _ _) A), (proj2 (Nat.eqb_neq _ _) C). destruct (isZ (fn2 c)); unfold when; vring.
Qed.
Definition trace (v : vec) : R := vx v + vy v + vz v.
Lemma trace_stiff c k : loaded n c -> 0 < trace (stiff_of c k).
Proof.
  intros (_ & _ & N & K & T & _). destruct (unit_parts _ N) as (_ & _ & _ & S). unfold trace, stiff_of, diag_stiffness, normal2. cbn [vadd smul vx vy vz].
  replace ((kn c - ks c) * sq (vx (nrm c)) + ks c * 1 + ((kn c - ks c) * sq (vy (nrm c)) + ks c * 1) + ((kn c - ks c) * sq (vz (nrm c)) + ks c * 1)) with ((kn c - ks c) * (sq (vx (nrm c)) + sq (vy (nrm c)) + sq (vz (nrm c))) + 3 * ks c) by ring. rewrite S. lra.
Qed.
Lemma total_zero cs i : (forall c, In c cs -> loaded n c) -> total stiff_of cs i = vzero -> forall c, In c cs -> c1 c <> i /\ c2 c <> i.
Proof.
  intros L H. assert (T : trace (total stiff_of cs i) = 0) by (rewrite H; unfold trace; cbn [vx vy vz vzero]; ring). clear H.
  assert (P : forall v, vnn v -> 0 <= trace v) by (intros v (A & C & D); unfold trace; lra).
  assert (A : forall a b, trace (vadd a b) = trace a + trace b) by (intros; unfold trace; cbn [vadd vx vy vz]; ring).
  induction cs as [|c cs IH]; intros c0 Hc; [destruct Hc|]. unfold total in T. cbn [map fold_right] in T. fold (total stiff_of cs i) in T. rewrite A in T.
  assert (L' : forall c', In c' cs -> loaded n c') by (intros c' Hc'; apply L; right; exact Hc'). assert (Lc : loaded n c) by (apply L; left; reflexivity).
  assert (P1 : 0 <= trace (total stiff_of cs i)) by (apply P, vnn_total; intros c' k Hc'; apply vnn_stiff; auto). assert (P2 : 0 <= trace (contribution stiff_of c i)) by (apply P, vnn_contribution; intros k; apply vnn_stiff; exact Lc).
  destruct Hc as [<-|Hc]; [|apply IH; [exact L'|lra|exact Hc]]. assert (Z : trace (contribution stiff_of c i) = 0) by lra. unfold contribution in Z. destruct Lc as (H1 & H2 & H3 & H4 & H5 & H6 & H7 & F). rewrite (isZ_of_false _ F), A in Z.
  pose proof (trace_stiff c 1 ltac:(unfold loaded; auto 10)) as Q1. pose proof (trace_stiff c 2 ltac:(unfold loaded; auto 10)) as Q2. unfold when in Z.
  assert (Z0 : trace vzero = 0) by (unfold trace; cbn [vx vy vz vzero]; ring).
  destruct (Nat.eqb_spec (c1 c) i), (Nat.eqb_spec (c2 c) i); rewrite ?Z0 in Z; split; auto; exfalso; lra.
Qed.
End Contacts.

(** ** the squared period *)
Definition positive_inertia (J : vec) : Prop := 0 < vx J /\ 0 < vy J /\ 0 < vz J.
Lemma MAX_REAL_pos : 0 < MAX_REAL. Proof. unfold MAX_REAL. apply pow_lt. lra. Qed.
Lemma quot_pos x k : 0 < x -> 0 <= k -> 0 < quot x k.
Proof. intros X K. unfold quot. destruct (isZ k) eqn:E; [apply MAX_REAL_pos|]. apply isZ_false in E. apply Rdiv_lt_0_compat; lra. Qed.
Lemma quot_le x k q : 0 < x -> 0 <= k -> 0 <= q -> q <= quot x k -> q * k <= x.
Proof.
  intros X K Q. unfold quot. destruct (isZ k) eqn:E; [apply isZ_true in E; rewrite E; lra|]. apply isZ_false in E. intros H. apply (Rmult_le_compat_r k) in H; [|lra]. replace (x / k * k) with x in H by (field; exact E). exact H.
Qed.
Lemma maxc_le k : vx k <= maxc k /\ vy k <= maxc k /\ vz k <= maxc k.
Proof. unfold maxc. pose proof (Rmax_l (Rmax (vx k) (vy k)) (vz k)). pose proof (Rmax_r (Rmax (vx k) (vy k)) (vz k)). pose proof (Rmax_l (vx k) (vy k)). pose proof (Rmax_r (vx k) (vy k)). lra. Qed.
Lemma maxc_nn k : vnn k -> 0 <= maxc k. Proof. intros (A & _). destruct (maxc_le k). lra. Qed.
Lemma maxc_pos k : vnn k -> isZv k = false -> 0 < maxc k.
Proof.
  intros (A & C & D) H. destruct (maxc_le k) as (M1 & M2 & M3). destruct (Rle_lt_dec (maxc k) 0) as [L|L]; [|exact L]. exfalso. unfold isZv in H. rewrite (isZ_of_true (vx k)), (isZ_of_true (vy k)), (isZ_of_true (vz k)) in H by lra. discriminate H.
Qed.
Lemma Rmin_pos3 a b : 0 < a -> 0 < b -> 0 < Rmin a b. Proof. intros. apply Rmin_glb_lt; assumption. Qed.
Lemma period_pos m J k r : 0 < m -> positive_inertia J -> vnn k -> vnn r -> 0 < period m J k r.
Proof. intros M (J1 & J2 & J3) K (R1 & R2 & R3). unfold period. repeat apply Rmin_pos3; apply quot_pos; try assumption. apply maxc_nn, K. Qed.
Lemma period_meets m J k r : 0 < m -> positive_inertia J -> vnn k -> vnn r -> forall q, 0 <= q -> q <= period m J k r ->
  q * vx k <= m /\ q * vy k <= m /\ q * vz k <= m /\ q * vx r <= vx J /\ q * vy r <= vy J /\ q * vz r <= vz J.
Proof.
  intros M (J1 & J2 & J3) K (R1 & R2 & R3) q Q H. unfold period in H.
  assert (A : q <= quot m (maxc k)) by (eapply Rle_trans; [exact H|apply Rmin_l]). assert (H2 : q <= Rmin (Rmin (quot (vx J) (vx r)) (quot (vy J) (vy r))) (quot (vz J) (vz r))) by (eapply Rle_trans; [exact H|apply Rmin_r]). clear H.
  assert (A3 : q <= quot (vz J) (vz r)) by (eapply Rle_trans; [exact H2|apply Rmin_r]). assert (H3 : q <= Rmin (quot (vx J) (vx r)) (quot (vy J) (vy r))) by (eapply Rle_trans; [exact H2|apply Rmin_l]). clear H2.
  assert (A1 : q <= quot (vx J) (vx r)) by (eapply Rle_trans; [exact H3|apply Rmin_l]). assert (A2 : q <= quot (vy J) (vy r)) by (eapply Rle_trans; [exact H3|apply Rmin_r]). clear H3.
  apply quot_le in A; [|assumption|apply maxc_nn, K|assumption]. apply quot_le in A1; [|assumption..]. apply quot_le in A2; [|assumption..]. apply quot_le in A3; [|assumption..].
  destruct (maxc_le k) as (M1 & M2 & M3). pose proof (Rmult_le_compat_l q _ _ Q M1). pose proof (Rmult_le_compat_l q _ _ Q M2). pose proof (Rmult_le_compat_l q _ _ Q M3). repeat split; lra.
Qed.

(** ** the loop over bodies *)
Definition crit (E : engine) (cs : list contact) (i : nat) (b : body) : R := 141044 / 100000 * safety E * sqrt (period (mass b) (inertia b) (total stiff_of cs i) (total Rstiff_of cs i)).
Definition fact (E : engine) (cs : list contact) (nd : R) (som : bool) (i : nat) (b : body) (sc : R) : Prop :=
  (if densityScaling E then 0 < sc else sc = scaling b) /\
  if isZv (total stiff_of cs i) then True else
  som = true /\ if densityScaling E then sc <= (crit E cs i b / targetDt E) ^ 2 else nd <= crit E cs i b.
Definition rel (E : engine) (cs : list contact) (nd : R) (som : bool) (i : nat) (o o' : option body) : Prop :=
  match o with None => o' = None | Some b => if dynamic b then exists sc, o' = Some (set_scaling b sc) /\ fact E cs nd som i b sc else o' = Some b end.
Definition goodE (E : engine) : Prop := 0 < safety E /\ 0 < targetDt E /\ 0 < defaultDt E /\ viscEl E = false.
Definition goodb (b : body) : Prop := positive_body b /\ solid b /\ member b = false /\ clump b = None.
Lemma rate_pos a b : 0 < a -> 0 < b -> 0 < (a / b) ^ 2. Proof. intros. apply pow_lt, Rdiv_lt_0_compat; assumption. Qed.
Lemma free_dt_pos E b dt : goodE E -> goodb b -> free_dt E b = Done dt -> 0 < dt.
Proof.
  intros (S & T & D & _) (P & So & _). unfold free_dt. destruct (complete b); [|intros H; injection H as <-; exact D]. unfold solid in So. destruct (elastic b) as [[r y]|]; [|discriminate]. intros H. injection H as <-. destruct So as (R0 & Y0). destruct P as (M & _).
  apply Rdiv_lt_0_compat; [exact R0|]. apply sqrt_lt_R0. apply Rdiv_lt_0_compat; [exact Y0|]. apply Rdiv_lt_0_compat; [exact M|]. pose proof PI_RGT_0. pose proof (pow_lt r 3 R0). apply Rmult_lt_0_compat; [|assumption]. lra.
Qed.
Lemma crit_pos E cs i b n : goodE E -> goodb b -> (forall c, In c cs -> loaded n c) -> 0 < crit E cs i b.
Proof.
  intros (S & _) (P & _) L. unfold crit. apply Rmult_lt_0_compat; [lra|]. apply sqrt_lt_R0. destruct P as (M & J). apply period_pos; [exact M|exact J| |]; apply vnn_total; intros; [eapply vnn_stiff|eapply vnn_Rstiff]; eauto.
Qed.
Lemma find_fact E cs n i b nd som nd' som' sc : goodE E -> goodb b -> (forall c, In c cs -> loaded n c) -> 0 < nd -> findTimeStepFromBody E cs i b (nd, som) = Done (nd', som', sc) ->
  fact E cs nd' som' i b sc /\ 0 < nd' /\ (densityScaling E = false -> nd' <= nd) /\ (som = true -> som' = true).
Proof.
  intros GE Gb L Hn. pose proof (crit_pos E cs i b n GE Gb L) as CP. pose proof GE as (S & T & D & VE). pose proof Gb as (P & So & Mb & Cl). unfold findTimeStepFromBody, with_members, fact. rewrite Cl, VE. cbn [negb fst snd]. destruct (isZv (total stiff_of cs i)) eqn:Z.
  - destruct (densityScaling E) eqn:DS.
    + destruct (free_dt E b) as [dt|] eqn:F; cbn [bind]; [|discriminate]. cbn [fst snd]. intros H. injection H as <- <- <-. pose proof (free_dt_pos E b dt GE Gb F) as Q. repeat split; auto; [|discriminate].
      unfold free_scaling. pose proof (rate_pos dt (targetDt E) Q T) as Q2. assert (0 < safety E * (dt / targetDt E) ^ 2) by (apply Rmult_lt_0_compat; assumption). destruct (Rle_dec (scaling b) 0); [assumption|]. apply Rmin_pos3; [lra|assumption].
    + cbn [bind fst snd]. intros H. injection H as <- <- <-. repeat split; auto. intros _. lra.
  - cbn [bind]. fold (crit E cs i b). destruct (densityScaling E) eqn:DS; intros H; injection H as <- <- <-.
    + pose proof (rate_pos _ _ CP T) as Q. split; [|split; [exact T|split; [discriminate|intros ->; reflexivity]]]. unfold new_scaling. destruct (Rlt_dec 0 (scaling b)) as [p|p].
      * split; [apply Rmin_pos3; lra|]. split; [|apply Rmin_r]. unfold something. rewrite (isZ_of_false (maxc (total stiff_of cs i))); [cbn [negb orb]; apply orb_true_r|]. apply Rgt_not_eq, maxc_pos; [|exact Z]. apply vnn_total. intros c k Hc. eapply vnn_stiff; eauto.
      * split; [exact Q|]. split; [|lra]. unfold something. rewrite (isZ_of_false (maxc (total stiff_of cs i))); [cbn [negb orb]; apply orb_true_r|]. apply Rgt_not_eq, maxc_pos; [|exact Z]. apply vnn_total. intros c k Hc. eapply vnn_stiff; eauto.
    + split; [|split; [apply Rmin_pos3; assumption|split; [intros _; apply Rmin_r|intros ->; reflexivity]]]. split; [reflexivity|]. split; [|apply Rmin_l].
      unfold something. rewrite (isZ_of_false (maxc (total stiff_of cs i))); [cbn [negb orb]; apply orb_true_r|]. apply Rgt_not_eq, maxc_pos; [|exact Z]. apply vnn_total. intros c k Hc. eapply vnn_stiff; eauto.
Qed.
Lemma rel_mono E cs nd som nd' som' i o o' : (densityScaling E = false -> nd' <= nd) -> (som = true -> som' = true) -> rel E cs nd som i o o' -> rel E cs nd' som' i o o'.
Proof.
  intros N M. unfold rel. destruct o as [b|]; [|auto]. destruct (dynamic b); [|auto]. intros (sc & Q & F). exists sc. split; [exact Q|]. unfold fact in *. destruct F as (F1 & F2). split; [exact F1|]. destruct (isZv (total stiff_of cs i)); [exact I|]. destruct F2 as (F2 & F3). split; [auto|]. destruct (densityScaling E); [exact F3|]. specialize (N eq_refl). lra.
Qed.
Lemma loop_fact E cs n bs : goodE E -> (forall c, In c cs -> loaded n c) -> (forall i b, nth_error bs i = Some (Some b) -> goodb b) -> forall a nd som out nd' som' out', 0 < nd ->
  foldM (one E cs) (combine (seq a (length bs)) bs) (nd, som, out) = Done (nd', som', out') ->
  exists bs', out' = out ++ bs' /\ length bs' = length bs /\ (forall i o, nth_error bs i = Some o -> exists o', nth_error bs' i = Some o' /\ rel E cs nd' som' (a + i)%nat o o') /\ 0 < nd' /\ (densityScaling E = false -> nd' <= nd) /\ (som = true -> som' = true).
Proof.
  intros GE L. induction bs as [|o bs IH]; intros Gb a nd som out nd' som' out' Hn.
  - cbn. intros H. injection H as <- <- <-. exists []. rewrite app_nil_r. split; [reflexivity|]. split; [reflexivity|]. split; [intros i o H; destruct i; discriminate H|]. split; [exact Hn|]. split; [intros; lra|auto].
  - cbn [length seq combine foldM]. destruct (one E cs (nd, som, out) (a, o)) as [[[nd1 som1] out1]|] eqn:O; cbn [bind]; [|discriminate]. intros H.
    assert (K : exists o', out1 = out ++ [o'] /\ rel E cs nd1 som1 a o o' /\ 0 < nd1 /\ (densityScaling E = false -> nd1 <= nd) /\ (som = true -> som1 = true)).
    { unfold one in O. cbn [snd fst] in O. unfold rel. destruct o as [b|].
      - pose proof (Gb 0%nat b eq_refl) as G. destruct (dynamic b) eqn:Dy; cbn [andb] in O.
        + destruct G as (P & So & Mb & Cl). rewrite Mb in O. cbn [negb] in O. destruct (findTimeStepFromBody E cs a b (nd, som)) as [[[nd2 som2] sc]|] eqn:F; cbn [bind] in O; [|discriminate]. injection O as <- <- <-. exists (Some (set_scaling b sc)). split; [reflexivity|].
          destruct (find_fact E cs n a b nd som nd2 som2 sc GE (conj P (conj So (conj Mb Cl))) L Hn F) as (Q1 & Q2 & Q3 & Q4). split; [exists sc; auto|]. auto.
        + injection O as <- <- <-. exists (Some b). repeat split; auto. intros; lra.
      - injection O as <- <- <-. exists None. repeat split; auto. intros; lra. }
    destruct K as (o' & -> & Q & N1 & N2 & N3). destruct (IH (fun i b Hb => Gb (Datatypes.S i) b Hb) (Datatypes.S a) nd1 som1 _ nd' som' out' N1 H) as (bs' & -> & Le & Rl & P1 & P2 & P3). exists (o' :: bs'). rewrite <- app_assoc. split; [reflexivity|]. split; [cbn [length]; congruence|]. split; [|split; [exact P1|split; [intros W; specialize (N2 W); specialize (P2 W); lra|auto]]].
    intros i o0 Ho. destruct i as [|i]; cbn [nth_error] in *.
    + injection Ho as <-. exists o'. split; [reflexivity|]. rewrite Nat.add_0_r. eapply rel_mono; [exact P2|exact P3|exact Q].
    + rewrite Nat.add_succ_r. apply (Rl i o0 Ho).
Qed.
Lemma PWave_pos bs : (forall i b, nth_error bs i = Some (Some b) -> goodb b) -> 0 < PWaveTimeStep bs.
Proof.
  intros G. unfold PWaveTimeStep. set (f := fun dt o => _). assert (K : forall l a, 0 < a -> (forall o, In o l -> forall b, o = Some b -> goodb b) -> 0 < fold_left f l a).
  { induction l as [|o l IH]; intros a A H; [exact A|]. cbn [fold_left]. apply IH; [|intros o' Ho; apply H; right; exact Ho]. unfold f. destruct o as [b|]; [|exact A]. destruct (H (Some b) (or_introl eq_refl) b eq_refl) as ((M & _) & So & _). unfold solid in So. destruct (elastic b) as [[r y]|]; [|exact A]. destruct (complete b); [|exact A]. destruct So as (R0 & Y0). apply Rmin_pos3; [exact A|].
    apply Rdiv_lt_0_compat; [exact R0|]. apply sqrt_lt_R0. apply Rdiv_lt_0_compat; [exact Y0|]. apply Rdiv_lt_0_compat; [exact M|]. pose proof PI_RGT_0. pose proof (pow_lt r 3 R0). apply Rmult_lt_0_compat; [|assumption]. lra. }
  destruct (Req_EM_T _ MAX_REAL); [lra|]. apply K; [apply MAX_REAL_pos|]. intros o Ho b ->. apply In_nth_error in Ho. destruct Ho as (i & Hi). exact (G i b Hi).
Qed.
(** what one computation gives *)
Lemma compute_fact E dt bs cs E' dt' bs' : sane E -> plain bs -> (forall c, In c cs -> loaded (length bs) c) -> computeTimeStep E dt bs cs = Done (E', dt', bs') ->
  length bs' = length bs /\ exists som, (forall i o, nth_error bs i = Some o -> exists o', nth_error bs' i = Some o' /\ rel E cs dt' som i o o') /\ (densityScaling E = true -> dt' <= targetDt E) /\ (som = true \/ densityScaling E = true -> 0 < dt' /\ dt' <= maxDt E /\ dt' <= 105 / 100 * previousDt E /\ computedOnce E' = true /\ previousDt E' = dt').
Proof.
  intros (Mx & Pv & Sf & Tg & Df & VE) Pl L. unfold computeTimeStep. set (d := if Rlt_dec (defaultDt E) 0 then _ else _). assert (D : 0 < d). { unfold d. destruct (Rlt_dec (defaultDt E) 0); [apply Rmult_lt_0_compat; [exact Sf|apply PWave_pos; exact Pl]|lra]. }
  destruct (resize E (length bs)) as [[s v]|]; cbn [bind fst snd]; [|discriminate]. set (E1 := mkE d _ _ _ _ _ _ _ _ _ _ _).
  destruct (foldM (one E1 cs) (combine (seq 0 (length bs)) bs) (MAX_REAL, false, [])) as [[[nd som] out]|] eqn:F; cbn [bind]; [|discriminate].
  assert (G1 : goodE E1) by (unfold goodE, E1; cbn; auto). destruct (loop_fact E1 cs (length bs) bs G1 L Pl 0 MAX_REAL false [] nd som out MAX_REAL_pos F) as (bs2 & -> & Le & Rl & P1 & P2 & P3). cbn [app].
  assert (X : forall i b, crit E1 cs i b = crit E cs i b) by reflexivity.
  destruct (som || densityScaling E) eqn:SD; intros H; injection H as <- <- <-.
  - set (nn := if densityScaling E then targetDt E else nd). set (p := Rmin (Rmin nn (maxDt E)) (105 / 100 * previousDt E)). assert (Np : 0 < nn) by (unfold nn; destruct (densityScaling E); assumption). assert (Pp : 0 < p) by (unfold p; repeat apply Rmin_pos3; lra).
    assert (Pn : p <= nn) by (unfold p; eapply Rle_trans; [apply Rmin_l|apply Rmin_l]). split; [exact Le|]. exists som. split; [|split; [intros W; unfold nn in Pn; rewrite W in Pn; exact Pn|]].
    + intros i o Ho. destruct (Rl i o Ho) as (o' & Q1 & Q2). exists o'. split; [exact Q1|]. cbn [Nat.add] in Q2. refine (rel_mono E cs nd som p som i o o' _ (fun x => x) _); [intros W; unfold nn in Pn; rewrite W in Pn; exact Pn|exact Q2].
    + intros _. split; [exact Pp|]. split; [unfold p; eapply Rle_trans; [apply Rmin_l|apply Rmin_r]|]. split; [unfold p; apply Rmin_r|]. split; reflexivity.
  - apply orb_false_iff in SD. destruct SD as (-> & SD). split; [exact Le|]. exists false. split; [|split; [congruence|intros [W|W]; congruence]].
    intros i o Ho. destruct (Rl i o Ho) as (o' & Q1 & Q2). exists o'. split; [exact Q1|]. cbn [Nat.add] in Q2. unfold rel in *. destruct o as [b|]; [|exact Q2]. destruct (dynamic b); [|exact Q2]. destruct Q2 as (sc & Q2 & Q3). exists sc. split; [exact Q2|]. unfold fact in *. destruct Q3 as (Q3 & Q4). split; [exact Q3|]. destruct (isZv (total stiff_of cs i)); [exact I|]. destruct Q4; discriminate.
Qed.

(** ** stability of what comes out *)
Lemma scaled_stiff b s : mass (set_scaling b s) = mass b /\ inertia (set_scaling b s) = inertia b /\ dynamic (set_scaling b s) = dynamic b /\ scaling (set_scaling b s) = s. Proof. repeat split. Qed.
Lemma steady E dt bs cs E' dt' bs' phi : sane E -> plain bs -> (forall c, In c cs -> loaded (length bs) c) -> computeTimeStep E dt bs cs = Done (E', dt', bs') ->
  (forall c f, In c cs -> work c f f <= phi * diag_of c f) -> 0 <= phi -> phi * (safety E * safety E) <= 2 -> stable (densityScaling E) dt' bs' cs.
Proof.
  intros Sa Pl L H W P0 P2. destruct (compute_fact E dt bs cs E' dt' bs' Sa Pl L H) as (Le & som & Rl & Tg & Ps). pose proof Sa as (Mx & Pv & Sf & Tp & Df & VE).
  assert (Fr : forall i b', free_body bs' i = Some b' -> exists b sc, nth_error bs i = Some (Some b) /\ b' = set_scaling b sc /\ fact E cs dt' som i b sc).
  { intros i b' Hb. unfold free_body in Hb. destruct (nth_error bs' i) as [[b1|]|] eqn:N; try discriminate. destruct (dynamic b1) eqn:Dy; [|discriminate]. injection Hb as ->.
    assert (I : (i < length bs)%nat) by (rewrite <- Le; apply nth_error_Some; congruence). destruct (nth_error bs i) as [o|] eqn:No; [|apply nth_error_None in No; lia]. destruct (Rl i o No) as (o' & Q1 & Q2). rewrite N in Q1. injection Q1 as <-. unfold rel in Q2. destruct o as [b|]; [|discriminate]. destruct (dynamic b) eqn:Db; [|injection Q2 as ->; congruence]. destruct Q2 as (sc & Q2 & Q3). exists b, sc. injection Q2 as ->. auto. }
  apply stable_bodies with (mu := 141044 / 100000 * safety E * (141044 / 100000 * safety E)) (phi := phi); [|rewrite Le; exact L|exact W|exact P0| |].
  - intros i b' Hb. destruct (Fr i b' Hb) as (b & sc & N & -> & F). destruct (Pl i b N) as (P & _). split; [exact P|]. unfold factor. destruct F as (F & _). destruct (densityScaling E); [exact F|lra].
  - replace (phi * (141044 / 100000 * safety E * (141044 / 100000 * safety E))) with (phi * (safety E * safety E) * (141044 / 100000 * (141044 / 100000))) by ring. assert (phi * (safety E * safety E) * (141044 / 100000 * (141044 / 100000)) <= 2 * (141044 / 100000 * (141044 / 100000))) by (apply Rmult_le_compat_r; lra). lra.
  - intros i b' Hb. destruct (Fr i b' Hb) as (b & sc & N & -> & F). destruct (Pl i b N) as ((M & J) & _). destruct F as (F1 & F2). unfold factor. cbn [set_scaling mass inertia scaling].
    set (k := total stiff_of cs i) in *. set (r := total Rstiff_of cs i) in *. assert (Vk : vnn k) by (apply vnn_total; intros; eapply vnn_stiff; eauto). assert (Vr : vnn r) by (apply vnn_total; intros; eapply vnn_Rstiff; eauto).
    set (c := 141044 / 100000 * safety E) in *. assert (C0 : 0 < c) by (unfold c; lra). destruct J as (J1 & J2 & J3).
    destruct (isZv k) eqn:Z.
    + assert (Zk : k = vzero) by (apply isZv_true; exact Z). assert (Zr : r = vzero). { apply total_untouched. apply (total_zero (length bs)); assumption. }
      unfold meets. rewrite Zk, Zr. cbn [vx vy vz vzero]. assert (G : forall m s, 0 < m -> dt' * dt' * 0 * s <= c * c * m) by (intros m s Hm; replace (dt' * dt' * 0 * s) with 0 by ring; apply Rmult_le_pos; [apply sqr_pos|lra]). repeat split; apply G; assumption.
    + destruct F2 as (So & F2). destruct (Ps (or_introl So)) as (D0 & _). set (T := period (mass b) (inertia b) k r). assert (T0 : 0 < T) by (apply period_pos; [exact M|repeat split; assumption|exact Vk|exact Vr]).
      assert (Key : 0 < factor (densityScaling E) (set_scaling b sc) /\ dt' * dt' * factor (densityScaling E) (set_scaling b sc) <= c * c * T).
      { unfold factor. cbn [set_scaling scaling]. unfold crit in F2. fold c k r T in F2. pose proof (sqrt_sqrt T (Rlt_le _ _ T0)) as SS. pose proof (sqrt_lt_R0 T T0) as S0. set (q := sqrt T) in *. destruct (densityScaling E).
        - specialize (Tg eq_refl). split; [exact F1|]. apply Rle_trans with (targetDt E * targetDt E * (c * q / targetDt E) ^ 2); [|right; rewrite <- SS; field; lra].
          apply Rmult_le_compat; [apply sqr_pos|lra| |exact F2]. apply Rmult_le_compat; lra.
        - split; [lra|]. rewrite Rmult_1_r. rewrite <- SS. replace (c * c * (q * q)) with (c * q * (c * q)) by ring. apply Rmult_le_compat; lra. }
      unfold factor in Key. cbn [set_scaling scaling] in Key. set (s := if densityScaling E then sc else 1) in *. destruct Key as (S0 & Key).
      assert (Q : dt' * dt' * s / (c * c) <= T). { apply (Rmult_le_reg_r (c * c)); [apply Rmult_lt_0_compat; exact C0|]. replace (dt' * dt' * s / (c * c) * (c * c)) with (dt' * dt' * s) by (field; lra). lra. }
      assert (Q0 : 0 <= dt' * dt' * s / (c * c)). { apply Rmult_le_pos; [apply Rmult_le_pos; [apply sqr_pos|lra]|]. apply Rlt_le, Rinv_0_lt_compat, Rmult_lt_0_compat; exact C0. }
      destruct (period_meets (mass b) (inertia b) k r M (conj J1 (conj J2 J3)) Vk Vr _ Q0 Q) as (A1 & A2 & A3 & A4 & A5 & A6).
      assert (G : forall x m, dt' * dt' * s / (c * c) * x <= m -> dt' * dt' * x * s <= c * c * m). { intros x m Hm. apply (Rmult_le_compat_r (c * c)) in Hm; [|apply sqr_pos]. replace (dt' * dt' * s / (c * c) * x * (c * c)) with (dt' * dt' * x * s) in Hm by (field; lra). lra. }
      unfold meets. repeat split; apply G; assumption.
Qed.
Lemma loaded_okc n c : loaded n c -> okc c. Proof. intros (_ & _ & N & K & T & T1 & T2 & _). unfold okc. repeat split; auto; lra. Qed.
Lemma stable_half E dt bs cs E' dt' bs' : sane E -> plain bs -> (forall c, In c cs -> loaded (length bs) c) -> safety E <= 1 / 2 -> computeTimeStep E dt bs cs = Done (E', dt', bs') -> stable (densityScaling E) dt' bs' cs.
Proof.
  intros Sa Pl L S H. apply (steady E dt bs cs E' dt' bs' 8 Sa Pl L H); [intros c f Hc; apply work_le; eapply loaded_okc; eauto|lra|]. destruct Sa as (_ & _ & S0 & _). assert (safety E * safety E <= 1 / 2 * (1 / 2)) by (apply Rmult_le_compat; lra). lra.
Qed.
Lemma stable_frictionless E dt bs cs E' dt' bs' : sane E -> plain bs -> (forall c, In c cs -> loaded (length bs) c /\ frictionless c) -> safety E * safety E <= 1 / 3 -> computeTimeStep E dt bs cs = Done (E', dt', bs') -> stable (densityScaling E) dt' bs' cs.
Proof. intros Sa Pl L S H. apply (steady E dt bs cs E' dt' bs' 6 Sa Pl (fun c Hc => proj1 (L c Hc)) H); [intros c f Hc; destruct (L c Hc); apply work_le6; [eapply loaded_okc; eauto|assumption]|lra|lra]. Qed.
Lemma stable_aligned E dt bs cs E' dt' bs' : sane E -> plain bs -> (forall c, In c cs -> loaded (length bs) c /\ frictionless c /\ aligned c) -> safety E <= 1 -> computeTimeStep E dt bs cs = Done (E', dt', bs') -> stable (densityScaling E) dt' bs' cs.
Proof.
  intros Sa Pl L S H. apply (steady E dt bs cs E' dt' bs' 2 Sa Pl (fun c Hc => proj1 (L c Hc)) H); [intros c f Hc; destruct (L c Hc) as (L1 & L2 & L3); apply work_le2; [eapply loaded_okc; eauto|assumption|assumption]|lra|]. destruct Sa as (_ & _ & S0 & _). assert (safety E * safety E <= 1 * 1) by (apply Rmult_le_compat; lra). lra.
Qed.
