(** Proofs about the automatic time step: bounds, repeated computations, memory. *)
From Coq Require Import List ZArith Bool Arith Reals Lra Lia.
From Verif Require Import Vec_Model Vec_Proofs Tstep_Model Tstep_Spec Tstep_Proofs Tstep_Proofs2 Tstep_Proofs3.
Import ListNotations.
Local Open Scope R_scope.

(** ** bounds *)
Lemma compute_bounds E dt bs cs E' dt' bs' : computeTimeStep E dt bs cs = Done (E', dt', bs') ->
  maxDt E' = maxDt E /\ safety E' = safety E /\ targetDt E' = targetDt E /\ viscEl E' = viscEl E /\ densityScaling E' = densityScaling E /\
  ((previousDt E' = dt' /\ computedOnce E' = true /\ dt' <= maxDt E /\ dt' <= 105 / 100 * previousDt E) \/
   (previousDt E' = previousDt E /\ computedOnce E' = computedOnce E /\ dt' = if computedOnce E then dt else defaultDt E')).
Proof.
  unfold computeTimeStep. set (d := if Rlt_dec _ 0 then _ else _). destruct (resize E (length bs)) as [[s v]|]; cbn [bind fst snd]; [|discriminate]. set (E1 := mkE d _ _ _ _ _ _ _ _ _ _ _). destruct (foldM _ _ _) as [[[nd som] out]|]; cbn [bind]; [|discriminate].
  destruct (som || densityScaling E); intros H; injection H as <- <- <-; cbn [maxDt safety targetDt viscEl densityScaling previousDt computedOnce defaultDt E1]; repeat (split; [reflexivity|]).
  - left. repeat (split; [reflexivity|]). split; [eapply Rle_trans; [apply Rmin_l|apply Rmin_r]|apply Rmin_r].
  - right. repeat split.
Qed.
Lemma compute_default E dt bs cs E' dt' bs' : sane E -> plain bs -> computeTimeStep E dt bs cs = Done (E', dt', bs') -> 0 < defaultDt E'.
Proof.
  intros (Mx & Pv & Sf & Tg & Df & VE) Pl. unfold computeTimeStep. set (d := if Rlt_dec _ 0 then _ else _). assert (D : 0 < d). { unfold d. destruct (Rlt_dec (defaultDt E) 0); [apply Rmult_lt_0_compat; [exact Sf|apply PWave_pos; exact Pl]|lra]. }
  destruct (resize E (length bs)) as [[s v]|]; cbn [bind fst snd]; [|discriminate]. destruct (foldM _ _ _) as [[[nd som] out]|]; cbn [bind]; [|discriminate]. destruct (som || densityScaling E); intros H; injection H as <- <- <-; exact D.
Qed.
(** the result is an update, or no dynamic body has a contact *)
Lemma compute_sane E dt bs cs E' dt' bs' : sane E -> ordinary (bs, cs) -> 0 < dt -> computeTimeStep E dt bs cs = Done (E', dt', bs') -> sane E' /\ 0 < dt'.
Proof.
  intros Sa (Pl & L) D H. cbn [fst snd] in *. pose proof (compute_default _ _ _ _ _ _ _ Sa Pl H) as D'. destruct (compute_bounds _ _ _ _ _ _ _ H) as (B1 & B2 & B3 & B4 & B5 & B6). pose proof Sa as (Mx & Pv & Sf & Tg & Df & VE). unfold sane. rewrite B1, B2, B3, B4.
  assert (P : 0 < dt' /\ 0 < previousDt E').
  { revert H. unfold computeTimeStep. set (d := if Rlt_dec _ 0 then _ else _). assert (Dp : 0 < d). { unfold d. destruct (Rlt_dec (defaultDt E) 0); [apply Rmult_lt_0_compat; [exact Sf|apply PWave_pos; exact Pl]|lra]. }
    destruct (resize E (length bs)) as [[s v]|]; cbn [bind fst snd]; [|discriminate]. set (E1 := mkE d _ _ _ _ _ _ _ _ _ _ _). assert (G1 : goodE E1) by (unfold goodE, E1; cbn; auto).
    destruct (foldM (one E1 cs) _ _) as [[[nd som] out]|] eqn:F; cbn [bind]; [|discriminate]. destruct (loop_fact E1 cs (length bs) bs G1 L Pl 0 MAX_REAL false [] nd som out MAX_REAL_pos F) as (bs2 & _ & _ & _ & P1 & _).
    destruct (som || densityScaling E); intros H; injection H as <- <- <-; cbn [previousDt E1].
    - assert (0 < Rmin (Rmin (if densityScaling E then targetDt E else nd) (maxDt E)) (105 / 100 * previousDt E)) by (repeat apply Rmin_pos3; [destruct (densityScaling E); assumption|assumption|lra]). auto.
    - split; [destruct (computedOnce E); assumption|assumption]. }
  destruct P as (P1 & P2). repeat split; auto; lra.
Qed.
Lemma runs_sane l : forall E dt E' dt', sane E -> 0 < dt -> Forall ordinary l -> runs E dt l = Done (E', dt') -> sane E' /\ 0 < dt'.
Proof.
  induction l as [|[bs cs] l IH]; intros E dt E' dt' S D F; cbn [runs]; [intros H; injection H as <- <-; auto|]. destruct (computeTimeStep E dt bs cs) as [[[E1 dt1] bs1]|] eqn:Q; cbn [bind fst snd]; [|discriminate]. inversion F as [|? ? F1 F2]; subst. destruct (compute_sane _ _ _ _ _ _ _ S F1 D Q) as (S1 & D1). apply IH; assumption.
Qed.
(** once computed, the time step in force is the last one computed *)
Lemma runs_last l : forall E dt E' dt', (computedOnce E = true -> dt = previousDt E) -> runs E dt l = Done (E', dt') -> computedOnce E' = true -> dt' = previousDt E'.
Proof.
  induction l as [|[bs cs] l IH]; intros E dt E' dt' I; cbn [runs]; [intros H; injection H as <- <-; auto|]. destruct (computeTimeStep E dt bs cs) as [[[E1 dt1] bs1]|] eqn:Q; cbn [bind fst snd]; [|discriminate]. apply IH. destruct (compute_bounds _ _ _ _ _ _ _ Q) as (_ & _ & _ & _ & _ & [(A & C & _)|(A & C & D)]); [auto|]. intros K. rewrite C in K. rewrite K in D. rewrite A, D. auto.
Qed.
(** and grows by 5 % at most from one computation to the next *)
Lemma runs_growth l E dt E1 dt1 bs cs E2 dt2 bs2 : (computedOnce E = true -> dt = previousDt E) -> runs E dt l = Done (E1, dt1) -> computedOnce E1 = true -> 0 < dt1 -> computeTimeStep E1 dt1 bs cs = Done (E2, dt2, bs2) -> dt2 <= 105 / 100 * dt1.
Proof.
  intros I H C D Q. pose proof (runs_last l E dt E1 dt1 I H C) as La. destruct (compute_bounds _ _ _ _ _ _ _ Q) as (_ & _ & _ & _ & _ & [(_ & _ & _ & G)|(_ & _ & G)]); [rewrite La; exact G|]. rewrite C in G. lra.
Qed.
Lemma runs_max l : forall E dt E' dt', (computedOnce E = true -> dt <= maxDt E) -> runs E dt l = Done (E', dt') -> computedOnce E' = true -> dt' <= maxDt E.
Proof.
  induction l as [|[bs cs] l IH]; intros E dt E' dt' I; cbn [runs]; [intros H; injection H as <- <-; auto|]. destruct (computeTimeStep E dt bs cs) as [[[E1 dt1] bs1]|] eqn:Q; cbn [bind fst snd]; [|discriminate]. intros H K. destruct (compute_bounds _ _ _ _ _ _ _ Q) as (B & _ & _ & _ & _ & O). rewrite <- B. apply (IH E1 dt1 E' dt'); [|exact H|exact K]. rewrite B. destruct O as [(_ & _ & A & _)|(_ & C & A)]; [auto|]. intros K1. rewrite C in K1. rewrite K1 in A. rewrite A. auto.
Qed.

(** ** memory *)
Lemma resize_done E n : (viscEl E = true -> nStiff E = nVisc E) -> exists s v, resize E n = Done (s, v) /\ (viscEl E = true -> s = v).
Proof.
  intros H. unfold resize. destruct (viscEl E) eqn:V.
  - rewrite <- (H eq_refl). destruct (nStiff E <? n)%nat; cbn [andb]; rewrite (proj2 (Nat.ltb_ge _ _) (le_n _)); eauto.
  - destruct (nStiff E <? n)%nat; cbn [andb]; eexists; eexists; (split; [reflexivity|discriminate]).
Qed.
Definition safe_body (E : engine) (cs : list contact) (i : nat) (b : body) : Prop :=
  (densityScaling E = true -> complete b = true -> elastic b <> None) /\ (viscEl E = true -> densityScaling E = false -> isZv (with_members b (total stiff_of cs) i) = false).
Lemma find_done E cs i b st : safe_body E cs i b -> exists r, findTimeStepFromBody E cs i b st = Done r.
Proof.
  intros (S1 & S2). unfold findTimeStepFromBody. destruct (isZv (with_members b (total stiff_of cs) i)) eqn:Z.
  - destruct (densityScaling E) eqn:DS.
    + unfold free_dt. destruct (complete b) eqn:C; [destruct (elastic b) as [[r y]|] eqn:El; [|destruct (S1 eq_refl eq_refl eq_refl)]|]; cbn [bind fst snd]; destruct (viscEl E); cbn [negb]; eauto.
    + cbn [bind fst snd]. destruct (viscEl E) eqn:VE; cbn [negb]; [|eauto]. specialize (S2 eq_refl eq_refl). discriminate.
  - cbn [bind]. destruct (densityScaling E); eauto.
Qed.
Lemma loop_done E cs bs : forall a st, (forall i b, nth_error bs i = Some (Some b) -> dynamic b = true -> member b = false -> safe_body E cs (a + i)%nat b) -> exists r, foldM (one E cs) (combine (seq a (length bs)) bs) st = Done r.
Proof.
  induction bs as [|o bs IH]; intros a st H; [cbn; eauto|]. cbn [length seq combine foldM]. assert (K : exists st', one E cs st (a, o) = Done st').
  { unfold one. destruct st as [[nd som] out]. cbn [snd fst]. destruct o as [b|]; [|eauto]. destruct (dynamic b) eqn:D, (member b) eqn:M; cbn [andb negb]; eauto. pose proof (H 0%nat b eq_refl D M) as S. rewrite Nat.add_0_r in S. destruct (find_done E cs a b (nd, som) S) as ([[x y] z] & ->). cbn [bind]. eauto. }
  destruct K as (st' & ->). cbn [bind]. apply IH. intros i b Hb. rewrite Nat.add_succ_comm. apply (H (S i) b Hb).
Qed.
Lemma compute_done E dt bs cs : (viscEl E = true -> nStiff E = nVisc E) -> (forall i b, nth_error bs i = Some (Some b) -> dynamic b = true -> member b = false -> safe_body E cs i b) ->
  exists E' dt' bs', computeTimeStep E dt bs cs = Done (E', dt', bs') /\ (viscEl E' = true -> nStiff E' = nVisc E') /\ viscEl E' = viscEl E /\ densityScaling E' = densityScaling E.
Proof.
  intros V H. unfold computeTimeStep. set (d := if Rlt_dec _ 0 then _ else _). destruct (resize_done E (length bs) V) as (s & v & -> & SV). cbn [bind fst snd]. set (E1 := mkE d _ _ _ _ _ _ _ _ _ _ _). destruct (loop_done E1 cs bs 0 (MAX_REAL, false, [])) as ([[nd som] out] & ->); [intros i b Hb D M; exact (H i b Hb D M)|]. cbn [bind].
  destruct (som || densityScaling E); eexists; eexists; eexists; (split; [reflexivity|]); cbn [viscEl nStiff nVisc densityScaling E1]; auto.
Qed.
Lemma touched_stiff n cs i : (forall c, In c cs -> loaded n c) -> (exists c, In c cs /\ (c1 c = i \/ c2 c = i)) -> isZv (total stiff_of cs i) = false.
Proof. intros L (c & Hc & T). destruct (isZv (total stiff_of cs i)) eqn:Z; [|reflexivity]. apply isZv_true in Z. destruct (total_zero n cs i L Z c Hc) as (A & C). destruct T; contradiction. Qed.
Definition safe_scene (E : engine) (s : list (option body) * list contact) : Prop :=
  (densityScaling E = true -> spheres (fst s)) /\ (viscEl E = true -> densityScaling E = false -> ordinary s /\ touched (fst s) (snd s)).
Lemma runs_done l : forall E dt, (viscEl E = true -> nStiff E = nVisc E) -> Forall (safe_scene E) l -> exists r, runs E dt l = Done r.
Proof.
  induction l as [|[bs cs] l IH]; intros E dt V F; cbn [runs]; [eauto|]. inversion F as [|? ? F1 F2]; subst. destruct F1 as (G1 & G2). cbn [fst snd] in *. destruct (compute_done E dt bs cs V) as (E' & dt' & bs' & -> & V' & A & C).
  - intros i b Hb D M. split; [intros DS; exact (G1 DS i b Hb)|]. intros VE DS. destruct (G2 VE DS) as ((Pl & L) & T). cbn [fst snd] in *. destruct (Pl i b Hb) as (_ & _ & _ & Cl). unfold with_members. rewrite Cl. apply (touched_stiff (length bs)); [exact L|]. exact (T i b Hb D).
  - cbn [bind fst snd]. apply IH; [exact V'|]. revert F2. apply Forall_impl. intros s. unfold safe_scene. rewrite A, C. auto.
Qed.
Lemma activated_done E iter : interval E <> 0%Z -> exists b, isActivated E iter = Done b.
Proof. intros H. unfold isActivated. destruct (active E), (computedOnce E); eauto. rewrite (proj2 (Z.eqb_neq _ _) H). eauto. Qed.
