(** Normal forces of inelastic contacts *)
From Coq Require Import Reals List ZArith Bool Lra Lia.
From Verif Require Import Vec_Model Rigid_Model Law_Model Inel_Model Inel_Spec.
Import ListNotations.
Local Open Scope R_scope.

Lemma ltR_t a b : a < b -> ltR a b = true. Proof. unfold ltR. intros H. destruct (Rlt_dec a b); [reflexivity|contradiction]. Qed.
Lemma ltR_f a b : b <= a -> ltR a b = false. Proof. unfold ltR. intros H. destruct (Rlt_dec a b); [lra|reflexivity]. Qed.
Lemma leR_t a b : a <= b -> leR a b = true. Proof. unfold leR. intros H. destruct (Rle_dec a b); [reflexivity|contradiction]. Qed.
Lemma leR_f a b : b < a -> leR a b = false. Proof. unfold leR. intros H. destruct (Rle_dec a b); [lra|reflexivity]. Qed.
Lemma ltR_iff a b : ltR a b = true <-> a < b. Proof. unfold ltR. destruct (Rlt_dec a b); split; intros; (assumption || reflexivity || contradiction || discriminate). Qed.
Lemma ltR_iff_f a b : ltR a b = false <-> b <= a. Proof. unfold ltR. destruct (Rlt_dec a b); split; intros; try discriminate; try reflexivity; lra. Qed.

(** ** C263: histories *)
Definition hist_C (k : nconst) (m : R) (s : nstate) : Prop :=
  isBroken s = false /\ unp s = 0 /\ 0 <= elC s /\ 0 <= m /\
  ((onC s = false /\ cC0 s <= m /\ knC k * m <= elC s) \/ (onC s = true /\ cC0 s = m /\ cC1 s = elC s + kCrp k * (m - elC s / knC k) /\ elC s < knC k * m)).
Lemma hist_C_step k m s x : 0 < knC k -> hist_C k m s -> 0 < x <= maxContract k -> 0 <= hysteretic (knC k) (kCrp k) (kUnl k) (elC s) (Rmax m x) x ->
  exists s', normal_law k s x = (NForce (hysteretic (knC k) (kCrp k) (kUnl k) (elC s) (Rmax m x) x), s') /\ hist_C k (Rmax m x) s' /\ elC s' = elC s.
Proof.
  intros K (B & U & E & M & Q) X P. unfold normal_law. cbv zeta. rewrite U, B. replace (x - 0) with x by ring. rewrite (leR_f x 0) by lra. rewrite (ltR_f (maxContract k) x) by lra. cbn [orb].
  destruct Q as [(O & C & L) | (O & C0 & C1 & L)].
  - destruct (Rle_lt_dec (knC k * x) (elC s)) as [H | H].
    + assert (HM : knC k * Rmax m x <= elC s) by (unfold Rmax; destruct (Rle_dec m x); assumption).
      assert (F : hysteretic (knC k) (kCrp k) (kUnl k) (elC s) (Rmax m x) x = knC k * x) by (unfold hysteretic; destruct (Rle_dec (knC k * Rmax m x) (elC s)); [reflexivity|contradiction]).
      rewrite F. unfold compression. cbv zeta. rewrite (ltR_f (elC s) (knC k * x)) by exact H. rewrite O. cbn [orb fst snd]. eexists. split; [reflexivity|].
      split; [|reflexivity]. unfold hist_C. cbn [isBroken unp elC onC cC0 cC1]. split; [exact B|]. split; [exact U|]. split; [exact E|]. pose proof (Rmax_l m x). pose proof (Rmax_r m x). split; [lra|]. left. repeat split; assumption.
    + assert (MX : m < x) by (apply (Rmult_lt_reg_l (knC k)); lra). rewrite (Rmax_right m x) in * by lra.
      assert (F : hysteretic (knC k) (kCrp k) (kUnl k) (elC s) x x = elC s + kCrp k * (x - elC s / knC k)).
      { unfold hysteretic, curve. destruct (Rle_dec (knC k * x) (elC s)); [lra|]. ring. }
      rewrite F in *. unfold compression. cbv zeta. rewrite (ltR_t (elC s) (knC k * x)) by exact H. cbn [orb]. rewrite (ltR_f x (cC0 s)) by lra. rewrite (ltR_f (elC s + kCrp k * (x - elC s / knC k)) 0) by exact P. cbn [fst snd].
      eexists. split; [reflexivity|]. split; [|reflexivity]. unfold hist_C. cbn [isBroken unp elC onC cC0 cC1]. split; [exact B|]. split; [exact U|]. split; [exact E|]. split; [lra|]. right. repeat split; [exact H].
  - assert (F : hysteretic (knC k) (kCrp k) (kUnl k) (elC s) (Rmax m x) x = if ltR x m then kUnl k * (x - m) + cC1 s else elC s + kCrp k * (x - elC s / knC k)).
    { unfold ltR. destruct (Rlt_dec x m) as [J | J].
      - rewrite Rmax_left by lra. unfold hysteretic, curve. destruct (Rle_dec (knC k * m) (elC s)); [lra|]. rewrite C1. ring.
      - rewrite Rmax_right by lra. assert (elC s < knC k * x) by (apply (Rlt_le_trans _ (knC k * m)); [exact L|apply Rmult_le_compat_l; lra]). unfold hysteretic, curve. destruct (Rle_dec (knC k * x) (elC s)); [lra|]. ring. }
    rewrite F in *. unfold compression. cbv zeta. rewrite O, orb_true_r, C0.
    destruct (ltR x m) eqn:J; rewrite ltR_f by exact P; cbn [fst snd]; eexists; (split; [reflexivity|]); (split; [|reflexivity]); unfold hist_C; cbn [isBroken unp elC onC cC0 cC1]; (split; [exact B|]); (split; [exact U|]); (split; [exact E|]).
    + apply ltR_iff in J. rewrite Rmax_left by lra. split; [exact M|]. right. repeat split; assumption.
    + apply ltR_iff_f in J. rewrite Rmax_right by lra. split; [lra|]. right. repeat split. apply (Rlt_le_trans _ (knC k * m)); [exact L|apply Rmult_le_compat_l; lra].
Qed.
Lemma hist_C_run k l : forall m s, 0 < knC k -> hist_C k m s -> Forall (fun x => 0 < x <= maxContract k) l -> Forall (fun f => 0 <= f) (expected (knC k) (kCrp k) (kUnl k) (elC s) m l) ->
  answers k s l = map NForce (expected (knC k) (kCrp k) (kUnl k) (elC s) m l).
Proof.
  induction l as [|x l IH]; intros m s K H X P; [reflexivity|]. cbn [answers expected map]. cbn [expected] in P. apply Forall_inv in X as X1. apply Forall_inv_tail in X. apply Forall_inv in P as P1. apply Forall_inv_tail in P.
  destruct (hist_C_step k m s x K H X1 P1) as (s' & E & H' & L). rewrite E. cbn [fst snd]. f_equal. rewrite <- L in *. apply IH; assumption.
Qed.
Theorem compressed k t c l : 0 < knC k -> 0 <= c -> Forall (fun x => 0 < x <= maxContract k) l -> Forall (fun f => 0 <= f) (expected (knC k) (kCrp k) (kUnl k) c 0 l) ->
  answers k (new_contact t c) l = map NForce (expected (knC k) (kCrp k) (kUnl k) c 0 l).
Proof.
  intros K C X P. apply (hist_C_run k l 0 (new_contact t c) K); [|exact X|exact P]. unfold hist_C, new_contact. cbn [isBroken unp elC onC cC0 cC1]. split; [reflexivity|]. split; [reflexivity|]. split; [exact C|]. split; [lra|]. left. split; [reflexivity|]. split; lra.
Qed.

Definition hist_T (k : nconst) (m : R) (s : nstate) : Prop :=
  isBroken s = false /\ unp s = 0 /\ 0 <= elT s /\ 0 <= m /\
  ((onT s = false /\ - cT0 s <= m /\ knT k * m <= elT s) \/ (onT s = true /\ cT0 s = - m /\ cT1 s = - (elT s + kCrp k * (m - elT s / knT k)) /\ elT s < knT k * m)).
Lemma hist_T_step k m s x : 0 < knT k -> hist_T k m s -> 0 <= x <= maxExten k -> 0 <= hysteretic (knT k) (kCrp k) (kUnl k) (elT s) (Rmax m x) x ->
  exists s', normal_law k s (- x) = (NForce (- hysteretic (knT k) (kCrp k) (kUnl k) (elT s) (Rmax m x) x), s') /\ hist_T k (Rmax m x) s' /\ elT s' = elT s.
Proof.
  intros K (B & U & E & M & Q) X P. unfold normal_law. cbv zeta. rewrite U, B. replace (- x - 0) with (- x) by ring. rewrite (leR_t (- x) 0) by lra. replace (- - x) with x by ring. rewrite (ltR_f (maxExten k) x) by lra. cbn [orb].
  unfold tension. cbv zeta. replace (knT k * - x) with (- (knT k * x)) by ring. replace (- - (knT k * x)) with (knT k * x) by ring.
  destruct Q as [(O & C & L) | (O & C0 & C1 & L)].
  - destruct (Rle_lt_dec (knT k * x) (elT s)) as [H | H].
    + assert (HM : knT k * Rmax m x <= elT s) by (unfold Rmax; destruct (Rle_dec m x); assumption).
      assert (F : hysteretic (knT k) (kCrp k) (kUnl k) (elT s) (Rmax m x) x = knT k * x) by (unfold hysteretic; destruct (Rle_dec (knT k * Rmax m x) (elT s)); [reflexivity|contradiction]).
      rewrite F. rewrite (ltR_f (elT s) (knT k * x)) by exact H. rewrite O. cbn [orb fst snd]. eexists. split; [reflexivity|].
      split; [|reflexivity]. unfold hist_T. cbn [isBroken unp elT onT cT0 cT1]. split; [exact B|]. split; [exact U|]. split; [exact E|]. pose proof (Rmax_l m x). pose proof (Rmax_r m x). split; [lra|]. left. repeat split; [lra|assumption].
    + assert (MX : m < x) by (apply (Rmult_lt_reg_l (knT k)); lra). rewrite (Rmax_right m x) in * by lra.
      assert (F : hysteretic (knT k) (kCrp k) (kUnl k) (elT s) x x = elT s + kCrp k * (x - elT s / knT k)).
      { unfold hysteretic, curve. destruct (Rle_dec (knT k * x) (elT s)); [lra|]. ring. }
      rewrite F in *. rewrite (ltR_t (elT s) (knT k * x)) by exact H. cbn [orb]. rewrite (ltR_f (cT0 s) (- x)) by lra.
      replace (- elT s + kCrp k * (- x + elT s / knT k)) with (- (elT s + kCrp k * (x - elT s / knT k))) by ring.
      rewrite (ltR_f 0 (- (elT s + kCrp k * (x - elT s / knT k)))) by lra. cbn [fst snd].
      eexists. split; [reflexivity|]. split; [|reflexivity]. unfold hist_T. cbn [isBroken unp elT onT cT0 cT1]. split; [exact B|]. split; [exact U|]. split; [exact E|]. split; [lra|]. right. repeat split; [exact H].
  - assert (F : - hysteretic (knT k) (kCrp k) (kUnl k) (elT s) (Rmax m x) x = if ltR (- m) (- x) then kUnl k * (- x - - m) + cT1 s else - elT s + kCrp k * (- x + elT s / knT k)).
    { unfold ltR. destruct (Rlt_dec (- m) (- x)) as [J | J].
      - rewrite Rmax_left by lra. unfold hysteretic, curve. destruct (Rle_dec (knT k * m) (elT s)); [lra|]. rewrite C1. ring.
      - rewrite Rmax_right by lra. assert (elT s < knT k * x) by (apply (Rlt_le_trans _ (knT k * m)); [exact L|apply Rmult_le_compat_l; lra]). unfold hysteretic, curve. destruct (Rle_dec (knT k * x) (elT s)); [lra|]. ring. }
    apply Ropp_le_contravar in P. rewrite F in *. rewrite O, orb_true_r, C0.
    destruct (ltR (- m) (- x)) eqn:J; rewrite (ltR_f 0) by lra; cbn [fst snd]; eexists; (split; [reflexivity|]); (split; [|reflexivity]); unfold hist_T; cbn [isBroken unp elT onT cT0 cT1]; (split; [exact B|]); (split; [exact U|]); (split; [exact E|]).
    + apply ltR_iff in J. rewrite Rmax_left by lra. split; [exact M|]. right. repeat split; assumption.
    + apply ltR_iff_f in J. rewrite Rmax_right by lra. split; [lra|]. right. split; [reflexivity|]. split; [reflexivity|]. split; [ring|]. apply (Rlt_le_trans _ (knT k * m)); [exact L|apply Rmult_le_compat_l; lra].
Qed.
Lemma hist_T_run k l : forall m s, 0 < knT k -> hist_T k m s -> Forall (fun x => 0 <= x <= maxExten k) l -> Forall (fun f => 0 <= f) (expected (knT k) (kCrp k) (kUnl k) (elT s) m l) ->
  answers k s (map Ropp l) = map (fun f => NForce (- f)) (expected (knT k) (kCrp k) (kUnl k) (elT s) m l).
Proof.
  induction l as [|x l IH]; intros m s K H X P; [reflexivity|]. cbn [map answers expected]. cbn [expected] in P. apply Forall_inv in X as X1. apply Forall_inv_tail in X. apply Forall_inv in P as P1. apply Forall_inv_tail in P.
  destruct (hist_T_step k m s x K H X1 P1) as (s' & E & H' & L). rewrite E. cbn [fst snd]. f_equal. rewrite <- L in *. apply IH; assumption.
Qed.
Theorem pulled k t c l : 0 < knT k -> 0 <= t -> Forall (fun x => 0 <= x <= maxExten k) l -> Forall (fun f => 0 <= f) (expected (knT k) (kCrp k) (kUnl k) t 0 l) ->
  answers k (new_contact t c) (map Ropp l) = map (fun f => NForce (- f)) (expected (knT k) (kCrp k) (kUnl k) t 0 l).
Proof.
  intros K C X P. apply (hist_T_run k l 0 (new_contact t c) K); [|exact X|exact P]. unfold hist_T, new_contact. cbn [isBroken unp elT onT cT0 cT1]. split; [reflexivity|]. split; [reflexivity|]. split; [exact C|]. split; [lra|]. left. split; [reflexivity|]. split; lra.
Qed.

(** ** C264: passing the equilibrium *)
Lemma elastic_run k t c l : forall s, isBroken s = false -> unp s = 0 -> onT s = false -> onC s = false -> elT s = t -> elC s = c ->
  Forall (fun d => - maxExten k <= d <= maxContract k /\ - t <= bilinear (knT k) (knC k) d <= c) l ->
  answers k s l = map (fun d => NForce (bilinear (knT k) (knC k) d)) l.
Proof.
  induction l as [|d l IH]; intros s B U O1 O2 E1 E2 F; [reflexivity|]. destruct (Forall_inv F) as ((D1 & D2) & D3). apply Forall_inv_tail in F. cbn [answers map].
  assert (S' : exists s', normal_law k s d = (NForce (bilinear (knT k) (knC k) d), s') /\ isBroken s' = false /\ unp s' = 0 /\ onT s' = false /\ onC s' = false /\ elT s' = t /\ elC s' = c).
  { unfold normal_law. cbv zeta. rewrite U, B. replace (d - 0) with d by ring. unfold bilinear in *. destruct (Rle_dec d 0) as [J | J].
    - rewrite (leR_t d 0) by exact J. rewrite (ltR_f (maxExten k) (- d)) by lra. cbn [orb]. unfold tension. cbv zeta. rewrite O1, (ltR_f (elT s) (- (knT k * d))) by lra. cbn [orb fst snd]. eexists. split; [reflexivity|]. cbn [isBroken unp onT onC elT elC]. repeat split; assumption.
    - rewrite (leR_f d 0) by lra. rewrite (ltR_f (maxContract k) d) by lra. cbn [orb]. unfold compression. cbv zeta. rewrite O2, (ltR_f (elC s) (knC k * d)) by lra. cbn [orb fst snd]. eexists. split; [reflexivity|]. cbn [isBroken unp onT onC elT elC]. repeat split; assumption. }
  destruct S' as (s' & E & A1 & A2 & A3 & A4 & A5 & A6). rewrite E. cbn [fst snd]. f_equal. apply IH; assumption.
Qed.
Theorem elastic k t c l : Forall (fun d => - maxExten k <= d <= maxContract k /\ - t <= bilinear (knT k) (knC k) d <= c) l ->
  answers k (new_contact t c) l = map (fun d => NForce (bilinear (knT k) (knC k) d)) l.
Proof. intros F. apply (elastic_run k t c l); (reflexivity || exact F). Qed.

Ltac decide_step := match goal with
  | |- context [leR ?a ?b] => first [rewrite (leR_t a b) by lra | rewrite (leR_f a b) by lra]
  | |- context [ltR ?a ?b] => first [rewrite (ltR_t a b) by lra | rewrite (ltR_f a b) by lra] end; cbn [orb].
Ltac fields := cbn [new_contact soft brittle stiffT knT knC kCrp kUnl maxExten maxContract elT elC isBroken onT onC unp cT0 cT1 cC0 cC1 fst snd orb].
Theorem jumps_refuted eps : 0 < eps < 1 -> exists f, answers soft (new_contact 1 10) [-3; -(1/2); -(1/2) + eps] = [NForce (-2); NForce (1/2); NForce f] /\ 5 < f.
Proof.
  intros E. exists (5 + eps / 2). split; [|lra]. cbn [answers].
  assert (S1 : normal_law soft (new_contact 1 10) (-3) = (NForce (-2), mkN 1 10 false true true 0 (-3) (-2) 0 0)).
  { unfold normal_law, tension. cbv zeta. fields. repeat decide_step. fields. apply (f_equal2 pair); [f_equal; field|]. apply (f_equal2 (fun a b => mkN 1 10 false true true 0 a b 0 0)); field. }
  assert (S2 : normal_law soft (mkN 1 10 false true true 0 (-3) (-2) 0 0) (-(1/2)) = (NForce (1/2), mkN 0 10 false true true (-(1/2)) huge (-2) 0 0)).
  { unfold normal_law, tension. cbv zeta. fields. repeat decide_step. fields. apply (f_equal2 pair); [f_equal; field|reflexivity]. }
  assert (S3 : fst (normal_law soft (mkN 0 10 false true true (-(1/2)) huge (-2) 0 0) (-(1/2) + eps)) = NForce (5 + eps / 2)).
  { unfold normal_law, compression. cbv zeta. fields. repeat decide_step. fields. f_equal. field. }
  rewrite S1. cbn [fst snd]. rewrite S2. cbn [fst snd]. rewrite S3. reflexivity.
Qed.

(** ** C265: plastic forces and elastic ones *)
Lemma expected_last k c u el l : forall m d, Forall (fun x => x <= d) l -> m <= d -> exists fs, expected k c u el m (l ++ [d]) = fs ++ [hysteretic k c u el d d].
Proof.
  induction l as [|x l IH]; intros m d F M.
  - exists []. cbn [app expected]. rewrite Rmax_right by exact M. reflexivity.
  - apply Forall_inv in F as X. apply Forall_inv_tail in F. destruct (IH (Rmax m x) d F) as (fs & E); [apply Rmax_lub; assumption|]. exists (hysteretic k c u el (Rmax m x) x :: fs). cbn [app expected]. rewrite E. reflexivity.
Qed.
Lemma creep_below k c u el d : 0 < k -> c <= k -> hysteretic k c u el d d <= k * d.
Proof.
  intros K C. unfold hysteretic, curve. destruct (Rle_dec (k * d) el) as [H | H]; [lra|]. apply Rnot_le_lt in H.
  assert (J : 0 <= d - el / k). { apply (Rmult_le_reg_l k); [exact K|]. rewrite Rmult_0_r. replace (k * (d - el / k)) with (k * d - el) by (field; lra). lra. }
  assert (P : c * (d - el / k) <= k * (d - el / k)) by (apply Rmult_le_compat_r; assumption). replace (k * (d - el / k)) with (k * d - el) in P by (field; lra). lra.
Qed.
Theorem pulled_below k t c l d : 0 < knT k -> kCrp k <= knT k -> 0 <= t -> Forall (fun x => 0 <= x <= maxExten k) (l ++ [d]) -> Forall (fun f => 0 <= f) (expected (knT k) (kCrp k) (kUnl k) t 0 (l ++ [d])) ->
  Forall (fun x => x <= d) l -> exists fs f, answers k (new_contact t c) (map Ropp (l ++ [d])) = fs ++ [NForce (- f)] /\ 0 <= f <= knT k * d.
Proof.
  intros K C T X P L. rewrite (pulled k t c (l ++ [d]) K T X P). assert (D : 0 <= d) by (apply Forall_app in X as (_ & X); apply Forall_inv in X; lra).
  destruct (expected_last (knT k) (kCrp k) (kUnl k) t l 0 d L D) as (fs & E). rewrite E in *. rewrite map_app. eexists. eexists. split; [reflexivity|]. split; [apply Forall_app in P as (_ & P); apply Forall_inv in P; exact P|]. apply creep_below; assumption.
Qed.
Theorem compressed_below k t c l d : 0 < knC k -> kCrp k <= knC k -> 0 <= c -> Forall (fun x => 0 < x <= maxContract k) (l ++ [d]) -> Forall (fun f => 0 <= f) (expected (knC k) (kCrp k) (kUnl k) c 0 (l ++ [d])) ->
  Forall (fun x => x <= d) l -> exists fs f, answers k (new_contact t c) (l ++ [d]) = fs ++ [NForce f] /\ 0 <= f <= knC k * d.
Proof.
  intros K C T X P L. rewrite (compressed k t c (l ++ [d]) K T X P). assert (D : 0 <= d) by (apply Forall_app in X as (_ & X); apply Forall_inv in X; lra).
  destruct (expected_last (knC k) (kCrp k) (kUnl k) c l 0 d L D) as (fs & E). rewrite E in *. rewrite map_app. eexists. eexists. split; [reflexivity|]. split; [apply Forall_app in P as (_ & P); apply Forall_inv in P; exact P|]. apply creep_below; assumption.
Qed.
Theorem compressed_refuted : kCrp stiffT = knT stiffT * (1/2) /\ answers stiffT (new_contact 1 1) [2] = [NForce 6] /\ bilinear (knT stiffT) (knC stiffT) 2 = 2.
Proof.
  split; [reflexivity|]. split.
  - cbn [answers]. f_equal. unfold normal_law, compression. cbv zeta. fields. repeat decide_step. fields. f_equal. field.
  - unfold bilinear. destruct (Rle_dec 2 0); [lra|]. cbn [stiffT knC]. ring.
Qed.

(** ** C266: broken contacts *)
Lemma broken_step k s d : isBroken s = true -> normal_law k s d = (if leR d (Rmax 0 (unp s)) && (leR d (unp s) || leR d 0) then NErase else NSpent, set_broken s).
Proof.
  intros B. unfold normal_law. cbv zeta. rewrite B, !orb_true_r. pose proof (Rmax_l 0 (unp s)). pose proof (Rmax_r 0 (unp s)). destruct (Rle_lt_dec d (unp s)) as [J | J].
  - rewrite (leR_t (d - unp s) 0) by lra. rewrite (leR_t d (Rmax 0 (unp s))), (leR_t d (unp s)) by lra. reflexivity.
  - rewrite (leR_f (d - unp s) 0) by lra. rewrite (leR_f d (unp s)) by lra. destruct (Rle_lt_dec d 0) as [I | I]; [rewrite (leR_t d (Rmax 0 (unp s))), (leR_t d 0) by lra; reflexivity|]. rewrite (leR_f d 0) by lra. rewrite andb_false_r. reflexivity.
Qed.
Theorem broken_forever k l : forall s, isBroken s = true -> isBroken (after k s l) = true /\ Forall (fun a => a = NErase \/ a = NSpent) (answers k s l).
Proof.
  induction l as [|d l IH]; intros s B; [split; [exact B|apply Forall_nil]|]. cbn [after answers]. rewrite (broken_step k s d B). cbn [fst snd]. destruct (IH (set_broken s) eq_refl) as (I1 & I2). split; [exact I1|]. apply Forall_cons; [|exact I2].
  destruct (leR d (Rmax 0 (unp s)) && (leR d (unp s) || leR d 0)); [left|right]; reflexivity.
Qed.
Theorem breaks k s d : d < unp s - maxExten k /\ 0 <= maxExten k \/ unp s + maxContract k < d /\ 0 <= maxContract k -> isBroken (snd (normal_law k s d)) = true.
Proof.
  unfold normal_law. cbv zeta. intros [(H & P) | (H & P)].
  - rewrite (leR_t (d - unp s) 0) by lra. rewrite (ltR_t (maxExten k) (- (d - unp s))) by lra. reflexivity.
  - rewrite (leR_f (d - unp s) 0) by lra. rewrite (ltR_t (maxContract k) (d - unp s)) by lra. cbn [orb]. reflexivity.
Qed.
Lemma tension_keeps k s d un : isBroken (snd (tension k s d un)) = isBroken s.
Proof. unfold tension. cbv zeta. destruct (ltR _ _ || onT s); [|reflexivity]. destruct (ltR 0 _); reflexivity. Qed.
Lemma compression_keeps k s d un : isBroken (snd (compression k s d un)) = isBroken s.
Proof. unfold compression. cbv zeta. destruct (ltR _ _ || onC s); [|reflexivity]. destruct (ltR _ 0); reflexivity. Qed.
Theorem breaks_only k s d : isBroken s = false -> - maxExten k <= d - unp s <= maxContract k -> isBroken (snd (normal_law k s d)) = false /\ exists f, fst (normal_law k s d) = NForce f.
Proof.
  intros B H. unfold normal_law. cbv zeta. rewrite B. unfold leR. destruct (Rle_dec (d - unp s) 0) as [J | J].
  - rewrite (ltR_f (maxExten k) (- (d - unp s))) by lra. cbn [orb fst snd]. split; [rewrite tension_keeps; exact B|eexists; reflexivity].
  - rewrite (ltR_f (maxContract k) (d - unp s)) by lra. cbn [orb fst snd]. split; [rewrite compression_keeps; exact B|eexists; reflexivity].
Qed.
Theorem erased k s d : fst (normal_law k s d) = NErase -> d <= Rmax 0 (unp s) /\ isBroken (snd (normal_law k s d)) = true.
Proof.
  unfold normal_law. cbv zeta. pose proof (Rmax_l 0 (unp s)). pose proof (Rmax_r 0 (unp s)). unfold leR. destruct (Rle_dec (d - unp s) 0) as [J | J]; destruct (ltR _ _ || isBroken s); cbn [fst snd]; intros E; try discriminate E.
  - split; [lra|reflexivity].
  - destruct (Rle_dec d 0); [|discriminate E]. split; [lra|reflexivity].
Qed.
Theorem erased_refuted : answers brittle (new_contact 1 1) [3; 1/2; 1/8] = [NForce 2; NForce (-(1/2)); NErase].
Proof.
  assert (S1 : normal_law brittle (new_contact 1 1) 3 = (NForce 2, mkN 1 1 false false true 0 0 0 3 2)).
  { unfold normal_law, compression. cbv zeta. fields. repeat decide_step. fields. apply (f_equal2 pair); [f_equal; field|]. apply (f_equal2 (fun a b => mkN 1 1 false false true 0 0 0 a b)); field. }
  assert (S2 : normal_law brittle (mkN 1 1 false false true 0 0 0 3 2) (1/2) = (NForce (-(1/2)), mkN 1 0 false false true (1/2) 0 0 (- huge) 2)).
  { unfold normal_law, compression. cbv zeta. fields. repeat decide_step. fields. apply (f_equal2 pair); [f_equal; field|reflexivity]. }
  assert (S3 : fst (normal_law brittle (mkN 1 0 false false true (1/2) 0 0 (- huge) 2) (1/8)) = NErase).
  { unfold normal_law. cbv zeta. fields. repeat decide_step. reflexivity. }
  cbn [answers]. rewrite S1. cbn [fst snd]. rewrite S2. cbn [fst snd]. rewrite S3. reflexivity.
Qed.
(** plasticity of tension is that of compression too, but not the other way; flags are never taken back *)
Theorem plastic_flags k s d : let s' := snd (normal_law k s d) in
  (isBroken s = false -> - maxExten k <= d - unp s <= 0 -> elT s < knT k * (unp s - d) -> onT s' = true /\ onC s' = true) /\
  (isBroken s = false -> 0 < d - unp s <= maxContract k -> elC s < knC k * (d - unp s) -> onC s' = true /\ onT s' = onT s) /\
  (isBroken s = false -> 0 < d - unp s <= maxContract k -> onC s = false -> knC k * (d - unp s) <= elC s -> onC s' = false) /\
  (isBroken s = false -> - maxExten k <= d - unp s <= 0 -> onT s = false -> knT k * (unp s - d) <= elT s -> onT s' = false /\ onC s' = onC s) /\
  (onT s = true -> onT s' = true) /\ (onC s = true -> onC s' = true).
Proof.
  cbv zeta. unfold normal_law. cbv zeta. split; [|split; [|split; [|split; [|split]]]].
  - intros B U E. rewrite leR_t, B, ltR_f by lra. cbn [orb snd]. unfold tension. cbv zeta. rewrite (ltR_t (elT s)) by lra. cbn [orb]. destruct (ltR 0 _); split; reflexivity.
  - intros B U E. rewrite leR_f, B, ltR_f by lra. cbn [orb snd]. unfold compression. cbv zeta. rewrite (ltR_t (elC s)) by lra. cbn [orb]. destruct (ltR _ 0); split; reflexivity.
  - intros B U C E. rewrite leR_f, B, ltR_f by lra. cbn [orb snd]. unfold compression. cbv zeta. rewrite (ltR_f (elC s)), C by lra. reflexivity.
  - intros B U C E. rewrite leR_t, B, ltR_f by lra. cbn [orb snd]. unfold tension. cbv zeta. rewrite (ltR_f (elT s)), C by lra. split; reflexivity.
  - intros T. destruct (leR _ 0); destruct (ltR _ _ || isBroken s); cbn [snd set_broken onT]; try exact T; unfold tension, compression; cbv zeta; [rewrite T, orb_true_r; destruct (ltR 0 _); reflexivity|]. destruct (ltR (elC s) _ || onC s); [destruct (ltR _ 0)|]; exact T.
  - intros T. destruct (leR _ 0); destruct (ltR _ _ || isBroken s); cbn [snd set_broken onC]; try exact T; unfold tension, compression; cbv zeta; [|rewrite T, orb_true_r; destruct (ltR _ 0); reflexivity]. destruct (ltR (elT s) _ || onT s); [destruct (ltR 0 _); reflexivity|exact T].
Qed.
