(** Cohesive contacts: histories, cohesion assigned, energies. *)
From Coq Require Import Reals List ZArith Bool Lra Lia Psatz Sorted.
From Verif Require Import Vec_Model Vec_Proofs Rigid_Model Rigid_Spec Law_Model Law_Spec Law_Proofs Coh_Model Coh_Spec Coh_Proofs.
Import ListNotations.
Local Open Scope R_scope.

(** ** histories *)
Lemma yield_breaks k p s Fn n trial fn fs br d : yield k p s Fn n trial = (fn, fs, br, d) -> br = true -> cfragile s = true /\ broken s = false.
Proof. unfold yield. cbv zeta. destruct (ltR _ _); intros H B; injection H as _ _ H _; rewrite B in H; [|discriminate H]. apply andb_true_iff in H as [A C]. apply negb_true_iff in C. auto. Qed.
Lemma go_state k p i1 i2 t s s' a d : go k p i1 i2 t s = Kept s' a d -> cfragile s' = cfragile s /\ initCohesion s' = initCohesion s /\ (same_strength s s' \/ has_broken s s').
Proof.
  intros H. destruct (go_kept _ _ _ _ _ _ _ _ _ H) as (Fn & u & trial & fn & fs & br & mt & mb & EN & ET & EY & -> & _). split; [reflexivity|]. split; [reflexivity|]. unfold same_strength, has_broken. cbn [broken normalAdh shearAdh]. destruct br.
  - right. destruct (yield_breaks _ _ _ _ _ _ _ _ _ _ EY eq_refl) as [A B]. rewrite orb_true_r. auto.
  - left. rewrite orb_false_r. auto.
Qed.
Lemma history_state k p i1 i2 s s' : history k p i1 i2 s s' -> cfragile s' = cfragile s /\ initCohesion s' = initCohesion s /\ (same_strength s s' \/ has_broken s s').
Proof.
  induction 1 as [|s t s1 a d s2 _ (F & I & IH) G]; [split; [reflexivity|split; [reflexivity|left; repeat split]]|]. destruct (go_state _ _ _ _ _ _ _ _ _ G) as (F2 & I2 & G2). split; [congruence|]. split; [congruence|].
  unfold same_strength, has_broken in *. destruct IH as [(A & B & C)|(A & B & C & D & E)]; destruct G2 as [(A2 & B2 & C2)|(A2 & B2 & C2 & D2 & E2)].
  - left. split; [congruence|]. split; congruence.
  - right. split; [congruence|]. split; [congruence|]. auto.
  - right. split; [exact A|]. split; [exact B|]. split; [congruence|]. split; congruence.
  - congruence.
Qed.
Lemma go_compression k p i1 i2 t s s' a d : go k p i1 i2 t s = Kept s' a d -> ckn p <> 0 -> normalAdh s = 0 -> exists Fn, 0 <= Fn /\ cnormal s' = smul Fn (normal (cg t)).
Proof.
  intros H K Z. destruct (go_kept _ _ _ _ _ _ _ _ _ H) as (Fn & u & trial & fn & fs & br & mt & mb & EN & ET & EY & -> & _). destruct (normal_law_spec _ _ _ _ _ K EN) as (_ & _ & N & _). assert (P : 0 <= Fn) by lra. exists Fn. split; [exact P|]. cbn [cnormal].
  revert EY. unfold yield. cbv zeta. rewrite (proj2 (ltR_false Fn 0) P). destruct (ltR _ _); intros E; injection E as <- _ _ _; reflexivity.
Qed.
Lemma broken_no_tension k p i1 i2 s s1 t s2 a d : history k p i1 i2 s s1 -> broken s = true -> normalAdh s = 0 -> ckn p <> 0 -> go k p i1 i2 t s1 = Kept s2 a d -> broken s2 = true /\ exists Fn, 0 <= Fn /\ cnormal s2 = smul Fn (normal (cg t)).
Proof.
  intros Hi B Z K G. destruct (history_state _ _ _ _ _ _ Hi) as (_ & _ & [(B1 & N1 & _)|(_ & B1 & _)]); [|congruence]. split; [|apply (go_compression _ _ _ _ _ _ _ _ _ G K); congruence].
  destruct (go_state _ _ _ _ _ _ _ _ _ G) as (_ & _ & [(B2 & _)|(_ & B2 & _)]); congruence.
Qed.
Lemma go_lost k p i1 i2 t s : ckn p <> 0 -> (exists s', go k p i1 i2 t s = Lost s') <-> normalAdh s < ckn p * (unp s - penetrationDepth (cg t)) /\ (cfragile s = true \/ (0 <= unpMax p /\ unpMax p < - (penetrationDepth (cg t) + normalAdh s / ckn p))).
Proof.
  intros K. set (un := penetrationDepth (cg t)). assert (G : (exists s', go k p i1 i2 t s = Lost s') <-> exists u, normal_law p s un = Some (inr u)).
  { unfold go. fold un. destruct (normal_law p s un) as [[[Fn u]|u]|].
    - split; [|intros [u' H]; discriminate]. intros [s' H]. destruct (trial_shear k p s t) as [trial|]; [|discriminate]. destruct (yield k p s Fn (normal (cg t)) trial) as [[[fn fs] br] d]. destruct (momentLaw p && _); [|discriminate]. destruct (incremental k && twistCreep k); [discriminate|]. destruct (trial_moments k p s t). discriminate.
    - split; intros _; [exists u; reflexivity|]. eexists. reflexivity.
    - split; intros [x H]; discriminate. }
  rewrite G. clear G. unfold normal_law. cbv zeta. replace (- (ckn p * (un - unp s))) with (ckn p * (unp s - un)) by ring. rewrite (proj2 (is0_false (ckn p)) K). destruct (ltR (normalAdh s) (ckn p * (unp s - un))) eqn:E; rewrite ?andb_true_r, ?andb_false_r; cmp.
  - destruct (cfragile s); [split; [auto|intros _; eexists; reflexivity]|]. destruct (leR 0 (unpMax p)) eqn:U; cbn [andb]; cmp.
    + destruct (ltR (unpMax p) _) eqn:L; cmp; (split; [intros [u H]|intros H]).
      * auto.
      * eexists. reflexivity.
      * discriminate.
      * destruct H as [_ [H|[_ H]]]; [discriminate|lra].
    + split; [intros [u H]; discriminate|]. intros [_ [H|[H _]]]; [discriminate|lra].
  - split; [intros [u H]; discriminate|]. intros [H _]. lra.
Qed.

(** ** cohesion assigned *)
Lemma flags_off l d : flags l (mkIp false d) = map (fun _ => false) l.
Proof. induction l as [|i l IH]; [reflexivity|]. cbn [flags map]. unfold tick. cbn [setNow defIter andb]. cbn [setNow]. now rewrite IH. Qed.
Lemma tick_same i : tick i (mkIp true i) = mkIp true i.
Proof. unfold tick. cbn [setNow defIter andb]. destruct (i =? -1)%Z eqn:E; rewrite ?Z.eqb_refl, ?E; cbn [negb andb]; rewrite ?Z.eqb_refl; reflexivity. Qed.
Lemma tick_first i : tick i (mkIp true (-1)) = mkIp true i.
Proof. unfold tick. cbn [setNow defIter andb]. rewrite Z.eqb_refl. rewrite Z.eqb_refl. rewrite andb_false_r. reflexivity. Qed.
Lemma tick_other i j : (i <> -1)%Z -> (i <> j)%Z -> tick j (mkIp true i) = mkIp false (-1).
Proof. intros A B. unfold tick. cbn [setNow defIter andb]. rewrite (proj2 (Z.eqb_neq i (-1)) A). rewrite (proj2 (Z.eqb_neq i (-1)) A), (proj2 (Z.eqb_neq i j) B). reflexivity. Qed.
Lemma flags_on l : forall i, (0 <= i)%Z -> StronglySorted Z.le (i :: l) -> flags l (mkIp true i) = map (Z.eqb i) l.
Proof.
  induction l as [|j l IH]; intros i P S1; [reflexivity|]. cbn [flags map]. inversion S1 as [|? ? S2 F]; subst. inversion F as [|? ? L F']; subst. inversion S2 as [|? ? S3 F2]; subst. destruct (Z.eqb_spec i j) as [<-|N].
  - rewrite tick_same. cbn [setNow]. f_equal. apply IH; [exact P|exact S2].
  - rewrite (tick_other i j) by lia. cbn [setNow]. f_equal. rewrite flags_off. apply map_ext_in. intros x X. rewrite Forall_forall in F2. specialize (F2 x X). symmetry. apply Z.eqb_neq. lia.
Qed.
Lemma flags_first i l : (0 <= i)%Z -> StronglySorted Z.le (i :: l) -> flags (i :: l) (mkIp true (-1)) = map (Z.eqb i) (i :: l).
Proof. intros P S1. cbn [flags map]. rewrite tick_first. cbn [setNow]. rewrite Z.eqb_refl. f_equal. apply flags_on; assumption. Qed.
Lemma set_again_lost i j : (0 <= i < j)%Z -> setNow (tick j (user_sets (tick i (user_sets (mkIp false (-1)))))) = false.
Proof. intros H. unfold user_sets. cbn [defIter]. rewrite tick_first. cbn [defIter]. rewrite tick_other by lia. reflexivity. Qed.
Lemma saved_again i j : setNow (tick j (save_load (tick i (user_sets (mkIp false (-1)))))) = true.
Proof. unfold user_sets, save_load. cbn [defIter]. rewrite tick_first. cbn [setNow]. rewrite tick_first. reflexivity. Qed.

Lemma create_some c now m1 m2 g p s : create c now m1 m2 g = Some (p, s) -> exists an sn, strength (nMatch c) m1 m2 normalCohesion = Some an /\ strength (sMatch c) m1 m2 shearCohesion = Some sn /\
  s = (if (onNew c || now) && isCohesive m1 && isCohesive m2 then make_cohesive an sn g m1 m2 initial_state else initial_state) /\
  harmonic (young (cbase m1) * radius1 g) (young (cbase m2) * radius2 g) = Some (ckn p) /\ unpMax p = 0 /\ disablesFriction p = false /\ momentLaw p = mmoment m1 && mmoment m2 /\
  harmonic0 (poisson (cbase m1)) (poisson (cbase m2)) (young (cbase m1) * radius1 g * poisson (cbase m1)) (young (cbase m2) * radius2 g * poisson (cbase m2)) = Some (cks p) /\
  (exists ar, harmonic0 (alphaKr m1) (alphaKr m2) (alphaKr m1) (alphaKr m2) = Some ar /\ ckr p = radius1 g * radius2 g * cks p * ar) /\
  (exists ar, harmonic0 (alphaKtw m1) (alphaKtw m2) (alphaKtw m1) (alphaKtw m2) = Some ar /\ cktw p = radius1 g * radius2 g * cks p * ar) /\
  maxRollPl p = Rmin (etaRoll m1 * radius1 g) (etaRoll m2 * radius2 g) /\ maxTwistPl p = Rmin (etaTwist m1 * radius1 g) (etaTwist m2 * radius2 g) /\
  (fMatch c = None -> ctan p = tan (Rmin (frictionAngle (cbase m1)) (frictionAngle (cbase m2)))).
Proof.
  unfold create. cbv zeta. destruct (strength (nMatch c) m1 m2 normalCohesion) as [an|]; [|discriminate]. destruct (strength (sMatch c) m1 m2 shearCohesion) as [sn|]; [|discriminate]. destruct (harmonic (young (cbase m1) * radius1 g) (young (cbase m2) * radius2 g)) as [Kn|]; [|discriminate].
  destruct (harmonic0 (poisson (cbase m1)) _ _ _) as [Ks|]; [|discriminate]. destruct (harmonic0 (alphaKr m1) _ _ _) as [ar|]; [|discriminate]. destruct (harmonic0 (alphaKtw m1) _ _ _) as [atw|]; [|discriminate].
  destruct (fMatch c) as [mm|] eqn:EF.
  - destruct (mm_call mm _ _ _ _) as [phi|]; [|discriminate]. intros H. injection H as <- <-. exists an, sn. cbn [ckn cks ctan disablesFriction ckr cktw maxRollPl maxTwistPl unpMax momentLaw]. repeat (split; [reflexivity || (eexists; split; reflexivity)|]). discriminate.
  - intros H. injection H as <- <-. exists an, sn. cbn [ckn cks ctan disablesFriction ckr cktw maxRollPl maxTwistPl unpMax momentLaw]. repeat (split; [reflexivity || (eexists; split; reflexivity)|]). reflexivity.
Qed.
(** exchanging the bodies *)
Lemma harmonic_comm x y : harmonic x y = harmonic y x.
Proof. unfold harmonic. rewrite (Rplus_comm y x). destruct (is0 (x + y)); [reflexivity|]. f_equal. unfold Rdiv. ring. Qed.
Lemma harmonic0_comm a b x y : harmonic0 a b x y = harmonic0 b a y x.
Proof. unfold harmonic0. rewrite orb_comm, harmonic_comm. reflexivity. Qed.
Lemma mm_comm m i j v w : mm_call m i j v w = mm_call m j i w v.
Proof.
  unfold mm_call. rewrite (Z.min_comm j i), (Z.max_comm j i). destruct (find_pair _ _); [reflexivity|]. destruct v as [a|], w as [b|]; try reflexivity. unfold computeFallback. destruct (m_algo m); try reflexivity.
  - f_equal. f_equal. ring. - now rewrite Rmin_comm. - now rewrite Rmax_comm. - rewrite (Rplus_comm b a). destruct (Req_EM_T (a + b) 0); [reflexivity|]. f_equal. unfold Rdiv. ring.
Qed.
Lemma strength_comm mm m1 m2 f : strength mm m1 m2 f = strength mm m2 m1 f.
Proof. unfold strength. destruct mm; [apply mm_comm|]. now rewrite Rmin_comm. Qed.
Lemma make_cohesive_comm an sn g m1 m2 s : make_cohesive an sn g m1 m2 s = make_cohesive an sn (exchanged g) m2 m1 s.
Proof. unfold make_cohesive, adhesion, exchanged. cbn [radius1 radius2]. rewrite (orb_comm (mfragile m1)), (Rmin_comm (radius2 g)). reflexivity. Qed.
Lemma create_comm c now m1 m2 g : create c now m1 m2 g = create c now m2 m1 (exchanged g).
Proof.
  unfold create. cbv zeta. change (radius1 (exchanged g)) with (radius2 g). change (radius2 (exchanged g)) with (radius1 g).
  rewrite (strength_comm (nMatch c)), (strength_comm (sMatch c)), (harmonic_comm (young (cbase m1) * radius1 g)), (harmonic0_comm (poisson (cbase m1))), (harmonic0_comm (alphaKr m1)), (harmonic0_comm (alphaKtw m1)).
  destruct (strength (nMatch c) m2 m1 normalCohesion) as [an|]; [|reflexivity]. destruct (strength (sMatch c) m2 m1 shearCohesion) as [sn|]; [|reflexivity]. destruct (harmonic _ _) as [Kn|]; [|reflexivity]. destruct (harmonic0 (poisson _) _ _ _) as [Ks|]; [|reflexivity]. destruct (harmonic0 (alphaKr m2) _ _ _) as [ar|]; [|reflexivity]. destruct (harmonic0 (alphaKtw m2) _ _ _) as [atw|]; [|reflexivity].
  assert (F : (match fMatch c with None => Some (Rmin (frictionAngle (cbase m1)) (frictionAngle (cbase m2))) | Some mm => mm_call mm (m_id (cbase m1)) (m_id (cbase m2)) (Some (frictionAngle (cbase m1))) (Some (frictionAngle (cbase m2))) end) =
              (match fMatch c with None => Some (Rmin (frictionAngle (cbase m2)) (frictionAngle (cbase m1))) | Some mm => mm_call mm (m_id (cbase m2)) (m_id (cbase m1)) (Some (frictionAngle (cbase m2))) (Some (frictionAngle (cbase m1))) end)) by (destruct (fMatch c); [apply mm_comm|now rewrite Rmin_comm]).
  rewrite F. clear F. match goal with |- match ?x with Some _ => _ | None => _ end = _ => destruct x as [phi|]; [|reflexivity] end. f_equal. f_equal.
  - f_equal; first [apply Rmin_comm | apply andb_comm | ring].
  - rewrite <- (make_cohesive_comm an sn g m1 m2). rewrite <- !andb_assoc, (andb_comm (isCohesive m2)). reflexivity.
Qed.

(** ** energies *)
Lemma sum_of_acc f l : forall e, fold_left (fun e x => add_opt e (f x)) l e = add_opt e (sum_of f l).
Proof.
  unfold sum_of. induction l as [|x l IH]; intros e; cbn [fold_left]; [destruct e; cbn [add_opt]; [f_equal; ring|reflexivity]|]. rewrite (IH (add_opt e (f x))), (IH (add_opt (Some 0) (f x))). destruct e, (f x), (fold_left _ l (Some 0)); cbn [add_opt]; try reflexivity. f_equal. ring.
Qed.
Lemma sum_of_cons f x l : sum_of f (x :: l) = add_opt (f x) (sum_of f l).
Proof. unfold sum_of at 1. cbn [fold_left]. rewrite sum_of_acc. destruct (f x); cbn [add_opt]; [|reflexivity]. rewrite Rplus_0_l. reflexivity. Qed.
Lemma sum_of_add f g l : sum_of (fun x => add_opt (f x) (g x)) l = add_opt (sum_of f l) (sum_of g l).
Proof.
  induction l as [|x l IH]; [unfold sum_of; cbn [fold_left add_opt]; f_equal; ring|]. rewrite !sum_of_cons, IH. destruct (f x), (g x), (sum_of f l), (sum_of g l); cbn [add_opt]; try reflexivity. f_equal. ring.
Qed.
Lemma total_is_sum l : totalElastEnergy l = add_opt (add_opt (add_opt (normElastEnergy l) (shearElastEnergy l)) (bendingElastEnergy l)) (twistElastEnergy l).
Proof. unfold totalElastEnergy. rewrite sum_of_add, sum_of_add, sum_of_add. reflexivity. Qed.
Lemma sum_of_pos f l : (forall x, In x l -> exists e, f x = Some e /\ 0 <= e) -> exists e, sum_of f l = Some e /\ 0 <= e.
Proof.
  induction l as [|x l IH]; intros H; [exists 0; split; [reflexivity|lra]|]. destruct (H x (or_introl eq_refl)) as (a & A & A0). destruct IH as (b & B & B0); [intros y Y; apply H; right; exact Y|]. exists (a + b). rewrite sum_of_cons, A, B. split; [reflexivity|lra].
Qed.
Lemma part_pos v k : 0 < k -> exists e, part v k = Some e /\ 0 <= e.
Proof. intros K. unfold part. rewrite (proj2 (is0_false k)) by lra. eexists. split; [reflexivity|]. apply Rmult_le_pos; [lra|]. apply Rmult_le_pos; [apply norm2_pos|left; apply Rinv_0_lt_compat; exact K]. Qed.
Lemma total_pos l : Forall (fun x => 0 < ckn (fst x) /\ 0 < cks (fst x) /\ 0 < ckr (fst x) /\ 0 < cktw (fst x)) l -> exists e, totalElastEnergy l = Some e /\ 0 <= e.
Proof.
  intros F. rewrite Forall_forall in F. apply sum_of_pos. intros x X. destruct (F x X) as (A & B & C & D). destruct (part_pos (cnormal (snd x)) _ A) as (a & -> & A0), (part_pos (cshear (snd x)) _ B) as (b & -> & B0), (part_pos (cbending (snd x)) _ C) as (c & -> & C0), (part_pos (ctwist (snd x)) _ D) as (d & -> & D0).
  cbn [add_opt]. eexists. split; [reflexivity|lra].
Qed.
Lemma sum_of_none f l x : In x l -> f x = None -> sum_of f l = None.
Proof. induction l as [|y l IH]; [intros []|]. intros [->|X] N; rewrite sum_of_cons; [rewrite N; reflexivity|]. rewrite (IH X N). destruct (f y); reflexivity. Qed.
Lemma total_none l x : In x l -> ckr (fst x) = 0 -> totalElastEnergy l = None.
Proof. intros X K. apply (sum_of_none _ _ x X). assert (N : part (cbending (snd x)) (ckr (fst x)) = None) by (unfold part; rewrite (proj2 (is0_true _) K); reflexivity). rewrite N. destruct (add_opt (part (cnormal (snd x)) _) _); reflexivity. Qed.
