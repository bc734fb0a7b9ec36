(** Proofs about the loop over interactions. *)
From Coq Require Import List ZArith Bool Arith Lia Permutation.
From Verif Require Import Loop_Model Loop_Spec.
Import ListNotations.

Section Proofs.
Context {T : types}.
Variable F : @functors T.
Notation inter := (@inter T).
Notation scene := (@scene T).
Notation effect := (@effect T).

(** ** arrays *)
Lemma set_at_length {A} (l : list A) : forall k x, length (set_at l k x) = length l.
Proof. induction l as [|a l IH]; intros [|k] x; cbn; [reflexivity|reflexivity|reflexivity|]. rewrite IH. reflexivity. Qed.
Lemma set_at_same {A} (l : list A) : forall k x, k < length l -> nth_error (set_at l k x) k = Some x.
Proof. induction l as [|a l IH]; intros [|k] x H; cbn in *; [lia|lia|reflexivity|]. apply IH. lia. Qed.
Lemma set_at_other {A} (l : list A) : forall k k' x, k <> k' -> nth_error (set_at l k x) k' = nth_error l k'.
Proof. induction l as [|a l IH]; intros [|k] [|k'] x H; cbn; try reflexivity; try lia. apply IH. lia. Qed.
Lemma nth_ext_error {A} (l l' : list A) : (forall k, nth_error l k = nth_error l' k) -> l = l'.
Proof.
  revert l'. induction l as [|a l IH]; intros [|b l'] H; [reflexivity|specialize (H 0); discriminate|specialize (H 0); discriminate|].
  pose proof (H 0) as H0. cbn in H0. injection H0 as <-. f_equal. apply IH. intros k. exact (H (S k)).
Qed.

(** ** the order of the iterations *)
Definition eff (S : scene) (is : list inter) (k : nat) : effect :=
  match nth_error is k with Some i => match process F S i with Ok (_, e) => e | _ => nothing end | None => nothing end.
Lemma run_ok S order : forall is es is' es', NoDup order -> run_order F S order (is, es) = Ok (is', es') ->
  length is' = length is /\ (forall k, In k order -> exists i i' e, nth_error is k = Some i /\ process F S i = Ok (i', e) /\ nth_error is' k = Some i') /\
  (forall k, ~ In k order -> nth_error is' k = nth_error is k) /\ es' = es ++ map (eff S is) order.
Proof.
  induction order as [|k order IH]; intros is es is' es' Nd E; cbn [run_order] in E.
  - injection E as <- <-. split; [reflexivity|]. split; [intros k []|]. split; [reflexivity|]. cbn. rewrite app_nil_r. reflexivity.
  - inversion Nd as [|? ? N1 N2]; subst. cbn [fst snd] in E. destruct (nth_error is k) as [i|] eqn:Ei; [|discriminate]. destruct (process F S i) as [[i1 e]| | |] eqn:Ep; try discriminate.
    destruct (IH _ _ _ _ N2 E) as (L & A & B & C). rewrite set_at_length in L. assert (Hk : k < length is) by (apply nth_error_Some; congruence). split; [exact L|]. split; [|split].
    + intros k' [<- |H].
      * exists i, i1, e. split; [exact Ei|]. split; [exact Ep|]. rewrite B by exact N1. apply set_at_same. exact Hk.
      * destruct (A k' H) as (i' & i'' & e' & P1 & P2 & P3). exists i', i'', e'. split; [|split; assumption]. rewrite set_at_other in P1; [exact P1|]. intros ->. contradiction.
    + intros k' H. rewrite B; [|intros C'; apply H; right; exact C']. apply set_at_other. intros ->. apply H. left. reflexivity.
    + rewrite C, <- app_assoc. f_equal. cbn [map app]. f_equal; [unfold eff; rewrite Ei, Ep; reflexivity|].
      apply map_ext_in. intros k' Hk'. unfold eff. rewrite set_at_other; [reflexivity|]. intros ->. contradiction.
Qed.
Lemma run_complete S order : forall is es, NoDup order -> (forall k, In k order -> exists i i' e, nth_error is k = Some i /\ process F S i = Ok (i', e)) -> exists is' es', run_order F S order (is, es) = Ok (is', es').
Proof.
  induction order as [|k order IH]; intros is es Nd H; cbn [run_order]; [eexists _, _; reflexivity|]. inversion Nd as [|? ? N1 N2]; subst. cbn [fst snd].
  destruct (H k (or_introl eq_refl)) as (i & i' & e & Ei & Ep). rewrite Ei, Ep. apply IH; [exact N2|]. intros k' Hk'. destruct (H k' (or_intror Hk')) as (j & j' & e' & Ej & Epj). exists j, j', e'. split; [|exact Epj].
  rewrite set_at_other; [exact Ej|]. intros ->. contradiction.
Qed.
Lemma perm_seq_nodup order n : Permutation order (seq 0 n) -> NoDup order.
Proof. intros H. apply (Permutation_NoDup (Permutation_sym H)). apply seq_NoDup. Qed.
Lemma order_irrelevant S o1 o2 E is E1 is1 es1 : Permutation o1 (seq 0 (length is)) -> Permutation o2 (seq 0 (length is)) -> action F S o1 E is = Ok (E1, is1, es1) ->
  exists E2 es2, action F S o2 E is = Ok (E2, is1, es2) /\ Permutation es1 es2.
Proof.
  intros P1 P2. unfold action. pose proof (perm_seq_nodup _ _ P1) as N1. pose proof (perm_seq_nodup _ _ P2) as N2. assert (P12 : Permutation o1 o2) by (eapply Permutation_trans; [exact P1|apply Permutation_sym; exact P2]).
  destruct (run_order F S o1 (is, [])) as [[is1' es1']| | |] eqn:R1; try discriminate. intros H. injection H as _ <- <-. destruct (run_ok S o1 is [] is1' es1' N1 R1) as (L1 & A1 & B1 & C1).
  destruct (run_complete S o2 is [] N2) as (is2 & es2 & R2).
  { intros k Hk. destruct (A1 k) as (i & i' & e & Ei & Ep & _); [apply (Permutation_in _ (Permutation_sym P12)); exact Hk|]. exists i, i', e. auto. }
  rewrite R2. destruct (run_ok S o2 is [] is2 es2 N2 R2) as (L2 & A2 & B2 & C2). eexists _, _. split.
  - f_equal. f_equal. f_equal. apply nth_ext_error. intros k. destruct (in_dec Nat.eq_dec k o1) as [Hk|Hk].
    + destruct (A1 k Hk) as (i & i' & e & Ei & Ep & R). destruct (A2 k (Permutation_in _ P12 Hk)) as (j & j' & e' & Ej & Epj & R'). rewrite R, R'. congruence.
    + rewrite B1 by exact Hk. rewrite B2; [reflexivity|]. intros C. apply Hk. exact (Permutation_in _ (Permutation_sym P12) C).
  - rewrite C1, C2. cbn [app]. apply Permutation_map. exact P12.
Qed.
Lemma action_each S o E is E1 is1 es1 : Permutation o (seq 0 (length is)) -> action F S o E is = Ok (E1, is1, es1) ->
  length is1 = length is /\ forall k i, nth_error is k = Some i -> exists i' e, process F S i = Ok (i', e) /\ nth_error is1 k = Some i' /\ In e es1.
Proof.
  intros P. unfold action. destruct (run_order F S o (is, [])) as [[is1' es1']| | |] eqn:R; try discriminate. intros H. injection H as _ <- <-. destruct (run_ok S o is [] is1' es1' (perm_seq_nodup _ _ P) R) as (L & A & B & C).
  split; [exact L|]. intros k i Hi. assert (Hk : In k o). { apply (Permutation_in _ (Permutation_sym P)). apply in_seq. assert (k < length is) by (apply nth_error_Some; congruence). lia. }
  destruct (A k Hk) as (j & i' & e & Ej & Ep & R'). rewrite Hi in Ej. injection Ej as <-. exists i', e. split; [exact Ep|]. split; [exact R'|]. rewrite C. cbn [app].
  replace e with (eff S is k) by (unfold eff; rewrite Hi, Ep; reflexivity). apply in_map. exact Hk.
Qed.

(** ** one iteration *)
Lemma law_facts S i g p b1 b2 i' e : geom i = Some g -> phys i = Some p -> apply_law F S i g p b1 b2 = Ok (i', e) ->
  (exists j, laws e = [j] /\ iterMadeReal j = iterMadeReal i /\ isReal j = true /\ isActive j = isActive i) /\
  (isReal i' = true -> iterMadeReal i' = iterMadeReal i /\ called e = active_callbacks S) /\ (isReal i' = false -> called e = []) /\ later e = [] /\
  (id1 i' = id1 i /\ id2 i' = id2 i /\ cellDist i' = cellDist i /\ iterLastSeen i' = iterLastSeen i) /\
  ((cGeom i' = cGeom i /\ geomExists i' = geomExists i) \/ (cGeom i' = None /\ geomExists i' = true)).
Proof.
  intros Eg Ep. unfold apply_law. destruct (match cLaw i with Some l => Some l | None => lawFor F g p end) as [l|]; [|discriminate]. destruct (goLaw F l (set_law i g p l) g p (state b1) (state b2)) as [[ok after] fs]. intros H. injection H as <- <-. cbn [laws called later].
  split; [exists (set_law i g p l); repeat split; reflexivity|]. destruct ok, after as [[g' p']|]; cbn [isReal geom phys reset set_law iterMadeReal id1 id2 cellDist iterLastSeen cGeom geomExists];
  (split; [intros C; try discriminate C; split; reflexivity|]; split; [intros C; try discriminate C; reflexivity|]; split; [reflexivity|]; split; [repeat split; reflexivity|]; auto).
Qed.
Lemma real_or (i : inter) : formed i -> isReal i = false -> phys i = None.
Proof. intros [H|H] E; [exact H|congruence]. Qed.
Lemma law_formed S i g p b1 b2 i' e : apply_law F S i g p b1 b2 = Ok (i', e) -> formed i'.
Proof.
  unfold apply_law. destruct (match cLaw i with Some l => Some l | None => lawFor F g p end) as [l|]; [|discriminate]. destruct (goLaw F l (set_law i g p l) g p (state b1) (state b2)) as [[ok after] fs]. intros H. injection H as <- _. destruct ok, after as [[g' p']|]; unfold formed; cbn; auto.
Qed.
Lemma geom_formed S i gf b1 b2 s1 s2 i' e : formed i -> apply_geom F S i gf b1 b2 s1 s2 = Ok (i', e) -> formed i'.
Proof.
  intros Hf. unfold apply_geom. destruct (goGeom F gf s1 s2 (state b1) (state b2) (shift2 F (cellDist i)) (geom i) (isReal i)) as [created g]. destruct created.
  - destruct g as [g|]; [|discriminate]. destruct (match cPhys (set_geom i (Some g)) with Some p => Some p | None => option_map fst (physFor F (material b1) (material b2)) end) as [pf|]; [|discriminate]. destruct (takes F pf (material b1) (material b2)); cbn [negb]; [|discriminate]. apply law_formed.
  - intros H. injection H as <- _. destruct (isReal i) eqn:Er; left; [reflexivity|]. exact (real_or i Hf Er).
Qed.
Lemma geom_facts S i gf b1 b2 s1 s2 i' e : formed i -> apply_geom F S i gf b1 b2 s1 s2 = Ok (i', e) ->
  let ans := goGeom F gf s1 s2 (state b1) (state b2) (shift2 F (cellDist i)) (geom i) (isReal i) in
  (id1 i' = id1 i /\ id2 i' = id2 i /\ cellDist i' = cellDist i /\ iterLastSeen i' = iterLastSeen i) /\ later e = [] /\
  ((cGeom i' = cGeom i /\ geomExists i' = geomExists i) \/ (cGeom i' = None /\ geomExists i' = true)) /\
  (fst ans = false -> e = nothing /\ isReal i' = false) /\
  (fst ans = true -> (exists j, laws e = [j] /\ iterMadeReal j = (if isReal i then iterMadeReal i else iter S) /\ isReal j = true /\ isActive j = isActive i) /\
     (isReal i' = true -> iterMadeReal i' = (if isReal i then iterMadeReal i else iter S) /\ called e = active_callbacks S) /\ (isReal i' = false -> called e = [])).
Proof.
  intros Hf. unfold apply_geom. destruct (goGeom F gf s1 s2 (state b1) (state b2) (shift2 F (cellDist i)) (geom i) (isReal i)) as [created g] eqn:Eg. cbv zeta. cbn [fst]. destruct created.
  - destruct g as [g|]; [|discriminate]. destruct (match cPhys (set_geom i (Some g)) with Some p => Some p | None => option_map fst (physFor F (material b1) (material b2)) end) as [pf|]; [|discriminate]. destruct (takes F pf (material b1) (material b2)); cbn [negb]; [|discriminate]. intros H. apply law_facts in H; [|reflexivity|reflexivity].
    cbn [set_phys set_geom iterMadeReal isActive id1 id2 cellDist iterLastSeen cGeom geomExists] in H. destruct H as (A & B & C & D & G & K). split; [exact G|]. split; [exact D|]. split; [exact K|]. split; [discriminate|]. intros _. auto.
  - intros H. injection H as <- <-. destruct (isReal i) eqn:Er; cbn [reset set_geom id1 id2 cellDist iterLastSeen cGeom geomExists later nothing].
    + split; [repeat split; reflexivity|]. split; [reflexivity|]. split; [right; auto|]. split; [intros _; split; reflexivity|discriminate].
    + split; [repeat split; reflexivity|]. split; [reflexivity|]. split; [left; auto|]. split; [|discriminate]. intros _. split; [reflexivity|]. unfold isReal. cbn [set_geom geom phys]. rewrite (real_or i Hf Er). destruct g; reflexivity.
Qed.
(** the same for the whole iteration; [i0] is the interaction after a possible exchange of the bodies *)
Inductive case (S : scene) (i : inter) (i' : inter) (e : effect) : Prop :=
| C_unseen : unseen S i = true -> i' = i -> e = mkE [] [] [] [(id1 i, id2 i)] -> case S i i' e
| C_gone : unseen S i = false -> (byId S (id1 i) = None \/ byId S (id2 i) = None) -> i' = reset i -> e = nothing -> case S i i' e
| C_foreign b1 b2 : unseen S i = false -> bodies_of S i b1 b2 -> subd S <> subdomain b1 -> subd S <> subdomain b2 -> i' = reset i -> e = nothing -> case S i i' e
| C_skip b1 b2 : unseen S i = false -> bodies_of S i b1 b2 -> (subd S = subdomain b1 \/ subd S = subdomain b2) -> (isClump b1 || isClump b2 = true \/ geomExists i = false \/ shape b1 = None \/ shape b2 = None) -> i' = i -> e = nothing -> case S i i' e
| C_none b1 b2 s1 s2 : unseen S i = false -> bodies_of S i b1 b2 -> eligible S b1 b2 -> shape b1 = Some s1 -> shape b2 = Some s2 -> cGeom i = None -> geomFor F s1 s2 = None -> i' = set_noGeom i -> e = nothing -> case S i i' e
| C_same b1 b2 s1 s2 gf i0 : unseen S i = false -> bodies_of S i b1 b2 -> eligible S b1 b2 -> shape b1 = Some s1 -> shape b2 = Some s2 -> geomExists i = true -> (cGeom i = Some gf \/ cGeom i = None /\ geomFor F s1 s2 = Some (gf, false)) -> i0 = set_cGeom i gf ->
    apply_geom F S i0 gf b1 b2 s1 s2 = Ok (i', e) -> case S i i' e
| C_swap b1 b2 s1 s2 gf i0 : unseen S i = false -> bodies_of S i b1 b2 -> eligible S b1 b2 -> shape b1 = Some s1 -> shape b2 = Some s2 -> geomExists i = true -> cGeom i = None -> geomFor F s1 s2 = Some (gf, true) -> geom i = None -> phys i = None -> i0 = mkI (id2 i) (id1 i) None None (opp F (cellDist i)) (iterMadeReal i) (iterLastSeen i) (geomExists i) (Some gf) (cPhys i) (cLaw i) (isActive i) ->
    apply_geom F S i0 gf b2 b1 s2 s1 = Ok (i', e) -> case S i i' e.
Lemma process_cases S i i' e : process F S i = Ok (i', e) -> case S i i' e.
Proof.
  unfold process, removeUnseen. fold (unseen S i). destruct (unseen S i) eqn:Eu; [intros H; injection H as <- <-; apply C_unseen; auto|].
  destruct (byId S (id1 i)) as [b1|] eqn:E1; [|intros H; injection H as <- <-; apply C_gone; auto]. destruct (byId S (id2 i)) as [b2|] eqn:E2; [|intros H; injection H as <- <-; apply C_gone; auto].
  assert (Bo : bodies_of S i b1 b2) by (split; assumption). destruct (negb (subd S =? subdomain b1)%Z && negb (subd S =? subdomain b2)%Z) eqn:Es.
  { apply andb_prop in Es. destruct Es as [Ea Eb]. apply negb_true_iff, Z.eqb_neq in Ea, Eb. intros H. injection H as <- <-. eapply C_foreign; eauto. }
  assert (Hs : subd S = subdomain b1 \/ subd S = subdomain b2). { apply andb_false_iff in Es. destruct Es as [Es|Es]; apply negb_false_iff, Z.eqb_eq in Es; auto. }
  destruct (isClump b1 || isClump b2) eqn:Ec; [intros H; injection H as <- <-; eapply C_skip; eauto|]. apply orb_false_iff in Ec. assert (El : eligible S b1 b2) by (split; [exact Hs|exact Ec]).
  destruct (geomExists i) eqn:Ex; cbn [negb]; [|intros H; injection H as <- <-; eapply C_skip; eauto].
  destruct (shape b1) as [s1|] eqn:Sh1; [|intros H; injection H as <- <-; eapply C_skip; eauto]. destruct (shape b2) as [s2|] eqn:Sh2; [|intros H; injection H as <- <-; eapply C_skip; eauto].
  destruct (cGeom i) as [gf|] eqn:Eg.
  - intros H. apply (C_same S i i' e b1 b2 s1 s2 gf i); auto. destruct i. cbn in *. subst. reflexivity.
  - destruct (geomFor F s1 s2) as [[gf [|]]|] eqn:Ef.
    + unfold swapOrder. cbn [set_cGeom geom phys]. destruct (geom i) eqn:G1; [discriminate|]. destruct (phys i) eqn:P1; [discriminate|]. intros H. eapply (C_swap S i i' e b1 b2 s1 s2 gf); eauto.
    + intros H. eapply (C_same S i i' e b1 b2 s1 s2 gf); eauto.
    + intros H. injection H as <- <-. eapply C_none; eauto.
Qed.
Lemma formed_cGeom (i : inter) gf : formed i -> formed (set_cGeom i gf). Proof. intros H. exact H. Qed.

Lemma process_formed S i i' e : formed i -> process F S i = Ok (i', e) -> formed i'.
Proof.
  intros Hf H. apply process_cases in H. destruct H as [? -> ->|? ? -> ->|? ? ? ? ? ? -> ->|? ? ? ? ? ? -> ->|? ? ? ? ? ? ? ? ? ? ? -> ->|? ? ? ? ? ? ? ? ? ? ? ? ? -> H|? ? ? ? ? ? ? ? ? ? ? ? ? ? ? ? -> H]; try exact Hf; try (left; reflexivity).
  - eapply geom_formed; [|exact H]. exact Hf.
  - eapply geom_formed; [|exact H]. left. reflexivity.
Qed.
(** the time at which an interaction has become real *)
Lemma process_made S i i' e : formed i -> process F S i = Ok (i', e) ->
  (isReal i' = true -> iterMadeReal i' = if isReal i then iterMadeReal i else iter S) /\ (forall j, In j (laws e) -> iterMadeReal j = if isReal i then iterMadeReal i else iter S).
Proof.
  intros Hf H. apply process_cases in H. destruct H as [? -> ->|? ? -> ->|? ? ? ? ? ? -> ->|? ? ? ? ? ? -> ->|? ? ? ? ? ? ? ? ? ? ? -> ->|? ? ? ? gf ? ? ? ? ? ? ? ? -> H|? ? ? ? gf ? ? ? ? ? ? ? ? ? G P -> H];
    try (split; [|intros j []]); try (intros C; rewrite ?C; reflexivity || discriminate C).
  - intros C. replace (isReal i) with (isReal (set_noGeom i)) by reflexivity. rewrite C. reflexivity.
  - apply geom_facts in H; [|exact Hf]. cbv zeta in H. destruct H as (_ & _ & _ & Q0 & Q1). replace (isReal (set_cGeom i gf)) with (isReal i) in * by reflexivity. replace (iterMadeReal (set_cGeom i gf)) with (iterMadeReal i) in * by reflexivity.
    destruct (fst _); [destruct (Q1 eq_refl) as ((j & L & M & _) & R & _)|destruct (Q0 eq_refl) as (-> & R)]; [|split; [congruence|intros j []]]. split; [intros C; apply R; exact C|]. rewrite L. intros j' [<- |[]]. exact M.
  - apply geom_facts in H; [|left; reflexivity]. cbv zeta in H. destruct H as (_ & _ & _ & Q0 & Q1). assert (Er : isReal i = false) by (unfold isReal; rewrite G; reflexivity). rewrite Er. cbn [isReal geom phys] in Q0, Q1.
    destruct (fst _); [destruct (Q1 eq_refl) as ((j & L & M & _) & R & _)|destruct (Q0 eq_refl) as (-> & R)]; [|split; [congruence|intros j []]]. split; [intros C; apply R; exact C|]. rewrite L. intros j' [<- |[]]. exact M.
Qed.
(** contact *)
Lemma process_law shapes S i i' e b1 b2 : formed i -> has_shapes shapes S -> coherent F shapes i -> bodies_of S i b1 b2 -> eligible S b1 b2 -> seen S i -> process F S i = Ok (i', e) -> (laws e <> [] <-> touching F i b1 b2).
Proof.
  intros Hf Hsh Hc' Hb He Hs H. assert (Hc : forall b1 b2 s1 s2, bodies_of S i b1 b2 -> shape b1 = Some s1 -> shape b2 = Some s2 -> (geomExists i = false -> geomFor F s1 s2 = None) /\ (forall gf, cGeom i = Some gf -> geomFor F s1 s2 = Some (gf, false))) by (intros c1 c2 t1 t2 (A1 & A2) B1 B2; apply Hc'; [rewrite <- (Hsh _ _ A1)|rewrite <- (Hsh _ _ A2)]; assumption). apply process_cases in H. assert (Hu : unseen S i = false). { unfold unseen. destruct Hs as [Hs|[Hs|Hs]]; [rewrite Hs, andb_false_r; reflexivity|destruct (0 <=? iterColliderLastRun S)%Z eqn:E1; [|reflexivity]; destruct (iterColliderLastRun S =? iter S)%Z eqn:E2; [|reflexivity]; exfalso; apply Hs; lia|]. rewrite (proj2 (Z.ltb_ge _ _)) by lia. apply andb_false_r. }
  assert (U : forall b1' b2', bodies_of S i b1' b2' -> b1' = b1 /\ b2' = b2) by (intros ? ? (A & B); destruct Hb as (A' & B'); split; congruence).
  destruct H as [Hu' ? ?|? G ? ->|b1' b2' ? Hb' ? ? ? ->|b1' b2' ? Hb' ? G ? ->|b1' b2' s1 s2 ? Hb' ? S1 S2 ? ? ? ->|b1' b2' s1 s2 gf i0 ? Hb' ? S1 S2 ? G -> H|b1' b2' s1 s2 gf i0 ? Hb' ? S1 S2 ? Cg G G' P -> H]; try (destruct (U _ _ Hb') as [-> ->]).
  - congruence.
  - exfalso. destruct Hb as (A & B). destruct G; congruence.
  - exfalso. destruct He as ([? | ?] & _); congruence.
  - cbn [laws nothing]. split; [intros C; contradiction|]. intros (s1 & s2 & gf & sw & S1 & S2 & Gf & _). exfalso. destruct G as [G|[G|[G|G]]]; [|destruct (Hc b1 b2 s1 s2 Hb S1 S2) as (A & _); rewrite (A G) in Gf; discriminate|congruence|congruence]. destruct He as (_ & A & B). rewrite A, B in G. discriminate.
  - cbn [laws nothing]. split; [intros C; contradiction|]. intros (s1' & s2' & gf & sw & S1' & S2' & Gf & _). rewrite S1 in S1'. rewrite S2 in S2'. injection S1' as <-. injection S2' as <-. congruence.
  - assert (Gf : geomFor F s1 s2 = Some (gf, false)). { destruct G as [G|[_ G]]; [|exact G]. destruct (Hc b1 b2 s1 s2 Hb S1 S2) as (_ & A). exact (A gf G). }
    apply geom_facts in H; [|exact Hf]. cbv zeta in H. destruct H as (_ & _ & _ & Q0 & Q1). split.
    + intros C. exists s1, s2, gf, false. repeat split; auto. cbn [set_cGeom geom cellDist] in Q0. replace (isReal (set_cGeom i gf)) with (isReal i) in Q0 by reflexivity. destruct (fst _); [reflexivity|]. destruct (Q0 eq_refl) as (-> & _). exfalso. apply C. reflexivity.
    + intros (s1' & s2' & gf' & sw & S1' & S2' & Gf' & A). rewrite S1 in S1'. rewrite S2 in S2'. injection S1' as <-. injection S2' as <-. rewrite Gf in Gf'. injection Gf' as <- <-. destruct (Q1 A) as ((j & L & _) & _). rewrite L. discriminate.
  - apply geom_facts in H; [|left; reflexivity]. cbv zeta in H. destruct H as (_ & _ & _ & Q0 & Q1). assert (Er : isReal i = false) by (unfold isReal; rewrite G'; reflexivity). cbn [isReal geom phys cellDist] in Q0, Q1. split.
    + intros C. exists s1, s2, gf, true. repeat split; auto. rewrite G', Er. destruct (fst _); [reflexivity|]. destruct (Q0 eq_refl) as (-> & _). exfalso. apply C. reflexivity.
    + intros (s1' & s2' & gf' & sw & S1' & S2' & Gf' & A). rewrite S1 in S1'. rewrite S2 in S2'. injection S1' as <-. injection S2' as <-. rewrite G in Gf'. injection Gf' as <- <-. rewrite G', Er in A. destruct (Q1 A) as ((j & L & _) & _). rewrite L. discriminate.
Qed.
(** effects of one iteration *)
Lemma process_effect S i i' e : formed i -> process F S i = Ok (i', e) -> length (laws e) <= 1 /\ (called e = [] \/ called e = active_callbacks S) /\ (laws e <> [] -> isReal i' = true -> called e = active_callbacks S) /\ (isReal i' = false -> called e = []).
Proof.
  intros Hf H. apply process_cases in H. destruct H as [? -> ->|? ? -> ->|? ? ? ? ? ? -> ->|? ? ? ? ? ? -> ->|? ? ? ? ? ? ? ? ? ? ? -> ->|? ? ? ? gf ? ? ? ? ? ? ? ? -> H|? ? ? ? gf ? ? ? ? ? ? ? ? ? G P -> H];
    try (cbn [laws called length nothing]; split; [lia|]; split; [auto|]; split; [intros C; contradiction|reflexivity]).
  - apply geom_facts in H; [|exact Hf]. cbv zeta in H. destruct H as (_ & _ & _ & Q0 & Q1). destruct (fst _).
    + destruct (Q1 eq_refl) as ((j & -> & _) & R & R'). split; [cbn; lia|]. split; [|split]; [destruct (isReal i') eqn:Er; [right; apply R; reflexivity|left; apply R'; reflexivity]|intros _ C; apply R; exact C|exact R'].
    + destruct (Q0 eq_refl) as (-> & _). cbn [laws called length nothing]. split; [lia|]. split; [auto|]. split; [intros C; contradiction|reflexivity].
  - apply geom_facts in H; [|left; reflexivity]. cbv zeta in H. destruct H as (_ & _ & _ & Q0 & Q1). destruct (fst _).
    + destruct (Q1 eq_refl) as ((j & -> & _) & R & R'). split; [cbn; lia|]. split; [|split]; [destruct (isReal i') eqn:Er; [right; apply R; reflexivity|left; apply R'; reflexivity]|intros _ C; apply R; exact C|exact R'].
    + destruct (Q0 eq_refl) as (-> & _). cbn [laws called length nothing]. split; [lia|]. split; [auto|]. split; [intros C; contradiction|reflexivity].
Qed.
(** what stays *)
Lemma process_frame S i i' e : formed i -> process F S i = Ok (i', e) -> iterLastSeen i' = iterLastSeen i /\
  ((id1 i' = id1 i /\ id2 i' = id2 i /\ cellDist i' = cellDist i) \/ (id1 i' = id2 i /\ id2 i' = id1 i /\ cellDist i' = opp F (cellDist i) /\ isReal i = false)).
Proof.
  intros Hf H. apply process_cases in H. destruct H as [? -> ->|? ? -> ->|? ? ? ? ? ? -> ->|? ? ? ? ? ? -> ->|? ? ? ? ? ? ? ? ? ? ? -> ->|? ? ? ? gf ? ? ? ? ? ? ? ? -> H|? ? ? ? gf ? ? ? ? ? ? ? ? ? G P -> H];
    try (split; [reflexivity|left; repeat split; reflexivity]).
  - apply geom_facts in H; [|exact Hf]. cbv zeta in H. destruct H as ((A & B & C & D) & _). split; [exact D|]. left. auto.
  - apply geom_facts in H; [|left; reflexivity]. cbv zeta in H. destruct H as ((A & B & C & D) & _). split; [exact D|]. right. cbn [id1 id2 cellDist] in *. repeat split; auto. unfold isReal. rewrite G. reflexivity.
Qed.
(** real only if in contact *)
Lemma process_real S i i' e : formed i -> process F S i = Ok (i', e) -> isReal i' = true ->
  exists b1 b2, bodies_of S i b1 b2 /\ (subd S = subdomain b1 \/ subd S = subdomain b2) /\
   (laws e <> [] \/ (i' = i /\ (isClump b1 || isClump b2 = true \/ shape b1 = None \/ shape b2 = None \/ geomExists i = false)) \/ geomExists i' = false).
Proof.
  intros Hf H Hr. apply process_cases in H. destruct H as [Hu -> ->|? ? -> ->|? ? ? ? ? ? -> ->|b1 b2 ? Hb ? ? -> ->|b1 b2 ? ? ? Hb El ? ? ? ? -> ->|b1 b2 ? ? gf ? ? Hb El ? ? ? ? -> H|b1 b2 ? ? gf ? ? Hb El ? ? ? ? ? G P -> H]; try discriminate Hr.
  - exfalso. unfold unseen in Hu. rewrite Hr, andb_false_r in Hu. discriminate.
  - exists b1, b2. split; [exact Hb|]. split; [assumption|]. right. left. split; [reflexivity|]. tauto.
  - exists b1, b2. split; [exact Hb|]. split; [apply El|]. right. right. reflexivity.
  - exists b1, b2. split; [exact Hb|]. split; [apply El|]. left. apply geom_facts in H; [|exact Hf]. cbv zeta in H. destruct H as (_ & _ & _ & Q0 & Q1). destruct (fst _); [destruct (Q1 eq_refl) as ((j & -> & _) & _); discriminate|destruct (Q0 eq_refl); congruence].
  - exists b1, b2. split; [exact Hb|]. split; [apply El|]. left. apply geom_facts in H; [|left; reflexivity]. cbv zeta in H. destruct H as (_ & _ & _ & Q0 & Q1). destruct (fst _); [destruct (Q1 eq_refl) as ((j & -> & _) & _); discriminate|destruct (Q0 eq_refl); congruence].
Qed.

(** ** histories *)
Lemma do_op_formed o i i' : formed i -> do_op F o i = Some i' -> formed i'.
Proof.
  intros Hf. destruct o as [sc| |z|b]; cbn [do_op].
  - destruct (process F sc i) as [[i1 e]| | |] eqn:E; try discriminate. intros H. injection H as <-. eapply process_formed; [exact Hf|exact E].
  - intros H. injection H as <-. left. reflexivity.
  - intros H. injection H as <-. exact Hf.
  - intros H. injection H as <-. exact Hf.
Qed.
Lemma do_ops_app os : forall os' i, do_ops F (os ++ os') i = match do_ops F os i with Some i' => do_ops F os' i' | None => None end.
Proof. induction os as [|o os IH]; intros os' i; cbn [do_ops app]; [reflexivity|]. destruct (do_op F o i); [apply IH|reflexivity]. Qed.
Lemma do_ops_formed os : forall i i', formed i -> do_ops F os i = Some i' -> formed i'.
Proof. induction os as [|o os IH]; intros i i' Hf H; cbn [do_ops] in H; [injection H as <-; exact Hf|]. destruct (do_op F o i) as [i1|] eqn:E; [|discriminate]. apply (IH i1 i'); [|exact H]. eapply do_op_formed; [exact Hf|exact E]. Qed.
Lemma new_formed a b z : formed (@new T a b z). Proof. left. reflexivity. Qed.

Lemma coherent_shape shapes i i' : coherent F shapes i -> id1 i' = id1 i -> id2 i' = id2 i -> ((cGeom i' = cGeom i /\ geomExists i' = geomExists i) \/ (cGeom i' = None /\ geomExists i' = true)) -> coherent F shapes i'.
Proof.
  intros H E1 E2 K s1 s2 H1 H2. rewrite E1 in H1. rewrite E2 in H2. destruct K as [(K1 & K2)|(K1 & K2)]; rewrite K1, K2; [exact (H s1 s2 H1 H2)|]. split; [discriminate|intros gf C; discriminate].
Qed.
Lemma process_coherent shapes S i i' e : symmetric F -> has_shapes shapes S -> formed i -> coherent F shapes i -> process F S i = Ok (i', e) -> coherent F shapes i'.
Proof.
  intros (Sy1 & Sy2) Hsh Hf Hc H. apply process_cases in H. destruct H as [? -> ->|? ? -> ->|? ? ? ? ? ? -> ->|? ? ? ? ? ? -> ->|b1 b2 s1 s2 ? (B1 & B2) ? S1 S2 ? G -> ->|b1 b2 s1 s2 gf i0 ? (B1 & B2) ? S1 S2 ? G -> H|b1 b2 s1 s2 gf i0 ? (B1 & B2) ? S1 S2 ? ? G ? ? -> H]; try exact Hc.
  - eapply coherent_shape; [exact Hc| | |]; cbn; auto.
  - eapply coherent_shape; [exact Hc| | |]; cbn; auto.
  - intros t1 t2 T1 T2. cbn [set_noGeom id1 id2 geomExists cGeom] in *. rewrite <- (Hsh _ _ B1), S1 in T1. rewrite <- (Hsh _ _ B2), S2 in T2. injection T1 as <-. injection T2 as <-. split; [intros _; exact G|congruence].
  - apply geom_facts in H; [|exact Hf]. cbv zeta in H. destruct H as ((A & B & _) & _ & K & _). eapply coherent_shape; [|exact A|exact B|exact K].
    intros t1 t2 T1 T2. cbn [set_cGeom id1 id2 geomExists cGeom] in *. split; [congruence|]. intros gf' Eg. injection Eg as <-. destruct G as [G|(_ & G)]; [apply (Hc t1 t2 T1 T2); exact G|].
    rewrite <- (Hsh _ _ B1), S1 in T1. rewrite <- (Hsh _ _ B2), S2 in T2. injection T1 as <-. injection T2 as <-. exact G.
  - apply geom_facts in H; [|left; reflexivity]. cbv zeta in H. destruct H as ((A & B & _) & _ & K & _). eapply coherent_shape; [|exact A|exact B|exact K].
    intros t1 t2 T1 T2. cbn [id1 id2 geomExists cGeom] in *. rewrite <- (Hsh _ _ B2), S2 in T1. rewrite <- (Hsh _ _ B1), S1 in T2. injection T1 as <-. injection T2 as <-. split; [congruence|]. intros gf' Eg. injection Eg as <-. apply Sy1. exact G.
Qed.
Lemma do_ops_coherent shapes os : forall i i', symmetric F -> Forall (has_shapes shapes) (scenes os) -> formed i -> coherent F shapes i -> do_ops F os i = Some i' -> coherent F shapes i'.
Proof.
  induction os as [|o os IH]; intros i i' Sy Hs Hf Hc H; cbn [do_ops] in H; [injection H as <-; exact Hc|]. destruct (do_op F o i) as [i1|] eqn:E; [|discriminate].
  assert (Hs' : Forall (has_shapes shapes) (scenes os)) by (cbn [scenes flat_map] in Hs; apply Forall_app in Hs; apply Hs).
  apply (IH i1 i' Sy Hs'); [eapply do_op_formed; eassumption| |exact H]. destruct o as [sc| |z|b]; cbn [do_op] in E.
  - destruct (process F sc i) as [[i2 e]| | |] eqn:Ep; try discriminate. injection E as <-. apply (process_coherent shapes sc i i2 e); auto. cbn [scenes flat_map app] in Hs. inversion Hs; assumption.
  - injection E as <-. eapply coherent_shape; [exact Hc| | |]; cbn; auto.
  - injection E as <-. exact Hc.
  - injection E as <-. exact Hc.
Qed.
Lemma new_coherent shapes a b z : coherent F shapes (new a b z).
Proof. intros s1 s2 _ _. split; [discriminate|intros gf C; discriminate]. Qed.

(** since when *)
Lemma since_app os o i0 i z : real_since F os i0 z -> do_ops F os i0 = Some i -> (forall i', do_op F o i = Some i' -> isReal i' = true) -> real_since F (os ++ [o]) i0 z.
Proof.
  intros (bef & sc & aft & i1 & i2 & -> & Ez & D1 & R1 & D2 & H) Di Ho. exists bef, sc, (aft ++ [o]), i1, i2. split; [rewrite <- app_assoc; reflexivity|]. split; [exact Ez|]. split; [exact D1|]. split; [exact R1|]. split; [exact D2|].
  rewrite do_ops_app, D1 in Di. cbn [do_ops] in Di. rewrite D2 in Di. intros k j Hk Hj. rewrite app_length in Hk. cbn [length] in Hk. destruct (Nat.le_gt_cases k (length aft)) as [L|L].
  - apply (H k j L). rewrite firstn_app in Hj. replace (k - length aft) with 0 in Hj by lia. cbn [firstn] in Hj. rewrite app_nil_r in Hj. exact Hj.
  - rewrite firstn_all2 in Hj by (rewrite app_length; cbn [length]; lia). rewrite do_ops_app, Di in Hj. cbn [do_ops] in Hj. destruct (do_op F o i) as [i'|] eqn:E; [|discriminate]. injection Hj as <-. apply Ho. reflexivity.
Qed.
Lemma since os : forall i0 i, formed i0 -> isReal i0 = false -> do_ops F os i0 = Some i -> isReal i = true -> real_since F os i0 (iterMadeReal i).
Proof.
  induction os as [|o os IH] using rev_ind; intros i0 i Hf Hn H Hr; [cbn in H; congruence|]. rewrite do_ops_app in H. destruct (do_ops F os i0) as [i1|] eqn:E1; [|discriminate]. cbn [do_ops] in H. destruct (do_op F o i1) as [i2|] eqn:E2; [|discriminate]. injection H as ->.
  pose proof (do_ops_formed _ _ _ Hf E1) as F1. assert (K : isReal i1 = true -> iterMadeReal i = iterMadeReal i1 -> real_since F (os ++ [o]) i0 (iterMadeReal i)).
  { intros R1 ->. apply (since_app os o i0 i1); [apply IH; assumption|exact E1|]. intros i' Hi'. congruence. }
  destruct o as [sc| |z|b]; cbn [do_op] in E2.
  - destruct (process F sc i1) as [[i2 e]| | |] eqn:Ep; try discriminate. injection E2 as ->. destruct (process_made sc i1 i e F1 Ep) as (M & _). specialize (M Hr). destruct (isReal i1) eqn:R1; [apply K; auto|]. rewrite M.
    exists os, sc, [], i1, i. split; [reflexivity|]. split; [reflexivity|]. split; [exact E1|]. split; [exact R1|]. split; [cbn [do_op]; rewrite Ep; reflexivity|]. intros k j Hk Hj. rewrite firstn_nil in Hj. cbn [do_ops] in Hj. congruence.
  - injection E2 as <-. discriminate Hr.
  - injection E2 as <-. apply K; [exact Hr|reflexivity].
  - injection E2 as <-. apply K; [exact Hr|reflexivity].
Qed.
Lemma increasing_app (l l' : list scene) : forall from, increasing from (l ++ l') -> increasing from l.
Proof. induction l as [|x l IH]; intros from H; cbn in *; [exact I|]. split; [apply H|apply IH; apply H]. Qed.
Lemma increasing_last (l : list scene) sc : forall from x, increasing from (l ++ [sc]) -> In x l -> (iter x < iter sc)%Z.
Proof.
  assert (K : forall l1 from, increasing from (l1 ++ [sc]) -> (from < iter sc)%Z).
  { induction l1 as [|y l0 IH]; intros from H; cbn in H; [apply H|]. destruct H as [H1 H2]. apply IH in H2. lia. }
  induction l as [|y l IH]; intros from x H Hx; [destruct Hx|]. destruct Hx as [<- |Hx]; cbn in H; destruct H as [H1 H2]; [apply (K l); exact H2|]. apply (IH _ _ H2 Hx).
Qed.
Lemma since_in os i0 z : real_since F os i0 z -> exists sc, In sc (scenes os) /\ iter sc = z.
Proof. intros (bef & sc & aft & i1 & i2 & -> & Ez & _). exists sc. split; [|exact Ez]. unfold scenes. rewrite flat_map_app. apply in_or_app. right. cbn. left. reflexivity. Qed.
Lemma fresh_iff os sc i0 i i' e j from : formed i0 -> isReal i0 = false -> increasing from (scenes (os ++ [Step sc])) -> do_ops F os i0 = Some i -> process F sc i = Ok (i', e) -> In j (laws e) -> (isFresh (iter sc) j = true <-> isReal i = false).
Proof.
  intros Hf Hn Hi Hd Hp Hj. destruct (process_made sc i i' e (do_ops_formed _ _ _ Hf Hd) Hp) as (_ & M). unfold isFresh. rewrite (M j Hj). destruct (isReal i) eqn:R.
  - destruct (since_in _ _ _ (since os i0 i Hf Hn Hd R)) as (s & Hs & <-). unfold scenes in Hi. rewrite flat_map_app in Hi. cbn [flat_map app] in Hi. pose proof (increasing_last _ _ _ _ Hi Hs). split; [|discriminate]. intros C. apply Z.eqb_eq in C. lia.
  - rewrite Z.eqb_refl. tauto.
Qed.

(** ** the whole loop *)
Lemma action_all S o E is E1 is1 es1 : Permutation o (seq 0 (length is)) -> action F S o E is = Ok (E1, is1, es1) ->
  length is1 = length is /\ exists es, Permutation es1 es /\ length es = length is /\ forall k i, nth_error is k = Some i -> exists i' e, process F S i = Ok (i', e) /\ nth_error is1 k = Some i' /\ nth_error es k = Some e.
Proof.
  intros P H. destruct (action_each S o E is E1 is1 es1 P H) as (L & _). split; [exact L|]. unfold action in H. destruct (run_order F S o (is, [])) as [[is1' es1']| | |] eqn:R; try discriminate. injection H as _ <- <-. destruct (run_ok S o is [] is1' es1' (perm_seq_nodup _ _ P) R) as (_ & A & _ & C).
  exists (map (eff S is) (seq 0 (length is))). split; [rewrite C; cbn [app]; apply Permutation_map; exact P|]. split; [rewrite map_length, seq_length; reflexivity|].
  intros k i Hi. assert (Lk : k < length is) by (apply nth_error_Some; congruence). assert (Hk : In k o) by (apply (Permutation_in _ (Permutation_sym P)); apply in_seq; lia).
  destruct (A k Hk) as (j & i' & e & Ej & Ep & R'). rewrite Hi in Ej. injection Ej as <-. exists i', e. split; [exact Ep|]. split; [exact R'|]. rewrite nth_error_map. rewrite (nth_error_nth' _ 0) by (rewrite seq_length; exact Lk). rewrite seq_nth by exact Lk. cbn [option_map plus]. f_equal. unfold eff. rewrite Hi, Ep. reflexivity.
Qed.
(** ** interactions which are not seen *)
Lemma later_keep S o E is E1 is1 es1 : Permutation o (seq 0 (length is)) -> action F S o E is = Ok (E1, is1, es1) ->
  length is1 = length is /\ exists l, eraseAfterLoopIds E1 = eraseAfterLoopIds E ++ l /\ length l = length (filter (unseen S) is).
Proof.
  intros P H. destruct (action_each S o E is E1 is1 es1 P H) as (L & _). split; [exact L|]. unfold action in H. destruct (run_order F S o (is, [])) as [[is1' es1']| | |] eqn:R; try discriminate. injection H as <- <- <-. cbn [eraseAfterLoopIds]. eexists. split; [reflexivity|].
  destruct (run_ok S o is [] is1' es1' (perm_seq_nodup _ _ P) R) as (_ & A & _ & ->). cbn [app].
  assert (K : forall k, In k o -> length (later (eff S is k)) = length (filter (unseen S) match nth_error is k with Some i => [i] | None => [] end)).
  { intros k Hk. destruct (A k Hk) as (i & i' & e & Ei & Ep & _). unfold eff. rewrite Ei, Ep. cbn [filter]. apply process_cases in Ep.
    destruct Ep as [U -> ->|U ? -> ->|? ? U ? ? ? -> ->|? ? U ? ? ? -> ->|? ? ? ? U ? ? ? ? ? ? -> ->|? ? ? ? gf ? U ? ? ? ? ? ? -> H|? ? ? ? gf ? U ? ? ? ? ? ? ? ? ? -> H]; rewrite U; try reflexivity.
    - clear -H. revert H. unfold apply_geom, apply_law. destruct (goGeom F gf _ _ _ _ _ _ _) as [[|] [g|]]; try discriminate; try (intros H; injection H as _ <-; reflexivity). destruct (match cPhys _ with Some p => Some p | None => _ end) as [pf|]; [|discriminate]. destruct (negb _); [discriminate|]. destruct (match cLaw _ with Some p => Some p | None => _ end) as [l|]; [|discriminate]. destruct (goLaw F l _ _ _ _ _) as [[ok after] fs]. intros H. injection H as _ <-. reflexivity.
    - clear -H. revert H. unfold apply_geom, apply_law. destruct (goGeom F gf _ _ _ _ _ _ _) as [[|] [g|]]; try discriminate; try (intros H; injection H as _ <-; reflexivity). destruct (match cPhys _ with Some p => Some p | None => _ end) as [pf|]; [|discriminate]. destruct (negb _); [discriminate|]. destruct (match cLaw _ with Some p => Some p | None => _ end) as [l|]; [|discriminate]. destruct (goLaw F l _ _ _ _ _) as [[ok after] fs]. intros H. injection H as _ <-. reflexivity. }
  transitivity (length (filter (unseen S) (flat_map (fun k => match nth_error is k with Some i => [i] | None => [] end) o))).
  - clear -K. induction o as [|k o IH]; cbn [map flat_map]; [reflexivity|]. rewrite filter_app, !app_length. rewrite K by (left; reflexivity). f_equal. apply IH. intros k' Hk'. apply K. right. exact Hk'.
  - assert (Q : Permutation (flat_map (fun k => match nth_error is k with Some i => [i] | None => [] end) o) is).
    { eapply Permutation_trans; [apply Permutation_flat_map; exact P|]. clear. assert (G : forall (l : list inter) n pre, n = length pre -> flat_map (fun k => match nth_error (pre ++ l) k with Some i => [i] | None => [] end) (seq n (length l)) = l).
      { induction l as [|x l IH]; intros n pre ->; cbn [length seq flat_map]; [reflexivity|]. rewrite nth_error_app2 by lia. rewrite Nat.sub_diag. cbn [nth_error app]. f_equal. replace (pre ++ x :: l) with ((pre ++ [x]) ++ l) by (rewrite <- app_assoc; reflexivity). apply IH. rewrite app_length. cbn. lia. }
      pose proof (G is 0 [] eq_refl) as G0. cbn [app] in G0. rewrite G0. apply Permutation_refl. }
    assert (PL : forall l1 l2 : list inter, Permutation l1 l2 -> length (filter (unseen S) l1) = length (filter (unseen S) l2)).
    { intros l1 l2 HP. induction HP; cbn [filter]; repeat (match goal with |- context[if ?c then _ else _] => destruct c end); cbn [length]; congruence. }
    apply PL. exact Q.
Qed.
(** ** completion *)
Lemma geom_total S i gf b1 b2 s1 s2 : total F -> cGeom i = Some gf -> exists i' e, apply_geom F S i gf b1 b2 s1 s2 = Ok (i', e) /\ cached i'.
Proof.
  intros (T1 & T2 & T3 & T4) Ec. unfold apply_geom. destruct (goGeom F gf s1 s2 (state b1) (state b2) (shift2 F (cellDist i)) (geom i) (isReal i)) as [[|] g] eqn:Eg.
  - destruct g as [g|]; [|exfalso; eapply T1; exact Eg]. assert (Hp : exists pf, match cPhys (set_geom i (Some g)) with Some p => Some p | None => option_map fst (physFor F (material b1) (material b2)) end = Some pf).
    { destruct (cPhys (set_geom i (Some g))) as [pf|]; [eauto|]. pose proof (T2 (material b1) (material b2)). destruct (physFor F (material b1) (material b2)) as [[pf sw]|]; [|contradiction]. cbn. eauto. }
    destruct Hp as (pf & ->). rewrite T3. cbn [negb]. unfold apply_law. set (p := goPhys F pf (material b1) (material b2) g (phys (set_geom i (Some g)))).
    match goal with |- context[match cLaw ?x with _ => _ end] => set (j := x) end. assert (Hl : exists l, match cLaw j with Some l => Some l | None => lawFor F g p end = Some l) by (destruct (cLaw j); [eauto|]; pose proof (T4 g p); destruct (lawFor F g p); [eauto|contradiction]).
    destruct Hl as (l & ->). destruct (goLaw F l (set_law j g p l) g p (state b1) (state b2)) as [[ok after] fs]. eexists _, _. split; [reflexivity|]. destruct ok, after as [[g' p']|]; intros C; try (split; reflexivity); cbn in C; congruence.
  - eexists _, _. split; [reflexivity|]. destruct (isReal i); intros C; [split; reflexivity|]. cbn in C. congruence.
Qed.
Lemma process_total S i : total F -> cached i -> exists i' e, process F S i = Ok (i', e) /\ cached i'.
Proof.
  intros Ht Hc. unfold process. destruct (removeUnseen S && negb (isReal i) && (iterLastSeen i <? iter S)%Z); [eexists _, _; split; [reflexivity|exact Hc]|].
  assert (Rs : cached (reset i)) by (intros _; split; reflexivity).
  destruct (byId S (id1 i)) as [b1|], (byId S (id2 i)) as [b2|]; try (eexists _, _; split; [reflexivity|exact Rs]).
  destruct (negb (subd S =? subdomain b1)%Z && negb (subd S =? subdomain b2)%Z); [eexists _, _; split; [reflexivity|exact Rs]|]. destruct (isClump b1 || isClump b2); [eexists _, _; split; [reflexivity|exact Hc]|]. destruct (negb (geomExists i)); [eexists _, _; split; [reflexivity|exact Hc]|].
  destruct (shape b1) as [s1|], (shape b2) as [s2|]; try (eexists _, _; split; [reflexivity|exact Hc]). destruct (cGeom i) as [gf|] eqn:Eg; [apply geom_total; assumption|].
  destruct (Hc Eg) as (G & P). destruct (geomFor F s1 s2) as [[gf [|]]|].
  - unfold swapOrder. cbn [set_cGeom geom phys]. rewrite G, P. apply geom_total; [exact Ht|reflexivity].
  - apply geom_total; [exact Ht|reflexivity].
  - eexists _, _. split; [reflexivity|]. intros _. split; assumption.
Qed.
Lemma do_op_total o i : total F -> cached i -> exists i', do_op F o i = Some i' /\ cached i'.
Proof.
  intros Ht Hc. destruct o as [sc| |z|b]; cbn [do_op].
  - destruct (process_total sc i Ht Hc) as (i' & e & -> & H). eauto.
  - eexists. split; [reflexivity|]. intros _. split; reflexivity.
  - eexists. split; [reflexivity|exact Hc].
  - eexists. split; [reflexivity|exact Hc].
Qed.
Lemma do_ops_total os : forall i, total F -> cached i -> exists i', do_ops F os i = Some i' /\ cached i'.
Proof. induction os as [|o os IH]; intros i Ht Hc; cbn [do_ops]; [eauto|]. destruct (do_op_total o i Ht Hc) as (i1 & -> & H1). apply IH; assumption. Qed.
Lemma new_cached a b z : cached (@new T a b z). Proof. intros _. split; reflexivity. Qed.
Lemma action_total S o E is : total F -> Forall cached is -> Permutation o (seq 0 (length is)) -> exists E1 is1 es1, action F S o E is = Ok (E1, is1, es1).
Proof.
  intros Ht Hc P. destruct (run_complete S o is [] (perm_seq_nodup _ _ P)) as (is' & es' & R).
  - intros k Hk. apply (Permutation_in _ P) in Hk. apply in_seq in Hk. destruct (nth_error is k) as [i|] eqn:E1; [|apply nth_error_None in E1; lia]. assert (Hi : cached i) by (rewrite Forall_forall in Hc; apply Hc; eapply nth_error_In; exact E1). destruct (process_total S i Ht Hi) as (i' & e & Ep & _). exists i, i', e. auto.
  - unfold action. rewrite R. eauto.
Qed.

(** ** inactive interactions *)
Lemma process_active S i i' e : formed i -> process F S i = Ok (i', e) -> (isReal i = true -> isReal i' = true -> isActive i' = isActive i) /\ (forall j, In j (laws e) -> isActive j = isActive i).
Proof.
  intros Hf H. assert (K : forall i0 gf b1 b2 s1 s2, isActive i0 = isActive i -> apply_geom F S i0 gf b1 b2 s1 s2 = Ok (i', e) -> (isReal i0 = true -> isReal i' = true -> isActive i' = isActive i) /\ (forall j, In j (laws e) -> isActive j = isActive i)).
  { intros i0 gf b1 b2 s1 s2 Ha. unfold apply_geom. destruct (goGeom F gf s1 s2 (state b1) (state b2) (shift2 F (cellDist i0)) (geom i0) (isReal i0)) as [[|] g].
    - destruct g as [g|]; [|discriminate]. destruct (match cPhys (set_geom i0 (Some g)) with Some p => Some p | None => option_map fst (physFor F (material b1) (material b2)) end) as [pf|]; [|discriminate]. destruct (negb _); [discriminate|]. unfold apply_law. destruct (match cLaw _ with Some l => Some l | None => _ end) as [l|]; [|discriminate].
      destruct (goLaw F l _ _ _ _ _) as [[ok after] fs]. intros E. injection E as <- <-. cbn [laws]. split; [|intros j [<- |[]]; exact Ha]. intros _. destruct ok, after as [[g' p']|]; intros R; try discriminate R. exact Ha.
    - intros E. injection E as <- <-. split; [|intros j []]. intros R. rewrite R. intros C. discriminate C. }
  apply process_cases in H. destruct H as [? -> ->|? ? -> ->|? ? ? ? ? ? -> ->|? ? ? ? ? ? -> ->|? ? ? ? ? ? ? ? ? ? ? -> ->|? ? ? ? gf ? ? ? ? ? ? ? ? -> H|? ? ? ? gf ? ? ? ? ? ? ? ? ? G P -> H]; try (split; [try reflexivity|intros j []]; intros _ C; discriminate C).
  - refine (K _ _ _ _ _ _ _ H). reflexivity.
  - edestruct K as (_ & K2); [|exact H|]; [reflexivity|]. split; [|exact K2]. intros C. unfold isReal in C. rewrite G in C. discriminate.
Qed.
(** laws which take isActive into account *)
Lemma process_silent S i i' e : formed i -> respects F -> isActive i = false -> process F S i = Ok (i', e) -> forces e = [].
Proof.
  intros Hf Hr Ha H. assert (K : forall i0 gf b1 b2 s1 s2, isActive i0 = isActive i -> apply_geom F S i0 gf b1 b2 s1 s2 = Ok (i', e) -> forces e = []).
  { intros i0 gf b1 b2 s1 s2 Hi. unfold apply_geom. destruct (goGeom F gf s1 s2 (state b1) (state b2) (shift2 F (cellDist i0)) (geom i0) (isReal i0)) as [[|] g].
    - destruct g as [g|]; [|discriminate]. destruct (match cPhys (set_geom i0 (Some g)) with Some p => Some p | None => option_map fst (physFor F (material b1) (material b2)) end) as [pf|]; [|discriminate]. destruct (negb _); [discriminate|]. unfold apply_law. destruct (match cLaw _ with Some l => Some l | None => _ end) as [l|]; [|discriminate].
      match goal with |- context[goLaw F l ?j ?g ?p ?a ?b] => pose proof (Hr l j g p a b) as Hs; destruct (goLaw F l j g p a b) as [[ok after] fs] end. intros E. injection E as <- <-. cbn [forces snd] in *. apply Hs. cbn. congruence.
    - intros E. injection E as _ <-. reflexivity. }
  apply process_cases in H. destruct H as [? -> ->|? ? -> ->|? ? ? ? ? ? -> ->|? ? ? ? ? ? -> ->|? ? ? ? ? ? ? ? ? ? ? -> ->|? ? ? ? gf ? ? ? ? ? ? ? ? -> H|? ? ? ? gf ? ? ? ? ? ? ? ? ? G P -> H]; try reflexivity; (refine (K _ _ _ _ _ _ _ H); reflexivity).
Qed.

(** ** what the law is given *)
Lemma process_given S i i' e j : process F S i = Ok (i', e) -> In j (laws e) ->
  laws e = [j] /\ ((id1 j = id1 i /\ id2 j = id2 i /\ cellDist j = cellDist i) \/ (id1 j = id2 i /\ id2 j = id1 i /\ cellDist j = opp F (cellDist i))) /\
  exists c1 c2 s1 s2 gf l g p, bodies_of S j c1 c2 /\ shape c1 = Some s1 /\ shape c2 = Some s2 /\ cGeom j = Some gf /\ geom j = Some g /\ phys j = Some p /\
    goGeom F gf s1 s2 (state c1) (state c2) (shift2 F (cellDist j)) (geom i) (isReal i) = (true, Some g) /\ forces e = snd (goLaw F l j g p (state c1) (state c2)).
Proof.
  intros H Hj. assert (K : forall i0 gf b1 b2 s1 s2, cGeom i0 = Some gf -> apply_geom F S i0 gf b1 b2 s1 s2 = Ok (i', e) ->
     laws e = [j] /\ id1 j = id1 i0 /\ id2 j = id2 i0 /\ cellDist j = cellDist i0 /\ exists l g p, cGeom j = Some gf /\ geom j = Some g /\ phys j = Some p /\
      goGeom F gf s1 s2 (state b1) (state b2) (shift2 F (cellDist j)) (geom i0) (isReal i0) = (true, Some g) /\ forces e = snd (goLaw F l j g p (state b1) (state b2))).
  { intros i0 gf b1 b2 s1 s2 Hg. unfold apply_geom. destruct (goGeom F gf s1 s2 (state b1) (state b2) (shift2 F (cellDist i0)) (geom i0) (isReal i0)) as [[|] g] eqn:Eg.
    - destruct g as [g|]; [|discriminate]. destruct (match cPhys (set_geom i0 (Some g)) with Some p => Some p | None => option_map fst (physFor F (material b1) (material b2)) end) as [pf|]; [|discriminate]. destruct (negb _); [discriminate|]. unfold apply_law. destruct (match cLaw _ with Some l => Some l | None => _ end) as [l|]; [|discriminate].
      match goal with |- context[goLaw F l ?x ?g ?p ?a ?b] => set (j0 := x); set (p0 := p); destruct (goLaw F l j0 g p0 a b) as [[ok after] fs] eqn:El end. intros E. injection E as _ <-. cbn [laws forces] in *. destruct Hj as [<- |[]]. split; [reflexivity|]. split; [reflexivity|]. split; [reflexivity|]. split; [reflexivity|]. exists l, g, p0. split; [exact Hg|]. split; [reflexivity|]. split; [reflexivity|]. split; [exact Eg|]. rewrite El. reflexivity.
    - intros E. injection E as _ <-. destruct Hj. }
  apply process_cases in H. destruct H as [? -> ->|? ? -> ->|? ? ? ? ? ? -> ->|? ? ? ? ? ? -> ->|? ? ? ? ? ? ? ? ? ? ? -> ->|b1 b2 s1 s2 gf ? ? (B1 & B2) ? S1 S2 ? ? -> H|b1 b2 s1 s2 gf ? ? (B1 & B2) ? S1 S2 ? ? ? G P -> H]; try (destruct Hj; fail).
  - apply K in H; [|reflexivity]. cbn [set_cGeom id1 id2 cellDist geom] in H. destruct H as (A & I1 & I2 & C & l & g & p & Q1 & Q2 & Q3 & Q4 & Q5). split; [exact A|]. split; [left; auto|]. exists b1, b2, s1, s2, gf, l, g, p. unfold bodies_of. rewrite I1, I2. auto 10.
  - apply K in H; [|reflexivity]. cbn [id1 id2 cellDist geom] in H. destruct H as (A & I1 & I2 & C & l & g & p & Q1 & Q2 & Q3 & Q4 & Q5). split; [exact A|]. split; [right; auto|]. exists b2, b1, s2, s1, gf, l, g, p. unfold bodies_of. rewrite I1, I2.
    split; [auto|]. split; [exact S2|]. split; [exact S1|]. split; [exact Q1|]. split; [exact Q2|]. split; [exact Q3|]. split; [|exact Q5]. unfold isReal. rewrite G. exact Q4.
Qed.
Lemma process_noforce S i i' e : process F S i = Ok (i', e) -> laws e = [] -> forces e = [] /\ called e = [].
Proof.
  intros H Hl. assert (K : forall i0 gf b1 b2 s1 s2, apply_geom F S i0 gf b1 b2 s1 s2 = Ok (i', e) -> forces e = [] /\ called e = []).
  { intros i0 gf b1 b2 s1 s2. unfold apply_geom. destruct (goGeom F gf s1 s2 (state b1) (state b2) (shift2 F (cellDist i0)) (geom i0) (isReal i0)) as [[|] g].
    - destruct g as [g|]; [|discriminate]. destruct (match cPhys (set_geom i0 (Some g)) with Some p => Some p | None => option_map fst (physFor F (material b1) (material b2)) end) as [pf|]; [|discriminate]. destruct (negb _); [discriminate|]. unfold apply_law. destruct (match cLaw _ with Some l => Some l | None => _ end) as [l|]; [|discriminate].
      destruct (goLaw F l _ _ _ _ _) as [[ok after] fs]. intros E. injection E as _ <-. discriminate Hl.
    - intros E. injection E as _ <-. split; reflexivity. }
  apply process_cases in H. destruct H as [? -> ->|? ? -> ->|? ? ? ? ? ? -> ->|? ? ? ? ? ? -> ->|? ? ? ? ? ? ? ? ? ? ? -> ->|? ? ? ? gf ? ? ? ? ? ? ? ? -> H|? ? ? ? gf ? ? ? ? ? ? ? ? ? G P -> H]; try (split; reflexivity); eapply K; exact H.
Qed.
End Proofs.
