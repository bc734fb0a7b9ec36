(** From invariants to the statements of the properties. *)
From stdpp Require Import gmap list.
From Coq Require Import ZArith Lia.
From Verif Require Import World_Model World_Spec World_Proofs1 World_Proofs2 World_Proofs3 World_Proofs4 World_Proofs5.

Lemma along_both1 C D l : forall w, along (both C D) w l -> along C w l.
Proof. induction l as [|o l IH]; intros w; [auto|]. cbn. intros [[H _] H']. split; [exact H|]. destruct (step w o); auto. Qed.
Lemma along_both2 C D l : forall w, along (both C D) w l -> along D w l.
Proof. induction l as [|o l IH]; intros w; [auto|]. cbn. intros [[_ H] H']. split; [exact H|]. destruct (step w o); auto. Qed.

Lemma reachable_A w : reachable fresh_insert w -> InvA w.
Proof. intros (l & H1 & H2). eapply reach_A; eassumption. Qed.
Lemma reachable_C w : reachable clump_safe w -> InvC w.
Proof. intros (l & H1 & H2). eapply reach_C; eassumption. Qed.
Lemma reachable_I w : reachable inter_safe w -> InvI w.
Proof. intros (l & H1 & H2). eapply reach_I; eassumption. Qed.
Lemma reachable_CI w : reachable (both clump_safe inter_safe) w -> InvC w /\ InvI w.
Proof. intros (l & H1 & H2). split; [eapply reach_C|eapply reach_I]; try eassumption; [eapply along_both1|eapply along_both2]; exact H1. Qed.

Lemma ids_stable w : reachable fresh_insert w -> ids_ok w /\
  forall o w', fresh_insert w o -> step w o = Ret tt w' \/ step w o = Exc w' ->
    length (slots w) <= length (slots w') /\
    ((forall id fl, o <> OErase id fl) -> (forall ids c, o <> OAddToClump ids c) ->
     forall i r, slots w !! i = Some (Some r) -> slots w' !! i = Some (Some r)).
Proof.
  intros H. apply reachable_A in H. split; [apply H|]. intros o w' Hf Hs. pose proof (step_A w o H Hf) as S.
  assert (G : InvA w' /\ length (slots w) <= length (slots w') /\ (may_erase o = false -> keeps w w')) by (destruct Hs as [E|E]; rewrite E in S; exact S).
  destruct G as (_ & L & K). split; [exact L|]. intros N1 N2. apply K. destruct o; try reflexivity; [exfalso; eapply N1; reflexivity|exfalso; eapply N2; reflexivity].
Qed.

Lemma append_new w r n w' : append w r = Ret n w' -> n = length (slots w) /\ slots w' = slots w ++ [Some r].
Proof.
  unfold append, bc_insert. destruct (bheap w !! r) as [b|]; [|discriminate]. destruct (bid b); [discriminate|]. intros E. injection E as <- <-. split; reflexivity.
Qed.

Lemma clumps_consistent w : reachable clump_safe w -> clumps_ok w.
Proof. intros H. apply reachable_C in H. apply okV_clumps, H. Qed.
Lemma erase_effect w id fl : reachable clump_safe w -> alive w id ->
  exists w', erase w id fl = Ret true w' /\ clumps_ok w' /\ forall k, view w' k = erase_view (view w) id fl k.
Proof. intros H Ha. apply reachable_C in H. destruct (erase_C w id fl H Ha) as (w' & E & C & V). exists w'. split; [exact E|]. split; [apply okV_clumps, C|exact V]. Qed.
Lemma clump_effect w ids : reachable clump_safe w -> NoDup ids -> ids <> [] ->
  (forall i, i ∈ ids -> exists cl m, view w i = Some (cl, m) /\ cl <> Some i) ->
  exists w', clump w ids = Ret (length (slots w)) w' /\ clumps_ok w' /\ forall k, view w' k = clump_view (view w) (length (slots w)) ids k.
Proof. intros H H1 H2 H3. apply reachable_C in H. destruct (clump_exact w ids H H1 H2 H3) as (w' & E & C & V). exists w'. split; [exact E|]. split; [apply okV_clumps, C|exact V]. Qed.
Lemma addToClump_effect w ids c mc : reachable clump_safe w -> NoDup ids -> ids <> [] -> view w c = Some (Some c, Some mc) ->
  (forall i, i ∈ ids -> exists m, view w i = Some (None, m)) ->
  exists w', addToClump w ids c = Ret tt w' /\ clumps_ok w' /\
    forall k, view w' k = if decide (k = c) then Some (Some c, Some (list_to_set ids ∪ mc))
                          else match view w k with Some (cl, m) => if bool_decide (k ∈ ids) then Some (Some c, m) else Some (cl, m) | None => None end.
Proof. intros H H1 H2 H3 H4. apply reachable_C in H. destruct (addToClump_exact w ids c mc H H1 H2 H3 H4) as (w' & E & C & V). exists w'. split; [exact E|]. split; [apply okV_clumps, C|exact V]. Qed.
Lemma release_effect w b c mc m : reachable clump_safe w -> view w c = Some (Some c, Some mc) -> view w b = Some (Some c, m) -> b <> c -> 2 < size mc ->
  exists w', releaseFromClump w b c = Ret tt w' /\ clumps_ok w' /\
    forall k, view w' k = if decide (k = b) then Some (None, m) else if decide (k = c) then Some (Some c, Some (mc ∖ {[b]})) else view w k.
Proof. intros H H1 H2 H3 H4. apply reachable_C in H. destruct (release_exact w b c mc m H H1 H2 H3 H4) as (w' & E & C & V). exists w'. split; [exact E|]. split; [apply okV_clumps, C|exact V]. Qed.

Lemma erase_ends_interactions w id fl : reachable (both clump_safe inter_safe) w -> alive w id ->
  exists w', erase w id fl = Ret true w' /\ ~ alive w' id /\
    (forall q i j x, listed w' q i j -> iheap w' !! q = Some x -> ~ alive w' i -> geom x = false /\ phys x = false) /\
    lin w' = lin w /\
    (forall q, q ∈ lin w -> (forall i j, listed w q i j -> alive w' i) -> iheap w' !! q = iheap w !! q) /\
    (forall k r b', at_id w' k = Some (r, b') -> exists b, at_id w k = Some (r, b) /\ intrs b' = intrs b) /\
    (forall P, (forall i j, ~ alive w' i \/ ~ alive w' j -> P i j = true) ->
       exists w2, step w' (OPurge P) = Ret tt w2 /\ forall q i j, listed w2 q i j -> alive w' i).
Proof.
  intros H Ha. apply reachable_CI in H as [HC HI]. destruct (erase_C w id fl HC Ha) as (w' & E & C' & V').
  pose proof (bc_erase_ER 4 w id fl (I0 w HI)) as R. fold (erase w id fl) in R. rewrite E in R. cbn in R. pose proof (ER_I w w' HI R) as HI'.
  exists w'. split; [exact E|]. split; [|split; [|split; [apply R|split; [|split]]]].
  - rewrite alive_V. intros (cl & m & Hv). rewrite V' in Hv. apply alive_V in Ha as (cl0 & m0 & Hv0). unfold erase_view in Hv. rewrite Hv0 in Hv.
    destruct cl0 as [c|]; destruct (decide (id = id)); congruence.
  - intros q i j x (Hq & x0 & Ex0 & Hj) Ex Hd. rewrite Ex in Ex0. injection Ex0 as <-. eapply (I5 w' HI'); eassumption.
  - intros q Hq Hal. destruct (R4 _ _ R q) as [E'|(x & Ex & Ex' & i & r & b & j & Hi & Hd & Hj)]; [exact E'|]. exfalso.
    destruct (I3 w HI i r b j q Hi Hj) as (_ & _ & [C|[_ C]]); [|contradiction]. apply Hd. apply (Hal i j). exact C.
  - intros k r b' Hk. destruct (ER_at _ _ _ _ _ R Hk) as (b & Hb & Ei & _). exists b. auto.
  - intros P HP. destruct (purge_seq_spec P (2 * length (lin w') + 1) w' 0 HI') as (w2 & E2 & I2' & M & N & C & K); [lia|intros; lia|].
    exists w2. split; [exact E2|]. intros q i j (Hq & x2 & Ex2 & Hj). apply K in Hq as [Hq Hu]. destruct (same_content_get' _ _ _ _ C Ex2) as (x & Ex & Ec).
    specialize (Hu x Ex). apply (content_joins _ _ _ _ Ec) in Hj. destruct (decide (alive w' i)) as [|Hd]; [assumption|exfalso].
    destruct (I5 w' HI' q x i j Hq Ex Hj Hd) as [G Ph]. unfold unwanted in Hu. rewrite G in Hu. cbn in Hu. rewrite HP in Hu; [discriminate|].
    unfold joins in Hj. destruct Hj as [[-> ->]|[-> ->]]; auto.
Qed.

Lemma find_sym w i j : find w i j = find w j i.
Proof. unfold find. rewrite (Nat.min_comm i j), (Nat.max_comm i j). reflexivity. Qed.

Lemma one_per_pair w i j : reachable inter_safe w -> alive w i -> alive w j -> i <> j ->
  find w i j = find w j i /\ (forall q, find w i j = Some q <-> listed w q i j) /\ (forall q q', listed w q i j -> listed w q' i j -> q = q').
Proof.
  intros H Hi Hj Hij. apply reachable_I in H. destruct (InvI_agree w H) as (_ & _ & F & _ & U & _).
  split; [apply find_sym|]. split; [intros q; apply F; assumption|apply U].
Qed.

Lemma request_erase_effect : forall w i j, reachable inter_safe w -> i <> j -> alive w i -> alive w j ->
  exists w', step w (OReqErase i j) = Ret tt w' /\ containers_agree w' /\ lin w' = lin w /\ slots w' = slots w /\ bheap w' = bheap w /\
    (forall q x, listed w q i j -> iheap w !! q = Some x -> exists x', iheap w' !! q = Some x' /\ content x' = (id1 x, id2 x, false, false)) /\
    (forall q, ~ listed w q i j -> iheap w' !! q = iheap w !! q).
Proof.
  intros w i j H Hij Hi Hj. destruct (one_per_pair w i j H Hi Hj Hij) as (_ & F & _). apply reachable_I in H. exists (requestErase2 w i j). split; [reflexivity|]. split; [apply InvI_agree, requestErase2_I, H|].
  unfold requestErase2. destruct (find w i j) as [q0|] eqn:E.
  - split; [reflexivity|]. split; [reflexivity|]. split; [reflexivity|]. assert (L : listed w q0 i j) by (apply F; reflexivity). destruct L as (L1 & x0 & L2 & L3). unfold requestErase. cbn [iheap set_iheap]. rewrite L2. split.
    + intros q x Hq Hx. apply F in Hq. injection Hq as <-. rewrite L2 in Hx. injection Hx as <-. rewrite lookup_insert. eexists. split; [reflexivity|reflexivity].
    + intros q Hq. apply lookup_insert_ne. intros <-. apply Hq. apply F. reflexivity.
  - split; [reflexivity|]. split; [reflexivity|]. split; [reflexivity|]. split; [|reflexivity]. intros q x Hq. apply F in Hq. discriminate.
Qed.

Lemma insert_effect w i j : reachable inter_safe w -> i <> j -> alive w i -> alive w j ->
  (forall k r b, k = i \/ k = j -> at_id w k = Some (r, b) -> members b = None) ->
  exists w', containers_agree w' /\
    ((insert_new w i j = Ret false w' /\ lin w' = lin w /\ exists q, listed w q i j) \/
     (insert_new w i j = Ret true w' /\ (forall q, ~ listed w q i j) /\
      exists q, lin w' = lin w ++ [q] /\ find w' i j = Some q /\ iheap w !! q = None /\
        (exists x, iheap w' !! q = Some x /\ content x = (i, j, false, false)) /\
        forall q', q' <> q -> iheap w' !! q' = iheap w !! q')).
Proof.
  intros H Hij Hi Hj Hm. apply reachable_I in H. destruct (InvI_agree w H) as (_ & _ & F & _).
  destruct (insert_new_spec w i j H Hij Hi Hj Hm) as [(w' & E & I' & El & (q & Ef))|(w' & E & I' & El & Ef & Eh & Ef')]; exists w'; (split; [apply InvI_agree, I'|]).
  - left. split; [exact E|]. split; [exact El|]. exists q. apply F; assumption.
  - right. split; [exact E|]. split.
    + intros q Hq. apply F in Hq; [congruence|assumption..].
    + exists (nexti w). split; [exact El|]. split; [exact Ef'|]. split.
      * destruct (iheap w !! nexti w) eqn:Ex; [|reflexivity]. apply (I6 w H) in Ex. lia.
      * rewrite Eh. split; [eexists; rewrite lookup_insert; split; reflexivity|]. intros q' Hq'. rewrite lookup_insert_ne by congruence. reflexivity.
Qed.

Lemma containers_always_agree w : reachable inter_safe w -> containers_agree w.
Proof. intros H. apply InvI_agree, reachable_I, H. Qed.

Lemma no_trace_after_clear w pos : reachable inter_safe w -> no_trace (clear_intrs w) pos.
Proof.
  intros H. apply reachable_I in H. split.
  - intros i r b Hi. rewrite clear_at in Hi by apply (I0 w H). destruct (at_id w i) as [[r0 b0]|]; [|discriminate]. injection Hi as <- <-. apply lookup_empty.
  - intros q x Hq. inversion Hq.
Qed.

Lemma purge_exact w P : reachable inter_safe w ->
  (exists w', step w (OPurge P) = Ret tt w' /\ removed_exactly (unwanted P) w w' /\ containers_agree w') /\
  (forall chunks, concat chunks = seq 0 (length (lin w)) ->
   exists w', step w (OPurgePar P chunks) = Ret tt w' /\ removed_exactly (unwanted P) w w' /\ containers_agree w').
Proof.
  intros H. apply reachable_I in H. split.
  - destruct (purge_seq_spec P (2 * length (lin w) + 1) w 0 H) as (w' & E & R); [lia|intros; lia|].
    exists w'. split; [exact E|]. split; [apply purged_exactly; assumption|apply InvI_agree, R].
  - intros chunks Hc. destruct (purge_par_spec P w chunks H Hc) as (w' & E & R).
    exists w'. split; [exact E|]. split; [apply purged_exactly; assumption|apply InvI_agree, R].
Qed.

Lemma eraseNonReal_exact w : reachable inter_safe w ->
  ((forall k q x, S k < length (lin w) -> lin w !! k = Some q -> iheap w !! q = Some x -> isReal x = true) ->
    exists w', eraseNonReal w = Ret tt w' /\ removed_exactly (fun x => negb (isReal x)) w w' /\ containers_agree w') /\
  (forall k q x, S k < length (lin w) -> lin w !! k = Some q -> iheap w !! q = Some x -> isReal x = false -> eraseNonReal w = UB).
Proof.
  intros H. apply reachable_I in H. destruct (eraseNonReal_spec w H) as [(E & k & q & x & Hk & Eq & Ex & Er)|(w' & E & R & Hr)].
  - split; [|intros; exact E]. intros Hr. rewrite (Hr k q x Hk Eq Ex) in Er. discriminate.
  - split; [|intros k q x Hk Eq Ex Er; rewrite (Hr k q x Hk Eq Ex) in Er; discriminate].
    intros _. exists w'. split; [exact E|]. split; [apply purged_exactly; assumption|apply InvI_agree, R].
Qed.

Lemma reload_exact w l : reachable inter_safe w -> Permutation l (saved w) ->
  exists w', reload w l = Ret tt w' /\ lin w' = l /\ containers_agree w' /\
    removed_exactly (fun x => negb (geom x || phys x)) w w'.
Proof.
  intros H HP. apply reachable_I in H. destruct (reload_ok w l H HP) as (w' & E & I' & El & C & M). exists w'. split; [exact E|]. split; [exact El|].
  split; [apply InvI_agree, I'|]. split; [|split; [exact C|split; [apply M|apply V_same_meta, M]]].
  intros q. rewrite El, HP, saved_in. split; intros [Hq Hx]; (split; [exact Hq|]).
  - destruct Hx as (x & Ex & Hgp). intros x' Ex'. rewrite Ex in Ex'. injection Ex' as <-. rewrite Hgp. reflexivity.
  - destruct (InvI_heap w q H Hq) as (x & Ex). exists x. split; [exact Ex|]. specialize (Hx x Ex). destruct (geom x || phys x); [reflexivity|discriminate].
Qed.

(** for checking concrete histories *)
Lemma along_ret (C : world -> op -> Prop) w o l u w1 : C w o -> step w o = Ret u w1 -> along C w1 l -> along C w (o :: l).
Proof. intros H E H'. cbn. rewrite E. auto. Qed.

Lemma recycled_ids w o w' : reachable inter_safe w ->
  (match o with OInsertAt r pos => no_trace w pos | _ => True end) -> recycling w o ->
  step w o = Ret tt w' \/ step w o = Exc w' -> containers_agree w'.
Proof.
  intros H Ht Hr Hs. apply reachable_I in H. apply InvI_agree. assert (S : inter_safe w o).
  { destruct o; try exact Hr. destruct Hr as [H1 H2]. split; [exact H1|]. split; [exact Ht|exact H2]. }
  pose proof (step_I w o H S) as G. destruct Hs as [E|E]; rewrite E in G; exact G.
Qed.
Lemma reappended_body w r w' : reachable inter_safe w ->
  (forall b, bheap w !! r = Some b -> intrs b = ∅) ->
  step w (OAppend r) = Ret tt w' \/ step w (OAppend r) = Exc w' -> containers_agree w'.
Proof. intros H Hr Hs. eapply (recycled_ids w (OAppend r)); [exact H|exact I|exact Hr|exact Hs]. Qed.
