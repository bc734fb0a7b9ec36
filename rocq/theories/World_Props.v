(** Properties C01-C09 and C47: bodies, clumps, interactions. *)
From stdpp Require Import gmap list.
From Coq Require Import ZArith Lia.
From Verif Require Import World_Model World_Spec World_Check World_Proofs2 World_Proofs6.

(** Tactic for the examples: run a concrete history and read off what was tested. *)
Ltac unb := repeat match goal with
  | H : _ && _ = true |- _ => apply andb_true_iff in H as [? ?]
  | H : bool_decide _ = true |- _ => apply bool_decide_eq_true_1 in H
  | H : isUB _ = true |- _ => apply isUB_spec in H
  | H : listedb _ _ _ _ = true |- _ => apply listedb_spec in H
  | H : ret _ _ = true |- _ => apply ret_spec in H as (? & ? & ? & ?) end.
Ltac by_test spec l f := destruct (witness _ _ spec l f) as (w & Hreach & Hrun & Hf); [vm_compute; reflexivity|cbv beta in Hf; unb].

(** ** C01 *)
Theorem C01_body_ids_stable_partial : forall w, reachable fresh_insert w -> ids_ok w /\
  forall o w', fresh_insert w o -> step w o = Ret tt w' \/ step w o = Exc w' ->
    length (slots w) <= length (slots w') /\
    ((forall id fl, o <> OErase id fl) -> (forall ids c, o <> OAddToClump ids c) ->
     forall i r, slots w !! i = Some (Some r) -> slots w' !! i = Some (Some r)).
Proof. exact ids_stable. Qed.
Print Assumptions C01_body_ids_stable_partial.

(** the id returned by append was never in use *)
Theorem C01_append_returns_length : forall w r n w', append w r = Ret n w' ->
  n = length (slots w) /\ slots w' = slots w ++ [Some r].
Proof. exact append_new. Qed.
Print Assumptions C01_append_returns_length.

(** full statement refuted: a body that is in the container can be inserted again at a freed id *)
Theorem C01_body_ids_stable_refuted : exists l w, run init l = Some w /\ ~ ids_ok w.
Proof.
  set (l := [ONew; OAppend 0; ONew; OAppend 1; OErase 1 false; OInsertAt 0 1]).
  destruct (witness_run l (fun w => bool_decide (slots w !! 0 = Some (Some 0)) && match bheap w !! 0 with Some b => bool_decide (bid b = Some 1) | None => false end))
    as (w & Hrun & Hf); [vm_compute; reflexivity|]. unb.
  exists l, w. split; [exact Hrun|]. intros H1. destruct (H1 0 0) as (b & Hb & Hi); [assumption|]. rewrite Hb in *. unb. congruence.
Qed.
Print Assumptions C01_body_ids_stable_refuted.

Example C01_hyp : exists w, reachable fresh_insert w /\ slots w = [Some 0; Some 2; Some 3].
Proof.
  by_test freshb_spec [ONew; OAppend 0; ONew; OAppend 1; OErase 1 false; ONew; OInsertAt 2 1; OClump [0]]
    (fun w => bool_decide (slots w = [Some 0; Some 2; Some 3])).
  exists w. auto.
Qed.

(** ** C02 *)
Theorem C02_clumps_consistent_partial : forall w, reachable clump_safe w -> clumps_ok w.
Proof. exact clumps_consistent. Qed.
Print Assumptions C02_clumps_consistent_partial.

(** the exact effect of the calls *)
Theorem C02_erase_effect : forall w id fl, reachable clump_safe w -> alive w id ->
  exists w', erase w id fl = Ret true w' /\ clumps_ok w' /\ forall k, view w' k = erase_view (view w) id fl k.
Proof. exact erase_effect. Qed.
Print Assumptions C02_erase_effect.

Theorem C02_clump_effect : forall w ids, reachable clump_safe w -> NoDup ids -> ids <> [] ->
  (forall i, i ∈ ids -> exists cl m, view w i = Some (cl, m) /\ cl <> Some i) ->
  exists w', clump w ids = Ret (length (slots w)) w' /\ clumps_ok w' /\
    forall k, view w' k = clump_view (view w) (length (slots w)) ids k.
Proof. exact clump_effect. Qed.
Print Assumptions C02_clump_effect.

Theorem C02_addToClump_effect : forall w ids c mc, reachable clump_safe w -> NoDup ids -> ids <> [] ->
  view w c = Some (Some c, Some mc) -> (forall i, i ∈ ids -> exists m, view w i = Some (None, m)) ->
  exists w', addToClump w ids c = Ret tt w' /\ clumps_ok w' /\
    forall k, view w' k = if decide (k = c) then Some (Some c, Some (list_to_set ids ∪ mc))
                          else match view w k with
                               | Some (cl, m) => if bool_decide (k ∈ ids) then Some (Some c, m) else Some (cl, m)
                               | None => None end.
Proof. exact addToClump_effect. Qed.
Print Assumptions C02_addToClump_effect.

Theorem C02_release_effect : forall w b c mc m, reachable clump_safe w ->
  view w c = Some (Some c, Some mc) -> view w b = Some (Some c, m) -> b <> c -> 2 < size mc ->
  exists w', releaseFromClump w b c = Ret tt w' /\ clumps_ok w' /\
    forall k, view w' k = if decide (k = b) then Some (None, m)
                          else if decide (k = c) then Some (Some c, Some (mc ∖ {[b]})) else view w k.
Proof. exact release_effect. Qed.
Print Assumptions C02_release_effect.

(** full statement refuted: addToClump with a clump as argument; afterwards the
    clump lists members that do not name it *)
Theorem C02_clumps_consistent_refuted : exists l w, run init l = Some w /\ ~ clumps_ok w.
Proof.
  set (l := [ONew; OAppend 0; ONew; OAppend 1; OClump [0; 1]; ONew; OAppend 3; ONew; OAppend 4; OClump [3; 4]; OAddToClump [2] 5]).
  destruct (witness_run l (fun w => match at_id w 5 with
      | Some (_, b) => bool_decide (clumpId b = Some 5) && match members b with Some ms => bool_decide (0 ∈ ms) | None => false end
      | None => false end && match at_id w 0 with Some (_, b) => bool_decide (clumpId b = None) | None => false end))
    as (w & Hrun & Hf); [vm_compute; reflexivity|]. unb.
  exists l, w. split; [exact Hrun|]. intros H1. destruct (at_id w 5) as [[r b]|] eqn:E5; [|discriminate]. unb.
  specialize (H1 5 r b E5). rewrite H in H1. rewrite bool_decide_eq_true_2 in H1 by reflexivity.
  destruct H1 as (ms & Em & H1). rewrite Em in *. unb. destruct (H1 0) as (_ & rm & bm & Hb & Hcb); [assumption|].
  rewrite Hb in *. unb. congruence.
Qed.
Print Assumptions C02_clumps_consistent_refuted.

Example C02_hyp : exists w, reachable clump_safe w /\
  map (view w) [0; 1; 2; 3; 4; 5] =
    [Some (Some 3, None); Some (Some 3, None); Some (None, None); Some (Some 3, Some {[0; 1; 4]}); Some (Some 3, None); None].
Proof.
  by_test clumpb_spec [ONew; OAppend 0; ONew; OAppend 1; ONew; OAppend 2; OClump [0; 1; 2]; ONew; OAppend 4; OAddToClump [4] 3; ORelease 2 3]
    (fun w => bool_decide (map (view w) [0; 1; 2; 3; 4; 5] =
      [Some (Some 3, None); Some (Some 3, None); Some (None, None); Some (Some 3, Some {[0; 1; 4]}); Some (Some 3, None); None])).
  exists w. auto.
Qed.

(** ** C03 *)
Theorem C03_erase_ends_interactions : forall w id fl, reachable (both clump_safe inter_safe) w -> alive w id ->
  exists w', erase w id fl = Ret true w' /\ ~ alive w' id /\
    (* no interaction with a body that is gone is real, or has geometry or physics *)
    (forall q i j x, listed w' q i j -> iheap w' !! q = Some x -> ~ alive w' i -> geom x = false /\ phys x = false) /\
    (* the others are as before, also in the maps of the remaining bodies *)
    lin w' = lin w /\
    (forall q, q ∈ lin w -> (forall i j, listed w q i j -> alive w' i) -> iheap w' !! q = iheap w !! q) /\
    (forall k r b', at_id w' k = Some (r, b') -> exists b, at_id w k = Some (r, b) /\ intrs b' = intrs b) /\
    (* a purge whose criterion holds for pairs with a missing body leaves none of them *)
    (forall P, (forall i j, ~ alive w' i \/ ~ alive w' j -> P i j = true) ->
       exists w2, step w' (OPurge P) = Ret tt w2 /\ forall q i j, listed w2 q i j -> alive w' i).
Proof. exact erase_ends_interactions. Qed.
Print Assumptions C03_erase_ends_interactions.

Example C03_hyp : exists w, reachable (both clump_safe inter_safe) w /\ alive w 1 /\ length (lin w) = 2 /\
  isReal <$> iheap w !! 0 = Some true.
Proof.
  by_test ci_spec [ONew; OAppend 0; ONew; OAppend 1; ONew; OAppend 2; OClump [0; 2]; OInsertI 0 1; OMakeReal 0 true true; OInsertI 2 1]
    (fun w => bool_decide (alive w 1) && bool_decide (length (lin w) = 2) && bool_decide (isReal <$> iheap w !! 0 = Some true)).
  exists w. auto.
Qed.

(** ** C04 *)
Theorem C04_one_per_pair : forall w i j, reachable inter_safe w -> alive w i -> alive w j -> i <> j ->
  find w i j = find w j i /\ (forall q, find w i j = Some q <-> listed w q i j) /\
  (forall q q', listed w q i j -> listed w q' i j -> q = q').
Proof. exact one_per_pair. Qed.
Print Assumptions C04_one_per_pair.

Theorem C04_insert_effect : forall w i j, reachable inter_safe w -> i <> j -> alive w i -> alive w j ->
  (forall k r b, k = i \/ k = j -> at_id w k = Some (r, b) -> members b = None) ->
  exists w', containers_agree w' /\
    ((insert_new w i j = Ret false w' /\ lin w' = lin w /\ exists q, listed w q i j) \/
     (insert_new w i j = Ret true w' /\ (forall q, ~ listed w q i j) /\
      exists q, lin w' = lin w ++ [q] /\ find w' i j = Some q /\ iheap w !! q = None /\
        (exists x, iheap w' !! q = Some x /\ content x = (i, j, false, false)) /\
        forall q', q' <> q -> iheap w' !! q' = iheap w !! q')).
Proof. exact insert_effect. Qed.
Print Assumptions C04_insert_effect.

(** O.interactions.erase(i,j): the interaction of the pair is not real any more, nothing
    else changes *)
Theorem C04_request_erase_effect : forall w i j, reachable inter_safe w -> i <> j -> alive w i -> alive w j ->
  exists w', step w (OReqErase i j) = Ret tt w' /\ containers_agree w' /\ lin w' = lin w /\ slots w' = slots w /\ bheap w' = bheap w /\
    (forall q x, listed w q i j -> iheap w !! q = Some x -> exists x', iheap w' !! q = Some x' /\ content x' = (id1 x, id2 x, false, false)) /\
    (forall q, ~ listed w q i j -> iheap w' !! q = iheap w !! q).
Proof. exact request_erase_effect. Qed.
Print Assumptions C04_request_erase_effect.

(** ** C05 *)
Theorem C05_containers_agree : forall w, reachable inter_safe w -> containers_agree w.
Proof. exact containers_always_agree. Qed.
Print Assumptions C05_containers_agree.

Example C05_hyp : exists w, reachable inter_safe w /\ alive w 0 /\ alive w 2 /\ lin w = [3; 1] /\ find w 0 2 = Some 1 /\
  find w 3 2 = Some 3 /\ find w 0 1 = None.
Proof.
  by_test interb_spec [ONew; OAppend 0; ONew; OAppend 1; ONew; OAppend 2; OInsertI 1 0; OInsertI 0 2; OInsertI 2 1;
     OMakeReal 0 true true; OMakeReal 1 true false; OErase 1 false; ONew; OAppend 3; OInsertI 3 2; OSwap 3;
     OPurge (fun i j => Nat.eqb i 1 || Nat.eqb j 1); OReqErase 0 2]
    (fun w => bool_decide (alive w 0) && bool_decide (alive w 2) && bool_decide (lin w = [3; 1]) && bool_decide (find w 0 2 = Some 1) &&
       bool_decide (find w 3 2 = Some 3) && bool_decide (find w 0 1 = None)).
  exists w. auto 10.
Qed.

(** ** C06 *)
(** full statement refuted: after reusing the id of an erased body, lookup finds an
    interaction that iteration does not list *)
Theorem C06_recycled_ids_refuted : exists w i j q, reachable recycling w /\ alive w i /\ alive w j /\ i <> j /\
  find w i j = Some q /\ ~ listed w q i j /\ length (lin w) = 0.
Proof.
  by_test recyclingb_spec [ONew; OAppend 0; ONew; OAppend 1; OInsertI 0 1; OErase 0 false; OPurge (fun _ _ => true); ONew; OInsertAt 2 0; OInsertI 0 1]
    (fun w => bool_decide (alive w 0) && bool_decide (alive w 1) && bool_decide (find w 0 1 = Some 1) && bool_decide (1 ∉ lin w) && bool_decide (length (lin w) = 0)).
  exists w, 0, 1, 1. split; [exact Hreach|]. split; [assumption|]. split; [assumption|]. split; [lia|]. split; [assumption|].
  split; [intros Hl; apply listed_in in Hl; contradiction|assumption].
Qed.
Print Assumptions C06_recycled_ids_refuted.

(** it holds if nothing remembers the id ([inter_safe] allows insertAtId then), and
    this is the case for every id after O.interactions.clear() *)
Theorem C06_recycled_ids_partial : forall w o w', reachable inter_safe w ->
  (match o with OInsertAt r pos => no_trace w pos | _ => True end) -> recycling w o ->
  step w o = Ret tt w' \/ step w o = Exc w' -> containers_agree w'.
Proof. exact recycled_ids. Qed.
Print Assumptions C06_recycled_ids_partial.
Theorem C06_no_trace_after_clear_partial : forall w pos, reachable inter_safe w -> no_trace (clear_intrs w) pos.
Proof. exact no_trace_after_clear. Qed.
Print Assumptions C06_no_trace_after_clear_partial.

Example C06_hyp : exists w, reachable inter_safe w /\ no_trace w 0 /\ ~ alive w 0 /\ length (lin w) = 1 /\ recycling w (OInsertAt 3 0).
Proof.
  by_test interb_spec [ONew; OAppend 0; ONew; OAppend 1; ONew; OAppend 2; OInsertI 0 1; OErase 0 false; OClearI; OInsertI 1 2; ONew]
    (fun w => traceb w 0 && bool_decide (~ alive w 0) && bool_decide (length (lin w) = 1) && recyclingb w (OInsertAt 3 0)).
  exists w. split; [exact Hreach|]. split; [apply traceb_spec; assumption|]. split; [assumption|]. split; [assumption|]. apply recyclingb_spec. assumption.
Qed.

(** ** C07 *)
Theorem C07_purge_exact : forall w P, reachable inter_safe w ->
  (exists w', step w (OPurge P) = Ret tt w' /\ removed_exactly (unwanted P) w w' /\ containers_agree w') /\
  (forall chunks, concat chunks = seq 0 (length (lin w)) ->
   exists w', step w (OPurgePar P chunks) = Ret tt w' /\ removed_exactly (unwanted P) w w' /\ containers_agree w').
Proof. exact purge_exact. Qed.
Print Assumptions C07_purge_exact.

Example C07_hyp : exists w, reachable inter_safe w /\
  concat [[0; 1]; []; [2; 3]] = seq 0 (length (lin w)) /\
  exists u w', step w (OPurgePar (fun i j => Nat.eqb i 0) [[0; 1]; []; [2; 3]]) = Ret u w' /\ lin w' = [2; 1].
Proof.
  by_test interb_spec [ONew; OAppend 0; ONew; OAppend 1; ONew; OAppend 2; ONew; OAppend 3; OInsertI 0 1; OInsertI 0 2; OInsertI 1 2; OInsertI 0 3; OMakeReal 1 true true]
    (fun w => bool_decide (concat [[0; 1]; []; [2; 3]] = seq 0 (length (lin w))) &&
       ret (step w (OPurgePar (fun i j => Nat.eqb i 0) [[0; 1]; []; [2; 3]])) (fun _ w' => bool_decide (lin w' = [2; 1]))).
  exists w. split; [exact Hreach|]. split; [assumption|]. eauto.
Qed.

(** ** C08 *)
(** full statement refuted: the loop reads past the end of the array *)
Theorem C08_eraseNonReal_refuted : exists w, reachable inter_safe w /\ eraseNonReal w = UB.
Proof.
  by_test interb_spec [ONew; OAppend 0; ONew; OAppend 1; ONew; OAppend 2; OInsertI 0 1; OInsertI 0 2; OMakeReal 1 true true]
    (fun w => isUB (eraseNonReal w)).
  exists w. auto.
Qed.
Print Assumptions C08_eraseNonReal_refuted.

(** it works if only the last interaction is not real, and is undefined in all other cases *)
Theorem C08_eraseNonReal_partial : forall w, reachable inter_safe w ->
  ((forall k q x, S k < length (lin w) -> lin w !! k = Some q -> iheap w !! q = Some x -> isReal x = true) ->
    exists w', eraseNonReal w = Ret tt w' /\ removed_exactly (fun x => negb (isReal x)) w w' /\ containers_agree w') /\
  (forall k q x, S k < length (lin w) -> lin w !! k = Some q -> iheap w !! q = Some x -> isReal x = false ->
    eraseNonReal w = UB).
Proof. exact eraseNonReal_exact. Qed.
Print Assumptions C08_eraseNonReal_partial.

Example C08_hyp : exists w u w', reachable inter_safe w /\ length (lin w) = 2 /\ eraseNonReal w = Ret u w' /\ lin w' = [0].
Proof.
  by_test interb_spec [ONew; OAppend 0; ONew; OAppend 1; ONew; OAppend 2; OInsertI 0 1; OInsertI 0 2; OMakeReal 0 true true]
    (fun w => bool_decide (length (lin w) = 2) && ret (eraseNonReal w) (fun _ w' => bool_decide (lin w' = [0]))).
  eexists w, _, _. eauto.
Qed.

(** ** C09 *)
(** l: the saved interactions in the order of the file (sorted or not) *)
Theorem C09_reload_exact_partial : forall w l, reachable inter_safe w -> Permutation l (saved w) ->
  exists w', reload w l = Ret tt w' /\ lin w' = l /\ containers_agree w' /\
    removed_exactly (fun x => negb (geom x || phys x)) w w'.
Proof. exact reload_exact. Qed.
Print Assumptions C09_reload_exact_partial.

(** full statement refuted: one interaction with a missing body (here a clump that
    was erased) makes the loader stop and lose real interactions between existing bodies *)
Theorem C09_reload_exact_refuted : exists l w w' q i j, run init l = Some w /\
  reload w (saved w) = Ret tt w' /\ alive w i /\ alive w j /\ listed w q i j /\ q ∈ saved w /\ q ∉ lin w'.
Proof.
  set (l := [ONew; OAppend 0; ONew; OAppend 1; ONew; OAppend 2; OClump [0]; OInsertI 3 1; OMakeReal 0 true true; OInsertI 1 2; OMakeReal 1 true true; OErase 3 false]).
  destruct (witness_run l (fun w => bool_decide (alive w 1) && bool_decide (alive w 2) && listedb w 1 1 2 && bool_decide (1 ∈ saved w) &&
      ret (reload w (saved w)) (fun _ w' => bool_decide (1 ∉ lin w')))) as (w & Hrun & Hf); [vm_compute; reflexivity|]. unb.
  match goal with H : reload _ _ = Ret ?u _ |- _ => destruct u end.
  eexists l, w, _, 1, 1, 2. split; [exact Hrun|]. split; [eassumption|]. auto 10.
Qed.
Print Assumptions C09_reload_exact_refuted.

Example C09_hyp : exists w u w', reachable inter_safe w /\ Permutation [2; 1] (saved w) /\ length (lin w) = 3 /\ reload w [2; 1] = Ret u w' /\ lin w' = [2; 1].
Proof.
  by_test interb_spec [ONew; OAppend 0; ONew; OAppend 1; ONew; OAppend 2; OInsertI 0 1; OInsertI 0 2; OInsertI 1 2; OMakeReal 1 true true; OMakeReal 2 true false]
    (fun w => bool_decide (saved w = [1; 2]) && bool_decide (length (lin w) = 3) && ret (reload w [2; 1]) (fun _ w' => bool_decide (lin w' = [2; 1]))).
  eexists w, _, _. split; [exact Hreach|]. split; [replace (saved w) with [1; 2]; apply perm_swap|]. eauto.
Qed.

(** ** C47 *)
(** full statement refuted: a body erased, then appended again, cannot get the
    interaction: the other body has an entry, the container lists nothing *)
Theorem C47_reappended_body_refuted : exists w i j q, reachable reappending w /\ alive w i /\ alive w j /\ i <> j /\
  find w i j = Some q /\ ~ listed w q i j /\ length (lin w) = 0.
Proof.
  by_test reappendingb_spec [ONew; OAppend 0; ONew; OAppend 1; OInsertI 0 1; OErase 0 false; OPurge (fun _ _ => true); OAppend 0; OInsertI 1 2]
    (fun w => bool_decide (alive w 1) && bool_decide (alive w 2) && bool_decide (find w 1 2 = Some 1) && bool_decide (1 ∉ lin w) && bool_decide (length (lin w) = 0)).
  exists w, 1, 2, 1. split; [exact Hreach|]. split; [assumption|]. split; [assumption|]. split; [lia|]. split; [assumption|].
  split; [intros Hl; apply listed_in in Hl; contradiction|assumption].
Qed.
Print Assumptions C47_reappended_body_refuted.

(** it holds for a body whose interaction map is empty *)
Theorem C47_reappended_body_partial : forall w r w', reachable inter_safe w ->
  (forall b, bheap w !! r = Some b -> intrs b = ∅) ->
  step w (OAppend r) = Ret tt w' \/ step w (OAppend r) = Exc w' -> containers_agree w'.
Proof. exact reappended_body. Qed.
Print Assumptions C47_reappended_body_partial.

Example C47_hyp : exists w u w', reachable inter_safe w /\ ~ alive w 0 /\
  (forall b, bheap w !! 0 = Some b -> intrs b = ∅) /\ step w (OAppend 0) = Ret u w' /\ length (slots w') = 3.
Proof.
  by_test interb_spec [ONew; OAppend 0; ONew; OAppend 1; OInsertI 0 1; OPurge (fun _ _ => true); OErase 0 false]
    (fun w => bool_decide (~ alive w 0) && on_body w 0 (fun b => emptyb (intrs b)) && ret (step w (OAppend 0)) (fun _ w' => bool_decide (length (slots w') = 3))).
  eexists w, _, _. split; [exact Hreach|]. split; [assumption|]. split; [|split; eassumption].
  intros b Hb. apply emptyb_spec. eapply (on_body_spec w 0 (fun b => emptyb (intrs b))); eassumption.
Qed.
