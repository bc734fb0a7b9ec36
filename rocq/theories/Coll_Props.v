(** Property theorems about the collider: C14-C17, C30, C42, C52, C53. *)
From Coq Require Import List ZArith Arith Bool Permutation Lia.
From Verif Require Import Coll_Model Coll_Spec Coll_Proofs1 Coll_Proofs2 Coll_Proofs3 Coll_Proofs4 Coll_Example.
Import ListNotations.

(** C14 is false: only the group mask of a body is changed between two runs; the
    pair that may collide now is not found, because the boxes overlapped already. *)
Theorem C14_every_overlap_is_found_refuted :
  exists s bs bs' c I c' I', settings_ok s /\
    (forall i x, has_box bs i x <-> has_box bs' i x) /\
    action s fresh bs [] = Some (c, I) /\ action s c bs' I = Some (c', I') /\ ~ complete s bs' I'.
Proof.
  destruct (runs2_inv _ _ _ _ _ _ _ mask_runs) as (c & c' & E & E').
  exists exs, [ball 1 0; ball 2 5], [ball 1 0; ball 1 5], c, [], c', []. split; [apply exs_ok|]. split; [|split; [exact E|]; split; [exact E'|]].
  - intros [|[|[|i]]] x; split; intros (b & H & Hx); cbn in H; try discriminate; injection H as <-; eexists; (split; [reflexivity|exact Hx]).
  - apply (not_complete 1 0 5); [auto|lia|reflexivity].
Qed.
Print Assumptions C14_every_overlap_is_found_refuted.

(** C14 is false: a body is erased (with its interactions), the collider runs, a
    body is created with the same id at the same place: it is never found. *)
Theorem C14_recycled_id_refuted :
  exists s bs gone c I c' I' c'' I'', settings_ok s /\ length gone = length bs /\
    action s fresh bs [] = Some (c, I) /\ complete s bs I /\
    action s c gone [] = Some (c', I') /\ action s c' bs I' = Some (c'', I'') /\ ~ complete s bs I''.
Proof.
  destruct (runs3_inv _ _ _ _ _ _ _ recycled_runs) as (c & c' & c'' & E & E' & E'').
  exists exs, [ball 1 0; ball 1 5], [ball 1 0; None], c, [((0, 1), false)], c', [], c'', [].
  split; [apply exs_ok|]. split; [reflexivity|]. split; [exact E|]. split; [eapply reached_complete; eapply R_first; [apply exs_ok|exact E]|].
  split; [exact E'|]. split; [exact E''|]. apply (not_complete 1 0 5); [auto|lia|reflexivity].
Qed.
Print Assumptions C14_recycled_id_refuted.

(** C14, what is true: for every history of runs, any number of bodies, any motion of
    the boxes, any number of threads, provided that between runs that do not start
    from scratch a pair does not become able to collide in another way than by
    moving ([tame]): all overlapping pairs that may collide are found. *)
Theorem C14_every_overlap_is_found_partial : forall s c bs I, reached s c bs I -> complete s bs I.
Proof. exact reached_complete. Qed.
Print Assumptions C14_every_overlap_is_found_partial.

Example C14_hypotheses_met : exists c I, reached exs c [ball 1 0; ball 1 5; ball 1 8] I /\ length I = 3.
Proof. destruct again_reached as (c & H). eauto. Qed.

(** C15. Whatever happened before, a run creates interactions only between different
    bodies that have touching boxes, may collide and had no interaction; and
    no pair gets two. *)
Theorem C15_new_pairs_are_justified :
  forall s c k bs I c' I', history c k -> settings_ok s -> k <= length bs -> action s c bs I = Some (c', I') ->
    (forall i j r, In ((i, j), r) I' -> ~ In ((i, j), r) I ->
       r = false /\ i <> j /\ boxes_touch bs i j /\ allowed s bs i j /\ ~ linked I i j) /\
    (single I -> single I').
Proof. intros. split; [eapply run_new; eassumption|eapply run_single; eassumption]. Qed.
Print Assumptions C15_new_pairs_are_justified.

(** C16. After every run, each list has the two bounds of each body, with the
    current coordinates, in increasing order. *)
Theorem C16_lists_are_sorted :
  forall s c k bs I c' I', history c k -> settings_ok s -> k <= length bs -> action s c bs I = Some (c', I') ->
    forall a, a < 3 -> list_ok bs a (bb c' a).
Proof. exact run_lists. Qed.
Print Assumptions C16_lists_are_sorted.

Example C15_C16_hypotheses_met : exists c c' I', history c 2 /\ settings_ok exs /\
  action exs c [ball 1 0; ball 1 5; ball 1 8] [] = Some (c', I') /\ length I' = 3.
Proof.
  destruct (runs2_inv _ _ _ _ _ _ _ again_runs) as (c1 & c2 & E1 & E2). exists c1, c2. eexists. split; [|split; [apply exs_ok|split; [exact E2|reflexivity]]].
  apply (H_run exs fresh 0 [ball 1 0; ball 1 50] [] c1 []); [constructor|apply exs_ok|cbn; lia|exact E1].
Qed.

(** C17. Real interactions are neither removed nor created by a run; another one,
    between bodies that have boxes, stays exactly if the boxes touch. *)
Theorem C17_only_separated_pairs_are_purged :
  forall s c k bs I c' I', history c k -> settings_ok s -> k <= length bs -> action s c bs I = Some (c', I') ->
    (forall p, In (p, true) I <-> In (p, true) I') /\
    (forall i j r x y, In ((i, j), r) I -> has_box bs i x -> has_box bs j y ->
       (In ((i, j), r) I' <-> r = true \/ boxes_touch bs i j)).
Proof. exact run_keeps. Qed.
Print Assumptions C17_only_separated_pairs_are_purged.

(** C17. A pair without interaction (purged or never found) gets one at the run at
    which the boxes overlap. *)
Theorem C17_purged_pairs_return :
  forall s c bs I s' bs' I' c' I'' i j,
    reached s c bs I -> ~ linked I i j -> settings_ok s' -> tame s bs I s' bs' I' -> action s' c bs' I' = Some (c', I'') ->
    i <> j -> overlap_strictly bs' i j -> allowed s' bs' i j -> linked I'' i j.
Proof. intros s c bs I s' bs' I' c' I'' i j H _ Hs Ht Ha. apply (reached_complete s' c' bs' I''). eapply R_next; eauto. Qed.
Print Assumptions C17_purged_pairs_return.

Example C17_hypotheses_met : exists c c', history c 2 /\ action exs c [ball 1 0; ball 1 50] [((0, 1), false)] = Some (c', []).
Proof.
  destruct (runs2_inv _ _ _ _ _ _ _ apart_runs) as (c1 & c2 & E1 & E2). exists c1, c2. split; [|exact E2].
  apply (H_run exs fresh 0 [ball 1 0; ball 1 5] [] c1 [((0, 1), false)]); [constructor|apply exs_ok|cbn; lia|exact E1].
Qed.

(** C30. Ordinary bodies: a process examines the pair iff it owns one of the two and
    the usual rules allow it. *)
Theorem C30_pairs_are_examined_by_their_owners :
  forall me avoid i j b1 b2, isSubdomain b1 = false -> isSubdomain b2 = false ->
    (mayCollide me avoid i j (Some b1) (Some b2) = Some true <->
     (me = subdomain b1 \/ me = subdomain b2) /\ usual_rules avoid i j b1 b2).
Proof. intros. rewrite mayCollide_spec. tauto. Qed.
Print Assumptions C30_pairs_are_examined_by_their_owners.

(** C30. The subdomain body of another process and a body of this one: examined
    unless the usual rules forbid it; a subdomain and its own bodies: never. *)
Theorem C30_subdomains_meet_foreign_bodies :
  forall me avoid i j b1 b2, isSubdomain b1 = true ->
    (mayCollide me avoid i j (Some b1) (Some b2) = Some true <->
     (me = subdomain b1 \/ me = subdomain b2) /\ subdomain b1 <> subdomain b2 /\ usual_rules avoid i j b1 b2).
Proof. intros me avoid i j b1 b2 H. rewrite mayCollide_spec, H. intuition congruence. Qed.
Print Assumptions C30_subdomains_meet_foreign_bodies.

(** C42. *)
Theorem C42_may_collide :
  forall me avoid i j o1 o2,
    mayCollide me avoid i j o1 o2 = mayCollide me avoid j i o2 o1 /\
    forall b1 b2, o1 = Some b1 -> o2 = Some b2 ->
      ((forall n, (0 <= n)%Z -> Z.testbit (groupMask b1) n = true -> Z.testbit (groupMask b2) n = false) ->
         mayCollide me avoid i j o1 o2 = Some false) /\
      (forall c, clumpId b1 = Some c -> clumpId b2 = Some c -> mayCollide me avoid i j o1 o2 = Some false) /\
      (clumpId b1 = Some i -> mayCollide me avoid i j o1 o2 = Some false) /\
      (mayCollide me avoid i j o1 o2 = Some true <->
         (me = subdomain b1 \/ me = subdomain b2) /\ (subdomain b1 = subdomain b2 -> isSubdomain b1 = false /\ isSubdomain b2 = false) /\ usual_rules avoid i j b1 b2).
Proof.
  intros me avoid i j o1 o2. split; [apply mayCollide_sym|]. intros b1 b2 -> ->.
  assert (F : ~ usual_rules avoid i j b1 b2 -> mayCollide me avoid i j (Some b1) (Some b2) = Some false).
  { intros H. destruct (mayCollide me avoid i j (Some b1) (Some b2)) as [[|]|] eqn:E; [|reflexivity|discriminate]. apply mayCollide_spec in E. tauto. }
  split; [|split; [|split; [|apply mayCollide_spec]]].
  - intros H. apply F. intros (_ & _ & _ & (n & Hn & H1 & H2) & _). specialize (H n Hn H1). congruence.
  - intros c H1 H2. apply F. intros (_ & _ & H & _). exact (H c H1 H2).
  - intros H1. apply F. intros (H & _). contradiction.
Qed.
Print Assumptions C42_may_collide.

Example C30_C42_hypotheses_met :
  usual_rules 4 0 1 (mkBody None (fun _ => 0%Z) 1 false (Some 7) 3 ) (mkBody None (fun _ => 0%Z) 2 false None 6) /\
  mayCollide 2 4 0 1 (Some (mkBody None (fun _ => 0%Z) 1 false (Some 7) 3 )) (Some (mkBody None (fun _ => 0%Z) 2 false None 6)) = Some true /\
  mayCollide 3 4 0 1 (Some (mkBody None (fun _ => 0%Z) 1 false (Some 7) 3 )) (Some (mkBody None (fun _ => 0%Z) 2 false None 6)) = Some false.
Proof. split; [apply usual_spec; reflexivity|split; reflexivity]. Qed.

(** C52 is false: whatever the history, when the number of bodies has become
    smaller (but not zero) the next run reads outside its lists. *)
Theorem C52_fewer_bodies_refuted :
  (forall s c k bs I, history c k -> 0 < length bs < k -> action s c bs I = None) /\
  exists s c k (bs : bodies), settings_ok s /\ history c k /\ 0 < length bs < k.
Proof.
  split; [intros s c k bs I H; apply shrink_fails, history_ok; exact H|].
  destruct (runs2_inv _ _ _ _ _ _ _ mask_runs) as (c & c' & E & _). exists exs, c, 2, [ball 1 0]. split; [apply exs_ok|]. split; [|cbn; lia].
  apply (H_run exs fresh 0 [ball 1 0; ball 2 5] [] c []); [constructor|apply exs_ok|cbn; lia|exact E].
Qed.
Print Assumptions C52_fewer_bodies_refuted.

(** C52, what is true: when the number of body ids has not decreased, or after a reset
    of the collider, with at most 31 threads or enough bodies, no run reads outside. *)
Theorem C52_no_read_outside_partial :
  forall s c k bs I, history c k -> settings_ok s -> k <= length bs -> ints_ok bs I ->
    (threads s <= 1 \/ length bs < 1000 \/ threads s * threads s <= length bs) ->
    exists c' I', action s c bs I = Some (c', I').
Proof. intros s c k bs I H. intros. eapply run_some; eauto. apply history_ok. exact H. Qed.
Print Assumptions C52_no_read_outside_partial.

(** C53 is false: with many threads for few bounds, the parallel sort looks for the
    beginning of the last chunk beyond the end of the list. *)
Theorem C53_parallel_sort_stays_inside_refuted :
  (forall t v l, 2 <= t -> length l <= (t - 1) * (length l / t + 1) -> insertionSortParallel t v l = None) /\
  exists t (l : list entry), t = 64 /\ length l = 2 * 1000 /\ length l <= (t - 1) * (length l / t + 1).
Proof.
  split; [exact sortPar_none|]. exists 64, (repeat dflt (2 * 1000)). rewrite repeat_length. split; [reflexivity|]. split; [reflexivity|].
  apply Nat.leb_le. vm_compute. reflexivity.
Qed.
Print Assumptions C53_parallel_sort_stays_inside_refuted.

(** C53, what is true: it sorts, and never reads outside when the list has at least 2 t^2 bounds, as with at
    most 31 threads and the 1000 bodies from which it is used. *)
Theorem C53_parallel_sort_stays_inside_partial :
  (forall t v l, 2 * t * t <= length l -> insertionSortParallel t v l <> None) /\
  (forall t v l, t <= 31 -> 2 * 1000 <= length l -> insertionSortParallel t v l <> None) /\
  (forall t v l r e1 e2, insertionSortParallel t v l = Some (r, e1, e2) ->
     Permutation l r /\ forall a x b y c, r = a ++ x :: b ++ y :: c -> (coord x <= coord y)%Z).
Proof.
  split; [|split; [|intros t v l r e1 e2 H; apply insertionSortParallel_ok in H; destruct H as [[P _] S]; split; [exact P|]; intros a x b y c E; apply S; exists a, b, c; exact E]]; intros t v l H.
  - destruct (sortPar_some t v l H) as (r & ->). discriminate.
  - intros HL. destruct (sortPar_some t v l) as (r & ->); [|discriminate]. nia.
Qed.
Print Assumptions C53_parallel_sort_stays_inside_partial.
