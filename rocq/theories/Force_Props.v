(** Properties C10-C13 and C43 of the multi-threaded force container. *)
From Coq Require Import List Arith Bool ZArith Permutation.
From Verif Require Import Force_Model Force_Spec Force_Proofs Force_Proofs2.
Import ListNotations.

(** C10, exact arithmetic: after any calls by any threads followed by sync, the
    force read is the sum of everything added since the last reset, in call
    order and whatever the thread, plus the permanent force held for the body. *)
Theorem C10_reading_is_sum_over_threads :
  forall (V : Type) (v0 : V) (vadd : V -> V -> V), is_cmonoid v0 vadd ->
  forall (nThreads : nat) (h : list (op V)), Forall (valid nThreads) h ->
  exists s, run v0 vadd nThreads (h ++ [OSync]) = Val s /\
    forall id, exists pF pT,
      getPerm v0 true id s = Val pF /\ getPerm v0 false id s = Val pT /\
      get v0 ChF id s = Val (vadd (fold_left vadd (all_values id ChF h) v0) pF) /\
      get v0 ChT id s = Val (vadd (fold_left vadd (all_values id ChT h) v0) pT) /\
      get v0 ChM id s = Val (fold_left vadd (all_values id ChM h) v0) /\
      get v0 ChR id s = Val (fold_left vadd (all_values id ChR h) v0).
Proof. exact @reading_is_sum. Qed.
Print Assumptions C10_reading_is_sum_over_threads.

(** C10, schedule independence: two executions, possibly with different numbers
    of threads, whose additions are the same up to order and thread, and with
    no permanent value, give the same readings. *)
Theorem C10_schedule_independent :
  forall (V : Type) (v0 : V) (vadd : V -> V -> V), is_cmonoid v0 vadd ->
  forall n1 n2 (h1 h2 : list (op V)),
  Forall (valid n1) h1 -> Forall (valid n2) h2 ->
  perm_used h1 = false -> perm_used h2 = false ->
  (forall id c, Permutation (all_values id c h1) (all_values id c h2)) ->
  exists s1 s2, run v0 vadd n1 (h1 ++ [OSync]) = Val s1 /\ run v0 vadd n2 (h2 ++ [OSync]) = Val s2 /\
    forall id c, get v0 c id s1 = get v0 c id s2.
Proof. exact @schedule_independent. Qed.
Print Assumptions C10_schedule_independent.

(** C10, any arithmetic (in particular floating point, where 0+0=0): the exact
    order of the additions is thread order of the per-thread sums. *)
Theorem C10_reading_order_exact :
  forall (V : Type) (v0 : V) (vadd : V -> V -> V), vadd v0 v0 = v0 ->
  forall nThreads (h : list (op V)), Forall (valid nThreads) h -> perm_used h = false ->
  exists s, run v0 vadd nThreads (h ++ [OSync]) = Val s /\
    forall id c, get v0 c id s = Val (grand v0 vadd nThreads id c h).
Proof. exact @reading_order_exact. Qed.
Print Assumptions C10_reading_order_exact.

Example C10_hyp :
  is_cmonoid 0%Z Z.add /\
  Forall (valid 2) [OAdd 0 5 ChF 3%Z; OAdd 1 205 ChF 4%Z; OAdd 1 5 ChF 10%Z; OSetPerm 0 5 true 7%Z].
Proof.
  split; [|repeat constructor].
  constructor; intros; [apply Z.add_assoc|apply Z.add_comm|apply Z.add_0_l].
Qed.
Example C10_nontrivial :
  bindr (run 0%Z Z.add 2 [OAdd 0 5 ChF 3%Z; OAdd 1 205 ChF 4%Z; OAdd 1 5 ChF 10%Z; OSetPerm 0 5 true 7%Z; OSync])
        (get 0%Z ChF 5) = Val 20%Z.
Proof. vm_compute. reflexivity. Qed.

(** C11: a read raises exactly when something was added (or a permanent value
    set, or kept by a plain reset) and not yet synchronised, and never touches
    memory out of range; synchronising twice is synchronising once. *)
Theorem C11_unsynced_read_refused :
  forall (V : Type) (v0 : V) (vadd : V -> V -> V), vadd v0 v0 = v0 ->
  forall nThreads (h : list (op V)), Forall (valid nThreads) h ->
  exists s, run v0 vadd nThreads h = Val s /\
    forall id c, (dirty h = true -> get v0 c id s = Throw) /\
                 (dirty h = false -> exists v, get v0 c id s = Val v).
Proof. exact @unsynced_read_refused. Qed.
Print Assumptions C11_unsynced_read_refused.

Theorem C11_add_makes_reads_raise :
  forall (V : Type) (v0 : V) (vadd : V -> V -> V), vadd v0 v0 = v0 ->
  forall nThreads (h k : list (op V)) t id c v,
  Forall (valid nThreads) (h ++ OAdd t id c v :: k) ->
  (forall o, In o k -> match o with OAdd _ _ _ _ | OMaxId _ _ | OSetPerm _ _ _ _ => True | _ => False end) ->
  exists s, run v0 vadd nThreads (h ++ OAdd t id c v :: k) = Val s /\
    forall id' c', get v0 c' id' s = Throw.
Proof. exact @add_makes_reads_raise. Qed.
Print Assumptions C11_add_makes_reads_raise.

Theorem C11_sync_idempotent :
  forall (V : Type) (v0 : V) (vadd : V -> V -> V), vadd v0 v0 = v0 ->
  forall nThreads (h : list (op V)), Forall (valid nThreads) h ->
  (exists s, run v0 vadd nThreads (h ++ [OSync]) = Val s) /\
  run v0 vadd nThreads (h ++ [OSync; OSync]) = run v0 vadd nThreads (h ++ [OSync]).
Proof. exact @sync_idempotent_ok. Qed.
Print Assumptions C11_sync_idempotent.

Example C11_hyp : dirty [OAdd 0 5 ChF 3%Z] = true /\ dirty [OAdd 0 5 ChF 3%Z; OSync] = false
  /\ Forall (valid 1) [OAdd 0 5 ChF 3%Z; OSync].
Proof. repeat constructor. Qed.

(** C12, violated: setting a permanent force on body 3 silently drops the one
    set on body 500 (resizePerm shrinks the arrays). *)
Theorem C12_permanent_forces_persist_refuted :
  exists (h : list (op Z)) (s : fc Z),
    Forall (valid 1) h /\ run 0%Z Z.add 1 (h ++ [OSync]) = Val s /\
    fst (perm_ideal 0%Z h 500) = 9%Z /\ getPerm 0%Z true 500 s = Val 0%Z /\
    get 0%Z ChF 500 s = Val 0%Z.
Proof. exact perm_lost. Qed.
Print Assumptions C12_permanent_forces_persist_refuted.

(** C12, what holds: if all bodies ever given a permanent value have ids within
    a window of 100, every reading includes the last value set.
    Missing: arbitrary ids, for which the claim is false. *)
Theorem C12_permanent_forces_persist_partial :
  forall (V : Type) (v0 : V) (vadd : V -> V -> V), vadd v0 v0 = v0 ->
  forall nThreads (h : list (op V)), Forall (valid nThreads) h ->
  (forall g a isF v g' b isF' v', In (OSetPerm g a isF v) h -> In (OSetPerm g' b isF' v') h -> b < a + 100) ->
  exists s, run v0 vadd nThreads (h ++ [OSync]) = Val s /\
    forall id,
      getPerm v0 true id s = Val (fst (perm_ideal v0 h id)) /\
      getPerm v0 false id s = Val (snd (perm_ideal v0 h id)) /\
      forall c, get v0 c id s = Val (reading v0 vadd (perm_ideal v0 h) nThreads id c h).
Proof. exact @perm_persist. Qed.
Print Assumptions C12_permanent_forces_persist_partial.

Example C12_hyp :
  let h := [OSetPerm 0 5 true 7%Z; OSetPerm 0 90 false 2%Z; OReset 1%Z false; OAdd 0 5 ChF 1%Z] in
  Forall (valid 1) h /\
  (forall g a isF v g' b isF' v', In (OSetPerm g a isF v) h -> In (OSetPerm g' b isF' v') h -> b < a + 100).
Proof.
  simpl. split; [repeat constructor|].
  intros * [H|[H|[H|[H|[]]]]] [H'|[H'|[H'|[H'|[]]]]]; inversion H; inversion H'; subst; apply Nat.ltb_lt; reflexivity.
Qed.

(** C13: after reset (and sync, needed to read when permanent values are kept)
    all four quantities read the permanent part only, zero for moves and
    rotations; permanent values are unchanged by reset and zero after resetAll. *)
Theorem C13_reset_clears_step_sums_only :
  forall (V : Type) (v0 : V) (vadd : V -> V -> V), is_cmonoid v0 vadd ->
  forall nThreads (h : list (op V)) iter, Forall (valid nThreads) h ->
  exists s s', run v0 vadd nThreads (h ++ [OSync]) = Val s /\
    run v0 vadd nThreads (h ++ [OReset iter false; OSync]) = Val s' /\
    forall id,
      getPerm v0 true id s' = getPerm v0 true id s /\
      getPerm v0 false id s' = getPerm v0 false id s /\
      get v0 ChF id s' = getPerm v0 true id s /\
      get v0 ChT id s' = getPerm v0 false id s /\
      get v0 ChM id s' = Val v0 /\ get v0 ChR id s' = Val v0.
Proof. exact @reset_clears. Qed.
Print Assumptions C13_reset_clears_step_sums_only.

Theorem C13_resetAll_clears_everything :
  forall (V : Type) (v0 : V) (vadd : V -> V -> V), vadd v0 v0 = v0 ->
  forall nThreads (h : list (op V)) iter, Forall (valid nThreads) h ->
  exists s, run v0 vadd nThreads (h ++ [OReset iter true]) = Val s /\
    forall id c, get v0 c id s = Val v0 /\ getPerm v0 true id s = Val v0 /\ getPerm v0 false id s = Val v0.
Proof. exact @resetAll_clears. Qed.
Print Assumptions C13_resetAll_clears_everything.

Example C13_nontrivial :
  bindr (run 0%Z Z.add 2 [OAdd 0 5 ChF 3%Z; OAdd 1 5 ChM 4%Z; OSetPerm 0 5 true 7%Z; OReset 9%Z false; OSync])
        (fun s => Val (get 0%Z ChF 5 s, get 0%Z ChM 5 s)) = Val (Val 7%Z, Val 0%Z).
Proof. vm_compute. reflexivity. Qed.

(** C43: the unsynchronised read O.forces.f(id) (getForceSingle).  With a
    permanent force on body 5 and a force on body 150, reading body 150 is out
    of range of the permanent array: undefined behaviour. *)
Theorem C43_unsynced_read_agrees_refuted :
  exists (h : list (op Z)) (s : fc Z) (id : nat),
    Forall (valid 1) h /\ run 0%Z Z.add 1 h = Val s /\ id < size s /\ getSingle 0%Z Z.add ChF id s = UB.
Proof. exact single_ub. Qed.
Print Assumptions C43_unsynced_read_agrees_refuted.

(** C43, what holds: without permanent values the unsynchronised read gives, for
    every id, the value a synchronised read would give (same order of addition),
    and it changes nothing since it is a pure function of the state.
    Missing: states with permanent values and ids past the permanent array. *)
Theorem C43_unsynced_read_agrees_partial :
  forall (V : Type) (v0 : V) (vadd : V -> V -> V), vadd v0 v0 = v0 ->
  forall nThreads (h : list (op V)), Forall (valid nThreads) h -> perm_used h = false ->
  exists s s', run v0 vadd nThreads h = Val s /\ run v0 vadd nThreads (h ++ [OSync]) = Val s' /\
    forall id c, getSingle v0 vadd c id s = get v0 c id s' /\ getSingle v0 vadd c id s <> UB.
Proof. exact @single_read_no_perm. Qed.
Print Assumptions C43_unsynced_read_agrees_partial.

(** ... and right after a sync it agrees for every id below the container size. *)
Theorem C43_unsynced_read_after_sync_partial :
  forall (V : Type) (v0 : V) (vadd : V -> V -> V), vadd v0 v0 = v0 ->
  forall nThreads (h : list (op V)), Forall (valid nThreads) h ->
  exists s, run v0 vadd nThreads (h ++ [OSync]) = Val s /\
    forall id c, id < size s -> getSingle v0 vadd c id s = get v0 c id s.
Proof. exact @single_read_synced. Qed.
Print Assumptions C43_unsynced_read_after_sync_partial.

Example C43_hyp : perm_used [OAdd 0 5 ChF 3%Z; OSetPerm 0 1 true 1%Z; OReset 0%Z true; OAdd 1 120 ChT 3%Z] = false.
Proof. reflexivity. Qed.
