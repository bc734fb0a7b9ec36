(** Property theorems about distributed simulation: C25-C28, C51. *)
From Coq Require Import List Arith Bool Lia.
From Verif Require Import Subd_Model Subd_Spec Comm_Model Comm_Spec Mpi_Model Mpi_Spec Mpi_Proofs4 Mpi_Proofs5 Mpi_Example.
Import ListNotations.

(** C25 with the default settings: a script making one mpirun call on two processes.
    If no body of the master touches the worker, the worker's force message has no
    receiver; when the MPI library does not buffer it, all processes wait for ever. *)
Theorem C25_no_deadlock_refuted :
  exists (L : @locals nat unit nat nat) ovl w n calls sched c,
    good L ovl /\ ready n w /\
    let prog := session Nat.add L true n false true calls in
    ranks n sched /\ exec prog sched (init prog (start_with w)) = Some c /\
    all_stuck n prog c /\ ~ all_finished n prog c.
Proof.
  exists far_L, near, w2, 2, [Run 1 false]. destruct far_stuck as (sched & c & H). exists sched, c.
  split; [apply exL_good|]. split; [exact w2_ready|]. exact H.
Qed.
Print Assumptions C25_no_deadlock_refuted.

(** C25, what is true: any number n of processes, any scene with one subdomain body
    per worker, any script (mpirun with and without mergeSplit, mergeScene), any
    interleaving and any choice of the MPI library to buffer or not.  Without force
    accumulation, or if a bounded body of the master touches every subdomain:
    whenever somebody has not finished somebody can move, the length of the
    execution is bounded, in the end no message is left, no process has met an
    error and the result does not depend on the interleaving. *)
Theorem C25_no_deadlock_partial :
  forall {D X Bx F : Type} (Fadd : F -> F -> F) (L : @locals D X Bx F) ovl n w acc s0 calls,
    good L ovl -> 0 < n -> ready n w -> sc (s0 0) = Some w ->
    (acc = true -> own_bounded w /\ master_touches_all L (shape w)) ->
    let prog := session Fadd L acc n false true calls in
    (exists s, ends_in n prog s0 s /\ (ever false calls = true -> forall p, p < n -> sc (s p) <> None)) /\
    forall sched c, ranks n sched -> exec prog sched (init prog s0) = Some c ->
      (all_finished n prog c \/ exists p, p < n /\ move prog true p c <> None) /\
      length sched <= work n prog s0 /\
      (all_finished n prog c -> forall a b t, a < n -> b < n -> chan c a b t = []).
Proof. intros. eapply no_deadlock; eauto. Qed.
Print Assumptions C25_no_deadlock_partial.

Example C25_hypotheses_met :
  good near_L near /\ ready 4 w4 /\ own_bounded w4 /\ master_touches_all near_L (shape w4) /\
  exists sched c, ranks 4 sched /\ exec prog4 sched (init prog4 (start_with w4)) = Some c /\ all_finished 4 prog4 c.
Proof.
  split; [apply exL_good|]. split; [exact w4_ready|]. split; [exact w4_bounded|]. split; [exact near_touches|]. exact run4.
Qed.

(** C26. After any script that leaves the scene distributed, the exchange of states
    of the next step does what it should (see [states_exchanged]). *)
Theorem C26_states_reach_the_right_bodies :
  forall {D X Bx F : Type} (Fadd : F -> F -> F) (L : @locals D X Bx F) ovl n w acc s0 calls,
    good L ovl -> 0 < n -> ready n w -> sc (s0 0) = Some w ->
    (acc = true -> own_bounded w /\ master_touches_all L (shape w)) ->
    splitted_after calls = true ->
    let pre := session Fadd L acc n false true calls ++ force_part Fadd L acc n ++ [run_engines L] in
    exists s s', ends_in n pre s0 s /\ ends_in n (pre ++ [state_phase]) s0 s' /\ states_exchanged n s s'.
Proof. intros. eapply right_bodies; eauto. Qed.
Print Assumptions C26_states_reach_the_right_bodies.

(** C27 is false: scene split, master's body moves to where it touches the worker's
    domain, scene merged and split again.  The force message of the first step was
    never received, so from then on the master uses the message of the step before. *)
Theorem C27_master_forces_current_refuted :
  exists (L : @locals nat unit nat nat) ovl w n calls sched c,
    good L ovl /\ ready n w /\ splitted_after calls = true /\
    let prog := session Nat.add L true n false true calls ++ force_part Nat.add L true n in
    ranks n sched /\ exec prog sched (init prog (start_with w)) = Some c /\ all_finished n prog c /\
    ~ forces_summed Nat.add L n (fun p => lst (procs c p)).
Proof.
  exists late_L, near, w2, 2, [Run 1 false; Merge; Run 1 false]. destruct late_not_summed as (sched & c & H). exists sched, c.
  split; [apply exL_good|]. split; [exact w2_ready|]. split; [reflexivity|]. exact H.
Qed.
Print Assumptions C27_master_forces_current_refuted.

(** C27, what is true: if a bounded body of the master touches every subdomain
    whenever the scene is split, the master's forces in each step are its own plus
    those computed in this step by the workers that see the body. *)
Theorem C27_master_forces_current_partial :
  forall {D X Bx F : Type} (Fadd : F -> F -> F) (L : @locals D X Bx F) ovl n w s0 calls,
    good L ovl -> 0 < n -> ready n w -> sc (s0 0) = Some w ->
    own_bounded w -> master_touches_all L (shape w) ->
    splitted_after calls = true ->
    exists s, ends_in n (session Fadd L true n false true calls ++ force_part Fadd L true n) s0 s /\ forces_summed Fadd L n s.
Proof. intros. eapply forces_current; eauto. Qed.
Print Assumptions C27_master_forces_current_partial.

(** C28. mergeScene after any script that leaves the scene distributed. *)
Theorem C28_merge_collects_from_owner :
  forall {D X Bx F : Type} (Fadd : F -> F -> F) (L : @locals D X Bx F) ovl n w acc s0 calls,
    good L ovl -> 0 < n -> ready n w -> sc (s0 0) = Some w ->
    (acc = true -> own_bounded w /\ master_touches_all L (shape w)) ->
    splitted_after calls = true ->
    exists s s', ends_in n (session Fadd L acc n false true calls) s0 s /\
      ends_in n (session Fadd L acc n false true (calls ++ [Merge])) s0 s' /\ scene_merged n s s'.
Proof. intros. eapply merge_collects; eauto. Qed.
Print Assumptions C28_merge_collects_from_owner.

(** The hypotheses of C26-C28 are those of C25 with a script that ends distributed. *)
Example C26_C27_C28_hypotheses_met : splitted_after calls4 = true.
Proof. reflexivity. Qed.

(** C51 is false: if a body has been erased before splitting, a worker meets an
    error (O.bodies[id].bounded for the erased id). *)
Theorem C51_split_with_erased_bodies_refuted :
  exists (L : @locals nat unit nat nat) ovl w n calls sched c,
    good L ovl /\ sd_ranks (shape w) = workers n /\
    let prog := session Nat.add L false n false true calls in
    ranks n sched /\ exec prog sched (init prog (start_with w)) = Some c /\
    exists p, p < n /\ sc (lst (procs c p)) = None.
Proof.
  exists far_L, near, w2e, 2, [Run 1 false]. destruct er_fails as (sched & c & H). exists sched, c.
  split; [apply exL_good|]. split; [reflexivity|]. exact H.
Qed.
Print Assumptions C51_split_with_erased_bodies_refuted.
