(** Properties of the quick sort collider. *)
From Coq Require Import List ZArith Arith Bool.
From Verif Require Import Coll_Model Quick_Model Quick_Spec Quick_Proofs Quick_Example.
Import ListNotations.

(** ** C110: the collider finds all pairs with overlapping boxes *)
Theorem C110_complete : forall srt steps it bs st st' a b, sorts srt -> run srt (steps ++ [(it, bs)]) st = Done st' -> a <> b -> overlapping bs a b -> seen it (snd st') a b.
Proof. exact run_complete. Qed.
Print Assumptions C110_complete.
Example C110_ex : sorts isort /\ overlapping two 0 1 /\ exists st', run isort ([(0%Z, three)] ++ [(1%Z, two)]) ([], []) = Done st'.
Proof. split; [exact isort_sorts|]. split; [exact two_overlap|]. eexists. vm_compute. reflexivity. Qed.
Theorem C110_exact_partial : forall srt it bs r I, sorts srt -> bounded bs -> proper bs -> exists r' I', action srt false it bs r I = Done (r', I') /\
  (forall i, In i I -> real i = true -> exists j, In j I' /\ ids j = ids i /\ real j = true /\ (lastSeen j = it \/ lastSeen j = lastSeen i)) /\
  (forall j, In j I' -> (exists i, In i I /\ real i = true /\ ids i = ids j /\ real j = true) \/ (real j = false /\ fst (ids j) <> snd (ids j) /\ overlapping bs (fst (ids j)) (snd (ids j)))).
Proof.
  intros srt it bs r I Hs Hb Hp. destruct (action_done srt it bs r I Hs Hb) as (r' & I' & E). exists r', I'. split; [exact E|]. split; [intros i; exact (action_keeps srt it bs r I r' I' i E)|intros j; exact (action_exact srt it bs r I r' I' j Hs Hb Hp E)].
Qed.
Print Assumptions C110_exact_partial.
Example C110_exact_ex : sorts isort /\ bounded two /\ proper two.
Proof. split; [exact isort_sorts|exact two_bounded]. Qed.

(** ** C111: no history of the scene makes the collider read what was never written, or bodies that are gone *)
Theorem C111_safe_partial : forall srt steps st, sorts srt -> Forall (fun s => bounded (snd s)) steps -> exists st', run srt steps st = Done st'.
Proof. intros srt steps st Hs Hf. exact (run_done srt steps Hs Hf st). Qed.
Print Assumptions C111_safe_partial.
Example C111_ex : sorts isort /\ Forall (fun s : Z * bodies => bounded (snd s)) [(0%Z, two); (1%Z, two)].
Proof. split; [exact isort_sorts|]. repeat constructor; apply two_bounded. Qed.
Theorem C111_no_bound_refuted : forall srt it I, action srt false it nobound [] I = UB.
Proof. reflexivity. Qed.
Print Assumptions C111_no_bound_refuted.
Theorem C111_erased_refuted : run isort [(0%Z, three)] ([], []) <> UB /\ run isort [(0%Z, three); (1%Z, erased)] ([], []) = UB.
Proof. split; [vm_compute; discriminate|vm_compute; reflexivity]. Qed.
Print Assumptions C111_erased_refuted.

(** ** C112: pairs which must not interact get no interaction *)
Theorem C112_rules_refuted : mayCollide 0 0 0 1 (body_at masked 0) (body_at masked 1) = Some false /\
  exists r', action isort false 5 masked [] [] = Done (r', [mkI (0, 1) false 5]).
Proof. split; [reflexivity|]. eexists. vm_compute. reflexivity. Qed.
Print Assumptions C112_rules_refuted.
Theorem C112_rules_partial : forall srt it me avoid bs r I r' I' j, sorts srt -> bounded bs -> proper bs ->
  (forall a b, a <> b -> overlapping bs a b -> mayCollide me avoid a b (body_at bs a) (body_at bs b) = Some true) ->
  action srt false it bs r I = Done (r', I') -> In j I' -> real j = false -> mayCollide me avoid (fst (ids j)) (snd (ids j)) (body_at bs (fst (ids j))) (body_at bs (snd (ids j))) = Some true.
Proof.
  intros srt it me avoid bs r I r' I' j Hs Hb Hp Hm H Hj Hr. destruct (action_exact srt it bs r I r' I' j Hs Hb Hp H Hj) as [(i & _ & _ & _ & R)|(_ & N & O)]; [congruence|]. apply Hm; assumption.
Qed.
Print Assumptions C112_rules_partial.
Example C112_ex : mayCollide 0 0 0 1 (body_at two 0) (body_at two 1) = Some true /\ exists r', action isort false 5 two [] [] = Done (r', [mkI (0, 1) false 5]).
Proof. split; [reflexivity|]. eexists. vm_compute. reflexivity. Qed.
