(** Properties of the loop over interactions. *)
From Coq Require Import List ZArith Bool Arith Lia Permutation.
From Verif Require Import Loop_Model Loop_Spec Loop_Proofs Loop_Example.
Import ListNotations.

(** ** C101: contacts are evaluated once, whatever the schedule *)
Theorem C101_schedule : forall (T : types) (F : @functors T) S o1 o2 E is E1 is1 es1,
  Permutation o1 (seq 0 (length is)) -> Permutation o2 (seq 0 (length is)) -> action F S o1 E is = Ok (E1, is1, es1) ->
  exists E2 es2, action F S o2 E is = Ok (E2, is1, es2) /\ Permutation es1 es2.
Proof. exact @order_irrelevant. Qed.
Print Assumptions C101_schedule.
Theorem C101_each : forall (T : types) (F : @functors T) S o E is E1 is1 es1,
  Permutation o (seq 0 (length is)) -> action F S o E is = Ok (E1, is1, es1) ->
  length is1 = length is /\ exists es, Permutation es1 es /\ length es = length is /\
    forall k i, nth_error is k = Some i -> exists i' e, process F S i = Ok (i', e) /\ nth_error is1 k = Some i' /\ nth_error es k = Some e.
Proof. exact @action_all. Qed.
Print Assumptions C101_each.
Theorem C101_contact : forall (T : types) (F : @functors T) shapes a b z os i S b1 b2 i' e,
  symmetric F -> Forall (has_shapes shapes) (scenes os) -> has_shapes shapes S -> do_ops F os (new a b z) = Some i ->
  bodies_of S i b1 b2 -> eligible S b1 b2 -> seen S i -> process F S i = Ok (i', e) ->
  length (laws e) <= 1 /\ (laws e <> [] <-> touching F i b1 b2) /\ (laws e = [] -> forces e = [] /\ called e = []).
Proof.
  intros T F shapes a b z os i S b1 b2 i' e Sy Hs H' Hd Hb He Hse Hp. pose proof (do_ops_formed F os _ _ (new_formed a b z) Hd) as Hf.
  split; [apply (process_effect F S i i' e Hf Hp)|]. split; [|exact (process_noforce F S i i' e Hp)].
  exact (process_law F shapes S i i' e b1 b2 Hf H' (do_ops_coherent F shapes os _ _ Sy Hs (new_formed a b z) (new_coherent F shapes a b z) Hd) Hb He Hse Hp).
Qed.
Print Assumptions C101_contact.
Theorem C101_given : forall (T : types) (F : @functors T) S i i' e j,
  process F S i = Ok (i', e) -> In j (laws e) ->
  laws e = [j] /\ ((id1 j = id1 i /\ id2 j = id2 i /\ cellDist j = cellDist i) \/ (id1 j = id2 i /\ id2 j = id1 i /\ cellDist j = opp F (cellDist i))) /\
  exists c1 c2 s1 s2 gf l g p, bodies_of S j c1 c2 /\ shape c1 = Some s1 /\ shape c2 = Some s2 /\ cGeom j = Some gf /\ geom j = Some g /\ phys j = Some p /\
    goGeom F gf s1 s2 (state c1) (state c2) (shift2 F (cellDist j)) (geom i) (isReal i) = (true, Some g) /\ forces e = snd (goLaw F l j g p (state c1) (state c2)).
Proof. exact @process_given. Qed.
Print Assumptions C101_given.
(** callbacks are called once each, and exactly for the interactions which are real after their law *)
Theorem C101_callbacks : forall (T : types) (F : @functors T) a b z os i S i' e, do_ops F os (new a b z) = Some i -> process F S i = Ok (i', e) ->
  (called e = [] \/ called e = active_callbacks S) /\ (laws e <> [] -> isReal i' = true -> called e = active_callbacks S) /\ (isReal i' = false -> called e = []).
Proof. intros T F a b z os i S i' e Hd Hp. exact (proj2 (process_effect F S i i' e (do_ops_formed F os _ _ (new_formed a b z) Hd) Hp)). Qed.
Print Assumptions C101_callbacks.
(** nothing else of the interaction changes *)
Theorem C101_frame : forall (T : types) (F : @functors T) a b z os i S i' e, do_ops F os (new a b z) = Some i -> process F S i = Ok (i', e) ->
  iterLastSeen i' = iterLastSeen i /\
  ((id1 i' = id1 i /\ id2 i' = id2 i /\ cellDist i' = cellDist i) \/ (id1 i' = id2 i /\ id2 i' = id1 i /\ cellDist i' = opp F (cellDist i) /\ isReal i = false)).
Proof. intros T F a b z os i S i' e Hd Hp. exact (process_frame F S i i' e (do_ops_formed F os _ _ (new_formed a b z) Hd) Hp). Qed.
Print Assumptions C101_frame.
(** the ball touches the wall: the bodies are exchanged, and the law is evaluated again in the next step *)
Example C101_ex : exists i i' e b1 b2, symmetric F1 /\ Forall (@has_shapes T0 shapes0) (scenes [Step (sc 5 near none (-1))]) /\ @has_shapes T0 shapes0 (sc 6 near none (-1)) /\
  do_ops F1 [Step (sc 5 near none (-1))] i02 = Some i /\ id1 i = 2 /\ bodies_of (sc 6 near none (-1)) i b1 b2 /\ eligible (sc 6 near none (-1)) b1 b2 /\ seen (sc 6 near none (-1)) i /\
  process F1 (sc 6 near none (-1)) i = Ok (i', e) /\ length (laws e) = 1 /\ called e = [0; 2].
Proof.
  eexists _, _, _, _, _. split; [apply symmetric_ex|]. split; [constructor; [apply shapes_ex; auto|constructor]|]. split; [apply shapes_ex; auto|]. split; [vm_compute; reflexivity|]. split; [reflexivity|]. split; [split; vm_compute; reflexivity|].
  split; [repeat split; left; reflexivity|]. split; [left; reflexivity|]. split; [vm_compute; reflexivity|]. split; reflexivity.
Qed.
Example C101_schedule_ex : exists E1 is1 es1 E2 es2, action F1 (sc 5 near none (-1)) [0; 1] (mkEng []) [i01; i02] = Ok (E1, is1, es1) /\ action F1 (sc 5 near none (-1)) [1; 0] (mkEng []) [i01; i02] = Ok (E2, is1, es2) /\ es1 <> es2 /\ length es1 = 2.
Proof. eexists _, _, _, _, _. split; [vm_compute; reflexivity|]. split; [vm_compute; reflexivity|]. split; [discriminate|reflexivity]. Qed.

(** ** C102: the step in which a contact was made *)
Theorem C102_since : forall (T : types) (F : @functors T) a b z os i, do_ops F os (new a b z) = Some i -> isReal i = true -> real_since F os (new a b z) (iterMadeReal i).
Proof. intros T F a b z os i. exact (since F os (new a b z) i (new_formed a b z) eq_refl). Qed.
Print Assumptions C102_since.
Theorem C102_fresh : forall (T : types) (F : @functors T) a b z os sc i i' e j from, increasing from (scenes (os ++ [Step sc])) ->
  do_ops F os (new a b z) = Some i -> process F sc i = Ok (i', e) -> In j (laws e) -> (isFresh (iter sc) j = true <-> isReal i = false).
Proof. intros T F a b z os sc i i' e j from. exact (fresh_iff F os sc (new a b z) i i' e j from (new_formed a b z) eq_refl). Qed.
Print Assumptions C102_fresh.
(** contact in step 5, lost in step 6, again in step 7 *)
Example C102_ex : exists i i' e, increasing 0 (scenes ([Step (sc 5 near none (-1)); Step (sc 6 far none (-1)); Step (sc 7 near none (-1))] ++ [Step (sc 8 near none (-1))])) /\
  do_ops F1 [Step (sc 5 near none (-1)); Step (sc 6 far none (-1)); Step (sc 7 near none (-1))] i01 = Some i /\ isReal i = true /\ iterMadeReal i = 7%Z /\ process F1 (sc 8 near none (-1)) i = Ok (i', e) /\ map (isFresh 8) (laws e) = [false].
Proof. eexists _, _, _. split; [cbn; lia|]. split; [vm_compute; reflexivity|]. split; [reflexivity|]. split; [reflexivity|]. split; vm_compute; reflexivity. Qed.

(** ** C103: real interactions are contacts *)
Theorem C103_real_partial : forall (T : types) (F : @functors T) a b z os i S i' e, do_ops F os (new a b z) = Some i -> process F S i = Ok (i', e) -> isReal i' = true ->
  exists b1 b2, bodies_of S i b1 b2 /\ (subd S = subdomain b1 \/ subd S = subdomain b2) /\
   (laws e <> [] \/ (i' = i /\ (isClump b1 || isClump b2 = true \/ shape b1 = None \/ shape b2 = None \/ geomExists i = false)) \/ geomExists i' = false).
Proof. intros T F a b z os i S i' e Hd Hp. exact (process_real F S i i' e (do_ops_formed F os _ _ (new_formed a b z) Hd) Hp). Qed.
Print Assumptions C103_real_partial.
Example C103_ex : exists i i' e, do_ops F1 [] i01 = Some i /\ process F1 (sc 5 near none (-1)) i = Ok (i', e) /\ isReal i' = true.
Proof. eexists _, _, _. split; [reflexivity|]. split; vm_compute; reflexivity. Qed.
(** the shape of a body is removed; the body moves away; the contact stays *)
Theorem C103_shape_refuted : exists i, do_ops F1 [Step (sc 5 near none (-1)); Step (sc 6 far (Nat.eqb 1) (-1))] i01 = Some i /\ isReal i = true /\
  exists e, process F1 (sc 7 far (Nat.eqb 1) (-1)) i = Ok (i, e) /\ laws e = [].
Proof. eexists. split; [vm_compute; reflexivity|]. split; [reflexivity|]. eexists. split; [vm_compute; reflexivity|]. reflexivity. Qed.
Print Assumptions C103_shape_refuted.

(** ** C104: interactions which the collider has not seen are removed *)
Theorem C104_kept_partial : forall (T : types) (F : @functors T) S o E is E1 is1 es1, Permutation o (seq 0 (length is)) -> action F S o E is = Ok (E1, is1, es1) ->
  length is1 = length is /\ exists l, eraseAfterLoopIds E1 = eraseAfterLoopIds E ++ l /\ length l = length (filter (unseen S) is).
Proof. exact @later_keep. Qed.
Print Assumptions C104_kept_partial.
Example C104_ex : Permutation [1; 0] (seq 0 (length [i01; i02])) /\ length (filter (unseen (sc 5 near none 5)) [i01; i02]) = 2.
Proof. split; [apply perm_swap|reflexivity]. Qed.
Theorem C104_unseen_refuted : exists E1 E2 es1 es2, removeUnseen (sc 5 far none 5) = true /\ unseen (sc 5 far none 5) i01 = true /\
  action F1 (sc 5 far none 5) [0] (mkEng []) [i01] = Ok (E1, [i01], es1) /\ action F1 (sc 6 far none 6) [0] E1 [i01] = Ok (E2, [i01], es2) /\ eraseAfterLoopIds E2 = [(0, 1); (0, 1)].
Proof. eexists _, _, _, _. split; [reflexivity|]. split; [reflexivity|]. split; [vm_compute; reflexivity|]. split; [vm_compute; reflexivity|]. reflexivity. Qed.
Print Assumptions C104_unseen_refuted.

(** ** C105: inactive interactions have no forces *)
Theorem C105_inactive_partial : forall (T : types) (F : @functors T) a b z os i S i' e, respects F -> do_ops F os (new a b z) = Some i -> process F S i = Ok (i', e) ->
  (isActive i = false -> forces e = []) /\ (isReal i = true -> isReal i' = true -> isActive i' = isActive i).
Proof.
  intros T F a b z os i S i' e Hr Hd Hp. pose proof (do_ops_formed F os _ _ (new_formed a b z) Hd) as Hf. split; [intros Ha; exact (process_silent F S i i' e Hf Hr Ha Hp)|]. exact (proj1 (process_active F S i i' e Hf Hp)).
Qed.
Print Assumptions C105_inactive_partial.
Example C105_ex : exists i i' e, respects (F0 (@luding T0) physFor0 always found) /\ do_ops (F0 (@luding T0) physFor0 always found) [Step (sc 5 near none (-1)); Activate false] i01 = Some i /\
  isActive i = false /\ isReal i = true /\ process (F0 (@luding T0) physFor0 always found) (sc 6 near none (-1)) i = Ok (i', e) /\ isReal i' = true.
Proof. eexists _, _, _. split; [apply respects_ex|]. split; [vm_compute; reflexivity|]. split; [reflexivity|]. split; [reflexivity|]. split; vm_compute; reflexivity. Qed.
(** Law2_ScGeom_FrictPhys_CundallStrack *)
Theorem C105_ignored_refuted : exists i i' e, do_ops F1 [Step (sc 5 near none (-1)); Activate false] i01 = Some i /\ isActive i = false /\ process F1 (sc 6 near none (-1)) i = Ok (i', e) /\ forces e = [1%Z].
Proof. eexists _, _, _. split; [vm_compute; reflexivity|]. split; [reflexivity|]. split; vm_compute; reflexivity. Qed.
Print Assumptions C105_ignored_refuted.
(** Law2_ScGeom_ViscElPhys_Basic: silent in the next step, then active again with a new contact *)
Theorem C105_reset_refuted : let F := F0 (@viscEl T0) physFor0 always found in let before := [Step (sc 5 near none (-1)); Activate false] in
  next F before i01 (sc 6 near none (-1)) = Some ([], true, false) /\ next F (before ++ [Step (sc 6 near none (-1))]) i01 (sc 7 near none (-1)) = Some ([1%Z], false, true).
Proof. split; vm_compute; reflexivity. Qed.
Print Assumptions C105_reset_refuted.

(** ** C106: the loop ends normally *)
Theorem C106_complete_partial : forall (T : types) (F : @functors T) S E is o, total F -> Forall (fun i => exists a b z os, do_ops F os (new a b z) = Some i) is ->
  Permutation o (seq 0 (length is)) -> exists E1 is1 es1, action F S o E is = Ok (E1, is1, es1).
Proof.
  intros T F S E is o Ht Hi. apply action_total; [exact Ht|]. eapply Forall_impl; [|exact Hi]. intros i (a & b & z & os & Hd). destruct (do_ops_total F os (new a b z) Ht (new_cached a b z)) as (i' & Hd' & Hc). rewrite Hd in Hd'. injection Hd' as <-. exact Hc.
Qed.
Print Assumptions C106_complete_partial.
Example C106_ex : total F1 /\ Forall (fun i => exists a b z os, do_ops F1 os (@new T0 a b z) = Some i) [i01; i02] /\ Permutation [1; 0] (seq 0 (length [i01; i02])).
Proof. split; [apply total_ex|]. split; [|apply perm_swap]. repeat constructor; [exists 0, 1, 0%Z, []; reflexivity|exists 0, 2, 0%Z, []; reflexivity]. Qed.
(** Ip2_FrictMat_FrictViscoMat_FrictViscoPhys is found for a ball of FrictViscoMat and one of FrictMat, and is given the materials in the wrong order *)
Theorem C106_order_refuted : let F := F0 (@cundall T0) physFor0 takes0 found in
  (forall m1 m2, physFor F m1 m2 <> None) /\ (forall m1 m2 pf, physFor F m1 m2 = Some (pf, false) -> takes F pf m1 m2 = true) /\ (forall m1 m2 pf, physFor F m1 m2 = Some (pf, true) -> takes F pf m2 m1 = true) /\
  action F (sc 5 mixed none (-1)) [0] (mkEng []) [i01] = Undefined.
Proof.
  split; [intros [] []; discriminate|]. split; [intros [] [] pf H; cbn in H; try discriminate H; injection H as <-; reflexivity|]. split; [intros [] [] pf H; cbn in H; try discriminate H; injection H as <-; reflexivity|]. vm_compute. reflexivity.
Qed.
Print Assumptions C106_order_refuted.
(** no Ip2 functor; no Law2 functor *)
Theorem C106_missing_refuted : action (F0 (@cundall T0) (fun _ _ => None) always found) (sc 5 near none (-1)) [0] (mkEng []) [i01] = Terminate /\
  action (F0 (@cundall T0) physFor0 always (fun _ _ => None)) (sc 5 near none (-1)) [0] (mkEng []) [i01] = Exit.
Proof. split; vm_compute; reflexivity. Qed.
Print Assumptions C106_missing_refuted.
