(** A scene distributed over three processes, and scenes that are not merged as they should. *)
From Coq Require Import List Arith Bool Lia.
From Verif Require Import Subd_Model Subd_Spec Merge_Model Merge_Spec Merge_Proofs.
Import ListNotations.

Notation scene := (bodies nat nat (rest nat)).
Definition at_ (x : nat) : state nat nat := mkState (mkVec x 1 2) (mkVec 3 4 5) (mkVec 6 7 8) (mkQuat 9 10 11 12) 13.
Definition box_ (x : nat) : option (vec nat * vec nat) := Some (mkVec x 0 0, mkVec (x + 2) 2 2).
Definition ball (x k : nat) (bx : option (vec nat * vec nat)) : option (body nat nat (rest nat)) := Some (mkBody (at_ x) bx (mkRest k false false 99)).

(** the master has lost the boxes; an erased body; a body of the master *)
Definition master : scene := [ball 0 1 None; ball 0 2 None; None; ball 7 0 (box_ 7); ball 0 1 None].
Definition worker1 : scene := [ball 20 1 (box_ 20); ball 0 2 None; None; ball 7 0 (box_ 7); ball 24 1 (box_ 24)].
Definition worker2 : scene := [ball 0 1 None; ball 31 2 (box_ 31); None; ball 7 0 (box_ 7)].
Definition three : list scene := [master; worker1; worker2].
Ltac ids := repeat match goal with i : nat |- _ => destruct i; cbn [nth_error] in *; try discriminate end.
Lemma three_agreed : agreed three.
Proof.
  intros w0 k w id H0 Hk. cbn in H0. injection H0 as <-. rewrite <- !ids_in. destruct k as [|[|[|k]]]; cbn in Hk; [injection Hk as <-..|destruct k; discriminate Hk]; cbn; tauto.
Qed.
Lemma three_boxed : boxed three.
Proof.
  intros k w id b Hk Hb E P. destruct k as [|[|[|k]]]; cbn in Hk; [lia|injection Hk as <-..|destruct k; discriminate Hk].
  - unfold worker1 in Hb. destruct id as [|[|[|[|[|id]]]]]; cbn in Hb; try (injection Hb as <-); try discriminate Hb; cbn in *; try discriminate. destruct id; discriminate Hb.
  - unfold worker2 in Hb. destruct id as [|[|[|[|id]]]]; cbn in Hb; try (injection Hb as <-); try discriminate Hb; cbn in *; try discriminate. destruct id; discriminate Hb.
Qed.
(** a body without a box, as a clump is *)
Definition clumps : list scene := [[ball 0 1 None]; [ball 20 1 None]].
Lemma clumps_agreed : agreed clumps.
Proof. intros w0 k w id H0 Hk. cbn in H0. injection H0 as <-. rewrite <- !ids_in. destruct k as [|[|k]]; cbn in Hk; [injection Hk as <-..|destruct k; discriminate Hk]; cbn; tauto. Qed.
Lemma clump_box : exists b, mergeScene 0 1 clumps = Some [Some b] /\ bound b = Some (mkVec 0 0 0, mkVec 0 0 0) /\ pos (bstate b) = mkVec 20 1 2.
Proof. eexists. split; [vm_compute; reflexivity|]. split; reflexivity. Qed.
(** worker 1 has erased body 0 *)
Definition erased : list scene := [[ball 0 1 None; ball 0 1 None]; [None; ball 24 1 (box_ 24)]].
Lemma erased_boxed : boxed erased.
Proof.
  intros k w id b Hk Hb E P. destruct k as [|[|k]]; cbn in Hk; [lia|injection Hk as <-|destruct k; discriminate Hk]. destruct id as [|[|id]]; cbn in Hb; try (injection Hb as <-); try discriminate Hb; cbn in *; try discriminate. destruct id; discriminate Hb.
Qed.
Lemma erased_none : mergeScene 0 1 erased = None. Proof. vm_compute. reflexivity. Qed.
