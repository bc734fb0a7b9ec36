(** Examples for the quick sort collider. *)
From Coq Require Import List ZArith Arith Bool Lia Permutation Sorted.
From Verif Require Import Coll_Model Quick_Model Quick_Spec Quick_Proofs.
Import ListNotations.

Fixpoint ins (e : aabb) (l : list aabb) : list aabb := match l with [] => [e] | f :: l' => if (qlo e 0 <=? qlo f 0)%Z then e :: l else f :: ins e l' end.
Definition isort (l : list aabb) : list aabb := fold_right ins [] l.
Lemma ins_perm e l : Permutation (e :: l) (ins e l).
Proof. induction l as [|f l IH]; cbn [ins]; [apply Permutation_refl|]. destruct (_ <=? _)%Z; [apply Permutation_refl|]. eapply perm_trans; [apply perm_swap|]. apply perm_skip. exact IH. Qed.
Lemma ins_sorted e l : StronglySorted (fun x y => (qlo x 0 <= qlo y 0)%Z) l -> StronglySorted (fun x y => (qlo x 0 <= qlo y 0)%Z) (ins e l).
Proof.
  induction l as [|f l IH]; intros S; cbn [ins]; [repeat constructor|]. inversion S as [|? ? S' F]; subst. destruct (qlo e 0 <=? qlo f 0)%Z eqn:E.
  - apply Z.leb_le in E. constructor; [exact S|]. constructor; [exact E|]. eapply Forall_impl; [|exact F]. cbn beta. intros g Hg. lia.
  - apply Z.leb_gt in E. constructor; [apply IH; exact S'|]. apply Forall_forall. intros g Hg. apply (Permutation_in _ (Permutation_sym (ins_perm e l))) in Hg. destruct Hg as [<- |Hg]; [lia|]. rewrite Forall_forall in F. apply F. exact Hg.
Qed.
Lemma isort_sorts : sorts isort.
Proof.
  intros l. induction l as [|e l (P & S)]; [split; constructor|]. cbn [isort fold_right]. split; [eapply perm_trans; [apply perm_skip; exact P|apply ins_perm]|apply ins_sorted; exact S].
Qed.

Definition cube (x w : Z) : box := mkBox (fun k => match k with O => x | _ => 0%Z end) (fun k => match k with O => (x + w)%Z | _ => w end).
Definition bd (o : option box) (m : Z) : option body := Some (mkBody o (fun _ => 0%Z) 0 false None m).
(** two bodies with overlapping boxes *)
Definition two := [bd (Some (cube 0 4)) 1; bd (Some (cube 3 4)) 1].
(** with masks that forbid contact *)
Definition masked := [bd (Some (cube 0 4)) 1; bd (Some (cube 3 4)) 2].
(** the third one has no bound *)
Definition nobound := two ++ [bd None 1].
(** three bodies; the last one is erased *)
Definition three := [bd (Some (cube 0 4)) 1; bd (Some (cube 10 4)) 1; bd (Some (cube 12 4)) 1].
Definition erased := [bd (Some (cube 0 4)) 1; bd (Some (cube 10 4)) 1; None].
Lemma two_bounded : bounded two /\ proper two.
Proof.
  split.
  - intros [|[|a]] H; [| |cbn in H; lia]; eexists; eexists; split; reflexivity.
  - intros [|[|a]] x (b & Hb & Hx); cbn in Hb; [| |destruct a; discriminate]; injection Hb as <-; cbn in Hx; injection Hx as <-; cbn; lia.
Qed.
Lemma two_overlap : overlapping two 0 1.
Proof. eexists _, _. split; [eexists; split; reflexivity|]. split; [eexists; split; reflexivity|]. cbn. lia. Qed.
