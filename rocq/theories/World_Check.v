(** Executable checks of concrete histories, for the examples and counterexamples. *)
From stdpp Require Import gmap list.
From Coq Require Import ZArith Lia.
From Verif Require Import World_Model World_Spec World_Proofs1 World_Proofs2.

Definition in_containerb (w : world) (r : nat) : bool := List.existsb (fun s => match s with Some r' => Nat.eqb r' r | None => false end) (slots w).
Lemma in_containerb_spec w r : in_containerb w r = false -> ~ in_container w r.
Proof.
  intros H (i & Hi). apply not_true_iff_false in H. apply H. apply List.existsb_exists. exists (Some r). split; [|apply Nat.eqb_refl].
  apply elem_of_list_In. eapply elem_of_list_lookup_2; exact Hi.
Qed.
Definition on_body (w : world) (r : nat) (f : body -> bool) : bool := match bheap w !! r with Some b => f b | None => true end.
Lemma on_body_spec w r f b : on_body w r f = true -> bheap w !! r = Some b -> f b = true.
Proof. unfold on_body. intros H E. rewrite E in H. exact H. Qed.
Definition on_id (w : world) (i : nat) (f : body -> bool) : bool := match at_id w i with Some (_, b) => f b | None => false end.
Definition emptyb (m : gmap nat nat) : bool := Nat.eqb (size m) 0.
Lemma emptyb_spec m : emptyb m = true -> m = ∅.
Proof. intros H. apply Nat.eqb_eq in H. apply map_size_empty_iff, H. Qed.
Definition traceb (w : world) (pos : nat) : bool :=
  forallb (fun i => match at_id w i with Some (_, b) => match intrs b !! pos with None => true | Some _ => false end | None => true end) (seq 0 (length (slots w))) &&
  forallb (fun q => match iheap w !! q with Some x => negb (Nat.eqb (id1 x) pos) && negb (Nat.eqb (id2 x) pos) | None => true end) (lin w).
Lemma traceb_spec w pos : traceb w pos = true -> no_trace w pos.
Proof.
  intros H. apply andb_true_iff in H as [H1 H2]. split.
  - intros i r b Hi. eapply forallb_forall in H1; [|apply in_seq; split; [apply Nat.le_0_l|]].
    + rewrite Hi in H1. destruct (intrs b !! pos); [discriminate|reflexivity].
    + cbn. apply at_id_Some in Hi as [Hi _]. eapply lookup_lt_Some; exact Hi.
  - intros q x Hq Hx. eapply forallb_forall in H2; [|apply elem_of_list_In; exact Hq]. rewrite Hx in H2. apply andb_true_iff in H2 as [A B].
    apply negb_true_iff in A, B. apply Nat.eqb_neq in A, B. auto.
Qed.

Definition freshb (w : world) (o : op) : bool := match o with OInsertAt r _ => negb (in_containerb w r) | _ => true end.
Lemma freshb_spec w o : freshb w o = true -> fresh_insert w o.
Proof. destruct o; try exact (fun _ => I). cbn. intros H. apply in_containerb_spec. apply negb_true_iff, H. Qed.

Definition clumpb (w : world) (o : op) : bool :=
  match o with
  | OInsertAt r _ => negb (in_containerb w r) && on_body w r (fun b => match clumpId b with None => true | _ => false end)
  | OClump ids => forallb (fun i => on_id w i (fun b => negb (isClump b))) ids
  | OAddToClump ids c => forallb (fun i => on_id w i (fun b => match clumpId b with None => true | Some c' => Nat.eqb c' c end)) ids
  | _ => true
  end.
Lemma clumpb_spec w o : clumpb w o = true -> clump_safe w o.
Proof.
  destruct o; try exact (fun _ => I); cbn; intros H.
  - apply andb_true_iff in H as [H1 H2]. split; [apply in_containerb_spec, negb_true_iff, H1|]. intros b Hb. pose proof (on_body_spec _ _ _ _ H2 Hb) as G. cbn in G. destruct (clumpId b); congruence.
  - intros i Hi. eapply forallb_forall in H; [|apply elem_of_list_In; exact Hi]. unfold on_id in H. destruct (at_id w i) as [[r b]|]; [|discriminate]. exists r, b. split; [reflexivity|]. apply negb_true_iff, H.
  - intros i Hi. eapply forallb_forall in H; [|apply elem_of_list_In; exact Hi]. unfold on_id in H. destruct (at_id w i) as [[r b]|]; [|discriminate]. exists r, b. split; [reflexivity|].
    destruct (clumpId b); [right; apply Nat.eqb_eq in H; congruence|left; reflexivity].
Qed.

Definition interb (w : world) (o : op) : bool :=
  match o with
  | OAppend r => on_body w r (fun b => emptyb (intrs b))
  | OInsertAt r pos => negb (in_containerb w r) && traceb w pos && on_body w r (fun b => emptyb (intrs b))
  | OInsertI i j => negb (Nat.eqb i j) && on_id w i (fun b => match members b with None => true | _ => false end) && on_id w j (fun b => match members b with None => true | _ => false end)
  | OPurgePar _ chunks => bool_decide (concat chunks = seq 0 (length (lin w)))
  | _ => true
  end.
Lemma interb_spec w o : interb w o = true -> inter_safe w o.
Proof.
  destruct o; try exact (fun _ => I); cbn; intros H.
  - intros b Hb. apply emptyb_spec. exact (on_body_spec _ _ _ _ H Hb).
  - apply andb_true_iff in H as [H H3]. apply andb_true_iff in H as [H1 H2]. split; [apply in_containerb_spec, negb_true_iff, H1|]. split; [apply traceb_spec, H2|].
    intros b Hb. apply emptyb_spec. exact (on_body_spec _ _ _ _ H3 Hb).
  - apply andb_true_iff in H as [H H3]. apply andb_true_iff in H as [H1 H2]. split; [apply Nat.eqb_neq, negb_true_iff, H1|]. intros k r b Hk Hb. unfold on_id in *.
    destruct Hk as [->| ->]; [rewrite Hb in H2|rewrite Hb in H3]; destruct (members b); congruence.
  - apply bool_decide_eq_true_1 in H. exact H.
Qed.

Definition recyclingb (w : world) (o : op) : bool :=
  match o with OInsertAt r pos => negb (in_containerb w r) && on_body w r (fun b => emptyb (intrs b)) | _ => interb w o end.
Lemma recyclingb_spec w o : recyclingb w o = true -> recycling w o.
Proof.
  destruct o; try exact (interb_spec w _). cbn. intros H. apply andb_true_iff in H as [H1 H2]. split; [apply in_containerb_spec, negb_true_iff, H1|].
  intros b Hb. apply emptyb_spec. exact (on_body_spec _ _ _ _ H2 Hb).
Qed.
Definition reappendingb (w : world) (o : op) : bool := match o with OAppend r => true | _ => interb w o end.
Lemma reappendingb_spec w o : reappendingb w o = true -> reappending w o.
Proof. destruct o; try exact (interb_spec w _). exact (fun _ => I). Qed.
Definition bothb (C D : world -> op -> bool) (w : world) (o : op) : bool := C w o && D w o.
Lemma ci_spec w o : bothb clumpb interb w o = true -> both clump_safe inter_safe w o.
Proof. intros H. apply andb_true_iff in H as [H1 H2]. split; [apply clumpb_spec, H1|apply interb_spec, H2]. Qed.

(** run with the condition checked on the way *)
Fixpoint runb (C : world -> op -> bool) (w : world) (l : list op) : option world :=
  match l with
  | [] => Some w
  | o :: l' => if C w o then match step w o with Ret _ w1 => runb C w1 l' | Exc w1 => runb C w1 l' | _ => None end else None
  end.
Lemma runb_spec (C : world -> op -> Prop) (Cb : world -> op -> bool) : (forall w o, Cb w o = true -> C w o) ->
  forall l w w', runb Cb w l = Some w' -> along C w l /\ run w l = Some w'.
Proof.
  intros HC. induction l as [|o l IH]; intros w w'; [intros E; split; [exact I|exact E]|]. cbn. destruct (Cb w o) eqn:E; [|discriminate].
  destruct (step w o) as [u w1|w1| |] eqn:Es; intros H; try discriminate; destruct (IH _ _ H) as [H1 H2]; (split; [split; [apply HC, E|exact H1]|exact H2]).
Qed.

Definition test (Cb : world -> op -> bool) (l : list op) (f : world -> bool) : bool :=
  match runb Cb init l with Some w => f w | None => false end.
Lemma witness (C : world -> op -> Prop) (Cb : world -> op -> bool) (HC : forall w o, Cb w o = true -> C w o) l f :
  test Cb l f = true -> exists w, reachable C w /\ run init l = Some w /\ f w = true.
Proof.
  unfold test. destruct (runb Cb init l) as [w|] eqn:E; [|discriminate]. intros Hf. destruct (runb_spec C Cb HC _ _ _ E) as [H1 H2].
  exists w. split; [exists l; auto|]. auto.
Qed.
Lemma witness_run l f : test (fun _ _ => true) l f = true -> exists w, run init l = Some w /\ f w = true.
Proof. intros H. destruct (witness (fun _ _ => True) (fun _ _ => true) (fun _ _ _ => I) l f H) as (w & _ & H1 & H2). exists w. auto. Qed.

(** result of a call *)
Definition ret {A} (r : res A) (f : A -> world -> bool) : bool := match r with Ret a w => f a w | _ => false end.
Lemma ret_spec {A} (r : res A) f : ret r f = true -> exists a w, r = Ret a w /\ f a w = true.
Proof. destruct r; try discriminate. cbn. intros H. eexists _, _. split; [reflexivity|exact H]. Qed.
Definition isUB {A} (r : res A) : bool := match r with UB => true | _ => false end.
Lemma isUB_spec {A} (r : res A) : isUB r = true -> r = UB.
Proof. destruct r; try discriminate. reflexivity. Qed.
Lemma listed_in w q i j : listed w q i j -> q ∈ lin w.
Proof. intros [H _]. exact H. Qed.
Definition listedb (w : world) (q i j : nat) : bool :=
  bool_decide (q ∈ lin w) && match iheap w !! q with Some x => Nat.eqb (id1 x) i && Nat.eqb (id2 x) j | None => false end.
Lemma listedb_spec w q i j : listedb w q i j = true -> listed w q i j.
Proof.
  intros H. apply andb_true_iff in H as [H1 H2]. split; [apply bool_decide_eq_true_1 in H1; exact H1|]. destruct (iheap w !! q) as [x|]; [|discriminate].
  exists x. split; [reflexivity|]. apply andb_true_iff in H2 as [A B]. apply Nat.eqb_eq in A, B. left. auto.
Qed.
