(** Concrete histories with strides. *)
From Coq Require Import List ZArith Arith Bool Lia.
From Verif Require Import Coll_Model Coll_Spec Coll_Proofs1 Coll_Proofs2 Coll_Proofs3 Coll_Example Stride_Model Stride_Spec Stride_Proofs.
Import ListNotations.

Definition on_x (x : Z) : vec := fun a => match a with 0 => x | _ => 0%Z end.
Definition five : vec := fun _ => 5%Z.
Definition sphere (x : Z) : option sbody := Some (mkSB (on_x x) five five true true None 0 false None 1).
Definition vis (w : nat) : visit := mkVisit exs true (fun _ => 2%Z) (Some w) false.
(** moves of two bodies; the second argument is the half size of the first one on axis x *)
Definition mv2 (x y : Z) (e : vec) : nat -> motion := fun i => match i with 0 => mkMotion (on_x x) e e | _ => mkMotion (on_x y) five five end.
Definition long : vec := fun a => match a with 0 => 12%Z | _ => 5%Z end.

Definition h_still := [AddBodies [sphere 0; sphere 16]; Collider (vis 0); Newton 0 (mv2 0 15 five); Collider (vis 0); Newton 0 (mv2 0 8 five); Collider (vis 0)].
Definition h_replaced := [AddBodies [sphere 0; sphere 16]; Collider (vis 0); Newton 0 (mv2 0 15 five); Collider (vis 0); Newton 1 (mv2 0 8 five)].
Definition h_turned := [AddBodies [sphere 0; sphere 16]; Collider (vis 0); Newton 0 (mv2 0 16 long)].
Definition h_scripted := [AddBodies [sphere 0; sphere 16]; Collider (vis 0); Newton 0 (mv2 0 15 five); Script (mv2 0 8 five)].

Definition overlapb (b1 b2 : sbody) : bool :=
  forallb (fun a => (spos b1 a - elo b1 a <? spos b2 a + ehi b2 a) && (spos b2 a - elo b2 a <? spos b1 a + ehi b1 a))%Z [0; 1; 2].
Definition nolinkb (J : ints) : bool := forallb (fun e => negb (((fst (fst e) =? 0) && (snd (fst e) =? 1)) || ((fst (fst e) =? 1) && (snd (fst e) =? 0)))) J.
(** bodies 0 and 1: in contact and not linked, in contact and linked *)
Definition probe (x : st) : bool * bool :=
  match nth_error (sbs x) 0, nth_error (sbs x) 1 with
  | Some (Some b1), Some (Some b2) =>
      let c := overlapb b1 b2 && bounded b1 && bounded b2 && match mayCollide 0 0 0 1 (Some (seen b1)) (Some (seen b2)) with Some true => true | _ => false end in
      (c && nolinkb (sints x), c)
  | _, _ => (false, false)
  end.
Lemma overlapb_ok b1 b2 : overlapb b1 b2 = true -> shapes_overlap b1 b2.
Proof.
  unfold overlapb. rewrite forallb_forall. intros H a Ha. assert (In a [0; 1; 2]) as Hin by (cbn; lia). specialize (H a Hin). apply andb_true_iff in H. destruct H as [H1 H2].
  apply Z.ltb_lt in H1, H2. auto.
Qed.
Lemma nolinkb_ok J : nolinkb J = true -> ~ linked J 0 1.
Proof.
  unfold nolinkb. rewrite forallb_forall. intros H (p & r & Hin & Hs). specialize (H _ Hin). cbn in H. destruct p as [p q]. cbn in *.
  destruct Hs as [E|E]; injection E as -> ->; discriminate H.
Qed.
Lemma probe_missed x : fst (probe x) = true -> missed 0 0 x.
Proof.
  unfold probe. destruct (nth_error (sbs x) 0) as [[b1|]|] eqn:E1; try discriminate. destruct (nth_error (sbs x) 1) as [[b2|]|] eqn:E2; try discriminate.
  cbn [fst]. rewrite !andb_true_iff. intros ((((Ho & B1) & B2) & Hm) & Hn). exists 0, 1, b1, b2. split; [lia|]. split; [exact E1|]. split; [exact E2|]. split; [exact B1|]. split; [exact B2|].
  split; [apply overlapb_ok; exact Ho|]. split; [|apply nolinkb_ok; exact Hn]. unfold may_collide. destruct (mayCollide _ _ _ _ _ _) as [[|]|]; congruence.
Qed.
Lemma probe_contact x : snd (probe x) = true -> exists b1 b2, body_of x 0 b1 /\ body_of x 1 b2 /\ shapes_overlap b1 b2.
Proof.
  unfold probe. destruct (nth_error (sbs x) 0) as [[b1|]|] eqn:E1; try discriminate. destruct (nth_error (sbs x) 1) as [[b2|]|] eqn:E2; try discriminate.
  cbn [snd]. rewrite !andb_true_iff. intros (((Ho & B1) & B2) & Hm). exists b1, b2. split; [exact E1|]. split; [exact E2|]. apply overlapb_ok; exact Ho.
Qed.
Lemma probe_inv os r : option_map probe (exec os start) = Some r -> exists x, exec os start = Some x /\ probe x = r.
Proof. destruct (exec os start) as [x|]; [|discriminate]. intros H. exists x. split; [reflexivity|]. cbn in H. congruence. Qed.

Lemma still_run : option_map probe (exec h_still start) = Some (false, true).
Proof. vm_compute. reflexivity. Qed.
Lemma replaced_run : option_map probe (exec (h_replaced ++ [Collider (vis 1)]) start) = Some (true, true).
Proof. vm_compute. reflexivity. Qed.
Lemma turned_run : option_map probe (exec (h_turned ++ [Collider (vis 0)]) start) = Some (true, true).
Proof. vm_compute. reflexivity. Qed.
Lemma scripted_run : option_map probe (exec (h_scripted ++ [Collider (vis 0)]) start) = Some (true, true).
Proof. vm_compute. reflexivity. Qed.

Lemma along_all (P : op -> st -> Prop) os : (forall o x, In o os -> P o x) -> forall x, along P os x.
Proof.
  induction os as [|o os IH]; intros H x; [exact I|]. split; [apply H; left; reflexivity|]. destruct (exec1 o x); [|exact I]. apply IH. intros q y Hq. apply H. right. exact Hq.
Qed.
Lemma along_inv (Q : st -> Prop) (P : op -> st -> Prop) os : (forall o x, In o os -> Q x -> P o x /\ forall y, exec1 o x = Some y -> Q y) -> forall x, Q x -> along P os x.
Proof.
  induction os as [|o os IH]; intros H x Hx; [exact I|]. destruct (H o x (or_introl eq_refl) Hx) as [A B]. split; [exact A|]. destruct (exec1 o x) as [y|]; [|exact I].
  apply IH; [|apply B; reflexivity]. intros q z Hq. apply H. right. exact Hq.
Qed.

(** histories of five-sized spheres *)
Definition plain (o : op) : Prop :=
  match o with
  | AddBodies l => forall b, In (Some b) l -> bnd b = None /\ elo b = five /\ ehi b = five
  | Collider v => vset v = exs
  | Newton _ mv | Script mv => forall i, mlo (mv i) = five /\ mhi (mv i) = five
  | Laws _ => False
  end.
Definition all_five (x : st) : Prop := forall i b, body_of x i b -> elo b = five /\ ehi b = five.
Lemma plain_keeps o x y : plain o -> all_five x -> exec1 o x = Some y -> all_five y.
Proof.
  intros Hp Hx H. destruct o as [v|J|w mv|mv|l]; cbn [exec1 plain] in *.
  - destruct (isActivated v x); [|injection H as <-; exact Hx]. unfold collide in H. destruct (verletPos v && _); [discriminate|]. destruct (action _ _ _ _) as [[c J]|]; [|discriminate]. injection H as <-.
    intros i b Hb. unfold body_of in Hb. cbn [sbs] in Hb. rewrite dispatch_nth in Hb. destruct (nth_error (sbs x) i) as [[b1|]|] eqn:E; try discriminate. cbn in Hb. injection Hb as <-.
    specialize (Hx i b1 E). unfold processBody. destruct (bounded b1); exact Hx.
  - destruct Hp.
  - injection H as <-. intros i b Hb. unfold body_of in Hb. cbn [sbs] in Hb. rewrite move_nth in Hb. destruct (nth_error (sbs x) i) as [[b1|]|] eqn:E; try discriminate. cbn in Hb. injection Hb as <-.
    destruct (moved b1); [apply Hp|exact (Hx i b1 E)].
  - injection H as <-. intros i b Hb. unfold body_of in Hb. cbn [sbs] in Hb. rewrite move_nth in Hb. destruct (nth_error (sbs x) i) as [[b1|]|] eqn:E; try discriminate. cbn in Hb. injection Hb as <-. apply Hp.
  - injection H as <-. intros i b Hb. apply nth_app_cases in Hb. destruct Hb as [Hb|[_ Hb]]; [exact (Hx i b Hb)|apply (Hp b Hb)].
Qed.
Lemma plain_rules os : (forall o, In o os -> plain o) -> along (fair 0 0) os start /\ along no_turn os start.
Proof.
  intros H. split.
  - apply along_all. intros o x Ho. specialize (H o Ho). destruct o; cbn in *; try exact I; [rewrite H; split; [apply exs_ok|auto]|destruct H|intros b Hb; apply (H b Hb)].
  - apply (along_inv all_five); [|intros i b Hb; destruct i; discriminate Hb]. intros o x Ho Hx. split; [|intros y; apply plain_keeps; auto].
    specialize (H o Ho). destruct o; cbn in *; try exact I; intros i b Hb a; destruct (Hx i b Hb) as [-> ->], (H i) as [-> ->]; auto.
Qed.
Ltac in_cases H := cbn in H; repeat (destruct H as [H|H]; [subst|]); [..|destruct H].
Ltac is_plain := intros o Ho; in_cases Ho; cbn; auto; [intros b Hb; in_cases Hb; injection Hb as <-; auto|..]; intros [|i]; auto.
Lemma still_plain : forall o, In o h_still -> plain o.
Proof. is_plain. Qed.
Lemma replaced_plain : forall o, In o (h_replaced ++ [Collider (vis 1)]) -> plain o.
Proof. is_plain. Qed.
Lemma scripted_plain : forall o, In o (h_scripted ++ [Collider (vis 0)]) -> plain o.
Proof. is_plain. Qed.
