(** Order in lists, insertion sort and its events, parallel insertion sort. *)
From Coq Require Import List ZArith Arith Bool Permutation Lia.
From Verif Require Import Coll_Model Coll_Spec.
Import ListNotations.

(** ** x occurs before y *)
Section Before.
Context {A : Type}.
Definition before (x y : A) (l : list A) : Prop := exists a b c, l = a ++ x :: b ++ y :: c.

Lemma before_nil x y : ~ before x y [].
Proof. intros (a & b & c & H). destruct a; discriminate. Qed.
Lemma before_cons x y z l : before x y (z :: l) <-> (x = z /\ In y l) \/ before x y l.
Proof.
  split.
  - intros (a & b & c & H). destruct a as [|a0 a]; cbn in H; injection H as H1 H2.
    + left. subst. split; [reflexivity|]. apply in_or_app. right. left. reflexivity.
    + right. exists a, b, c. exact H2.
  - intros [[-> H]|(a & b & c & ->)].
    + apply in_split in H. destruct H as (b & c & ->). exists [], b, c. reflexivity.
    + exists (z :: a), b, c. reflexivity.
Qed.
Lemma before_app x y l1 l2 : before x y (l1 ++ l2) <-> before x y l1 \/ (In x l1 /\ In y l2) \/ before x y l2.
Proof.
  induction l1 as [|z l1 IH]; cbn [app].
  - split; [auto|]. intros [H|[[[] _]|H]]; [destruct (before_nil _ _ H)|exact H].
  - rewrite !before_cons, IH, in_app_iff. cbn [In]. split.
    + intros [[-> [H|H]]|[H|[[H1 H2]|H]]]; auto 10.
    + intros [[[-> H]|H]|[[[->|H1] H2]|H]]; auto 10.
Qed.
Lemma before_in x y l : before x y l -> In x l /\ In y l.
Proof. intros (a & b & c & ->). split; apply in_or_app; right; [left; reflexivity|]. right. apply in_or_app. right. left. reflexivity. Qed.
Lemma before_total x y l : In x l -> In y l -> x <> y -> before x y l \/ before y x l.
Proof.
  induction l as [|z l IH]; intros Hx Hy Hne; [destruct Hx|]. cbn in Hx, Hy. rewrite !before_cons.
  destruct Hx as [->|Hx], Hy as [->|Hy]; [contradiction| | |]; auto. destruct (IH Hx Hy Hne); auto.
Qed.
Lemma before_antisym x y l : NoDup l -> before x y l -> before y x l -> False.
Proof.
  induction l as [|z l IH]; intros Hnd H1 H2; [exact (before_nil _ _ H1)|]. inversion Hnd as [|? ? Hz Hl]; subst.
  rewrite before_cons in H1, H2. destruct H1 as [[-> H1]|H1], H2 as [[-> H2]|H2].
  - contradiction.
  - apply before_in in H2. tauto.
  - apply before_in in H1. tauto.
  - eauto.
Qed.
Lemma before_neq x y l : NoDup l -> before x y l -> x <> y.
Proof. intros Hn H ->. exact (before_antisym _ _ _ Hn H H). Qed.
End Before.
Lemma before_map {A B} (f : A -> B) x y l : before x y l -> before (f x) (f y) (map f l).
Proof. intros (a & b & c & ->). exists (map f a), (map f b), (map f c). rewrite map_app. cbn. rewrite map_app. reflexivity. Qed.
Lemma before_map_inv {A B} (f : A -> B) u v l : before u v (map f l) -> exists x y, before x y l /\ f x = u /\ f y = v.
Proof.
  intros (a & b & c & H). apply map_eq_app in H. destruct H as (la & lx & -> & <- & H). apply map_eq_cons in H.
  destruct H as (x & lb & -> & <- & H). apply map_eq_app in H. destruct H as (l2 & ly & -> & <- & H). apply map_eq_cons in H.
  destruct H as (y & lc & -> & <- & <-). exists x, y. split; [exists la, l2, lc; reflexivity|auto].
Qed.

(** ** rearrangements that report which pairs changed their order *)
Section Traced.
Context {A : Type}.
Definition traced (l l' : list A) (ev : list (A * A)) : Prop :=
  Permutation l l' /\ (NoDup l -> forall x y, before x y l -> before y x l' -> In (y, x) ev) /\
  (forall x y, In (x, y) ev -> In x l /\ In y l).

Lemma traced_refl l : traced l l [].
Proof. split; [reflexivity|]. split; [|intros x y []]. intros Hn x y H1 H2. destruct (before_antisym _ _ _ Hn H1 H2). Qed.
Lemma traced_trans l1 l2 l3 e1 e2 : traced l1 l2 e1 -> traced l2 l3 e2 -> traced l1 l3 (e1 ++ e2).
Proof.
  intros (P1 & T1 & I1) (P2 & T2 & I2). split; [etransitivity; eassumption|]. split.
  - intros Hn x y H1 H3.
    assert (Hn2 : NoDup l2) by (eapply Permutation_NoDup; eassumption). apply in_or_app.
    pose proof (before_neq _ _ _ Hn H1) as Hne. apply before_in in H1 as Hi. destruct Hi as [Hx Hy].
    destruct (before_total x y l2) as [H|H]; try (eapply Permutation_in; eassumption); auto.
  - intros x y H. apply in_app_or in H. destruct H as [H|H]; [auto|]. apply I2 in H. destruct H. split; eapply Permutation_in; try (symmetry; eassumption); assumption.
Qed.
Lemma traced_app a b a' b' e1 e2 : traced a a' e1 -> traced b b' e2 -> traced (a ++ b) (a' ++ b') (e1 ++ e2).
Proof.
  intros (P1 & T1 & I1) (P2 & T2 & I2). split; [apply Permutation_app; assumption|]. split.
  2: { intros x y H. rewrite !in_app_iff in *. destruct H as [H|H]; [apply I1 in H|apply I2 in H]; tauto. }
  intros Hn x y H H'.
  assert (Hab : forall z, In z a -> In z b -> False).
  { intros z Hza Hzb. clear - Hn Hza Hzb. induction a as [|w a IH]; [destruct Hza|]. cbn in Hn. inversion Hn; subst.
    destruct Hza as [->|Hza]; [apply H1; apply in_or_app; auto|auto]. }
  assert (Na : NoDup a) by (clear - Hn; induction a; [constructor|]; cbn in Hn; inversion Hn; subst; constructor; [rewrite in_app_iff in *; tauto|auto]).
  assert (Nb : NoDup b) by (clear - Hn; induction a; [exact Hn|]; cbn in Hn; inversion Hn; subst; auto).
  assert (Ia : forall z, In z a' -> In z a) by (intros z; apply Permutation_in; symmetry; assumption).
  assert (Ib : forall z, In z b' -> In z b) by (intros z; apply Permutation_in; symmetry; assumption).
  rewrite before_app in H, H'. apply in_or_app.
  destruct H as [H|[[Hx Hy]|H]], H' as [H'|[[Hy' Hx']|H']]; try apply before_in in H as Hi; try apply before_in in H' as Hi'.
  - left. auto.
  - exfalso. destruct Hi. eauto.
  - exfalso. destruct Hi, Hi'. eauto.
  - exfalso. destruct Hi'. eauto.
  - exfalso. eauto.
  - exfalso. destruct Hi'. eauto.
  - exfalso. destruct Hi, Hi'. eauto.
  - exfalso. destruct Hi. eauto.
  - right. auto.
Qed.
Lemma traced_swap x y : traced [y; x] [x; y] [(x, y)].
Proof.
  split; [apply perm_swap|]. split.
  - intros Hn u v H1 H2. rewrite !before_cons in H1, H2. cbn [In] in *.
    destruct H1 as [[-> [->|[]]]|[[_ []]|H]]; [|destruct (before_nil _ _ H)]. left. reflexivity.
  - intros u v [E|[]]. injection E as <- <-. cbn. auto.
Qed.
End Traced.

(** ** order by coordinate *)
Definition sorted (l : list entry) : Prop := forall x y, before x y l -> (coord x <= coord y)%Z.
Lemma sorted_app l1 l2 : sorted (l1 ++ l2) <-> sorted l1 /\ sorted l2 /\ forall x y, In x l1 -> In y l2 -> (coord x <= coord y)%Z.
Proof.
  unfold sorted. setoid_rewrite before_app. split.
  - intros H. split; [|split]; auto.
  - intros (H1 & H2 & H3) x y [H|[[Hx Hy]|H]]; auto.
Qed.
Lemma sorted_cons x l : sorted (x :: l) <-> (forall y, In y l -> (coord x <= coord y)%Z) /\ sorted l.
Proof.
  unfold sorted. setoid_rewrite before_cons. split.
  - intros H. split; auto.
  - intros [H1 H2] u v [[-> H]|H]; auto.
Qed.
Lemma sorted_nil : sorted [].
Proof. intros x y H. destruct (before_nil _ _ H). Qed.

Lemma gtb_true y x : gtb y x = true -> (coord x <= coord y)%Z.
Proof. unfold gtb. destruct ((eid y =? eid x) && (coord y =? coord x)%Z) eqn:E; [|rewrite Z.ltb_lt; lia]. apply andb_true_iff in E. rewrite Z.eqb_eq in E. lia. Qed.
Lemma gtb_false y x : gtb y x = false -> (coord y <= coord x)%Z.
Proof. unfold gtb. destruct ((eid y =? eid x) && (coord y =? coord x)%Z) eqn:E; [|rewrite Z.ltb_ge; lia]. apply andb_true_iff in E. rewrite Z.eqb_eq in E. lia. Qed.
Lemma ltb_true x y : ltb x y = true -> (coord x <= coord y)%Z.
Proof. unfold ltb. destruct ((eid x =? eid y) && (coord x =? coord y)%Z) eqn:E; [|rewrite Z.ltb_lt; lia]. apply andb_true_iff in E. rewrite Z.eqb_eq in E. lia. Qed.
Lemma ltb_false x y : ltb x y = false -> (coord y <= coord x)%Z.
Proof. unfold ltb. destruct ((eid x =? eid y) && (coord x =? coord y)%Z) eqn:E; [|rewrite Z.ltb_ge; lia]. apply andb_true_iff in E. rewrite Z.eqb_eq in E. lia. Qed.

(** ** insertion sort *)
Lemma shift_traced x rp : traced (rev rp ++ [x]) (rev (fst (shift x rp))) (snd (shift x rp)).
Proof.
  induction rp as [|y rp IH]; cbn [shift rev app].
  - apply traced_refl.
  - destruct (gtb y x).
    + destruct (shift x rp) as [r ev]. cbn [fst snd rev] in *.
      change ((x, y) :: ev) with ([(x, y)] ++ ev). apply traced_trans with (l2 := rev rp ++ [x] ++ [y]).
      * rewrite <- app_assoc. cbn [app]. apply (traced_app (rev rp) [y; x] (rev rp) [x; y] []); [apply traced_refl|apply traced_swap].
      * rewrite app_assoc. rewrite <- (app_nil_r ev). apply traced_app; [exact IH|apply traced_refl].
    + cbn [fst snd rev]. rewrite <- !app_assoc. apply traced_refl.
Qed.
Lemma shift_sorted x rp : sorted (rev rp) -> sorted (rev (fst (shift x rp))).
Proof.
  induction rp as [|y rp IH]; intros H; cbn [shift].
  - cbn. apply sorted_cons. split; [intros y []|apply sorted_nil].
  - cbn [rev] in H. destruct (proj1 (sorted_app _ _) H) as (H1 & _ & H3). destruct (gtb y x) eqn:E.
    + pose proof (shift_traced x rp) as [P _]. destruct (shift x rp) as [r ev]. cbn [fst snd rev] in *. apply sorted_app. split; [auto|]. split.
      * apply sorted_cons. split; [intros z []|apply sorted_nil].
      * intros u v Hu [<-|[]]. apply (Permutation_in _ (Permutation_sym P)) in Hu. apply in_app_or in Hu. destruct Hu as [Hu|[<-|[]]].
        -- apply H3; [exact Hu|left; reflexivity].
        -- apply gtb_true. exact E.
    + cbn [fst rev]. apply gtb_false in E. apply sorted_app. split; [exact H|]. split; [apply sorted_cons; split; [intros z []|apply sorted_nil]|].
      intros u v Hu [<-|[]]. apply in_app_or in Hu. destruct Hu as [Hu|[<-|[]]]; [|exact E].
      specialize (H3 u y Hu (or_introl eq_refl)). lia.
Qed.
Lemma sort_from_ok l : forall rp, sorted (rev rp) ->
  traced (rev rp ++ l) (fst (sort_from rp l)) (snd (sort_from rp l)) /\ sorted (fst (sort_from rp l)).
Proof.
  induction l as [|x l IH]; intros rp H; cbn [sort_from].
  - cbn [fst snd]. rewrite app_nil_r. split; [apply traced_refl|exact H].
  - pose proof (shift_traced x rp) as T. pose proof (shift_sorted x rp H) as Hs. destruct (shift x rp) as [r ev]. cbn [fst snd] in T, Hs.
    specialize (IH r Hs). destruct (sort_from r l) as [r' ev']. cbn [fst snd] in *. destruct IH as [T' S']. split; [|exact S'].
    apply traced_trans with (l2 := rev r ++ l); [|exact T'].
    change (rev rp ++ x :: l) with (rev rp ++ [x] ++ l). rewrite app_assoc. rewrite <- (app_nil_r ev). apply traced_app; [exact T|apply traced_refl].
Qed.
Lemma insertionSort_ok l : traced l (fst (insertionSort l)) (snd (insertionSort l)) /\ sorted (fst (insertionSort l)).
Proof. exact (sort_from_ok l [] sorted_nil). Qed.

(** ** parallel version *)
Lemma sort_chunks_traced cs n : forall l, 0 < n -> traced l (fst (sort_chunks cs n l)) (snd (sort_chunks cs n l)).
Proof.
  induction n as [|n IH]; intros l Hn; [lia|]. cbn [sort_chunks]. destruct n as [|n].
  - apply insertionSort_ok.
  - destruct (insertionSort_ok (firstn cs l)) as [T _]. destruct (insertionSort (firstn cs l)) as [a ev]. specialize (IH (skipn cs l) ltac:(lia)).
    destruct (sort_chunks cs (S n) (skipn cs l)) as [b ev']. cbn [fst snd] in *. rewrite <- (firstn_skipn cs l) at 1. apply traced_app; assumption.
Qed.

(** [chunked cs l]: consecutive chunks of length cs (the last one: what is left) are sorted *)
Fixpoint chunked (cs n : nat) (l : list entry) : Prop :=
  match n with
  | O => True
  | S n' => match n' with O => sorted l | _ => sorted (firstn cs l) /\ chunked cs n' (skipn cs l) end
  end.
Lemma sort_chunks_sorted cs n : forall l, cs * (n - 1) <= length l -> chunked cs n (fst (sort_chunks cs n l)).
Proof.
  induction n as [|n IH]; intros l Hl; cbn [sort_chunks chunked]; [exact I|]. destruct n as [|n].
  - apply insertionSort_ok.
  - destruct (insertionSort_ok (firstn cs l)) as [[P _] S]. destruct (insertionSort (firstn cs l)) as [a ev]. specialize (IH (skipn cs l)).
    destruct (sort_chunks cs (Datatypes.S n) (skipn cs l)) as [b ev']. cbn [fst snd] in *.
    assert (La : length a = cs). { apply Permutation_length in P. rewrite firstn_length in P. rewrite <- P. cbn in Hl. nia. }
    rewrite firstn_app, skipn_app, La, Nat.sub_diag, firstn_all2, skipn_all2 by lia. cbn [firstn skipn app]. rewrite app_nil_r.
    split; [exact S|]. apply IH. rewrite skipn_length. cbn in *. nia.
Qed.

Lemma shift2_traced x rp : traced (rev rp ++ [x]) (rev (fst (fst (shift2 x rp)))) (snd (fst (shift2 x rp))).
Proof.
  induction rp as [|y rp IH]; cbn [shift2 rev app].
  - apply traced_refl.
  - destruct (ltb x y).
    + destruct (shift2 x rp) as [[r ev] f]. cbn [fst snd rev] in *.
      change ((x, y) :: ev) with ([(x, y)] ++ ev). apply traced_trans with (l2 := rev rp ++ [x] ++ [y]).
      * rewrite <- app_assoc. cbn [app]. apply (traced_app (rev rp) [y; x] (rev rp) [x; y] []); [apply traced_refl|apply traced_swap].
      * rewrite app_assoc. rewrite <- (app_nil_r ev). apply traced_app; [exact IH|apply traced_refl].
    + cbn [fst snd rev]. rewrite <- !app_assoc. apply traced_refl.
Qed.
(** when the end of the half chunk was not reached, the first element stays the smallest *)
Lemma shift2_sorted x rp : sorted (rev rp) -> sorted (rev (fst (fst (shift2 x rp)))) /\
  (snd (shift2 x rp) = false -> exists z r, rev rp = z :: r /\ (coord z <= coord x)%Z /\ exists r', rev (fst (fst (shift2 x rp))) = z :: r').
Proof.
  induction rp as [|y rp IH]; intros H; cbn [shift2].
  - cbn. split; [|discriminate]. apply sorted_cons. split; [intros y []|apply sorted_nil].
  - cbn [rev] in H. destruct (proj1 (sorted_app _ _) H) as (H1 & _ & H3). destruct (ltb x y) eqn:E.
    + pose proof (shift2_traced x rp) as [P _]. specialize (IH H1). destruct (shift2 x rp) as [[r ev] f]. cbn [fst snd rev] in *. destruct IH as [IH1 IH2]. split.
      * apply sorted_app. split; [exact IH1|]. split; [apply sorted_cons; split; [intros z []|apply sorted_nil]|].
        intros u v Hu [<-|[]]. apply (Permutation_in _ (Permutation_sym P)) in Hu. apply in_app_or in Hu. destruct Hu as [Hu|[<-|[]]].
        -- apply H3; [exact Hu|left; reflexivity].
        -- apply ltb_true. exact E.
      * intros Hf. destruct (IH2 Hf) as (z & r0 & Hz & Hc & r' & Hr). exists z, (r0 ++ [y]). rewrite Hz. split; [reflexivity|]. split; [exact Hc|].
        exists (r' ++ [y]). rewrite Hr. reflexivity.
    + cbn [fst snd rev]. apply ltb_false in E. split.
      * apply sorted_app. split; [exact H|]. split; [apply sorted_cons; split; [intros z []|apply sorted_nil]|].
        intros u v Hu [<-|[]]. apply in_app_or in Hu. destruct Hu as [Hu|[<-|[]]]; [|exact E]. specialize (H3 u y Hu (or_introl eq_refl)). lia.
      * intros _. destruct (rev rp) as [|z r] eqn:Er.
        -- exists y, []. split; [reflexivity|]. split; [exact E|]. exists [x]. reflexivity.
        -- exists z, (r ++ [y]). split; [reflexivity|]. split; [|exists (r ++ [y] ++ [x]); cbn; rewrite <- app_assoc; reflexivity].
           specialize (H3 z y (or_introl eq_refl) (or_introl eq_refl)). lia.
Qed.
Lemma merge_ok over l : forall rp r ev f, merge over rp l = Some (r, ev, f) -> rp <> [] ->
  traced (rev rp ++ l) r ev /\
  (sorted (rev rp) -> sorted l -> f = false -> sorted r /\ exists z a b, rev rp = z :: a /\ r = z :: b) /\
  (* the upper part is not touched *)
  (sorted (rev rp) -> sorted l -> f = false -> forall l2, sorted (l ++ l2) -> exists z r', r = r' ++ [z] /\ forall y, In y l2 -> (coord z <= coord y)%Z).
Proof.
  induction l as [|x l IH]; intros rp r ev f Hm Hne; cbn [merge] in Hm.
  - destruct over; [discriminate|]. injection Hm as <- <- <-. rewrite app_nil_r. split; [apply traced_refl|]. split; discriminate.
  - destruct rp as [|y rp]; [discriminate|]. destruct (ltb x y) eqn:E.
    + pose proof (shift2_traced x (y :: rp)) as T. pose proof (shift2_sorted x (y :: rp)) as S.
      assert (Hne1 : fst (fst (shift2 x (y :: rp))) <> []).
      { intros E0. rewrite E0 in T. destruct T as [P _]. cbn in P. symmetry in P. apply Permutation_nil in P. destruct (rev rp); discriminate. }
      destruct (shift2 x (y :: rp)) as [[rp1 ev1] f1]. cbn [fst snd] in T, S, Hne1.
      destruct (merge over rp1 l) as [[[r2 ev2] f2]|] eqn:Em; [|discriminate]. injection Hm as <- <- <-.
      destruct (IH _ _ _ _ Em Hne1) as (T2 & S2 & U2). split.
      * apply traced_trans with (l2 := rev rp1 ++ l); [|exact T2].
        change (rev (y :: rp) ++ x :: l) with (rev (y :: rp) ++ [x] ++ l). rewrite app_assoc. rewrite <- (app_nil_r ev1). apply traced_app; [exact T|apply traced_refl].
      * split.
        -- intros Hs Hl Hf. apply orb_false_iff in Hf. destruct Hf as [-> ->]. destruct (S Hs) as [S1 S3]. apply sorted_cons in Hl. destruct Hl as [Hx Hl].
           destruct (S2 S1 Hl eq_refl) as [S4 (z & a & b & Ha & Hb)]. split; [exact S4|].
           destruct (S3 eq_refl) as (z' & r' & Hz & _ & r'' & Hr). rewrite Hr in Ha. injection Ha as -> ->. exists z, r', b. auto.
        -- intros Hs Hl Hf l2 Hl2. apply orb_false_iff in Hf. destruct Hf as [-> ->]. destruct (S Hs) as [S1 S3]. apply sorted_cons in Hl. destruct Hl as [Hx Hl].
           cbn [app] in Hl2. apply sorted_cons in Hl2. destruct Hl2 as [_ Hl2]. exact (U2 S1 Hl eq_refl l2 Hl2).
    + injection Hm as <- <- <-. apply ltb_false in E. split; [apply traced_refl|]. split.
      * intros Hs Hl _. cbn [rev] in *. split.
        -- apply sorted_app. split; [exact Hs|]. split; [exact Hl|]. intros u v Hu Hv. apply sorted_app in Hs. destruct Hs as (_ & _ & Hs).
           assert (Hu' : (coord u <= coord y)%Z) by (apply in_app_or in Hu; destruct Hu as [Hu|[<-|[]]]; [apply Hs; [exact Hu|left; reflexivity]|lia]).
           apply sorted_cons in Hl. destruct Hl as [Hl _]. destruct Hv as [<-|Hv]; [lia|]. specialize (Hl v Hv). lia.
        -- destruct (rev rp ++ [y]) as [|z a] eqn:Ez; [destruct (rev rp); discriminate|]. exists z, a, (a ++ x :: l). split; reflexivity.
      * intros Hs Hl _ l2 Hl2. destruct (exists_last (l:=x :: l)) as (r' & z & Hz); [discriminate|]. exists z, (rev (y :: rp) ++ r').
        rewrite Hz in *. split; [rewrite app_assoc; reflexivity|]. intros y0 Hy0. apply sorted_app in Hl2. apply (proj2 (proj2 Hl2)); [apply in_or_app; right; left; reflexivity|exact Hy0].
Qed.

Lemma skipn_skipn {A} (x y : nat) (l : list A) : skipn x (skipn y l) = skipn (x + y) l.
Proof. revert l. induction y as [|y IH]; intros l; [rewrite Nat.add_0_r; reflexivity|]. rewrite Nat.add_succ_r. destruct l; [rewrite skipn_nil; reflexivity|]. cbn [skipn]. apply IH. Qed.
Lemma firstn_skipn_comm {A} (m n : nat) (l : list A) : firstn m (skipn n l) = skipn n (firstn (n + m) l).
Proof. revert l. induction n as [|n IH]; intros l; [reflexivity|]. destruct l; [cbn; apply firstn_nil|]. cbn [skipn Nat.add firstn]. apply IH. Qed.
Lemma sorted_firstn k l : sorted l -> sorted (firstn k l).
Proof. intros H. rewrite <- (firstn_skipn k l) in H. apply sorted_app in H. apply H. Qed.
Lemma sorted_skipn k l : sorted l -> sorted (skipn k l).
Proof. intros H. rewrite <- (firstn_skipn k l) in H. apply sorted_app in H. apply H. Qed.

(** the second half of a sorted chunk, followed by n sorted chunks *)
Definition pieces (cs n : nat) (l : list entry) : Prop :=
  let down := cs - cs / 2 in
  down <= length l /\ sorted (firstn down l) /\ chunked cs n (skipn down l) /\ cs * (n - 1) <= length l - down.

Lemma connect_ok cs n : 0 < cs -> forall l r ev f, connect cs n l = Some (r, ev, f) ->
  (0 < n -> cs - cs / 2 <= length l) ->
  traced l r ev /\
  (f = false -> (n = 0 -> sorted l) -> (0 < n -> pieces cs n l) -> sorted r /\ (l <> [] -> exists z a b, l = z :: a /\ r = z :: b)).
Proof.
  intros Hcs. assert (Hup : cs / 2 < cs) by (apply Nat.div_lt; lia).
  induction n as [|n IH]; intros l r ev f Hc Hlen; cbn [connect] in Hc.
  - injection Hc as <- <- <-. split; [apply traced_refl|]. intros _ H _. split; [auto|]. intros Hne. destruct l as [|z a]; [contradiction|]. exists z, a, a. auto.
  - specialize (Hlen ltac:(lia)). set (down := cs - cs / 2) in *. set (up := cs / 2) in *.
    assert (Hnd : rev (firstn down l) <> []).
    { intros E. apply (f_equal (@length entry)) in E. rewrite rev_length, firstn_length in E. cbn in E. lia. }
    destruct (merge (length l <? down + up) (rev (firstn down l)) (firstn up (skipn down l))) as [[[a ev1] f1]|] eqn:Em; [|discriminate].
    destruct (connect cs n (skipn (down + up) l)) as [[[b ev2] f2]|] eqn:Ec; [|discriminate]. injection Hc as <- <- <-.
    destruct (merge_ok _ _ _ _ _ _ Em Hnd) as (T1 & S1 & U1). rewrite rev_involutive in T1, S1, U1.
    assert (Esk : skipn (down + up) l = skipn up (skipn down l)) by (rewrite skipn_skipn; f_equal; lia).
    destruct (Nat.eq_dec n 0) as [->|Hn0].
    + cbn [connect] in Ec. injection Ec as <- <- <-. split.
      * rewrite app_nil_r. rewrite <- (firstn_skipn down l) at 1. rewrite <- (firstn_skipn up (skipn down l)) at 1. rewrite app_assoc, <- Esk.
        rewrite <- (app_nil_r ev1). apply traced_app; [exact T1|apply traced_refl].
      * intros Hf _ Hp. rewrite orb_false_r in Hf. subst f1. specialize (Hp ltac:(lia)). destruct Hp as (_ & Hs & Hch & _). cbn [chunked] in Hch.
        destruct (S1 Hs (sorted_firstn _ _ Hch) eq_refl) as [Sa (z & a1 & b1 & Ha & Hb)]. split.
        -- apply sorted_app. split; [exact Sa|]. split; [rewrite Esk; apply sorted_skipn; exact Hch|].
           intros u v Hu Hv. destruct (U1 Hs (sorted_firstn _ _ Hch) eq_refl (skipn up (skipn down l))) as (zz & r' & Hr & Hz); [rewrite firstn_skipn; exact Hch|].
           rewrite Esk in Hv. specialize (Hz v Hv). rewrite Hr in Sa. apply sorted_app in Sa. rewrite Hr in Hu. apply in_app_or in Hu.
           destruct Hu as [Hu|[<-|[]]]; [|lia]. destruct Sa as (_ & _ & Sa). specialize (Sa u zz Hu (or_introl eq_refl)). lia.
        -- intros _. exists z, (a1 ++ skipn down l), (b1 ++ skipn (down + up) l). rewrite Hb. split; [|reflexivity].
           rewrite <- (firstn_skipn down l) at 1. rewrite Ha. reflexivity.
    + assert (Hl2 : f1 || f2 = false -> pieces cs (S n) l -> down <= length (skipn (down + up) l)).
      { intros _ (_ & _ & _ & Hp). rewrite skipn_length. fold up in Hp. fold down in Hp. replace (S n - 1) with n in Hp by lia. assert (Hdu : down + up = cs) by (unfold down, up; lia). assert (cs <= cs * n) by nia. lia. }
      assert (Hlen2 : 0 < n -> down <= length (skipn (down + up) l)).
      { intros _. (* otherwise connecting fails *) destruct n as [|n]; [lia|]. cbn [connect] in Ec. fold up in Ec. fold down in Ec.
        destruct (le_lt_dec down (length (skipn (down + up) l))) as [H|H]; [exact H|]. exfalso.
        rewrite (skipn_all2 (n:=down) (skipn (down + up) l)) in Ec by lia. rewrite firstn_nil in Ec. cbn [merge] in Ec.
        destruct (Nat.ltb_spec (length (skipn (down + up) l)) (down + up)); [discriminate|lia]. }
      destruct (IH _ _ _ _ Ec Hlen2) as [T2 S2]. split.
      * rewrite <- (firstn_skipn down l) at 1. rewrite <- (firstn_skipn up (skipn down l)) at 1. rewrite app_assoc, <- Esk. apply traced_app; assumption.
      * intros Hf _ Hp. specialize (Hp ltac:(lia)). pose proof (Hl2 Hf Hp) as Hl3. apply orb_false_iff in Hf. destruct Hf as [-> ->].
        destruct Hp as (_ & Hs & Hch & Hlen3). fold up in Hs, Hch, Hlen3. fold down in Hs, Hch, Hlen3. destruct n as [|n]; [lia|]. cbn [chunked] in Hch. destruct Hch as [Hc1 Hc2].
        assert (Hcl : cs <= length (skipn down l)) by (rewrite skipn_length; replace (S (S n) - 1) with (S n) in Hlen3 by lia; rewrite Nat.mul_succ_r in Hlen3; lia).
        assert (Hfu : firstn up (skipn down l) = firstn up (firstn cs (skipn down l))) by (rewrite firstn_firstn; f_equal; lia).
        assert (Hsu : sorted (firstn up (skipn down l))) by (rewrite Hfu; apply sorted_firstn; exact Hc1).
        assert (Hdn : firstn down (skipn (down + up) l) = skipn up (firstn cs (skipn down l))).
        { rewrite Esk. rewrite firstn_skipn_comm. f_equal. f_equal. unfold down, up. lia. }
        assert (P2 : pieces cs (S n) (skipn (down + up) l)).
        { unfold pieces. fold up. fold down. split; [exact Hl3|]. split; [rewrite Hdn; apply sorted_skipn; exact Hc1|]. split.
          - rewrite Esk, !skipn_skipn. rewrite skipn_skipn in Hc2.
            match goal with |- chunked _ _ (skipn ?k l) => replace k with (cs + down) by (unfold down; lia) end. exact Hc2.
          - rewrite skipn_length. replace (S (S n) - 1) with (S n) in Hlen3 by lia. replace (S n - 1) with n by lia. rewrite Nat.mul_succ_r in Hlen3.
            assert (Hdu : down + up = cs) by (unfold down, up; lia). lia. }
        destruct (S1 Hs Hsu eq_refl) as [Sa (z & a1 & b1 & Ha & Hb)].
        destruct (S2 eq_refl ltac:(lia) (fun _ => P2)) as [Sb Hhead]. split.
        -- apply sorted_app. split; [exact Sa|]. split; [exact Sb|]. intros u v Hu Hv.
           destruct (U1 Hs Hsu eq_refl (skipn up (firstn cs (skipn down l)))) as (zz & r' & Hr & Hz); [rewrite Hfu, firstn_skipn; exact Hc1|].
           assert (Hne : skipn (down + up) l <> []) by (intros E; rewrite E in Hl3; cbn in Hl3; unfold down in Hl3; lia).
           destruct (Hhead Hne) as (h & ha & hb & Hh & Hbb). rewrite Hh in Hdn.
           assert (Hzh : (coord zz <= coord h)%Z). { apply Hz. rewrite <- Hdn. destruct down eqn:Ed; [unfold down in Ed; lia|]. left. reflexivity. }
           assert (Hhv : (coord h <= coord v)%Z). { rewrite Hbb in Sb, Hv. apply sorted_cons in Sb. destruct Hv as [<-|Hv]; [lia|]. apply (proj1 Sb). exact Hv. }
           assert (Huz : (coord u <= coord zz)%Z). { rewrite Hr in Sa, Hu. apply sorted_app in Sa. apply in_app_or in Hu. destruct Hu as [Hu|[<-|[]]]; [|lia]. apply (proj2 (proj2 Sa)); [exact Hu|left; reflexivity]. }
           lia.
        -- intros _. exists z, (a1 ++ skipn down l), (b1 ++ b). rewrite Hb. split; [|reflexivity].
           rewrite <- (firstn_skipn down l) at 1. rewrite Ha. reflexivity.
Qed.

Lemma nChunks_ok l v : forall t n, nChunks l v t = Some n -> 0 < n /\ (n = 1 \/ csize (length l) n * (n - 1) < length l).
Proof.
  induction t as [|t IH]; intros n H; cbn [nChunks] in H; [injection H as <-; lia|]. destruct t as [|t]; [injection H as <-; lia|].
  destruct (Nat.leb_spec (length l) (S t * csize (length l) (S (S t)))); [discriminate|].
  destruct (existsb (too_small l v (S (S t))) (seq 1 (S t))).
  - apply IH. exact H.
  - injection H as <-. split; [lia|]. right. rewrite Nat.mul_comm. replace (S (S t) - 1) with (S t) by lia. exact H0.
Qed.

Lemma insertionSortParallel_ok t v l r e1 e2 : insertionSortParallel t v l = Some (r, e1, e2) -> traced l r (e1 ++ e2) /\ sorted r.
Proof.
  unfold insertionSortParallel. destruct (t <=? 1).
  - destruct (insertionSort_ok l) as [T S]. destruct (insertionSort l) as [r' ev]. intros H. injection H as <- <- <-. exact (conj T S).
  - destruct (nChunks l v t) as [n|] eqn:En; [|discriminate]. apply nChunks_ok in En. destruct En as [Hn Hcs].
    set (cs := csize (length l) n) in *. assert (Hcs0 : 0 < cs) by (unfold cs, csize; lia).
    assert (Hup : cs / 2 < cs) by (apply Nat.div_lt; lia).
    assert (Hlen : cs * (n - 1) <= length l) by (destruct Hcs as [->|Hcs]; [rewrite Nat.sub_diag, Nat.mul_0_r; lia|lia]).
    pose proof (sort_chunks_traced cs n l Hn) as T1. pose proof (sort_chunks_sorted cs n l Hlen) as C1.
    destruct (sort_chunks cs n l) as [l1 ev1]. cbn [fst snd] in T1, C1.
    assert (L1 : length l1 = length l) by (destruct T1 as [P _]; symmetry; apply Permutation_length; exact P).
    destruct (connect cs (n - 1) (skipn (cs / 2) l1)) as [[[l2 ev2] failed]|] eqn:Ec; [|discriminate].
    assert (Hpre : 0 < n - 1 -> cs - cs / 2 <= length (skipn (cs / 2) l1)).
    { intros Hn1. rewrite skipn_length, L1. destruct Hcs as [->|Hcs]; [lia|]. nia. }
    destruct (connect_ok cs (n - 1) Hcs0 _ _ _ _ Ec Hpre) as [T2 S2].
    assert (T3 : traced l (firstn (cs / 2) l1 ++ l2) (ev1 ++ ev2)).
    { apply traced_trans with (l2 := l1); [exact T1|]. rewrite <- (firstn_skipn (cs / 2) l1) at 1. change ev2 with ([] ++ ev2). apply traced_app; [apply traced_refl|exact T2]. }
    destruct failed.
    + destruct (insertionSort_ok (firstn (cs / 2) l1 ++ l2)) as [T4 S4]. destruct (insertionSort (firstn (cs / 2) l1 ++ l2)) as [r' ev]. cbn [fst snd] in *.
      intros H. injection H as <- <- <-. split; [|exact S4]. eapply traced_trans; eassumption.
    + intros H. assert (E3 : (firstn (cs / 2) l1 ++ l2, ev1 ++ ev2, @nil event) = (r, e1, e2)) by congruence. clear H.
      assert (r = firstn (cs / 2) l1 ++ l2) by congruence. assert (e1 = ev1 ++ ev2) by congruence. assert (e2 = []) by congruence. subst r e1 e2. rewrite app_nil_r. split; [exact T3|].
      destruct (Nat.eq_dec n 1) as [->|Hn1].
      * cbn [Nat.sub connect] in Ec. injection Ec as <- <-. rewrite firstn_skipn. exact C1.
      * destruct n as [|[|n]]; [lia|lia|]. cbn [chunked] in C1. destruct C1 as [Ca Cb]. replace (S (S n) - 1) with (S n) in S2, Hpre by lia.
        assert (P2 : pieces cs (S n) (skipn (cs / 2) l1)).
        { unfold pieces. split; [apply Hpre; lia|]. split.
          - rewrite firstn_skipn_comm. replace (cs / 2 + (cs - cs / 2)) with cs by lia. apply sorted_skipn. exact Ca.
          - split; [rewrite skipn_skipn; replace (cs - cs / 2 + cs / 2) with cs by lia; exact Cb|]. rewrite skipn_length, L1. replace (S (S n) - 1) with (S n) in Hlen by lia. replace (S n - 1) with n by lia. rewrite Nat.mul_succ_r in Hlen. lia. }
        destruct (S2 eq_refl ltac:(lia) (fun _ => P2)) as [Sb Hhead].
        assert (Hne : skipn (cs / 2) l1 <> []) by (intros E; rewrite E in Hpre; cbn [length] in Hpre; specialize (Hpre ltac:(lia)); lia).
        destruct (Hhead Hne) as (z & a & b & Ha & Hb).
        assert (Ef : firstn (cs / 2) l1 = firstn (cs / 2) (firstn cs l1)) by (rewrite firstn_firstn; f_equal; lia).
        apply sorted_app. split; [rewrite Ef; apply sorted_firstn; exact Ca|]. split; [exact Sb|]. intros x y Hx Hy.
        assert (Hxz : (coord x <= coord z)%Z).
        { rewrite <- (firstn_skipn (cs / 2) (firstn cs l1)) in Ca. apply sorted_app in Ca. apply (proj2 (proj2 Ca)); [rewrite <- Ef; exact Hx|].
          replace cs with (cs / 2 + (cs - cs / 2)) at 2 by lia. rewrite <- firstn_skipn_comm, Ha. destruct (cs - cs / 2) eqn:E; [lia|]. left. reflexivity. }
        rewrite Hb in Sb, Hy. apply sorted_cons in Sb. destruct Hy as [<-|Hy]; [exact Hxz|]. destruct Sb as [Sb _]. specialize (Sb y Hy). lia.
Qed.
