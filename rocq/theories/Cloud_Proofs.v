(** Random packings: what the loops do. *)
From Coq Require Import Reals List ZArith Bool Lra Lia Sorted.
From Verif Require Import Vec_Model Vec_Proofs Cloud_Model Cloud_Spec.
Import ListNotations.
Local Open Scope R_scope.

Lemma leb_true x y : leb x y = true <-> x <= y. Proof. unfold leb. destruct (Rle_dec x y); split; intros; try congruence; lra. Qed.
Lemma leb_false x y : leb x y = false <-> y < x. Proof. unfold leb. destruct (Rle_dec x y); split; intros; try congruence; lra. Qed.
Lemma ltb_true x y : ltb x y = true <-> x < y. Proof. unfold ltb. destruct (Rlt_dec x y); split; intros; try congruence; lra. Qed.
Lemma ltb_false x y : ltb x y = false <-> y <= x. Proof. unfold ltb. destruct (Rlt_dec x y); split; intros; try congruence; lra. Qed.
Lemma is_zero_true x : is_zero x = true <-> x = 0. Proof. unfold is_zero. destruct (Req_EM_T x 0); split; intros; congruence. Qed.
Lemma is_zero_false x : is_zero x = false <-> x <> 0. Proof. unfold is_zero. destruct (Req_EM_T x 0); split; intros; congruence. Qed.

Section Loops.
Variable rnd : nat -> R.

Definition new_sphere (q : params) (p : plan) (i : nat) (l : list sph) (s : sph) : Prop :=
  exists kr kd, radius q p (if (0 <? num q)%Z then rank_rand q i else rnd kr) = Some (r s) /\
    c s = fst (draw rnd q p (r s) kd) /\ overlaps q p l (c s) (r s) = false /\ clumpId s = (-1)%Z /\ more (num q) i = true.
Fixpoint grows (q : params) (p : plan) (i : nat) (l new : list sph) : Prop :=
  match new with [] => True | s :: new' => new_sphere q p i l s /\ grows q p (S i) (l ++ [s]) new' end.

Lemma place_spec t q p l rad : forall k x k', place rnd t q p l rad k = (Some x, k') -> exists kd, x = fst (draw rnd q p rad kd) /\ overlaps q p l x rad = false.
Proof.
  induction t as [|t IH]; intros k x k' H; cbn [place] in H; [discriminate|].
  destruct (draw rnd q p rad k) as [y k1] eqn:D. destruct (overlaps q p l y rad) eqn:O; [exact (IH _ _ _ H)|].
  injection H as <- <-. exists k. rewrite D. auto.
Qed.
Lemma spheres_spec mt q p f : forall i l k,
  (forall l' k', spheres rnd f mt q p i l k = AllPlaced l' k' -> exists new, l' = l ++ new /\ grows q p i l new /\ more (num q) (i + length new) = false) /\
  (forall i' l' k', spheres rnd f mt q p i l k = NoPlace i' l' k' -> exists new, l' = l ++ new /\ grows q p i l new /\ i' = (i + length new)%nat /\ more (num q) i' = true).
Proof.
  induction f as [|f IH]; intros i l k; [split; intros; discriminate|].
  cbn [spheres]. destruct (more (num q) i) eqn:E.
  - set (pr := if (0 <? num q)%Z then (rank_rand q i, k) else (rnd k, S k)). destruct pr as [rand k1] eqn:P.
    assert (Hr : rand = if (0 <? num q)%Z then rank_rand q i else rnd k) by (subst pr; destruct (0 <? num q)%Z; injection P as <- _; reflexivity).
    destruct (radius q p rand) as [rad|] eqn:R; [|split; intros; discriminate].
    destruct (place rnd mt q p l rad k1) as [[x|] k2] eqn:L.
    + destruct (IH (S i) (l ++ [mkSph x rad (-1)]) k2) as [IH1 IH2]. destruct (place_spec _ _ _ _ _ _ _ _ L) as (kd & Ex & Eo).
      assert (N : new_sphere q p i l (mkSph x rad (-1))).
      { exists k, kd. cbn [r c clumpId]. rewrite <- Hr. repeat split; assumption. }
      split.
      * intros l' k' H. destruct (IH1 _ _ H) as (new & -> & G & M). exists (mkSph x rad (-1) :: new). cbn [length grows]. rewrite <- app_assoc. cbn [app].
        split; [reflexivity|]. split; [split; assumption|]. rewrite Nat.add_succ_r. exact M.
      * intros i' l' k' H. destruct (IH2 _ _ _ H) as (new & -> & G & -> & M). exists (mkSph x rad (-1) :: new). cbn [length grows]. rewrite <- app_assoc. cbn [app].
        split; [reflexivity|]. split; [split; assumption|]. split; [rewrite Nat.add_succ_r; reflexivity|exact M].
    + split; [intros; discriminate|]. intros i' l' k' [= <- <- <-]. exists []. rewrite app_nil_r, Nat.add_0_r. cbn [grows]. auto.
  - split; [|intros; discriminate]. intros l' k' [= <- <-]. exists []. rewrite app_nil_r, Nat.add_0_r. cbn [grows]. auto.
Qed.

(** arguments of later attempts *)
Definition retried (q q' : params) : Prop := exists j, q' = Nat.iter j again q.
Lemma retried_again q q' : retried (again q) q' -> retried q q'.
Proof. intros [j ->]. exists (S j). induction j as [|j IH]; [reflexivity|]. change (again (Nat.iter j again (again q)) = again (Nat.iter (S j) again q)). rewrite IH. reflexivity. Qed.
Lemma retried_same q q' : retried q q' -> mn q' = mn q /\ mx q' = mx q /\ periodic q' = periodic q /\ hSize q' = hSize q /\ num q' = num q /\
  psdSizes q' = psdSizes q /\ psdCumm q' = psdCumm q /\ distributeMass q' = distributeMass q /\ rRelFuzz q' = rRelFuzz q.
Proof. intros [j ->]. induction j as [|j IH]; [repeat split|]. cbn [Nat.iter nat_rect]. exact IH. Qed.
Lemma prepare_plan q p sc : prepare q = (Some p, sc) -> size p = box q /\ hSizeFound p = negb (mat_zero (hSize q)) /\ cell p = period q /\ (is_zero (volume q) && negb (mat_zero (hSize q)) = false).
Proof.
  unfold prepare. destruct (is_zero (volume q) && negb (mat_zero (hSize q))) eqn:V; [discriminate|].
  set (m := if ltb 0 (rMean q) then _ else _).
  destruct (length (psdSizes q) =? 0)%nat.
  - destruct m as [[w x]|]; [|discriminate]. intros [= <- <-]. auto.
  - destruct (negb (length (psdSizes q) =? length (psdCumm q))%nat); [discriminate|]. destruct (length (psdSizes q) <=? 1)%nat; [discriminate|].
    destruct (negb (is_zero (hd 0 (psdCumm q))) && negb (is_zero (last (psdCumm q) 0 - 1))); [discriminate|].
    destruct (negb (increasing (psdSizes q)) || negb (increasing (psdCumm q))); [discriminate|].
    destruct m; [discriminate|]. intros [= <- <-]. auto.
Qed.
Definition imposed (p : plan) : bool := match how p with RDIST_RMEAN => true | _ => false end.
Lemma attempts_spec mt f : forall q s k n s' k', attempts rnd f mt q s k = Returned n s' k' ->
  exists q' p sc kept new, retried q q' /\ prepare q' = (Some p, sc) /\ pack s' = kept ++ new /\ grows q' p 0 kept new /\
    (q' = q /\ kept = pack s \/ kept = [] /\ imposed p = false /\ (0 < num q)%Z /\ exists p0 sc0, prepare q = (Some p0, sc0) /\ imposed p0 = false) /\
    (n = Z.of_nat (length (pack s')) /\ more (num q) (length new) = false \/
     n = Z.of_nat (length new) /\ more (num q) (length new) = true /\ ((num q <= 0)%Z \/ imposed p = true)).
Proof.
  induction f as [|f IH]; intros q s k n s' k' H; cbn [attempts] in H; [discriminate|].
  destruct (prepare q) as [[p|] sc] eqn:P; [|discriminate].
  match goal with H : context [spheres rnd f mt q p 0 (pack ?s) k] |- _ => set (s3 := s) in H end.
  assert (E3 : pack s3 = pack s). { subst s3. destruct (periodic q && negb (is_zero (volume q)) && negb (hSizeFound p)), sc; reflexivity. }
  destruct (spheres_spec mt q p f 0 (pack s3) k) as [S1 S2]. destruct (spheres rnd f mt q p 0 (pack s3) k) as [l k1|i l k1| |] eqn:E; try discriminate.
  - destruct (S1 _ _ eq_refl) as (new & -> & G & M). injection H as <- <- <-.
    exists q, p, sc, (pack s3), new. split; [exists O; reflexivity|]. split; [exact P|]. split; [reflexivity|]. split; [exact G|]. split; [left; auto|]. left. auto.
  - destruct (S2 _ _ _ eq_refl) as (new & -> & G & Ei & M). cbn [Nat.add] in Ei. subst i.
    destruct ((0 <? num q)%Z && match how p with RDIST_RMEAN => false | _ => true end) eqn:C.
    + apply andb_prop in C as [C1 C2]. apply Z.ltb_lt in C1.
      destruct (IH _ _ _ _ _ _ H) as (q' & p' & sc' & kept & new' & Rq & P' & Es & G' & K & N).
      assert (Hn : num (again q) = num q) by reflexivity. rewrite Hn in *.
      exists q', p', sc', kept, new'. split; [apply retried_again; exact Rq|]. split; [exact P'|]. split; [exact Es|]. split; [exact G'|]. split; [|exact N].
      assert (I0 : imposed p = false) by (unfold imposed; destruct (how p); congruence).
      right. destruct K as [[-> ->]|(K1 & K2 & K3 & _)].
      * split; [reflexivity|]. split; [|split; [exact C1|exists p, sc; auto]]. revert P'. unfold prepare, again. cbn [rMean hSize psdSizes psdCumm num distributeMass].
        assert (L : ltb 0 (-1) = false) by (apply ltb_false; lra). rewrite L.
        match goal with |- context [is_zero ?a && negb ?b] => destruct (is_zero a && negb b) end; [discriminate|].
        destruct (length (psdSizes q) =? 0)%nat.
        -- rewrite andb_true_r. destruct (0 <? num q)%Z; [|discriminate]. match goal with |- context [mean_radius ?x] => destruct (mean_radius x) end; [|discriminate]. intros [= <- _]. reflexivity.
        -- destruct (negb (length (psdSizes q) =? length (psdCumm q))%nat); [discriminate|]. destruct (length (psdSizes q) <=? 1)%nat; [discriminate|].
           destruct (negb (is_zero (hd 0 (psdCumm q))) && negb (is_zero (last (psdCumm q) 0 - 1))); [discriminate|].
           destruct (negb (increasing (psdSizes q)) || negb (increasing (psdCumm q))); [discriminate|]. rewrite andb_false_r. intros [= <- _]. reflexivity.
      * split; [exact K1|]. split; [exact K2|]. split; [exact K3|exists p, sc; auto].
    + injection H as <- <- <-. exists q, p, sc, (pack s3), new. split; [exists O; reflexivity|]. split; [exact P|]. split; [reflexivity|]. split; [exact G|]. split; [left; auto|].
      right. split; [reflexivity|]. split; [exact M|]. apply andb_false_iff in C as [C|C]; [left; apply Z.ltb_ge; exact C|right; unfold imposed; destruct (how p); congruence].
Qed.

(** every new sphere in relation with those before *)
Lemma grows_pairs (P : sph -> sph -> Prop) (I : sph -> Prop) q p :
  (forall i l s, Forall I l -> new_sphere q p i l s -> I s) ->
  (forall i l s a, Forall I l -> new_sphere q p i l s -> In a l -> P a s) ->
  forall new i l, Forall I l -> grows q p i l new ->
  Forall I new /\ forall j1 j2 a b, (j1 < j2)%nat -> (length l <= j2)%nat -> nth_error (l ++ new) j1 = Some a -> nth_error (l ++ new) j2 = Some b -> P a b.
Proof.
  intros HI HP. induction new as [|s new IH]; intros i l Hl G.
  - split; [constructor|]. intros j1 j2 a b _ L _ B. rewrite app_nil_r in B. assert (nth_error l j2 <> None) by congruence. apply nth_error_Some in H. lia.
  - cbn [grows] in G. destruct G as [N G]. pose proof (HI _ _ _ Hl N) as Is.
    assert (Hl' : Forall I (l ++ [s])) by (apply Forall_app; split; [exact Hl|constructor; [exact Is|constructor]]).
    destruct (IH _ _ Hl' G) as [F Q]. split; [constructor; assumption|].
    intros j1 j2 a b L1 L2 A B. rewrite <- app_assoc in Q. cbn [app] in Q.
    destruct (Nat.eq_dec j2 (length l)) as [->|Ne].
    + rewrite nth_error_app1 in A by lia. rewrite nth_error_app2, Nat.sub_diag in B by lia. cbn [nth_error] in B. injection B as <-. exact (HP _ _ _ _ Hl N (nth_error_In _ _ A)).
    + apply (Q j1 j2); try assumption. rewrite app_length. cbn [length]. lia.
Qed.
(** the radii, in order *)
Lemma grows_nth q p : forall new i l j s, grows q p i l new -> nth_error new j = Some s -> exists l', new_sphere q p (i + j) l' s.
Proof.
  induction new as [|a new IH]; intros i l j s G H; [destruct j; discriminate|]. cbn [grows] in G. destruct G as [N G].
  destruct j as [|j]; cbn [nth_error] in H; [injection H as <-; exists l; rewrite Nat.add_0_r; exact N|].
  destruct (IH _ _ _ _ G H) as [l' N']. exists l'. rewrite Nat.add_succ_r. exact N'.
Qed.
End Loops.
