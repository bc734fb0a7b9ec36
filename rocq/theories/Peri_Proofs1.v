(** Proofs about the periodic overlap test, the creation and the removal of interactions. *)
From Coq Require Import List ZArith Arith Bool Lia Permutation.
From Verif Require Import Coll_Model Coll_Spec Coll_Proofs2 Peri_Model Peri_Spec Peri_Sort Peri_Refine.
Import ListNotations.
Local Open Scope Z_scope.

(** ** the overlap test on one axis *)
Lemma axis_finds allow d t lo1 hi1 lo2 hi2 k : 0 < d -> 0 <= t -> hi1 - lo1 <= d -> 2 * (hi2 - lo2) <= d ->
  meets d 0 lo1 hi1 lo2 hi2 k -> exists k', axisOverlap allow d t lo1 hi1 lo2 hi2 = Ok (Some k').
Proof.
  intros Hd Ht H1 H2 [M1 M2]. unfold axisOverlap.
  rewrite (proj2 (Z.ltb_ge d _)) by lia. rewrite (proj2 (Z.ltb_ge (lo1 - hi1 + d) 0)) by lia. cbn [orb].
  pose proof (Z.div_mod (hi2 - hi1) d ltac:(lia)) as DM. pose proof (Z.mod_pos_bound (hi2 - hi1) d Hd) as MB.
  set (P := (hi2 - hi1) / d) in *. destruct (Z.le_gt_cases (- P) k) as [K|K].
  - rewrite (proj2 (Z.leb_le (lo2 - hi1 - P * d) t)) by nia. eauto.
  - destruct (lo2 - hi1 - P * d <=? t); [eauto|]. rewrite (proj2 (Z.leb_le (lo1 - hi1 + d) _)) by nia. eauto.
Qed.
Lemma axis_sound d t lo1 hi1 lo2 hi2 k : 0 < d -> 0 <= t -> lo1 <= hi1 -> lo2 <= hi2 ->
  axisOverlap false d t lo1 hi1 lo2 hi2 = Ok (Some k) -> meets d t lo1 hi1 lo2 hi2 k.
Proof.
  intros Hd Ht H1 H2 E. unfold axisOverlap in E. destruct ((d <? 2 * (hi2 - hi1 - (lo2 - hi1))) || (lo1 - hi1 + d <? 0)); [discriminate|].
  pose proof (Z.div_mod (hi2 - hi1) d ltac:(lia)) as DM. pose proof (Z.mod_pos_bound (hi2 - hi1) d Hd) as MB.
  set (P := (hi2 - hi1) / d) in *. unfold meets.
  destruct (Z.leb_spec (lo2 - hi1 - P * d) t) as [L|L].
  - injection E as <-. split; nia.
  - destruct (Z.leb_spec (lo1 - hi1 + d) (hi2 - hi1 - P * d + t)) as [L'|L']; [|discriminate]. injection E as <-. split; nia.
Qed.
Lemma axis_total d t lo1 hi1 lo2 hi2 : hi1 - lo1 <= d -> 2 * (hi2 - lo2) <= d -> exists r, axisOverlap false d t lo1 hi1 lo2 hi2 = Ok r.
Proof.
  intros H1 H2. unfold axisOverlap. rewrite (proj2 (Z.ltb_ge d _)) by lia. rewrite (proj2 (Z.ltb_ge (lo1 - hi1 + d) 0)) by lia. cbn [orb].
  destruct (_ <=? _); [eauto|]. destruct (_ <=? _); eauto.
Qed.
(** only one image if the boxes are small enough *)
Lemma meets_unique d t lo1 hi1 lo2 hi2 k k' : hi1 - lo1 + (hi2 - lo2) + t < d ->
  meets d 0 lo1 hi1 lo2 hi2 k -> meets d t lo1 hi1 lo2 hi2 k' -> lo1 <= hi1 -> lo2 <= hi2 -> 0 <= t -> k' = k.
Proof. unfold meets. intros Hs [A B] [C D] H1 H2 Ht. assert (k' < k + 1) by nia. assert (k < k' + 1) by nia. lia. Qed.

(** ** boxes *)
Lemma box_total c x y a : cell_ok c -> fits c x -> fits c y -> (a < 3)%nat -> exists r, boxOverlap c x y a = Ok r.
Proof.
  intros [Ha Hc] Hx Hy H. unfold boxOverlap. rewrite Ha. specialize (Hc a H). specialize (Hx a H). specialize (Hy a H). apply axis_total; lia.
Qed.
Lemma overlap_total c x y : cell_ok c -> fits c x -> fits c y -> exists r, overlapPeri c x y = Ok r.
Proof.
  intros Hc Hx Hy. unfold overlapPeri.
  destruct (box_total c x y 0 Hc Hx Hy ltac:(lia)) as [r0 ->]. cbn [bind]. destruct r0; [|eauto].
  destruct (box_total c x y 1 Hc Hx Hy ltac:(lia)) as [r1 ->]. cbn [bind]. destruct r1; [|eauto].
  destruct (box_total c x y 2 Hc Hx Hy ltac:(lia)) as [r2 ->]. cbn [bind]. destruct r2; eauto.
Qed.
Lemma overlap_finds c x y k : cell_ok c -> fits c x -> fits c y -> box_meets c x y k -> exists k', overlapPeri c x y = Ok (Some k').
Proof.
  intros [Ha Hc] Hx Hy M.
  assert (K : forall a, (a < 3)%nat -> exists k', boxOverlap c x y a = Ok (Some k')).
  { intros a H. specialize (Hc a H). specialize (Hx a H). specialize (Hy a H). unfold boxOverlap.
    apply axis_finds with (k := image_of k a); [lia|lia|lia|lia|exact (M a H)]. }
  unfold overlapPeri. destruct (K 0%nat ltac:(lia)) as [k0 ->]. destruct (K 1%nat ltac:(lia)) as [k1 ->]. destruct (K 2%nat ltac:(lia)) as [k2 ->].
  cbn [bind]. eauto.
Qed.
Lemma overlap_sound c x y k : cell_ok c -> fits c x -> fits c y -> overlapPeri c x y = Ok (Some k) -> box_nearly_meets c x y k.
Proof.
  intros [Ha Hc] Hx Hy E. unfold overlapPeri in E.
  apply bind_ok in E. destruct E as ([k0|] & E0 & E); [|discriminate].
  apply bind_ok in E. destruct E as ([k1|] & E1 & E); [|discriminate].
  apply bind_ok in E. destruct E as ([k2|] & E2 & E); [|discriminate]. injection E as <-.
  intros a H. pose proof (Hc a H). pose proof (Hx a H). pose proof (Hy a H). unfold boxOverlap in *. rewrite Ha in *.
  destruct a as [|[|[|a]]]; [| | |lia]; cbn [image_of]; (apply axis_sound; [lia|lia|lia|lia|assumption]).
Qed.
(** boxes that together are smaller than the cell: the image found is the only one *)
Lemma overlap_exact c x y k : cell_ok c -> fits c x -> fits c y ->
  (forall a, (a < 3)%nat -> hi x a - lo x a + (hi y a - lo y a) + ctol c a < dim c a) -> box_meets c x y k -> overlapPeri c x y = Ok (Some k).
Proof.
  intros Hc Hx Hy Hs M. destruct (overlap_finds c x y k Hc Hx Hy M) as [k' E]. rewrite E. do 2 f_equal.
  pose proof (overlap_sound c x y k' Hc Hx Hy E) as N.
  assert (K : forall a, (a < 3)%nat -> image_of k' a = image_of k a).
  { intros a Ha. destruct Hc as [_ Hc]. specialize (Hc a Ha). specialize (Hx a Ha). specialize (Hy a Ha).
    apply (meets_unique (dim c a) (ctol c a) (lo x a) (hi x a) (lo y a) (hi y a)); [apply Hs; exact Ha|apply M; exact Ha|apply N; exact Ha|lia|lia|lia]. }
  destruct k as [[k0 k1] k2], k' as [[k0' k1'] k2']. pose proof (K 0%nat ltac:(lia)). pose proof (K 1%nat ltac:(lia)). pose proof (K 2%nat ltac:(lia)). cbn [image_of] in *. congruence.
Qed.
Lemma meets_sym c x y k : box_meets c x y k -> box_meets c y x (let '(a, b, e) := k in (- a, - b, - e)).
Proof.
  destruct k as [[k0 k1] k2]. intros M a H. specialize (M a H). unfold meets in *. cbn [image_of] in *. destruct a as [|[|a]]; cbn [image_of] in *; lia.
Qed.

(** ** creation and removal *)
Definition known (bs : bodies) (mm : boxes) : Prop := forall i x, has_box bs i x -> nth_error mm i = Some x.
Lemma known_refresh bs mm n : n = length bs -> known bs (refresh_boxes bs (resize mm n)).
Proof. intros -> i x H. apply boxes_known; [apply resize_length|exact H]. Qed.

Lemma pfound_linked I i j : pfound I i j = true <-> plinked I i j.
Proof.
  unfold pfound, plinked. rewrite existsb_exists. split; intros (x & Hx & K); exists x; (split; [exact Hx|]); destruct (ids x) as [p q]; unfold joins in *; cbn [fst snd] in *.
  - apply orb_prop in K. destruct K as [K|K]; apply andb_prop in K; destruct K as [K1 K2]; apply Nat.eqb_eq in K1, K2; subst; auto.
  - destruct K as [K|K]; injection K as -> ->; rewrite !Nat.eqb_refl; rewrite ?orb_true_r; reflexivity.
Qed.
Lemma plinked_sym I i j : plinked I i j -> plinked I j i.
Proof. intros (x & H & K). exists x. tauto. Qed.
Lemma plinked_incl I I' i j : incl I I' -> plinked I i j -> plinked I' i j.
Proof. intros H (x & Hx & K). exists x. split; [apply H; exact Hx|exact K]. Qed.

Lemma handle_incl m av c bs mm I p I' : handlePeri m av c bs mm I p = Ok I' -> incl I I'.
Proof.
  unfold handlePeri. destruct (pfound I (fst p) (snd p)); [intros E; injection E as <-; apply incl_refl|].
  intros E. apply bind_ok in E. destruct E as ([k|] & _ & E); [|injection E as <-; apply incl_refl].
  destruct (mayCollide _ _ _ _ _ _) as [[|]|]; [injection E as <-; apply incl_appl, incl_refl|injection E as <-; apply incl_refl|discriminate].
Qed.
Lemma handle_all_incl m av c bs mm l : forall I I', handle_all m av c bs mm I l = Ok I' -> incl I I'.
Proof.
  induction l as [|p l IH]; intros I I' E; cbn [handle_all] in E; [injection E as <-; apply incl_refl|].
  apply bind_ok in E. destruct E as (I1 & E1 & E). eapply incl_tran; [eapply handle_incl; exact E1|apply IH; exact E].
Qed.
Lemma handle_links s bs mm I i j I' x y k : cell_ok (pcell s) -> all_fit (pcell s) bs -> known bs mm ->
  has_box bs i x -> has_box bs j y -> box_meets (pcell s) x y k -> pallowed s bs i j ->
  handlePeri (pme s) (pavoid s) (pcell s) bs mm I (i, j) = Ok I' -> plinked I' i j.
Proof.
  intros Hc Hf Hk Hx Hy M Ha E. unfold handlePeri in E. cbn [fst snd] in E. destruct (pfound I i j) eqn:F.
  - injection E as <-. apply pfound_linked. exact F.
  - unfold spatialOverlapPeri in E. rewrite (Hk i x Hx), (Hk j y Hy) in E.
    destruct (overlap_finds (pcell s) x y k Hc (Hf i x Hx) (Hf j y Hy) M) as [k' Ek]. rewrite Ek in E. cbn [bind] in E.
    unfold pallowed in Ha. rewrite Ha in E. injection E as <-. exists (mkI (i, j) false k'). split; [apply in_or_app; right; left; reflexivity|left; reflexivity].
Qed.
Lemma pallowed_sym s bs i j : pallowed s bs i j -> pallowed s bs j i.
Proof. unfold pallowed. intros H. rewrite mayCollide_sym. exact H. Qed.
Lemma handle_all_links s bs mm l : forall I i j I' x y k, cell_ok (pcell s) -> all_fit (pcell s) bs -> known bs mm ->
  has_box bs i x -> has_box bs j y -> box_meets (pcell s) x y k -> pallowed s bs i j ->
  In (i, j) l \/ In (j, i) l -> handle_all (pme s) (pavoid s) (pcell s) bs mm I l = Ok I' -> plinked I' i j.
Proof.
  induction l as [|p l IH]; intros I i j I' x y k Hc Hf Hk Hx Hy M Ha Hin E; [destruct Hin as [[]|[]]|].
  cbn [handle_all] in E. apply bind_ok in E. destruct E as (I1 & E1 & E).
  assert (K : p = (i, j) \/ p = (j, i) \/ In (i, j) l \/ In (j, i) l) by (cbn [In] in Hin; tauto).
  destruct K as [-> | [-> | K]].
  - eapply plinked_incl; [eapply handle_all_incl; exact E|]. exact (handle_links s bs mm I i j I1 x y k Hc Hf Hk Hx Hy M Ha E1).
  - eapply plinked_incl; [eapply handle_all_incl; exact E|]. apply plinked_sym.
    exact (handle_links s bs mm I j i I1 y x _ Hc Hf Hk Hy Hx (meets_sym _ _ _ _ M) (pallowed_sym _ _ _ _ Ha) E1).
  - exact (IH I1 i j I' x y k Hc Hf Hk Hx Hy M Ha K E).
Qed.

Lemma purge_links c bs mm I : forall I' i j x y k, cell_ok c -> all_fit c bs -> known bs mm ->
  has_box bs i x -> has_box bs j y -> box_meets c x y k -> ppurge c mm I = Ok I' -> plinked I i j -> plinked I' i j.
Proof.
  induction I as [|z I IH]; intros I' i j x y k Hc Hf Hk Hx Hy M E (w & Hw & Kw); [destruct Hw|].
  cbn [ppurge] in E. apply bind_ok in E. destruct E as (r & Er & E). cbn [In] in Hw. destruct Hw as [-> | Hw].
  - destruct (real w); [injection E as <-; exists w; split; [left; reflexivity|exact Kw]|].
    apply bind_ok in E. destruct E as (o & Eo & E).
    assert (exists k', o = Some k') as [k' ->].
    { unfold spatialOverlapPeri in Eo. destruct Kw as [Kw|Kw]; rewrite Kw in Eo; cbn [fst snd] in Eo; rewrite (Hk i x Hx), (Hk j y Hy) in Eo.
      - destruct (overlap_finds c x y k Hc (Hf i x Hx) (Hf j y Hy) M) as [k' Ek]. rewrite Ek in Eo. injection Eo as <-. eauto.
      - destruct (overlap_finds c y x _ Hc (Hf j y Hy) (Hf i x Hx) (meets_sym _ _ _ _ M)) as [k' Ek]. rewrite Ek in Eo. injection Eo as <-. eauto. }
    injection E as <-. exists w. split; [left; reflexivity|exact Kw].
  - assert (L : plinked r i j) by (apply (IH r i j x y k Hc Hf Hk Hx Hy M Er); exists w; auto).
    destruct (real z); [injection E as <-; eapply plinked_incl; [|exact L]; apply incl_tl, incl_refl|].
    apply bind_ok in E. destruct E as ([k'|] & Eo & E); injection E as <-; [|exact L]. eapply plinked_incl; [|exact L]; apply incl_tl, incl_refl.
Qed.

(** ** the traversal *)
Lemma traverse_in fuel n v K : forall i L, ptraverse fuel n v K i = Ok L -> forall k, i <= k < i + Z.of_nat K ->
  pmin (v k) = true -> phas (v k) = true -> exists l, mins_from fuel n v (pid (v k)) ((k + 1) mod n) = Ok l /\ incl l L.
Proof.
  induction K as [|K IH]; intros i L E k Hk Hm Hh; [lia|]. cbn [ptraverse] in E.
  apply bind_ok in E. destruct E as (l & El & E). apply bind_ok in E. destruct E as (l' & El' & E). injection E as <-.
  destruct (Z.eq_dec k i) as [->|N].
  - rewrite Hm, Hh in El. cbn [andb] in El. exists l. split; [exact El|apply incl_appl, incl_refl].
  - destruct (IH (i + 1) l' El' k ltac:(lia) Hm Hh) as (l1 & E1 & I1). exists l1. split; [exact E1|apply incl_appr; exact I1].
Qed.
Lemma mins_in fuel n v i : 1 < n -> forall r t l, mins_from fuel n v i (r mod n) = Ok l -> r <= t ->
  (forall q, r <= q <= t -> pid (v (q mod n)) <> i) -> pmin (v (t mod n)) = true -> phas (v (t mod n)) = true ->
  In (i, pid (v (t mod n))) l.
Proof.
  intros Hn. induction fuel as [|f IH]; intros r t l E Hr Hq Hm Hh; [discriminate|]. cbn [mins_from] in E.
  rewrite (proj2 (Nat.eqb_neq (pid (v (r mod n))) i)) in E by (apply Hq; lia).
  apply bind_ok in E. destruct E as (l1 & E1 & E). rewrite Zplus_mod_idemp_l in E1. injection E as <-.
  destruct (Z.eq_dec r t) as [->|N].
  - rewrite Hm, Hh. left. reflexivity.
  - assert (In (i, pid (v (t mod n))) l1) by (apply (IH (r + 1) t l1 E1); [lia|intros q Hq'; apply Hq; lia|exact Hm|exact Hh]).
    destruct (pmin (v (r mod n)) && phas (v (r mod n))); [right|]; assumption.
Qed.
