(** The collider in a periodic scene: the lists, the effect on the interactions, termination. *)
From Coq Require Import List ZArith Arith Bool Lia Permutation.
From Verif Require Import Coll_Model Coll_Spec Coll_Proofs2 Peri_Model Peri_Spec Peri_Sort Peri_Refine Peri_Term Peri_Proofs1 Peri_Proofs2 Peri_Proofs3.
Import ListNotations.
Local Open Scope Z_scope.

(** ** the lists *)
Lemma good_circular nb d bs v A X H : (0 < nb)%nat -> good nb d bs v A X H -> circular (Z.of_nat (2 * nb)) d v.
Proof.
  intros Hnb G. set (n := Z.of_nat (2 * nb)). assert (Hn : 1 < n) by (unfold n; lia). pose proof (g_rep _ _ _ _ _ _ _ G) as R. fold n in R. split.
  - destruct R as (L & -> & _). apply Z.mod_pos_bound. lia.
  - intros k Hk. pose proof (rep_test n d Hn v A X H k R) as T. rewrite (Z.mod_small k n Hk) in T.
    pose proof (g_sorted _ _ _ _ _ _ _ G k) as S. rewrite (proj2 (Z.ltb_ge _ _) S) in T. apply Z.ltb_ge in T. exact T.
Qed.
Lemma lists_ok s c bs I a : preached s c bs I -> (a < 3)%nat ->
  circular (Z.of_nat (2 * length bs)) (dim (pcell s) a) (pbb c a) /\ both_bounds (length bs) (pbb c a) /\
  current (Z.of_nat (2 * length bs)) (dim (pcell s) a) bs a (pbb c a).
Proof.
  intros HR Ha. destruct (preached_ok s c bs I HR) as (A & X & H & sh & K). pose proof (k_pos _ _ _ _ _ _ _ _ K) as Hnb. pose proof (k_good _ _ _ _ _ _ _ _ K a Ha) as G.
  split; [eapply good_circular; eassumption|]. split; [exact (good_bb _ _ _ _ _ _ _ Hnb G)|].
  intros i x Hx. exists (sh a i). intros k Hk Ei. destruct (g_rep _ _ _ _ _ _ _ G) as (L & EL & R1 & R2 & R3).
  specialize (R2 k). specialize (R3 k). rewrite Z.mod_small in R2, R3 by exact Hk.
  destruct (k_shift _ _ _ _ _ _ _ _ K a i x Ha Hx) as [S1 S2]. destruct (g_box _ _ _ _ _ _ _ G i x Hx) as (_ & B1 & B2).
  unfold who in *. rewrite Ei in *. destruct (pmin (vec (pbb c a) k)); (split; [lia|congruence]).
Qed.

(** ** the pairs that are tested *)
Definition pairs_ok (bs : bodies) (l : list (nat * nat)) : Prop :=
  forall i j, In (i, j) l -> i <> j /\ exists y z, has_box bs i y /\ has_box bs j z.
Lemma pairs_app bs l l' : pairs_ok bs l -> pairs_ok bs l' -> pairs_ok bs (l ++ l').
Proof. intros P Q i j Hin. apply in_app_iff in Hin. destruct Hin; auto. Qed.
Definition boxed_at (bs : bodies) (n : Z) (v : arr) : Prop := forall k, 0 <= k < n -> phas (v k) = true -> exists x, has_box bs (pid (v k)) x.
Lemma good_boxed nb d bs v A X H : (0 < nb)%nat -> good nb d bs v A X H -> boxed_at bs (Z.of_nat (2 * nb)) (vec v).
Proof.
  intros Hnb G k Hk P. destruct (g_rep _ _ _ _ _ _ _ G) as (L & EL & R1 & R2 & R3). specialize (R1 k). specialize (R3 k). rewrite Z.mod_small in R1, R3 by exact Hk.
  rewrite P in R3. unfold who in *. apply (g_has _ _ _ _ _ _ _ G) with (b := pmin (vec v k)); [|exact R3].
  pose proof (g_rng _ _ _ _ _ _ _ G k) as K. rewrite R1 in K. exact K.
Qed.
Lemma mins_pairs fuel n v bs i y : 0 < n -> has_box bs i y -> boxed_at bs n v -> forall j l, 0 <= j < n -> mins_from fuel n v i j = Ok l -> pairs_ok bs l.
Proof.
  intros Hn Hi B. induction fuel as [|f IH]; intros j l Hj E; [discriminate|]. cbn [mins_from] in E.
  destruct (Nat.eqb_spec (pid (v j)) i) as [_|N]; [injection E as <-; intros a b []|].
  apply bind_ok in E. destruct E as (l1 & E1 & E). injection E as <-. pose proof (IH _ _ (Z.mod_pos_bound (j + 1) n Hn) E1) as P1.
  destruct (pmin (v j) && phas (v j)) eqn:T; [|exact P1]. apply andb_prop in T. destruct T as [_ T]. destruct (B j Hj T) as [z Hz].
  intros a b [K|K]; [injection K as <- <-; split; [congruence|eauto]|apply P1; exact K].
Qed.
Lemma traverse_pairs fuel n v bs : 0 < n -> boxed_at bs n v -> forall K i L, 0 <= i -> i + Z.of_nat K <= n -> ptraverse fuel n v K i = Ok L -> pairs_ok bs L.
Proof.
  intros Hn B. induction K as [|K IH]; intros i L Hi HK E; cbn [ptraverse] in E; [injection E as <-; intros a b []|].
  apply bind_ok in E. destruct E as (l & El & E). apply bind_ok in E. destruct E as (l' & El' & E). injection E as <-.
  apply pairs_app; [|apply (IH (i + 1) l'); [lia|lia|exact El']].
  destruct (pmin (v i) && phas (v i)) eqn:T; [|injection El as <-; intros a b []]. apply andb_prop in T. destruct T as [_ T].
  destruct (B i ltac:(lia) T) as [y Hy]. exact (mins_pairs fuel n v bs _ y Hn Hy B _ l (Z.mod_pos_bound _ n Hn) El).
Qed.
Lemma swaps_has n d X H A ev A' : swaps n d X H A ev A' -> forall x y, In (x, y) ev -> phas x = H (who x) /\ phas y = H (who y).
Proof.
  induction 1 as [|A p A1 x y ev A' L Wx Wy Px Py E SW IH]; intros x' y' Hin; [destruct Hin|]. destruct Hin as [K|K]; [injection K as <- <-; auto|apply IH; exact K].
Qed.

(** ** handling the pairs *)
Lemma may_total me av bs i j y z : has_box bs i y -> has_box bs j z -> exists b, mayCollide me av i j (body_at bs i) (body_at bs j) = Some b.
Proof. intros (b1 & -> & _) (b2 & -> & _). cbn [mayCollide]. eauto. Qed.
Lemma handle_total s bs mm I i j y z : cell_ok (pcell s) -> all_fit (pcell s) bs -> known bs mm -> has_box bs i y -> has_box bs j z ->
  exists I', handlePeri (pme s) (pavoid s) (pcell s) bs mm I (i, j) = Ok I' /\
    (I' = I \/ exists k, I' = I ++ [mkI (i, j) false k] /\ pfound I i j = false /\ pallowed s bs i j /\ box_nearly_meets (pcell s) y z k).
Proof.
  intros Hc Hf Kn Hy Hz. unfold handlePeri. cbn [fst snd]. destruct (pfound I i j) eqn:F; [eauto|].
  unfold spatialOverlapPeri. rewrite (Kn i y Hy), (Kn j z Hz). destruct (overlap_total (pcell s) y z Hc (Hf i y Hy) (Hf j z Hz)) as [o Eo]. rewrite Eo. cbn [bind].
  destruct o as [k|]; [|eauto]. pose proof (overlap_sound _ _ _ _ Hc (Hf i y Hy) (Hf j z Hz) Eo) as M.
  destruct (may_total (pme s) (pavoid s) bs i j y z Hy Hz) as [b Eb]. rewrite Eb. destruct b; [|eauto].
  eexists. split; [reflexivity|]. right. exists k. auto.
Qed.
Lemma plinked_app I I' i j : plinked (I ++ I') i j <-> plinked I i j \/ plinked I' i j.
Proof.
  unfold plinked. split.
  - intros (x & Hx & K). apply in_app_iff in Hx. destruct Hx; [left|right]; exists x; auto.
  - intros [(x & Hx & K)|(x & Hx & K)]; exists x; rewrite in_app_iff; auto.
Qed.
Lemma handle_all_effect s bs mm K l : cell_ok (pcell s) -> all_fit (pcell s) bs -> known bs mm -> pairs_ok bs l -> forall N,
  (forall x, In x N -> new_ok s bs x /\ ~ plinked K (fst (ids x)) (snd (ids x))) ->
  (forall p x q, N = p ++ x :: q -> ~ plinked (p ++ q) (fst (ids x)) (snd (ids x))) ->
  exists N', handle_all (pme s) (pavoid s) (pcell s) bs mm (K ++ N) l = Ok (K ++ N') /\
    (forall x, In x N' -> new_ok s bs x /\ ~ plinked K (fst (ids x)) (snd (ids x))) /\
    (forall p x q, N' = p ++ x :: q -> ~ plinked (p ++ q) (fst (ids x)) (snd (ids x))).
Proof.
  intros Hc Hf Kn. induction l as [|[i j] l IH]; intros P N H1 H2; [exists N; auto|]. cbn [handle_all].
  destruct (P i j (or_introl eq_refl)) as (Nij & y & z & Hy & Hz).
  assert (P' : pairs_ok bs l) by (intros a b Hin; apply P; right; exact Hin).
  destruct (handle_total s bs mm (K ++ N) i j y z Hc Hf Kn Hy Hz) as (I' & -> & [-> | (k & -> & F & Al & M)]); cbn [bind]; [apply IH; assumption|].
  assert (NF : ~ plinked (K ++ N) i j) by (intros C; apply pfound_linked in C; congruence).
  rewrite <- app_assoc. apply IH; [exact P'| |].
  - intros x Hx. apply in_app_iff in Hx. destruct Hx as [Hx|[<- | []]]; [apply H1; exact Hx|]. cbn [ids fst snd]. split.
    + unfold new_ok. cbn [ids fst snd real cellDist]. repeat split; auto. exists y, z. auto.
    + intros C. apply NF. apply plinked_app. left. exact C.
  - intros p x q E.
    assert (D : (q = [] /\ p = N /\ x = mkI (i, j) false k) \/ exists q', q = q' ++ [mkI (i, j) false k] /\ N = p ++ x :: q').
    { destruct q as [|w q] using rev_ind.
      - left. apply app_inj_tail in E. destruct E as [-> ->]. auto.
      - right. rewrite app_comm_cons, app_assoc in E. apply app_inj_tail in E. destruct E as [-> <-]. exists q. auto. }
    destruct D as [(-> & -> & ->)|(q' & -> & ->)].
    + cbn [ids fst snd]. rewrite app_nil_r. intros C. apply NF. apply plinked_app. right. exact C.
    + intros C. rewrite app_assoc in C. apply plinked_app in C. destruct C as [C|C]; [exact (H2 p x q' eq_refl C)|].
      destruct C as (w & [<- | []] & C). cbn [ids] in C. apply NF. apply plinked_app. right. exists x. split; [apply in_app_iff; right; left; reflexivity|].
      destruct (ids x) as [a b]. cbn [fst snd] in C. destruct C as [C|C]; injection C as -> ->; auto.
Qed.

Lemma purge_effect s bs mm I : cell_ok (pcell s) -> all_fit (pcell s) bs -> known bs mm -> forall K, ppurge (pcell s) mm I = Ok K ->
  sublist K I /\ (forall x, In x I -> keeps s bs x -> In x K) /\ (forall x, In x K -> kept s bs x).
Proof.
  intros Hc Hf Kn. induction I as [|w I IH]; intros K E; cbn [ppurge] in E.
  - injection E as <-. split; [constructor|]. split; intros x [].
  - apply bind_ok in E. destruct E as (r & Er & E). destruct (IH r Er) as (S & A & B). destruct (real w) eqn:Rw.
    + injection E as <-. split; [constructor; exact S|]. split.
      * intros x [<- | Hx] P; [left; reflexivity|right; apply A; assumption].
      * intros x [<- | Hx]; [left; exact Rw|apply B; exact Hx].
    + apply bind_ok in E. destruct E as (o & Eo & E).
      assert (Fd : keeps s bs w -> exists k, o = Some k).
      { intros [C|(y & z & k & Hy & Hz & M)]; [congruence|]. unfold spatialOverlapPeri in Eo. rewrite (Kn _ y Hy), (Kn _ z Hz) in Eo.
        destruct (overlap_finds (pcell s) y z k Hc (Hf _ y Hy) (Hf _ z Hz) M) as [k' Ek]. rewrite Ek in Eo. injection Eo as <-. eauto. }
      destruct o as [k|]; injection E as <-.
      * split; [constructor; exact S|]. split.
        -- intros x [<- | Hx] P; [left; reflexivity|right; apply A; assumption].
        -- intros x [<- | Hx]; [|apply B; exact Hx]. right. intros y z Hy Hz. unfold spatialOverlapPeri in Eo. rewrite (Kn _ y Hy), (Kn _ z Hz) in Eo.
           exists k. exact (overlap_sound _ _ _ _ Hc (Hf _ y Hy) (Hf _ z Hz) Eo).
      * split; [constructor; exact S|]. split; [|exact B]. intros x [<- | Hx] P; [destruct (Fd P); discriminate|apply A; assumption].
Qed.
Lemma purge_total s bs mm I : cell_ok (pcell s) -> all_fit (pcell s) bs -> known bs mm -> pclean bs I -> exists K, ppurge (pcell s) mm I = Ok K.
Proof.
  intros Hc Hf Kn. induction I as [|w I IH]; intros P; cbn [ppurge]; [eauto|].
  destruct IH as [r ->]; [intros x Hx; apply P; right; exact Hx|]. cbn [bind]. destruct (real w) eqn:Rw; [eauto|].
  destruct (P w (or_introl eq_refl) Rw) as (y & z & Hy & Hz). unfold spatialOverlapPeri. rewrite (Kn _ y Hy), (Kn _ z Hz).
  destruct (overlap_total (pcell s) y z Hc (Hf _ y Hy) (Hf _ z Hz)) as [[k|] ->]; cbn [bind]; eauto.
Qed.

(** ** the traversal terminates *)
Lemma mins_total n v i : 0 < n -> forall t j fuel, (t < fuel)%nat -> pid (v ((j + Z.of_nat t) mod n)) = i -> exists l, mins_from fuel n v i (j mod n) = Ok l.
Proof.
  intros Hn. induction t as [|t IH]; intros j fuel Hf E; (destruct fuel as [|fuel]; [lia|]); cbn [mins_from].
  - rewrite Z.add_0_r in E. rewrite (proj2 (Nat.eqb_eq _ _) E). eauto.
  - destruct (Nat.eqb (pid (v (j mod n))) i); [eauto|]. rewrite Zplus_mod_idemp_l.
    destruct (IH (j + 1) fuel ltac:(lia)) as [l ->]; [rewrite <- E; do 3 f_equal; lia|]. cbn [bind]. eauto.
Qed.
Lemma traverse_total m v fuel : (m < fuel)%nat -> forall K i, 0 <= i -> i + Z.of_nat K <= Z.of_nat m -> exists L, ptraverse fuel (Z.of_nat m) v K i = Ok L.
Proof.
  intros Hf. induction K as [|K IH]; intros i Hi HK; cbn [ptraverse]; [eauto|].
  destruct (IH (i + 1) ltac:(lia) ltac:(lia)) as [L' EL].
  assert (T : exists l, mins_from fuel (Z.of_nat m) v (pid (v i)) ((i + 1) mod Z.of_nat m) = Ok l).
  { apply mins_total with (t := (m - 1)%nat); [lia|lia|]. do 2 f_equal. replace (i + 1 + Z.of_nat (m - 1)) with (i + 1 * Z.of_nat m) by lia.
    rewrite Z.mod_add by lia. apply Z.mod_small. lia. }
  destruct T as [l El]. destruct (pmin (v i) && phas (v i)); [rewrite El|]; cbn [bind]; rewrite EL; cbn [bind]; eauto.
Qed.

(** ** the runs *)
Lemma ids_ok c1 nb : (forall a, (a < 3)%nat -> bb_ok nb (vec (pbb c1 a))) -> ids_in_range c1 nb = true.
Proof.
  intros B. unfold ids_in_range. apply forallb_forall. intros a Ha. apply forallb_forall. intros k Hk. apply in_seq in Hk. apply Nat.ltb_lt.
  apply bb_pid; [apply B; cbn [In] in Ha; lia|lia].
Qed.
Lemma regular_run s c bs I A X H sh s' bs' I' : state_ok s c bs I A X H sh -> psettings_ok s' -> all_fit (pcell s') bs' ->
  pdoSort s' = false -> pdirty s' = false -> ptame s bs I s' bs' I' ->
  (forall f c'' I'', paction f s' c bs' I' = Ok (c'', I'') -> effect s' bs' I' I'') /\
  (pclean bs' I' -> exists F, forall f, (F <= f)%nat -> exists r, paction f s' c bs' I' = Ok r).
Proof.
  intros K Hs Hf D1 D2 (TL & TD & TB & TP).
  pose proof (k_pos _ _ _ _ _ _ _ _ K) as Hnb. set (nb := length bs) in *. assert (Hn : 1 < Z.of_nat (2 * nb)) by lia.
  pose proof Hs as (HA & Hc & _).
  set (v := fun a => mkVb (fun k => prefresh false (dim (pcell s') a) bs' a (vec (pbb c a) k)) (loIdx (pbb c a))).
  set (mm := refresh_boxes bs' (resize (pmm c) nb)).
  assert (KN : known bs' mm) by (apply known_refresh; symmetry; exact TL).
  assert (E : forall f, paction f s' c bs' I' =
    do I0 <- ppurge (pcell s') mm I';
    do (v0, ev0) <- insertionSortPeri f (Z.of_nat (2 * nb)) (dim (pcell s') 0) (v 0%nat);
    do (v1, ev1) <- insertionSortPeri f (Z.of_nat (2 * nb)) (dim (pcell s') 1) (v 1%nat);
    do (v2, ev2) <- insertionSortPeri f (Z.of_nat (2 * nb)) (dim (pcell s') 2) (v 2%nat);
    do l <- (if psortThenCollide s' then ptraverse f (Z.of_nat (2 * nb)) (vec (by_axis v0 v1 v2 (psortAxis s'))) (2 * nb) 0
             else Ok (event_pairs ev0 ++ event_pairs ev1 ++ event_pairs ev2));
    do I1 <- handle_all (pme s') (pavoid s') (pcell s') bs' mm I0 l;
    Ok (mkPc (by_axis v0 v1 v2) (2 * nb) (2 * nb) mm true, I1)).
  { intros f. unfold paction. rewrite TL. fold nb. unfold detect_periodicity. rewrite (k_peri _ _ _ _ _ _ _ _ K).
    unfold pinit_run, padjust. rewrite (k_size _ _ _ _ _ _ _ _ K), D1, D2. fold nb. rewrite Nat.eqb_refl. cbn [orb andb negb plen pbb pmm psize].
    rewrite (k_len _ _ _ _ _ _ _ _ K). fold nb. rewrite Nat.ltb_irrefl. cbn [orb].
    rewrite ids_ok; [reflexivity|]. intros a Ha. cbn [pbb]. exact (good_bb _ _ _ _ _ _ _ Hnb (k_good _ _ _ _ _ _ _ _ K a Ha)). }
  assert (AX : forall a f w ev, (a < 3)%nat -> insertionSortPeri f (Z.of_nat (2 * nb)) (dim (pcell s') a) (v a) = Ok (w, ev) ->
     boxed_at bs' (Z.of_nat (2 * nb)) (vec w) /\ pairs_ok bs' (event_pairs ev)).
  { intros a f w ev Ha Es.
    assert (RP : rep (Z.of_nat (2 * nb)) (dim (pcell s') a) (v a) (A a) (newX bs' a (X a)) (newH bs')).
    { eapply refresh_rep; [exact Hn|apply (g_rep _ _ _ _ _ _ _ (k_good _ _ _ _ _ _ _ _ K a Ha))|]. destruct TD as [TD|TD]; [right|left; apply TD; exact Ha].
      intros p. apply TD. apply (g_rng _ _ _ _ _ _ _ (k_good _ _ _ _ _ _ _ _ K a Ha)). }
    assert (Dd : dim (pcell s') a = dim (pcell s) a \/ (forall i, (i < nb)%nat -> body_at bs' i <> None)) by (destruct TD as [TD|TD]; [right; exact TD|left; apply TD; exact Ha]).
    assert (HF : forall i x, has_box bs' i x -> lo x a < hi x a < lo x a + dim (pcell s') a) by (intros i x Hx; pose proof (Hf i x Hx a Ha); lia).
    pose proof (dims _ _ (k_set _ _ _ _ _ _ _ _ K) Ha) as P0. pose proof (dims _ _ Hs Ha) as P1.
    destruct (axis_regular nb (dim (pcell s) a) (dim (pcell s') a) bs bs' a (pbb c a) (A a) (X a) (H a) f w ev (k_good _ _ _ _ _ _ _ _ K a Ha) Hnb P0 P1 Dd TL TB HF Es) as (A' & G' & _).
    split; [exact (good_boxed _ _ _ _ _ _ _ Hnb G')|].
    destruct (twins_guard nb _ _ bs bs' (pbb c a) (A a) (X a) (H a) a (k_good _ _ _ _ _ _ _ _ K a Ha) Hnb P0 P1 Dd TB HF) as [_ Gd].
    destruct (sortPeri_ok _ _ Hn P1 f _ _ _ _ w ev RP Es Gd) as (A2 & _ & SW & _).
    intros i j Hin. unfold event_pairs in Hin. apply in_map_iff in Hin. destruct Hin as ([x y] & Exy & Hin). cbn [fst snd] in Exy. injection Exy as <- <-.
    apply filter_In in Hin. destruct Hin as [Hin Rel]. unfold prelevant in Rel. apply andb_prop in Rel. destruct Rel as [Rel R5]. apply andb_prop in Rel. destruct Rel as [Rel R4]. apply andb_prop in Rel. destruct Rel as [Rel R3].
    split; [intros C; rewrite C, Nat.eqb_refl in R5; discriminate|].
    destruct (swaps_has _ _ _ _ _ _ _ SW x y Hin) as [Hx Hy]. rewrite R3 in Hx. rewrite R4 in Hy. unfold newH, who in Hx, Hy. cbn [fst] in Hx, Hy.
    destruct (body_at bs' (pid x)) as [b1|] eqn:B1; [|discriminate]. destruct (bbox b1) as [y1|] eqn:C1; [|discriminate].
    destruct (body_at bs' (pid y)) as [b2|] eqn:B2; [|discriminate]. destruct (bbox b2) as [y2|] eqn:C2; [|discriminate].
    exists y1, y2. split; eexists; eauto. }
  assert (LP : forall f v0 ev0 v1 ev1 v2 ev2 l, insertionSortPeri f (Z.of_nat (2 * nb)) (dim (pcell s') 0) (v 0%nat) = Ok (v0, ev0) ->
     insertionSortPeri f (Z.of_nat (2 * nb)) (dim (pcell s') 1) (v 1%nat) = Ok (v1, ev1) -> insertionSortPeri f (Z.of_nat (2 * nb)) (dim (pcell s') 2) (v 2%nat) = Ok (v2, ev2) ->
     (if psortThenCollide s' then ptraverse f (Z.of_nat (2 * nb)) (vec (by_axis v0 v1 v2 (psortAxis s'))) (2 * nb) 0
             else Ok (event_pairs ev0 ++ event_pairs ev1 ++ event_pairs ev2)) = Ok l -> pairs_ok bs' l).
  { intros f v0 ev0 v1 ev1 v2 ev2 l S0 S1 S2 El.
    destruct (AX 0%nat f v0 ev0 ltac:(lia) S0) as [B0 Q0]. destruct (AX 1%nat f v1 ev1 ltac:(lia) S1) as [B1 Q1]. destruct (AX 2%nat f v2 ev2 ltac:(lia) S2) as [B2 Q2].
    destruct (psortThenCollide s').
    - apply (traverse_pairs f (Z.of_nat (2 * nb)) (vec (by_axis v0 v1 v2 (psortAxis s'))) bs' ltac:(lia)) with (K := (2 * nb)%nat) (i := 0); [|lia|lia|exact El].
      destruct (psortAxis s') as [|[|[|q]]]; [exact B0|exact B1|exact B2|lia].
    - injection El as <-. apply pairs_app; [exact Q0|apply pairs_app; [exact Q1|exact Q2]]. }
  split.
  - intros f c'' I'' Er. rewrite E in Er. apply bind_ok in Er. destruct Er as (I0 & E0 & Er).
    apply bind_ok in Er. destruct Er as ([v0 ev0] & S0 & Er). apply bind_ok in Er. destruct Er as ([v1 ev1] & S1 & Er). apply bind_ok in Er. destruct Er as ([v2 ev2] & S2 & Er).
    apply bind_ok in Er. destruct Er as (l & El & Er). apply bind_ok in Er. destruct Er as (I1 & E1 & Er). injection Er as <- <-.
    destruct (purge_effect s' bs' mm I' Hc Hf KN I0 E0) as (P1 & P2 & P3).
    destruct (handle_all_effect s' bs' mm I0 l Hc Hf KN (LP f v0 ev0 v1 ev1 v2 ev2 l S0 S1 S2 El) []) as (N & EN & N1 & N2); [intros x []|intros p x q Q; destruct p; discriminate|].
    rewrite app_nil_r, E1 in EN. injection EN as ->. exists I0, N. auto 6.
  - intros Cl. destruct (purge_total s' bs' mm I' Hc Hf KN Cl) as [I0 E0].
    assert (ST : forall a, (a < 3)%nat -> exists F, forall f, (F <= f)%nat -> exists r, insertionSortPeri f (Z.of_nat (2 * nb)) (dim (pcell s') a) (v a) = Ok r).
    { intros a Ha. apply (sort_terminates (2 * nb) (dim (pcell s') a) Hn (dims _ _ Hs Ha) (newX bs' a (X a)) (newH bs') (v a) (A a)).
      eapply refresh_rep; [exact Hn|apply (g_rep _ _ _ _ _ _ _ (k_good _ _ _ _ _ _ _ _ K a Ha))|]. destruct TD as [TD|TD]; [right|left; apply TD; exact Ha].
      intros p. apply TD. apply (g_rng _ _ _ _ _ _ _ (k_good _ _ _ _ _ _ _ _ K a Ha)). }
    destruct (ST 0%nat ltac:(lia)) as [F0 H0]. destruct (ST 1%nat ltac:(lia)) as [F1 H1]. destruct (ST 2%nat ltac:(lia)) as [F2 H2].
    exists (S (2 * nb) + F0 + F1 + F2)%nat. intros f Hle. rewrite E, E0. cbn [bind].
    destruct (H0 f ltac:(lia)) as [[v0 ev0] S0]. destruct (H1 f ltac:(lia)) as [[v1 ev1] S1]. destruct (H2 f ltac:(lia)) as [[v2 ev2] S2].
    rewrite S0, S1, S2. cbn [bind].
    assert (TT : exists l, (if psortThenCollide s' then ptraverse f (Z.of_nat (2 * nb)) (vec (by_axis v0 v1 v2 (psortAxis s'))) (2 * nb) 0
             else Ok (event_pairs ev0 ++ event_pairs ev1 ++ event_pairs ev2)) = Ok l).
    { destruct (psortThenCollide s'); [apply traverse_total; lia|eauto]. }
    destruct TT as [l El]. pose proof (LP f v0 ev0 v1 ev1 v2 ev2 l S0 S1 S2 El) as PO. rewrite El. cbn [bind].
    destruct (handle_all_effect s' bs' mm I0 l Hc Hf KN PO []) as (N & EN & _ & _); [intros x []|intros p x q Q; destruct p; discriminate|].
    rewrite app_nil_r in EN. rewrite EN. cbn [bind]. eauto.
Qed.

Lemma init_run_ok s c bs I : psettings_ok s -> all_fit (pcell s) bs -> bs <> [] ->
  let nb := length bs in
  let c1 := padjust (detect_periodicity c) nb in
  pinit_run s (detect_periodicity c) nb = true -> plen c1 = (2 * nb)%nat ->
  (exists mm, pmm c1 = resize mm nb) ->
  (forall a, (a < 3)%nat -> bb_ok nb (vec (pbb c1 a))) ->
  (forall f c'' I'', paction f s c bs I = Ok (c'', I'') -> effect s bs I I'') /\
  (pclean bs I -> exists F, forall f, (F <= f)%nat -> exists r, paction f s c bs I = Ok r).
Proof.
  intros Hs Hf Hne nb c1 In1 Ln (mm0 & Mm) HU. assert (Hnb : (0 < nb)%nat) by (unfold nb; destruct bs; [congruence|cbn [length]; lia]).
  pose proof Hs as (HA & Hc & HS). set (mm := refresh_boxes bs (pmm c1)). assert (KN : known bs mm) by (unfold mm; rewrite Mm; apply known_refresh; reflexivity).
  set (w := fun a => mkVb (psort s (Z.of_nat (2 * nb)) (fun k => prefresh true (dim (pcell s) a) bs a (vec (pbb c1 a) k))) 0).
  assert (E : forall f, paction f s c bs I = do I0 <- ppurge (pcell s) mm I; do l <- ptraverse f (Z.of_nat (2 * nb)) (vec (w (psortAxis s))) (2 * nb) 0;
    do I1 <- handle_all (pme s) (pavoid s) (pcell s) bs mm I0 l; Ok (mkPc w (plen c1) (psize c1) mm true, I1)).
  { intros f. unfold paction. fold nb. fold c1. rewrite In1, Ln, Nat.ltb_irrefl, (ids_ok c1 nb HU). reflexivity. }
  assert (BX : boxed_at bs (Z.of_nat (2 * nb)) (vec (w (psortAxis s)))).
  { intros k Hk P. set (r := fun k => prefresh true (dim (pcell s) (psortAxis s)) bs (psortAxis s) (vec (pbb c1 (psortAxis s)) k)).
    assert (Hin : In (vec (w (psortAxis s)) k) (elems (2 * nb) r)).
    { eapply Permutation_in; [apply Permutation_sym; exact (proj1 (HS (2 * nb)%nat r))|]. apply elems_in. exists k. auto. }
    apply elems_in in Hin. destruct Hin as (k' & Hk' & Ek). rewrite <- Ek in *. unfold r, prefresh in *.
    destruct (body_at bs (pid (vec (pbb c1 (psortAxis s)) k'))) as [b|] eqn:B; [|discriminate]. destruct (bbox b) as [x|] eqn:Bx; [|discriminate].
    exists x, b. auto. }
  split.
  - intros f c'' I'' Er. rewrite E in Er. apply bind_ok in Er. destruct Er as (I0 & E0 & Er). apply bind_ok in Er. destruct Er as (l & El & Er). apply bind_ok in Er. destruct Er as (I1 & E1 & Er). injection Er as <- <-.
    destruct (purge_effect s bs mm I Hc Hf KN I0 E0) as (P1 & P2 & P3).
    assert (PO : pairs_ok bs l) by (apply (traverse_pairs f (Z.of_nat (2 * nb)) (vec (w (psortAxis s))) bs ltac:(lia) BX (2 * nb) 0 l ltac:(lia) ltac:(lia) El)).
    destruct (handle_all_effect s bs mm I0 l Hc Hf KN PO []) as (N & EN & N1 & N2); [intros x []|intros p x q Q; destruct p; discriminate|].
    rewrite app_nil_r, E1 in EN. injection EN as ->. exists I0, N. auto 6.
  - intros Cl. destruct (purge_total s bs mm I Hc Hf KN Cl) as [I0 E0]. exists (S (2 * nb)). intros f Hle. rewrite E, E0. cbn [bind].
    destruct (traverse_total (2 * nb) (vec (w (psortAxis s))) f ltac:(lia) (2 * nb) 0 ltac:(lia) ltac:(lia)) as [l El]. rewrite El. cbn [bind].
    assert (PO : pairs_ok bs l) by (apply (traverse_pairs f (Z.of_nat (2 * nb)) (vec (w (psortAxis s))) bs ltac:(lia) BX (2 * nb) 0 l ltac:(lia) ltac:(lia) El)).
    destruct (handle_all_effect s bs mm I0 l Hc Hf KN PO []) as (N & EN & _ & _); [intros x []|intros p x q Q; destruct p; discriminate|].
    rewrite app_nil_r in EN. rewrite EN. cbn [bind]. eauto.
Qed.

Lemma first_run s b bs I : psettings_ok s -> all_fit (pcell s) bs -> bs <> [] ->
  (forall f c'' I'', paction f s (pfresh b) bs I = Ok (c'', I'') -> effect s bs I I'') /\
  (pclean bs I -> exists F, forall f, (F <= f)%nat -> exists r, paction f s (pfresh b) bs I = Ok r).
Proof.
  intros Hs Hf Hne. destruct (scratch_facts s (pfresh b) bs Hne eq_refl eq_refl) as (F1 & F2 & F3 & F4 & F5).
  apply init_run_ok; try assumption. intros a Ha. exact (proj1 (F5 a Ha)).
Qed.
Lemma next_run s c bs I s' c1 bs' I' : preached s c bs I -> psettings_ok s' -> all_fit (pcell s') bs' -> follows s c bs I s' c1 bs' I' ->
  (forall f c'' I'', paction f s' c1 bs' I' = Ok (c'', I'') -> effect s' bs' I' I'') /\
  (pclean bs' I' -> exists F, forall f, (F <= f)%nat -> exists r, paction f s' c1 bs' I' = Ok r).
Proof.
  intros HR Hs Hf Fo. destruct (preached_ok s c bs I HR) as (A & X & H & sh & K). destruct Fo as [bs' I' Hne|bs' I' D1 D2 T|bs' I' Rs Ev Le Al].
  - destruct (scratch_facts s' (pinvalidate c) bs' Hne eq_refl eq_refl) as (F1 & F2 & F3 & F4 & F5).
    apply init_run_ok; try assumption. intros a Ha. exact (proj1 (F5 a Ha)).
  - exact (regular_run s c bs I A X H sh s' bs' I' K Hs Hf D1 D2 T).
  - destruct (restart_facts s c bs I A X H sh s' bs' K Rs Ev Le Al) as [Hne (F1 & F2 & F3 & F4 & F5)].
    apply init_run_ok; try assumption. intros a Ha. exact (proj1 (F5 a Ha)).
Qed.
