(** Consequences: what a run keeps and creates, and that it stays inside its lists. *)
From Coq Require Import List ZArith Arith Bool Permutation Lia.
From Verif Require Import Coll_Model Coll_Spec Coll_Proofs1 Coll_Proofs2 Coll_Proofs3.
Import ListNotations.

Lemma history_ok c k : history c k -> coll_ok c k.
Proof.
  induction 1 as [|s c k bs I c' I' _ IH Hs Hk H|c k _ IH]; [apply fresh_ok| |apply fresh_ok].
  eapply run_spec; eassumption.
Qed.
Lemma reached_history s c bs I : reached s c bs I -> history c (length bs).
Proof.
  induction 1 as [s bs I c' I' Hs H|s c bs I s' bs' I' c'' I'' _ IH Hs Hd H|s c bs I s' bs' I' c'' I'' _ IH Hs H].
  - eapply H_run; [apply H_fresh|exact Hs|lia|exact H].
  - eapply H_run; [exact IH|exact Hs| |exact H]. destruct Hd as [[Hd _]|[Hd _]]; exact Hd.
  - eapply H_run; [eapply H_reset; exact IH|exact Hs|lia|exact H].
Qed.

Lemma run_lists s c k bs I c' I' : history c k -> settings_ok s -> k <= length bs -> action s c bs I = Some (c', I') ->
  forall a, a < 3 -> list_ok bs a (bb c' a).
Proof. intros Hc Hs Hk H. eapply run_spec; eauto. apply history_ok. exact Hc. Qed.

Lemma touch_dec bs i j x y : has_box bs i x -> has_box bs j y -> boxes_touch bs i j \/ ~ boxes_touch bs i j.
Proof.
  intros Hx Hy. destruct (overlap x y) eqn:E.
  - left. exists x, y. split; [exact Hx|]. split; [exact Hy|]. apply overlap_spec. exact E.
  - right. intros (x' & y' & Hx' & Hy' & H). rewrite (has_box_fun _ _ _ _ Hx' Hx), (has_box_fun _ _ _ _ Hy' Hy) in H. apply overlap_spec in H. congruence.
Qed.
Lemma overlap_touch bs mm i j x y : length mm = length bs -> has_box bs i x -> has_box bs j y -> spatialOverlap (refresh_boxes bs mm) i j = Some true -> boxes_touch bs i j.
Proof.
  intros Hl Hx Hy H. unfold spatialOverlap in H. rewrite (boxes_known _ _ _ _ Hl Hx), (boxes_known _ _ _ _ Hl Hy) in H. injection H as H.
  exists x, y. split; [exact Hx|]. split; [exact Hy|]. apply overlap_spec. exact H.
Qed.

Lemma run_new s c k bs I c' I' : history c k -> settings_ok s -> k <= length bs -> action s c bs I = Some (c', I') ->
  forall i j r, In ((i, j), r) I' -> ~ In ((i, j), r) I -> r = false /\ i <> j /\ boxes_touch bs i j /\ allowed s bs i j /\ ~ linked I i j.
Proof.
  intros Hc Hs Hk H i j r Hin Hn. destruct (run_spec _ _ _ _ _ _ _ Hs (history_ok _ _ Hc) Hk H) as (_ & _ & mm & I0 & Hmm & Em & Hkp & _ & Hnew & _).
  assert (Hn0 : ~ In ((i, j), r) I0) by (intros H0; apply Hkp in H0; tauto).
  destruct (Hnew i j r Hin Hn0) as (A & B & C & D & E). split; [exact A|]. split; [exact B|]. split; [exact C|]. split; [exact D|].
  intros Hl. apply E. rewrite Em in Hkp. eapply kept_linked; eauto.
Qed.
Lemma run_keeps s c k bs I c' I' : history c k -> settings_ok s -> k <= length bs -> action s c bs I = Some (c', I') ->
  (forall p, In (p, true) I <-> In (p, true) I') /\
  (forall i j r x y, In ((i, j), r) I -> has_box bs i x -> has_box bs j y -> (In ((i, j), r) I' <-> r = true \/ boxes_touch bs i j)).
Proof.
  intros Hc Hs Hk H. destruct (run_spec _ _ _ _ _ _ _ Hs (history_ok _ _ Hc) Hk H) as (_ & _ & mm & I0 & Hmm & Em & Hkp & Hincl & Hnew & _).
  split.
  - intros p. split; intros Hin.
    + apply Hincl, Hkp. auto.
    + destruct p as [i j]. destruct (in_dec (fun u v : (nat * nat) * bool => ltac:(decide equality; [apply bool_dec|apply pair_dec])) ((i, j), true) I) as [Hi|Hi]; [exact Hi|].
      destruct (run_new s c k bs I c' I' Hc Hs Hk H i j true Hin Hi). discriminate.
  - intros i j r x y Hin Hx Hy. rewrite Em in Hkp. split.
    + intros Hin'. destruct r; [auto|]. right. destruct (touch_dec bs i j x y Hx Hy) as [Ht|Ht]; [exact Ht|]. exfalso.
      assert (Hn : ~ In ((i, j), false) I0).
      { intros H0. apply Hkp in H0. destruct H0 as [_ [H0|H0]]; [discriminate|]. apply Ht. eapply overlap_touch; eauto. }
      destruct (Hnew _ _ _ Hin' Hn) as (_ & _ & C & _). contradiction.
    + intros [->|Ht]; apply Hincl, Hkp; (split; [exact Hin|]); [auto|]. right. cbn [fst snd]. apply touch_overlap; assumption.
Qed.

(** ** at most one interaction per pair *)
Lemma single_insert I p : single I -> single (insert I p).
Proof.
  intros H. unfold insert. destruct (found I (fst p) (snd p)) eqn:E; [exact H|].
  assert (Hn : forall q r, In (q, r) I -> p <> q /\ p <> (snd q, fst q)).
  { intros q r Hin. split; intros ->; (assert (Hf : found I (fst q) (snd q) = true \/ found I (snd q) (fst q) = true));
      try (left; apply found_spec; exists q, r; split; [exact Hin|]; left; destruct q; reflexivity).
    - destruct Hf as [Hf|Hf]; [congruence|]. apply found_spec, linked_sym, found_spec in Hf. congruence.
    - cbn [fst snd] in E. destruct Hf as [Hf|Hf]; [apply found_spec, linked_sym, found_spec in Hf; congruence|congruence]. }
  intros a x b y c El.
  assert (Hlast : c = [] \/ exists c', c = c' ++ [(p, false)]).
  { destruct (exists_last (l := x :: b ++ y :: c) ltac:(discriminate)) as (w & z & Ew). destruct c as [|z' c']; [auto|]. right.
    destruct (exists_last (l := z' :: c') ltac:(discriminate)) as (w' & z'' & E''). exists w'. rewrite E''. f_equal. f_equal.
    assert (El' : I ++ [(p, false)] = (a ++ x :: b ++ y :: w') ++ [z'']).
    { rewrite El, E''. rewrite <- !app_assoc. cbn. rewrite <- !app_assoc. reflexivity. }
    apply app_inj_tail in El'. symmetry. apply El'. }
  destruct Hlast as [->|(c' & ->)].
  - assert (El' : I ++ [(p, false)] = (a ++ x :: b) ++ [y]) by (rewrite El, <- app_assoc; reflexivity).
    apply app_inj_tail in El'. destruct El' as [EI <-]. cbn [fst]. destruct x as [q r]. cbn [fst]. apply (Hn q r). rewrite EI. apply in_elt.
  - assert (El' : I ++ [(p, false)] = (a ++ x :: b ++ y :: c') ++ [(p, false)]) by (rewrite El, <- !app_assoc; cbn; rewrite <- !app_assoc; reflexivity).
    apply app_inj_tail in El'. apply (H a x b y c'). apply El'.
Qed.
Lemma single_insert_all l : forall I, single I -> single (insert_all I l).
Proof. induction l as [|p l IH]; intros I H; [exact H|]. cbn. apply IH. apply single_insert. exact H. Qed.
Lemma single_events m av bs mm ev : forall I I', single I -> collide_events m av bs mm I ev = Some I' -> single I'.
Proof.
  induction ev as [|e ev IH]; intros I I' H E; cbn [collide_events] in E; [injection E as <-; exact H|].
  destruct (relevant e); [|eapply IH; eassumption]. unfold handleBoundInversion in E.
  destruct (candidate m av bs mm (eid (fst e)) (eid (snd e))) as [[|]|]; [| |discriminate]; (eapply IH; [|exact E]); [apply single_insert|]; exact H.
Qed.
Lemma single_parallel m av bs mm o ev I I' : single I -> collide_parallel m av bs mm o I ev = Some I' -> single I'.
Proof. unfold collide_parallel. destruct (candidates _ _ _ _ _) as [l|]; [|discriminate]. intros H E. injection E as <-. apply single_insert_all. exact H. Qed.
Lemma single_axis s bs mm l I r I' : single I -> sort_axis s bs mm l I = Some (r, I') -> single I'.
Proof.
  unfold sort_axis. intros H. destruct (_ || _).
  - destruct (insertionSort l) as [r0 ev]. destruct (collide_events _ _ _ _ _ _) as [I1|] eqn:E; [|discriminate]. intros X. injection X as _ <-. eapply single_events; eassumption.
  - destruct (insertionSortParallel _ _ _) as [[[r0 e1] e2]|]; [|discriminate]. destruct (collide_parallel _ _ _ _ _ _ _) as [I1|] eqn:E1; [|discriminate].
    destruct (collide_events _ _ _ _ _ _) as [I2|] eqn:E2; [|discriminate]. intros X. injection X as _ <-. eapply single_events; [|exact E2]. eapply single_parallel; eassumption.
Qed.
Lemma sub_purge mm I : forall I', purge mm I = Some I' -> forall x, In x I' -> In x I.
Proof. intros I' H [p r] Hin. apply (purge_ok _ _ _ H) in Hin. tauto. Qed.
Lemma single_cons x I : single (x :: I) <-> (forall y, In y I -> fst y <> fst x /\ fst y <> (snd (fst x), fst (fst x))) /\ single I.
Proof.
  split.
  - intros H. split.
    + intros y Hy. apply in_split in Hy. destruct Hy as (b & c & ->). apply (H [] x b y c). reflexivity.
    + intros a u b v c ->. apply (H (x :: a) u b v c). reflexivity.
  - intros [H1 H2] [|z a] u b v c E; cbn in E; injection E as -> E.
    + apply H1. rewrite E. apply in_elt.
    + apply (H2 a u b v c). exact E.
Qed.
Lemma single_purge mm I : forall I', single I -> purge mm I = Some I' -> single I'.
Proof.
  induction I as [|x I IH]; intros I' H E; cbn [purge] in E; [injection E as <-; exact H|]. destruct (purge mm I) as [J|] eqn:EJ; [|discriminate].
  apply single_cons in H. destruct H as [H1 H2]. specialize (IH J H2 eq_refl).
  assert (HJ : single (x :: J)) by (apply single_cons; split; [intros y Hy; apply H1; eapply sub_purge; eassumption|exact IH]).
  destruct (snd x); [injection E as <-; exact HJ|]. destruct (spatialOverlap _ _ _) as [[|]|]; [| |discriminate]; injection E as <-; assumption.
Qed.
Lemma run_single s c bs I c' I' : action s c bs I = Some (c', I') -> single I -> single I'.
Proof.
  unfold action. cbv zeta. intros H Hs. destruct (negb (in_range _ _)); [discriminate|]. destruct (purge _ I) as [I0|] eqn:Ep; [|discriminate].
  pose proof (single_purge _ _ _ Hs Ep) as H0. destruct (_ && _).
  - destruct (sort_axis s bs _ _ I0) as [[l0 I1]|] eqn:E0; [|discriminate]. destruct (sort_axis s bs _ _ I1) as [[l1 I2]|] eqn:E1; [|discriminate].
    destruct (sort_axis s bs _ _ I2) as [[l2 I3]|] eqn:E2; [|discriminate]. injection H as _ <-. eapply single_axis; [|exact E2]. eapply single_axis; [|exact E1]. eapply single_axis; [|exact E0]. exact H0.
  - destruct (candidates _ _ _ _ _) as [ps|]; [|discriminate]. injection H as _ <-. apply single_insert_all. exact H0.
Qed.

(** ** mayCollide *)
Lemma maskCompatible_spec b m : maskCompatible b m = true <-> exists n, (0 <= n)%Z /\ Z.testbit (groupMask b) n = true /\ Z.testbit m n = true.
Proof.
  unfold maskCompatible. rewrite negb_true_iff, Z.eqb_neq. split.
  - intros H. destruct (Z.eq_dec (Z.land (groupMask b) m) 0) as [|_]; [contradiction|]. set (w := Z.land (groupMask b) m) in *.
    destruct (Z_lt_le_dec w 0) as [Hneg|Hpos].
    + destruct (Z.bits_iff_neg_ex w) as [B _]. destruct (B Hneg) as (k & Hk). exists (Z.max 0 (k + 1))%Z. specialize (Hk (Z.max 0 (k + 1))%Z ltac:(lia)).
      unfold w in Hk. rewrite Z.land_spec in Hk. apply andb_true_iff in Hk. split; [lia|exact Hk].
    + exists (Z.log2 w). pose proof (Z.bit_log2 w ltac:(lia)) as Hb. unfold w in Hb at 1. rewrite Z.land_spec in Hb. apply andb_true_iff in Hb. split; [apply Z.log2_nonneg|exact Hb].
  - intros (n & _ & H1 & H2) E. assert (Hb : Z.testbit (Z.land (groupMask b) m) n = true) by (rewrite Z.land_spec, H1, H2; reflexivity). rewrite E, Z.bits_0 in Hb. discriminate.
Qed.
Lemma isClump_spec i b : isClump i b = true <-> clumpId b = Some i.
Proof. unfold isClump. destruct (clumpId b) as [c|]; [rewrite Nat.eqb_eq|]; split; congruence. Qed.
Lemma clump_rule b1 b2 : isStandalone b1 || isStandalone b2 || negb (same_clumpId b1 b2) = true <-> forall c, clumpId b1 = Some c -> clumpId b2 <> Some c.
Proof.
  unfold isStandalone, same_clumpId. destruct (clumpId b1) as [c1|], (clumpId b2) as [c2|]; cbn; try (split; [intros _ c H; congruence|reflexivity]).
  rewrite negb_true_iff, Nat.eqb_neq. split; [intros H c E E'; congruence|intros H E; apply (H c1); congruence].
Qed.
Lemma usual_spec av i j b1 b2 : usual_rules av i j b1 b2 <->
  (isStandalone b1 || isStandalone b2 || negb (same_clumpId b1 b2)) && negb (isClump i b1) && negb (isClump j b2) && maskCompatible b1 (groupMask b2)
      && negb ((groupMask b1 =? groupMask b2)%Z && maskCompatible b1 av) = true.
Proof.
  unfold usual_rules. rewrite !andb_true_iff, clump_rule, !negb_true_iff, maskCompatible_spec, andb_false_iff, <- !not_true_iff_false, !isClump_spec, maskCompatible_spec, Z.eqb_eq.
  split.
  - intros (A & B & C & D & E). repeat split; auto. destruct (Z.eq_dec (groupMask b1) (groupMask b2)) as [Em|Em]; [|auto]. right. intros (n & Hn & H1 & H2). specialize (E Em n Hn H1). congruence.
  - intros ((((C & A) & B) & D) & E). repeat split; auto. intros Em n Hn H1. destruct E as [E|E]; [contradiction|]. destruct (Z.testbit av n) eqn:Et; [|reflexivity]. exfalso. apply E. eauto.
Qed.
Lemma mayCollide_spec m av i j b1 b2 : mayCollide m av i j (Some b1) (Some b2) = Some true <->
  (m = subdomain b1 \/ m = subdomain b2) /\ (subdomain b1 = subdomain b2 -> isSubdomain b1 = false /\ isSubdomain b2 = false) /\ usual_rules av i j b1 b2.
Proof.
  rewrite usual_spec. cbn [mayCollide]. split.
  - intros H. injection H as H. rewrite <- !andb_assoc in H. apply andb_true_iff in H. destruct H as [H1 H]. apply andb_true_iff in H. destruct H as [H2 H]. rewrite <- !andb_assoc.
    split; [apply orb_true_iff in H1; rewrite !Z.eqb_eq in H1; exact H1|]. split; [|exact H]. intros E. apply Z.eqb_eq in E. rewrite E in H2. cbn in H2. apply negb_true_iff, orb_false_iff in H2. exact H2.
  - intros (H1 & H2 & H). f_equal. rewrite <- !andb_assoc in *. rewrite H, andb_true_r. apply andb_true_iff. split; [apply orb_true_iff; rewrite !Z.eqb_eq; exact H1|].
    apply negb_true_iff. destruct (Z.eqb_spec (subdomain b1) (subdomain b2)) as [E|E]; [|reflexivity]. destruct (H2 E) as [-> ->]. reflexivity.
Qed.

(** ** shrinking *)
Lemma bb_key_len c k a : coll_ok c k -> a < 3 -> length (bb c a) = 2 * k.
Proof. intros [_ H] Ha. apply keys_length. apply H. exact Ha. Qed.
Lemma shrink_fails s c k bs I : coll_ok c k -> 0 < length bs < k -> action s c bs I = None.
Proof.
  intros [Hb _] [H0 Hk]. unfold action. cbv zeta. assert (E : in_range (adjust c (length bs)) (length bs) = false).
  { unfold in_range, adjust. cbn [bb forallb]. rewrite Hb. destruct (Nat.eqb_spec (2 * k) (2 * length bs)); [lia|]. destruct (Nat.ltb_spec (2 * length bs) (2 * k)) as [_|]; [|lia].
    unfold new_entries. rewrite (Nat.mul_comm 2 k), Nat.div_mul by lia. replace (length bs - k) with 0 by lia. cbn [seq flat_map app length].
    destruct (Nat.eqb_spec 0 (2 * length bs)); [lia|]. reflexivity. }
  rewrite E. reflexivity.
Qed.

(** ** enough entries for the threads *)
Lemma csize_fits L n t : 2 <= n <= t -> 2 * t * t <= L -> (n - 1) * csize L n + csize L n / 2 <= L /\ (n - 1) * csize L n < L.
Proof.
  intros Hn HL. unfold csize. set (q := L / n). pose proof (Nat.div_mod L n ltac:(lia)) as D. fold q in D. pose proof (Nat.mod_upper_bound L n ltac:(lia)) as M.
  assert (Hq : 2 * n <= q). { unfold q. apply Nat.div_le_lower_bound; [lia|]. nia. }
  pose proof (Nat.div_mod (q + 1) 2 ltac:(lia)) as D2. set (h := (q + 1) / 2) in *.
  destruct n as [|n]; [lia|]. replace (S n - 1) with n by lia. assert (S n * q = n * q + q) by lia. assert (n * (q + 1) = n * q + n) by lia. split; lia.
Qed.
Lemma nChunks_some l v t0 : forall t, t <= t0 -> 2 * t0 * t0 <= length l -> exists n, nChunks l v t = Some n /\ (n = 1 \/ 2 <= n <= t).
Proof.
  induction t as [|t IH]; intros Ht HL; [exists 1; auto|]. cbn [nChunks]. destruct t as [|t']; [exists 1; auto|].
  destruct (csize_fits (length l) (S (S t')) t0 ltac:(lia) HL) as [_ F]. replace (S (S t') - 1) with (S t') in F by lia.
  destruct (Nat.leb_spec (length l) (S t' * csize (length l) (S (S t')))) as [|_]; [lia|].
  destruct (existsb _ _).
  - destruct (IH ltac:(lia) HL) as (n & E & Hn). exists n. split; [exact E|]. lia.
  - exists (S (S t')). split; [reflexivity|]. lia.
Qed.
Lemma merge_some l : forall rp, rp <> [] -> exists r, merge false rp l = Some r.
Proof.
  induction l as [|x l IH]; intros rp Hr; cbn [merge]; [eauto|]. destruct rp as [|y rp']; [congruence|]. destruct (ltb x y) eqn:E; [|eauto].
  destruct (shift2 x (y :: rp')) as [[rp1 ev] f] eqn:Es. destruct (IH rp1) as ([[r ev'] f'] & ->); [|eauto].
  intros ->. cbn [shift2] in Es. rewrite E in Es. destruct (shift2 x rp') as [[? ?] ?]. discriminate.
Qed.
Lemma connect_some cs n : forall l, 0 < cs -> (0 < n -> (n - 1) * cs + cs / 2 + (cs - cs / 2) <= length l) -> exists r, connect cs n l = Some r.
Proof.
  induction n as [|n IH]; intros l Hc Hl; cbn [connect]; [eauto|]. specialize (Hl ltac:(lia)).
  assert (Hd : cs / 2 < cs) by (apply Nat.div_lt; lia).
  replace (S n - 1) with n in Hl by lia. set (up := cs / 2) in *. set (down := cs - up) in *.
  assert (Hnc : n * cs = n * (down + up)) by (unfold down; f_equal; lia).
  destruct (Nat.ltb_spec (length l) (down + up)) as [|_]; [lia|].
  destruct (merge_some (firstn up (skipn down l)) (rev (firstn down l))) as ([[a ev] f] & ->).
  { intros E. apply (f_equal (@length _)) in E. rewrite rev_length, firstn_length in E. cbn [length] in E. lia. }
  destruct (IH (skipn (down + up) l)) as ([[b ev'] f'] & ->); [exact Hc| |eauto].
  intros Hn. rewrite skipn_length. destruct n as [|n']; [lia|]. replace (S n' - 1) with n' by lia. fold up. fold down.
  assert (S n' * cs = cs + n' * cs) by lia. assert (cs = down + up) by (unfold down; lia). lia.
Qed.
Lemma sortPar_some t v l : 2 * t * t <= length l -> exists r, insertionSortParallel t v l = Some r.
Proof.
  intros HL. unfold insertionSortParallel. destruct (t <=? 1); [destruct (insertionSort l); eauto|].
  destruct (nChunks_some l v t t (le_n _) HL) as (n & -> & Hn). set (cs := csize (length l) n).
  assert (Hc : 0 < cs) by (unfold cs, csize; lia).
  destruct (sort_chunks cs n l) as [l1 ev1] eqn:Es.
  assert (Hlen : length l1 = length l).
  { assert (0 < n) by lia. pose proof (sort_chunks_traced cs n l H) as (P & _). rewrite Es in P. cbn [fst] in P. symmetry. apply Permutation_length. exact P. }
  destruct (connect_some cs (n - 1) (skipn (cs / 2) l1) Hc) as ([[l2 ev2] f] & ->).
  { intros Hn1. assert (Hn2 : 2 <= n <= t) by lia. destruct (csize_fits (length l) n t Hn2 HL) as [F _]. fold cs in F. rewrite skipn_length, Hlen.
    assert (Hd : cs / 2 < cs) by (apply Nat.div_lt; lia). set (up := cs / 2) in *.
    assert ((n - 1) * cs = (n - 1 - 1) * cs + cs) by (replace (n - 1) with (S (n - 1 - 1)) at 1 by lia; lia). lia. }
  destruct f; [|eauto]. destruct (insertionSort _). eauto.
Qed.
Lemma sortPar_none t v l : 2 <= t -> length l <= (t - 1) * (length l / t + 1) -> insertionSortParallel t v l = None.
Proof.
  intros Ht HL. unfold insertionSortParallel. destruct (Nat.leb_spec t 1) as [|_]; [lia|]. destruct t as [|[|t']]; [lia|lia|].
  cbn [nChunks]. unfold csize. replace (S (S t') - 1) with (S t') in HL by lia. destruct (Nat.leb_spec (length l) (S t' * (length l / S (S t') + 1))) as [_|]; [reflexivity|lia].
Qed.

(** ** a run succeeds *)
Lemma candidate_some m av bs mm i j x y : length mm = length bs -> has_box bs i x -> has_box bs j y -> exists b, candidate m av bs (refresh_boxes bs mm) i j = Some b.
Proof.
  intros Hl Hx Hy. unfold candidate, spatialOverlap. rewrite (boxes_known _ _ _ _ Hl Hx), (boxes_known _ _ _ _ Hl Hy). destruct (overlap x y); [|eauto].
  destruct Hx as (b1 & E1 & _), Hy as (b2 & E2 & _). rewrite E1, E2. cbn. eauto.
Qed.
Lemma events_some m av bs mm ev : length mm = length bs -> proper bs (pairs ev) -> forall I, exists I', collide_events m av bs (refresh_boxes bs mm) I ev = Some I'.
Proof.
  intros Hl. induction ev as [|e ev IH]; intros Hp I; cbn [collide_events]; [eauto|]. unfold pairs in Hp. cbn [filter] in Hp. destruct (relevant e); [|apply IH; exact Hp].
  cbn [map] in Hp. destruct (Hp (eid (fst e)) (eid (snd e)) ltac:(left; reflexivity)) as (_ & (x & Hx) & (y & Hy)). unfold handleBoundInversion.
  destruct (candidate_some m av bs mm _ _ x y Hl Hx Hy) as ([|] & ->); apply IH; intros i j Hin; apply Hp; right; exact Hin.
Qed.
Lemma candidates_some m av bs mm l : length mm = length bs -> proper bs l -> exists r, candidates m av bs (refresh_boxes bs mm) l = Some r.
Proof.
  intros Hl. induction l as [|[i j] l IH]; intros Hp; cbn [candidates fst snd]; [eauto|].
  destruct (Hp i j ltac:(left; reflexivity)) as (_ & (x & Hx) & (y & Hy)). destruct (candidate_some m av bs mm _ _ x y Hl Hx Hy) as (b & ->).
  destruct IH as (r & ->); [intros u v Hin; apply Hp; right; exact Hin|]. destruct b; eauto.
Qed.
Lemma sort_axis_some s bs mm a l I : length mm = length bs -> up_to_date bs a l ->
  (threads s <= 1 \/ length bs < 1000 \/ threads s * threads s <= length bs) -> exists r, sort_axis s bs (refresh_boxes bs mm) l I = Some r.
Proof.
  intros Hl U Ht. unfold sort_axis. destruct ((threads s <=? 1) || (length bs <? 1000)) eqn:E.
  - destruct (insertionSort_ok l) as [T _]. destruct (insertionSort l) as [r ev]. cbn [fst snd] in T.
    destruct (events_some (me s) (avoid s) bs mm ev Hl (events_proper _ _ _ _ _ U T) I) as (I' & ->). eauto.
  - apply orb_false_iff in E. destruct E as [E1 E2]. apply Nat.leb_gt in E1. apply Nat.ltb_ge in E2.
    destruct (sortPar_some (threads s) (verlet4 s) l) as ([[r e1] e2] & Es).
    { destruct U as [K _]. rewrite (keys_length _ _ K). set (n1 := length bs) in *. lia. }
    rewrite Es. apply insertionSortParallel_ok in Es. destruct Es as [T _]. pose proof (events_proper _ _ _ _ _ U T) as Hp. rewrite pairs_app in Hp.
    unfold collide_parallel. destruct (candidates_some (me s) (avoid s) bs mm (map (fun e => (eid (snd e), eid (fst e))) (filter relevant e1)) Hl) as (ps & ->).
    { intros i j Hin. apply in_map_iff in Hin. destruct Hin as (e & Ee & Hin). injection Ee as <- <-.
      destruct (Hp (eid (fst e)) (eid (snd e))) as (P1 & P2 & P3); [|auto]. apply in_or_app. left. unfold pairs. apply in_map_iff. exists e. auto. }
    match goal with |- context [collide_events _ _ _ _ ?J e2] => destruct (events_some (me s) (avoid s) bs mm e2 Hl ltac:(intros i j Hin; apply Hp; apply in_or_app; right; exact Hin) J) as (I' & ->) end. eauto.
Qed.
Lemma purge_some bs mm I : length mm = length bs -> ints_ok bs I -> exists I', purge (refresh_boxes bs mm) I = Some I'.
Proof.
  intros Hl. induction I as [|[[i j] r] I IH]; intros Hok; cbn [purge]; [eauto|]. destruct IH as (J & ->); [intros u v w Hin; apply (Hok u v w); right; exact Hin|].
  cbn [fst snd]. destruct r; [eauto|]. destruct (Hok i j false ltac:(left; reflexivity)) as [Hi Hj]. unfold spatialOverlap.
  assert (Hi' : nth_error (refresh_boxes bs mm) i <> None) by (apply nth_error_Some; rewrite refresh_boxes_length; lia).
  assert (Hj' : nth_error (refresh_boxes bs mm) j <> None) by (apply nth_error_Some; rewrite refresh_boxes_length; lia).
  destruct (nth_error (refresh_boxes bs mm) i); [|contradiction]. destruct (nth_error (refresh_boxes bs mm) j); [|contradiction]. destruct (overlap _ _); eauto.
Qed.
Lemma run_some s c k bs I : settings_ok s -> coll_ok c k -> k <= length bs -> ints_ok bs I ->
  (threads s <= 1 \/ length bs < 1000 \/ threads s * threads s <= length bs) -> exists c' I', action s c bs I = Some (c', I').
Proof.
  intros Hs Hc Hk Hi Ht. unfold action. cbv zeta. set (n := length bs) in *. set (c1 := adjust c n) in *.
  destruct (adjust_ok c k n Hc Hk) as [[Hsz K1] Hmm]. fold c1 in Hsz, K1, Hmm.
  assert (R : in_range c1 n = true).
  { unfold in_range. apply forallb_forall. intros a Ha. assert (Ha3 : a < 3) by (cbn in Ha; lia). apply andb_true_iff. split; [apply Nat.eqb_eq, keys_length; auto|].
    apply forallb_forall. intros e He. apply Nat.ltb_lt. apply (all_keys_In n (eid e) (isMin e)). apply (Permutation_in _ (K1 a Ha3)). apply in_map_iff. exists e. split; [reflexivity|exact He]. }
  rewrite R. cbn [negb].
  set (l := fun a => map (refresh bs a) (bb c1 a)) in *.
  assert (UL : forall a, a < 3 -> up_to_date bs a (l a)).
  { intros a Ha. split; [unfold keys_ok, l; rewrite refresh_keys; apply K1; exact Ha|]. intros e He. unfold l in He. apply in_map_iff in He. destruct He as (e0 & <- & _). apply refresh_expected. }
  destruct (purge_some bs (mmx c1) I Hmm Hi) as (I0 & ->).
  destruct (negb (init_run s c n) && negb (sortThenCollide s)).
  - cbv beta. change (map (refresh bs 0) (bb c1 0)) with (l 0). change (map (refresh bs 1) (bb c1 1)) with (l 1). change (map (refresh bs 2) (bb c1 2)) with (l 2).
    destruct (sort_axis_some s bs (mmx c1) 0 (l 0) I0 Hmm (UL 0 ltac:(lia)) Ht) as ([l0 I1] & ->).
    destruct (sort_axis_some s bs (mmx c1) 1 (l 1) I1 Hmm (UL 1 ltac:(lia)) Ht) as ([l1 I2] & ->).
    destruct (sort_axis_some s bs (mmx c1) 2 (l 2) I2 Hmm (UL 2 ltac:(lia)) Ht) as ([l2 I3] & ->). eauto.
  - set (r := fun a => if init_run s c n then std_sort s (l a) else fst (insertionSort (l a))).
    change (exists c' I', match candidates (me s) (avoid s) bs (refresh_boxes bs (mmx c1)) (traverse (r (sortAxis s))) with
        | Some ps => Some (mkColl r (bsize c1) (refresh_boxes bs (mmx c1)), insert_all I0 (ord s ps)) | None => None end = Some (c', I')).
    destruct Hs as (Hax & Hsort & _).
    destruct (candidates_some (me s) (avoid s) bs (mmx c1) (traverse (r (sortAxis s))) Hmm) as (ps & ->); [|eauto].
    eapply traverse_proper. eapply up_perm; [|apply UL; exact Hax]. unfold r. destruct (init_run s c n); [apply Hsort|apply (insertionSort_ok (l (sortAxis s)))].
Qed.
