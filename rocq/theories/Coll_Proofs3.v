(** The effect of a run, and histories of runs. *)
From Coq Require Import List ZArith Arith Bool Permutation Lia.
From Verif Require Import Coll_Model Coll_Spec Coll_Proofs1 Coll_Proofs2.
Import ListNotations.
Ltac sp := repeat match goal with |- _ /\ _ => split end.

(** ** the pairs examined are pairs of different bodies with boxes *)
Definition proper (bs : bodies) (ps : list (nat * nat)) : Prop :=
  forall i j, In (i, j) ps -> i <> j /\ (exists x, has_box bs i x) /\ exists y, has_box bs j y.
Lemma events_proper bs a l r ev : up_to_date bs a l -> traced l r ev -> proper bs (pairs ev).
Proof.
  intros U (_ & _ & T) i j H. apply pairs_In in H. destruct H as (x & y & Hin & R & <- & <-). destruct (T x y Hin) as [Hx Hy].
  unfold relevant in R. rewrite !andb_true_iff in R. destruct R as ((((_ & _) & Bx) & By) & Hn). apply negb_true_iff, Nat.eqb_neq in Hn.
  split; [exact Hn|]. split; eapply expected_box; eassumption.
Qed.
Lemma mins_up_to_in i l p : In p (mins_up_to i l) -> fst p = i /\ snd p <> i /\ exists e, In e l /\ eid e = snd p /\ hasBB e = true.
Proof.
  induction l as [|e l IH]; cbn [mins_up_to]; [intros []|]. destruct (Nat.eqb_spec (eid e) i) as [|Hn]; [intros []|]. intros H. apply in_app_or in H. destruct H as [H|H].
  - destruct (isMin e && hasBB e) eqn:E; [|destruct H]. apply andb_true_iff in E. destruct H as [<-|[]]. cbn. split; [reflexivity|]. split; [auto|]. exists e. tauto.
  - destruct (IH H) as (A & B & f & Hf & C). split; [exact A|]. split; [exact B|]. exists f. cbn. tauto.
Qed.
Lemma traverse_in l p : In p (traverse l) -> fst p <> snd p /\ (exists e, In e l /\ eid e = fst p /\ hasBB e = true) /\ exists e, In e l /\ eid e = snd p /\ hasBB e = true.
Proof.
  induction l as [|e l IH]; cbn [traverse]; [intros []|]. intros H. apply in_app_or in H. destruct H as [H|H].
  - destruct (isMin e && hasBB e) eqn:E; [|destruct H]. apply andb_true_iff in E. apply mins_up_to_in in H. destruct H as (A & B & f & Hf & C). split; [congruence|]. split.
    + exists e. cbn. intuition congruence.
    + exists f. cbn. tauto.
  - destruct (IH H) as (A & (f & Hf & B) & (g & Hg & C)). split; [exact A|]. split; [exists f|exists g]; cbn; tauto.
Qed.
Lemma traverse_proper bs a l : up_to_date bs a l -> proper bs (traverse l).
Proof.
  intros U i j H. apply traverse_in in H. cbn [fst snd] in H. destruct H as (A & (f & Hf & <- & Bf) & (g & Hg & <- & Bg)).
  split; [exact A|]. split; eapply expected_box; eassumption.
Qed.

Lemma mins_up_to_stops i e l1 l2 : (forall f, In f l1 -> eid f <> i) -> eid e <> i -> isMin e = true -> hasBB e = true -> In (i, eid e) (mins_up_to i (l1 ++ e :: l2)).
Proof.
  intros H Hn M B. induction l1 as [|f l1 IH]; cbn [app mins_up_to].
  - destruct (Nat.eqb_spec (eid e) i) as [|_]; [contradiction|]. rewrite M, B. left. reflexivity.
  - destruct (Nat.eqb_spec (eid f) i) as [E|_]; [destruct (H f); [left; reflexivity|exact E]|]. apply in_or_app. right. apply IH. intros g Hg. apply H. right. exact Hg.
Qed.
Lemma traverse_app l1 l2 p : In p (traverse l2) -> In p (traverse (l1 ++ l2)).
Proof. intros H. induction l1 as [|e l1 IH]; [exact H|]. cbn [app traverse]. apply in_or_app. right. exact IH. Qed.
Lemma traverse_lov bs a l i j x y : up_to_date bs a l -> i <> j -> has_box bs i x -> has_box bs j y -> lov l i j -> In (i, j) (traverse l) \/ In (j, i) (traverse l).
Proof.
  intros U Hij Hx Hy.
  assert (main : forall i j x y, i <> j -> has_box bs i x -> has_box bs j y -> before (i, true) (j, true) (map key l) -> before (j, true) (i, false) (map key l) -> In (i, j) (traverse l)).
  { clear - U. intros i j x y Hij Hx Hy B1 B2.
    apply before_map_inv in B1. destruct B1 as (e & f & (l1 & l2 & l3 & El) & Ke & Kf).
    destruct U as [K E].
    assert (He : In e l) by (rewrite El; apply in_elt). assert (Hf : In f l) by (rewrite El; apply in_or_app; right; right; apply in_elt).
    destruct (entry_of bs a l i x true (conj K E) Hx) as (e' & He' & Ke' & _ & Be). assert (e' = e) by (eapply key_inj; [exact K| | |congruence]; assumption). subst e'.
    destruct (entry_of bs a l j y true (conj K E) Hy) as (f' & Hf' & Kf' & _ & Bf). assert (f' = f) by (eapply key_inj; [exact K| | |congruence]; assumption). subst f'.
    unfold key in Ke, Kf. injection Ke as Ie Me. injection Kf as If Mf.
    rewrite El. apply traverse_app. cbn [traverse]. apply in_or_app. left. rewrite Me, Be. cbn [andb]. rewrite Ie, <- If. apply mins_up_to_stops; [|congruence|exact Mf|exact Bf].
    intros g Hg Eg.
    (* g is a bound of i between the lower bounds of i and j *)
    pose proof (keys_NoDup _ _ K) as Hnd. rewrite El in Hnd, B2. rewrite !map_app in Hnd. cbn [map] in Hnd. rewrite map_app in Hnd. cbn [map] in Hnd.
    assert (Hkg : In (key g) (map key l2)) by (apply in_map; exact Hg).
    destruct (isMin g) eqn:Mg.
    - assert (Ekg : key g = key e) by (unfold key; congruence). apply NoDup_remove_2 in Hnd. apply Hnd. rewrite <- Ekg. rewrite !in_app_iff. tauto.
    - assert (Ekg : key g = (i, false)) by (unfold key; congruence). assert (Ekf : key f = (j, true)) by (unfold key; congruence).
      eapply (before_antisym (j, true) (i, false)); [|exact B2|].
      + rewrite !map_app. cbn [map]. rewrite map_app. cbn [map]. exact Hnd.
      + rewrite <- Ekf, <- Ekg. apply before_map. apply before_app. right. right. apply before_cons. right. apply before_app. right. left. split; [exact Hg|left; reflexivity]. }
  intros [L1 L2]. pose proof (before_in _ _ _ L1) as [I1 _]. pose proof (before_in _ _ _ L2) as [I2 _].
  destruct (before_total (i, true) (j, true) (map key l) I1 I2) as [B|B]; [congruence| |].
  - left. eapply main; eassumption.
  - right. eapply main; eauto.
Qed.

(** ** one run *)
Definition coll_ok (c : coll) (k : nat) : Prop := bsize c = 2 * k /\ forall a, a < 3 -> keys_ok k (bb c a).
Lemma seq_flat n k : k <= n -> all_keys n = all_keys k ++ flat_map (fun i => [(i, true); (i, false)]) (seq k (n - k)).
Proof. intros H. unfold all_keys. rewrite <- flat_map_app, <- seq_app. do 2 f_equal. lia. Qed.
Lemma new_entries_keys k n : map key (new_entries k n) = flat_map (fun i => [(i, true); (i, false)]) (seq k (n - k)).
Proof. unfold new_entries. induction (seq k (n - k)) as [|i l IH]; [reflexivity|]. cbn [flat_map map app]. rewrite IH. reflexivity. Qed.
Lemma flat_keys_length n : forall k, length (flat_map (fun i : nat => [(i, true); (i, false)]) (seq k n)) = 2 * n.
Proof.
  induction n as [|n IH]; intros k; [reflexivity|]. cbn [seq flat_map app length]. rewrite IH. lia.
Qed.
Lemma keys_length n l : keys_ok n l -> length l = 2 * n.
Proof. intros H. apply Permutation_length in H. rewrite map_length in H. rewrite H. apply flat_keys_length. Qed.
Lemma adjust_vecs c k n a : coll_ok c k -> k <= n -> bb (adjust c n) a = bb c a ++ new_entries k n.
Proof.
  intros [Hs _] Hk. unfold adjust. cbn [bb]. rewrite Hs. destruct (Nat.eqb_spec (2 * k) (2 * n)) as [E|E].
  - assert (k = n) by lia. subst. unfold new_entries. rewrite Nat.sub_diag. cbn. rewrite app_nil_r. reflexivity.
  - destruct (Nat.ltb_spec (2 * n) (2 * k)) as [|_]; [lia|]. rewrite (Nat.mul_comm 2 k), Nat.div_mul by lia. reflexivity.
Qed.
Lemma adjust_ok c k n : coll_ok c k -> k <= n -> coll_ok (adjust c n) n /\ length (mmx (adjust c n)) = n.
Proof.
  intros H Hk. assert (K : forall a, a < 3 -> keys_ok n (bb (adjust c n) a)).
  { intros a Ha. rewrite (adjust_vecs c k n a H Hk). unfold keys_ok. rewrite map_app, new_entries_keys, (seq_flat n k Hk). apply Permutation_app_tail. apply H. exact Ha. }
  split; [split; [|exact K]|apply resize_length].
  pose proof (keys_length _ _ (K 0 ltac:(lia))) as L. unfold adjust in *. cbn [bb bsize] in *. destruct (bsize c =? 2 * n) eqn:E; [apply Nat.eqb_eq in E; exact E|exact L].
Qed.
Lemma adjust_lov c k n a i j : coll_ok c k -> k <= n -> a < 3 -> i <> j -> lov (bb (adjust c n) a) i j -> i < k /\ j < k /\ lov (bb c a) i j.
Proof.
  intros H Hk Ha Hij [L1 L2]. pose proof (proj1 (adjust_ok c k n H Hk)) as [_ K]. specialize (K a Ha).
  pose proof (keys_NoDup _ _ K) as Hnd. rewrite (adjust_vecs c k n a H Hk), map_app in *. destruct H as [_ Hc]. specialize (Hc a Ha).
  assert (old : forall i b, In (i, b) (map key (bb c a)) <-> i < k).
  { intros i' b. rewrite <- (all_keys_In k i' b). split; apply Permutation_in; [|symmetry]; exact Hc. }
  assert (new : forall i b, In (i, b) (map key (new_entries k n)) -> k <= i).
  { intros i' b Hin. rewrite new_entries_keys in Hin. apply in_flat_map in Hin. destruct Hin as (z & Hz & Hin). apply in_seq in Hz. cbn in Hin. destruct Hin as [E|[E|[]]]; injection E as E _; lia. }
  assert (neworder : forall i b j b', before (i, b) (j, b') (map key (new_entries k n)) -> i <= j).
  { intros i' b j' b'. rewrite new_entries_keys. generalize (n - k). clear. intros m. revert k. induction m as [|m IH]; intros k; cbn [seq flat_map app]; [intros B; destruct (before_nil _ _ B)|].
    intros B. apply before_cons in B. assert (F : forall z bz, In (z, bz) (flat_map (fun i => [(i, true); (i, false)]) (seq (S k) m)) -> k <= z).
    { intros z bz Hz. apply in_flat_map in Hz. destruct Hz as (w & Hw & Hz). apply in_seq in Hw. cbn in Hz. destruct Hz as [E|[E|[]]]; injection E as E _; lia. }
    destruct B as [[E Hin]|B].
    - injection E as -> _. destruct Hin as [E|Hin]; [injection E as -> _; lia|]. eapply F; eassumption.
    - apply before_cons in B. destruct B as [[E Hin]|B]; [injection E as -> _; eapply F; eassumption|]. eapply IH; eassumption. }
  assert (half : forall i j, before (i, true) (j, false) (map key (bb c a) ++ map key (new_entries k n)) ->
     before (i, true) (j, false) (map key (bb c a)) \/ (k <= j /\ i <= j)).
  { intros i' j' B. apply before_app in B. destruct B as [B|[[B1 B2]|B]]; [auto| |].
    - apply old in B1. apply new in B2. right. lia.
    - right. split; [|eapply neworder; exact B]. apply before_in in B. eapply new. apply B. }
  destruct (half _ _ L1) as [B1|[B1 B1']], (half _ _ L2) as [B2|[B2 B2']].
  - split; [eapply old; apply (proj1 (before_in _ _ _ B1))|]. split; [eapply old; apply (proj1 (before_in _ _ _ B2))|]. split; assumption.
  - apply before_in in B1. destruct B1 as [B1 _]. apply old in B1. lia.
  - apply before_in in B2. destruct B2 as [B2 _]. apply old in B2. lia.
  - lia.
Qed.

Lemma before_key_dec n l p q : keys_ok n l -> fst p < n -> fst q < n -> p <> q -> {before p q (map key l)} + {~ before p q (map key l)}.
Proof.
  intros K Hp Hq Hn. destruct p as [i b], q as [j b']. cbn [fst] in *.
  assert (D : forall l0 : list (nat * bool), {before (i, b) (j, b') l0} + {~ before (i, b) (j, b') l0}).
  { induction l0 as [|z l0 IH]; [right; apply before_nil|]. destruct IH as [H|H]; [left; apply before_cons; auto|].
    assert (pd : forall p q : nat * bool, {p = q} + {p <> q}) by (decide equality; [apply bool_dec|apply Nat.eq_dec]).
    destruct (pd (i, b) z) as [E|Hz]; [subst z|right; intros B; apply before_cons in B; intuition congruence].
    destruct (in_dec pd (j, b') l0) as [Hi|Hi]; [left; apply before_cons; auto|right; intros B; apply before_cons in B; destruct B as [[_ B]|B]; contradiction]. }
  apply D.
Qed.
Lemma lov_dec n l i j : keys_ok n l -> i < n -> j < n -> lov l i j \/ ~ lov l i j.
Proof.
  intros K Hi Hj. destruct (before_key_dec n l (i, true) (j, false) K Hi Hj ltac:(congruence)) as [H1|H1]; [|right; intros [H _]; contradiction].
  destruct (before_key_dec n l (j, true) (i, false) K Hj Hi ltac:(congruence)) as [H2|H2]; [left; split; assumption|right; intros [_ H]; contradiction].
Qed.

Lemma list_ok_of bs a l : up_to_date bs a l -> sorted l -> list_ok bs a l.
Proof. intros [K E] S. split; [exact K|]. split; [|exact E]. intros l1 x l2 y l3 El. apply S. exists l1, l2, l3. exact El. Qed.
Lemma list_ok_to bs a l : list_ok bs a l -> up_to_date bs a l /\ sorted l.
Proof. intros (K & S & E). split; [split; [exact K|exact E]|]. intros x y (l1 & l2 & l3 & El). eapply S. exact El. Qed.

(** what the purge keeps *)
Definition kept (bs : bodies) (mm : boxes) (I I0 : ints) : Prop :=
  forall p r, In (p, r) I0 <-> In (p, r) I /\ (r = true \/ spatialOverlap mm (fst p) (snd p) = Some true).

Definition by_init (s : settings) (c : coll) (bs : bodies) : bool := init_run s c (length bs) || sortThenCollide s.

Definition new_sound (s : settings) (bs : bodies) (I I' : ints) : Prop :=
  forall i j r, In ((i, j), r) I' -> ~ In ((i, j), r) I -> r = false /\ i <> j /\ boxes_touch bs i j /\ allowed s bs i j /\ ~ linked I i j.

Lemma grown_sound s bs mm ps I I' : length mm = length bs -> proper bs ps -> grown (me s) (avoid s) bs (refresh_boxes bs mm) ps I I' -> new_sound s bs I I'.
Proof.
  intros Hl Hp (_ & B & _) i j r Hin Hn. destruct (B (i, j) r Hin) as [H|(-> & Hi & Hc & Hnl)]; [contradiction|]. cbn [fst snd] in *.
  assert (P : i <> j /\ (exists x, has_box bs i x) /\ exists y, has_box bs j y).
  { destruct Hi as [Hi|Hi]; destruct (Hp _ _ Hi) as (P1 & P2 & P3); auto. }
  destruct P as (P1 & (x & Hx) & (y & Hy)). destruct (candidate_inv s bs mm i j x y Hl Hx Hy Hc) as [T A].
  split; [reflexivity|]. auto.
Qed.

Lemma run_spec s c bs I c' I' k :
  settings_ok s -> coll_ok c k -> k <= length bs -> action s c bs I = Some (c', I') ->
  coll_ok c' (length bs) /\ (forall a, a < 3 -> list_ok bs a (bb c' a)) /\
  exists mm I0, length mm = length bs /\ mmx c' = refresh_boxes bs mm /\ kept bs (mmx c') I I0 /\ incl I0 I' /\ new_sound s bs I0 I' /\
    (forall i j x y, i <> j -> has_box bs i x -> has_box bs j y -> allowed s bs i j -> (forall a, a < 3 -> lov (bb c' a) i j) ->
       (by_init s c bs = true \/ exists a, a < 3 /\ ~ lov (bb (adjust c (length bs)) a) i j) -> linked I' i j).
Proof.
  intros Hs Hc Hk H. unfold action in H. cbv zeta in H. set (n := length bs) in *. set (c1 := adjust c n) in *.
  destruct (adjust_ok c k n Hc Hk) as [[Hsz K1] Hmm]. fold c1 in Hsz, K1, Hmm.
  destruct (negb (in_range c1 n)); [discriminate|].
  set (l := fun a => map (refresh bs a) (bb c1 a)) in *.
  assert (UL : forall a, a < 3 -> up_to_date bs a (l a)).
  { intros a Ha. split; [unfold keys_ok, l; rewrite refresh_keys; apply K1; exact Ha|]. intros e He. unfold l in He. apply in_map_iff in He. destruct He as (e0 & <- & _). apply refresh_expected. }
  assert (KL : forall a, map key (l a) = map key (bb c1 a)) by (intros a; apply refresh_keys).
  destruct (purge (refresh_boxes bs (mmx c1)) I) as [I0|] eqn:Ep; [|discriminate].
  pose proof (purge_ok _ _ _ Ep) as Hp.
  destruct (negb (init_run s c n) && negb (sortThenCollide s)) eqn:Ei.
  - cbv beta in H. change (map (refresh bs 0) (bb c1 0)) with (l 0) in H. change (map (refresh bs 1) (bb c1 1)) with (l 1) in H. change (map (refresh bs 2) (bb c1 2)) with (l 2) in H.
    destruct (sort_axis s bs (refresh_boxes bs (mmx c1)) (l 0) I0) as [[l0 I1]|] eqn:E0; [|discriminate].
    destruct (sort_axis s bs (refresh_boxes bs (mmx c1)) (l 1) I1) as [[l1 I2]|] eqn:E1; [|discriminate].
    destruct (sort_axis s bs (refresh_boxes bs (mmx c1)) (l 2) I2) as [[l2 I3]|] eqn:E2; [|discriminate].
    injection H as <- <-.
    destruct (sort_axis_ok _ _ _ _ _ _ _ Hs E0) as (ev0 & T0 & S0 & G0).
    destruct (sort_axis_ok _ _ _ _ _ _ _ Hs E1) as (ev1 & T1 & S1 & G1).
    destruct (sort_axis_ok _ _ _ _ _ _ _ Hs E2) as (ev2 & T2 & S2 & G2).
    pose proof (grown_trans _ _ _ _ _ _ _ _ _ (grown_trans _ _ _ _ _ _ _ _ _ G0 G1) G2) as G.
    set (bbs := fun a => match a with 0 => l0 | 1 => l1 | _ => l2 end).
    set (evs := fun a => match a with 0 => ev0 | 1 => ev1 | _ => ev2 end).
    assert (Ta : forall a, a < 3 -> traced (l a) (bbs a) (evs a) /\ sorted (bbs a)).
    { intros [|[|[|a]]] Ha; try lia; cbn; auto. }
    assert (Ua : forall a, a < 3 -> up_to_date bs a (bbs a)).
    { intros a Ha. eapply up_perm; [|apply UL; exact Ha]. apply Ta. exact Ha. }
    assert (Hpr : forall a, a < 3 -> proper bs (pairs (evs a))).
    { intros a Ha. eapply events_proper; [apply UL; exact Ha|]. apply Ta. exact Ha. }
    split; [|split].
    + split; [exact Hsz|]. intros a Ha. apply (proj1 (Ua a Ha)).
    + intros a Ha. cbn [bb]. apply list_ok_of; [apply Ua; exact Ha|apply Ta; exact Ha].
    + exists (mmx c1), I0. cbn [mmx]. sp; [exact Hmm|reflexivity|exact Hp|apply G| |].
      * eapply grown_sound; [exact Hmm| |exact G]. intros i j Hin. rewrite !in_app_iff in Hin.
        destruct Hin as [[Hin|Hin]|Hin]; [apply (Hpr 0)|apply (Hpr 1)|apply (Hpr 2)]; auto.
      * intros i j x y Hij Hx Hy Ha Hl [Hb|(a & Ha3 & Hna)].
        { exfalso. unfold by_init in Hb. fold n in Hb. destruct (init_run s c n), (sortThenCollide s); discriminate. }
        assert (Hev : In (i, j) (pairs (evs a)) \/ In (j, i) (pairs (evs a))).
        { refine (lov_event bs a (l a) (bbs a) (evs a) i j (UL a Ha3) (proj1 (Ta a Ha3)) Hij _ _ (Hl a Ha3) _); [eauto|eauto|].
          unfold lov. rewrite KL. exact Hna. }
        assert (Ht : boxes_touch bs i j).
        { eapply (lov_touch bs bbs); eauto. intros a' Ha'. split; [apply Ua|apply Ta]; exact Ha'. }
        pose proof (candidate_touch s bs (mmx c1) i j Hmm Ht Ha) as Hcand.
        assert (Hev' : In (i, j) ((pairs ev0 ++ pairs ev1) ++ pairs ev2) \/ In (j, i) ((pairs ev0 ++ pairs ev1) ++ pairs ev2)).
        { rewrite !in_app_iff. destruct a as [|[|[|a]]]; try lia; cbn [evs] in Hev; tauto. }
        destruct G as (_ & _ & G). destruct Hev' as [Hev'|Hev']; [apply G; assumption|]. apply linked_sym. apply G; [exact Hev'|]. rewrite candidate_sym. exact Hcand.
  - set (r := fun a => if init_run s c n then std_sort s (l a) else fst (insertionSort (l a))) in *.
    change (match candidates (me s) (avoid s) bs (refresh_boxes bs (mmx c1)) (traverse (r (sortAxis s))) with
        | Some ps => Some (mkColl r (bsize c1) (refresh_boxes bs (mmx c1)), insert_all I0 (ord s ps)) | None => None end = Some (c', I')) in H.
    destruct (candidates (me s) (avoid s) bs (refresh_boxes bs (mmx c1)) (traverse (r (sortAxis s)))) as [ps|] eqn:Ec; [|discriminate].
    injection H as <- <-. pose proof (candidates_ok _ _ _ _ _ _ Ec) as Hc2. destruct Hs as (Hax & Hsort & Hord).
    assert (Ra : forall a, Permutation (l a) (r a) /\ sorted (r a)).
    { intros a. unfold r. destruct (init_run s c n).
      - destruct (Hsort (l a)) as [P S]. split; [exact P|]. intros x y (u & v & w & E). eapply S. exact E.
      - destruct (insertionSort_ok (l a)) as [T S]. split; [apply T|exact S]. }
    assert (Ua : forall a, a < 3 -> up_to_date bs a (r a)).
    { intros a Ha. eapply up_perm; [apply Ra|apply UL; exact Ha]. }
    assert (Hps : forall p, In p (ord s ps) <-> In p ps) by (intros p; split; apply Permutation_in; [symmetry|]; apply Hord).
    pose proof (insert_all_ok (me s) (avoid s) bs (refresh_boxes bs (mmx c1)) (ord s ps) I0 ltac:(intros p Hin; apply Hps, Hc2 in Hin; tauto)) as G.
    split; [|split].
    + split; [exact Hsz|]. intros a Ha. apply (proj1 (Ua a Ha)).
    + intros a Ha. cbn [bb]. apply list_ok_of; [apply Ua; exact Ha|apply Ra].
    + exists (mmx c1), I0. cbn [mmx]. sp; [exact Hmm|reflexivity|exact Hp|apply G| |].
      * eapply grown_sound; [exact Hmm| |exact G]. intros i j Hin. apply Hps, Hc2 in Hin. eapply traverse_proper; [|apply Hin]. apply Ua. exact Hax.
      * intros i j x y Hij Hx Hy Ha Hl _. cbn [bb] in Hl.
        assert (Ht : boxes_touch bs i j).
        { eapply (lov_touch bs r); eauto. intros a' Ha'. split; [apply Ua; exact Ha'|apply Ra]. }
        pose proof (candidate_touch s bs (mmx c1) i j Hmm Ht Ha) as Hcand.
        destruct G as (_ & _ & G). destruct (traverse_lov bs _ _ i j x y (Ua _ Hax) Hij Hx Hy (Hl _ Hax)) as [Hin|Hin].
        { apply G; [|exact Hcand]. apply Hps, Hc2. auto. }
        { rewrite candidate_sym in Hcand. apply linked_sym. apply G; [|exact Hcand]. apply Hps, Hc2. auto. }
Qed.

(** ** histories *)
Definition inv (s : settings) (c : coll) (bs : bodies) (I : ints) : Prop :=
  coll_ok c (length bs) /\ (forall a, a < 3 -> list_ok bs a (bb c a)) /\
  (forall i j x y, i <> j -> has_box bs i x -> has_box bs j y -> allowed s bs i j -> (forall a, a < 3 -> lov (bb c a) i j) -> linked I i j).

Lemma no_box_empty bs i x : length bs = 0 -> ~ has_box bs i x.
Proof. intros H Hx. apply box_lt in Hx. lia. Qed.
Lemma fresh_ok mm : coll_ok (mkColl (fun _ => []) 0 mm) 0.
Proof. split; [reflexivity|]. intros a _. cbn. apply Permutation_refl. Qed.
Lemma empty_init s mm bs : length bs = 0 \/ by_init s (mkColl (fun _ => []) 0 mm) bs = true.
Proof.
  destruct (Nat.eq_dec (length bs) 0) as [H|H]; [auto|]. right. unfold by_init, init_run. cbn [bsize]. destruct (Nat.eqb_spec 0 (2 * length bs)); [lia|].
  cbn. rewrite !orb_true_r. reflexivity.
Qed.
Lemma scratch_init s c bs bs' : coll_ok c (length bs) -> from_scratch s bs bs' -> length bs' = 0 \/ by_init s c bs' = true.
Proof.
  intros [Hs _] [Hle H]. unfold by_init, init_run. destruct H as [H|[H|[H|[H|H]]]].
  - rewrite H. auto.
  - rewrite H, orb_true_r. auto.
  - rewrite H, orb_true_r. auto.
  - right. rewrite Hs. destruct (Nat.eqb_spec (2 * length bs) (2 * length bs')); [lia|]. destruct (Nat.ltb_spec 200 (2 * length bs' - 2 * length bs)); [|lia]. cbn. rewrite !orb_true_r. reflexivity.
  - destruct (Nat.eq_dec (length bs') 0) as [|Hn]; [auto|]. right. rewrite Hs, H. destruct (Nat.eqb_spec (2 * 0) (2 * length bs')); [lia|]. cbn. rewrite !orb_true_r. reflexivity.
Qed.

Lemma run_init s c bs I c' I' k : settings_ok s -> coll_ok c k -> k <= length bs -> (length bs = 0 \/ by_init s c bs = true) ->
  action s c bs I = Some (c', I') -> inv s c' bs I'.
Proof.
  intros Hs Hc Hk Hb H. destruct (run_spec _ _ _ _ _ _ _ Hs Hc Hk H) as (A & B & mm & I0 & _ & _ & _ & _ & _ & C). split; [exact A|]. split; [exact B|].
  intros i j x y Hij Hx Hy Ha Hl. destruct Hb as [Hb|Hb]; [destruct (no_box_empty bs i x Hb Hx)|]. eapply C; eauto.
Qed.

Lemma lov_all_dec n c i j : coll_ok c n -> i < n -> j < n -> (forall a, a < 3 -> lov (bb c a) i j) \/ exists a, a < 3 /\ ~ lov (bb c a) i j.
Proof.
  intros [_ K] Hi Hj. destruct (lov_dec n _ i j (K 0 ltac:(lia)) Hi Hj) as [H0|H0]; [|right; exists 0; split; [lia|exact H0]].
  destruct (lov_dec n _ i j (K 1 ltac:(lia)) Hi Hj) as [H1|H1]; [|right; exists 1; split; [lia|exact H1]].
  destruct (lov_dec n _ i j (K 2 ltac:(lia)) Hi Hj) as [H2|H2]; [|right; exists 2; split; [lia|exact H2]].
  left. intros [|[|[|a]]] Ha; try lia; assumption.
Qed.

Lemma touch_overlap bs mm i j : length mm = length bs -> boxes_touch bs i j -> spatialOverlap (refresh_boxes bs mm) i j = Some true.
Proof.
  intros Hl (x & y & Hx & Hy & H). unfold spatialOverlap. rewrite (boxes_known _ _ _ _ Hl Hx), (boxes_known _ _ _ _ Hl Hy). f_equal. apply overlap_spec. exact H.
Qed.
Lemma touch_sym bs i j : boxes_touch bs i j -> boxes_touch bs j i.
Proof. intros (x & y & Hx & Hy & H). exists y, x. sp; [exact Hy|exact Hx|]. intros a Ha. destruct (H a Ha). auto. Qed.
Lemma kept_linked bs mm I I0 i j : length mm = length bs -> kept bs (refresh_boxes bs mm) I I0 -> boxes_touch bs i j -> linked I i j -> linked I0 i j.
Proof.
  intros Hl Hk Ht (p & r & Hin & Hp). exists p, r. split; [|exact Hp]. apply Hk. split; [exact Hin|]. right.
  destruct Hp as [->| ->]; cbn [fst snd]; apply touch_overlap; auto. apply touch_sym. exact Ht.
Qed.

Lemma run_tame s c bs I s' bs' I1 c' I' : inv s c bs I -> settings_ok s' -> tame s bs I s' bs' I1 -> action s' c bs' I1 = Some (c', I') -> inv s' c' bs' I'.
Proof.
  intros (A & B & C) Hs [Hle Ht] H. destruct (run_spec _ _ _ _ _ _ _ Hs A Hle H) as (A' & B' & mm & I0 & Hmm & Em & Hk & Hi & _ & D). split; [exact A'|]. split; [exact B'|].
  intros i j x y Hij Hx Hy Ha Hl. pose proof (adjust_ok c (length bs) (length bs') A Hle) as [A1 _].
  destruct (lov_all_dec _ _ i j A1 (box_lt _ _ _ Hx) (box_lt _ _ _ Hy)) as [Hall|Hex]; [|eapply D; eauto].
  assert (Old : i < length bs /\ j < length bs).
  { destruct (adjust_lov c (length bs) (length bs') 0 i j A Hle ltac:(lia) Hij (Hall 0 ltac:(lia))) as (X1 & X2 & _). auto. }
  destruct Old as [Hi1 Hj1]. destruct (Ht i j Hij Hi1 Hj1 ltac:(eauto) ltac:(eauto) Ha) as ((u & Hu) & (v & Hv) & Ha0 & Hkeep).
  eapply linked_incl; [exact Hi|]. rewrite Em in Hk. eapply kept_linked; [exact Hmm|exact Hk| |].
  - eapply (lov_touch bs' (bb c')); eauto. intros a Ha3. apply list_ok_to. apply B'. exact Ha3.
  - apply Hkeep. eapply C; eauto. intros a Ha3. apply (adjust_lov c (length bs) (length bs') a i j A Hle Ha3 Hij (Hall a Ha3)).
Qed.

Lemma reached_inv s c bs I : reached s c bs I -> inv s c bs I.
Proof.
  induction 1 as [s bs I c' I' Hs H|s c bs I s' bs' I' c'' I'' _ IH Hs Hd H|s c bs I s' bs' I' c'' I'' _ IH Hs H].
  - eapply (run_init s fresh bs I c' I' 0); [exact Hs|apply fresh_ok|lia|apply empty_init|exact H].
  - destruct Hd as [Hd|Hd]; [eapply run_tame; eassumption|]. destruct IH as (A & _). eapply run_init; [exact Hs|exact A|apply Hd|eapply scratch_init; eassumption|exact H].
  - eapply (run_init s' (invalidatePersistentData c) bs' I' c'' I'' 0); [exact Hs|apply fresh_ok|lia|apply empty_init|exact H].
Qed.

Theorem reached_complete s c bs I : reached s c bs I -> complete s bs I.
Proof.
  intros H i j Hij (x & y & Hx & Hy & Ho) Ha. destruct (reached_inv _ _ _ _ H) as (A & B & C). eapply C; eauto.
  intros a Ha3. destruct (list_ok_to _ _ _ (B a Ha3)) as [U S]. destruct (Ho a Ha3) as [O1 O2]. split; eapply strict_lov; eassumption.
Qed.
