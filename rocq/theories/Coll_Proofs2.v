(** One run of the collider. *)
From Coq Require Import List ZArith Arith Bool Permutation Lia.
From Verif Require Import Coll_Model Coll_Spec Coll_Proofs1.
Import ListNotations.

(** ** mayCollide, overlap *)
Lemma mayCollide_sym m av i j o1 o2 : mayCollide m av i j o1 o2 = mayCollide m av j i o2 o1.
Proof.
  destruct o1 as [b1|], o2 as [b2|]; cbn [mayCollide]; try reflexivity. f_equal.
  assert (E1 : (groupMask b1 =? groupMask b2)%Z = (groupMask b2 =? groupMask b1)%Z) by apply Z.eqb_sym.
  assert (E2 : maskCompatible b1 (groupMask b2) = maskCompatible b2 (groupMask b1)) by (unfold maskCompatible; rewrite Z.land_comm; reflexivity).
  assert (E3 : same_clumpId b1 b2 = same_clumpId b2 b1) by (unfold same_clumpId; destruct (clumpId b1), (clumpId b2); try reflexivity; apply Nat.eqb_sym).
  assert (E4 : (groupMask b1 =? groupMask b2)%Z && maskCompatible b1 av = (groupMask b2 =? groupMask b1)%Z && maskCompatible b2 av).
  { rewrite <- E1. destruct (Z.eqb_spec (groupMask b1) (groupMask b2)) as [E|]; [|reflexivity]. unfold maskCompatible. rewrite E. reflexivity. }
  rewrite E2, E3, E4, (Z.eqb_sym (subdomain b1)).
  rewrite (orb_comm (m =? subdomain b1)%Z), (orb_comm (isSubdomain b1)), (orb_comm (isStandalone b1)).
  destruct (isClump i b1), (isClump j b2); cbn; rewrite ?andb_false_r, ?andb_true_r; reflexivity.
Qed.
Lemma overlap_spec x y : overlap x y = true <-> forall a, a < 3 -> (lo x a <= hi y a /\ lo y a <= hi x a)%Z.
Proof.
  unfold overlap. rewrite forallb_forall. split.
  - intros H a Ha. specialize (H a ltac:(cbn; lia)). rewrite andb_true_iff, !Z.leb_le in H. exact H.
  - intros H a Ha. rewrite andb_true_iff, !Z.leb_le. apply H. cbn in Ha. lia.
Qed.
Lemma overlap_sym x y : overlap x y = overlap y x.
Proof.
  destruct (overlap y x) eqn:E.
  - rewrite overlap_spec in *. intros a Ha. destruct (E a Ha). auto.
  - destruct (overlap x y) eqn:E'; [|reflexivity]. assert (overlap y x = true); [|congruence]. rewrite overlap_spec in *. intros a Ha. destruct (E' a Ha). auto.
Qed.
Lemma candidate_sym m av bs mm i j : candidate m av bs mm i j = candidate m av bs mm j i.
Proof.
  unfold candidate, spatialOverlap. rewrite mayCollide_sym. destruct (nth_error mm i), (nth_error mm j); try reflexivity. rewrite overlap_sym. reflexivity.
Qed.

(** ** interactions *)
Lemma joins_spec i j p : joins i j p = true <-> p = (i, j) \/ p = (j, i).
Proof.
  destruct p as [u v]. unfold joins. cbn. rewrite orb_true_iff, !andb_true_iff, !Nat.eqb_eq. split.
  - intros [[-> ->]|[-> ->]]; auto.
  - intros [H|H]; injection H as -> ->; auto.
Qed.
Lemma found_spec I i j : found I i j = true <-> linked I i j.
Proof.
  unfold found, linked. rewrite existsb_exists. split.
  - intros ([p r] & Hin & H). apply joins_spec in H. exists p, r. auto.
  - intros (p & r & Hin & H). exists (p, r). split; [exact Hin|]. apply joins_spec. exact H.
Qed.
Lemma linked_sym I i j : linked I i j -> linked I j i.
Proof. intros (p & r & H & [E|E]); exists p, r; auto. Qed.
Lemma linked_incl I I' i j : incl I I' -> linked I i j -> linked I' i j.
Proof. intros H (p & r & Hi & E). exists p, r. auto. Qed.

Section Run.
Variables (m av : Z) (bs : bodies) (mm : boxes).

(** I' is I with new interactions between pairs from [ps] that pass the test *)
Definition grown (ps : list (nat * nat)) (I I' : ints) : Prop :=
  incl I I' /\
  (forall p r, In (p, r) I' -> In (p, r) I \/
     (r = false /\ (In p ps \/ In (snd p, fst p) ps) /\ candidate m av bs mm (fst p) (snd p) = Some true /\ ~ linked I (fst p) (snd p))) /\
  (forall i j, In (i, j) ps -> candidate m av bs mm i j = Some true -> linked I' i j).

Lemma grown_nil I : grown [] I I.
Proof. split; [apply incl_refl|]. split; [auto|intros i j []]. Qed.
Lemma grown_trans p1 p2 I1 I2 I3 : grown p1 I1 I2 -> grown p2 I2 I3 -> grown (p1 ++ p2) I1 I3.
Proof.
  intros (A1 & B1 & C1) (A2 & B2 & C2). split; [eapply incl_tran; eassumption|]. split.
  - intros p r H. destruct (B2 p r H) as [H2|(-> & Hin & Hc & Hn)].
    + destruct (B1 p r H2) as [H1|(-> & Hin & Hc & Hn)]; [auto|]. right. rewrite !in_app_iff. tauto.
    + right. rewrite !in_app_iff. split; [reflexivity|]. split; [tauto|]. split; [exact Hc|]. intros Hl. apply Hn. eapply linked_incl; eassumption.
  - intros i j H Hc. apply in_app_or in H. destruct H as [H|H]; [|auto]. eapply linked_incl; [exact A2|auto].
Qed.
Lemma grown_skip p1 ps I I' : (forall i j, In (i, j) p1 -> candidate m av bs mm i j <> Some true) -> grown ps I I' -> grown (p1 ++ ps) I I'.
Proof.
  intros H (A & B & C). split; [exact A|]. split.
  - intros p r Hin. destruct (B p r Hin) as [H1|(-> & Hi & Hc & Hn)]; [auto|]. right. rewrite !in_app_iff. tauto.
  - intros i j Hin Hc. apply in_app_or in Hin. destruct Hin as [Hin|Hin]; [destruct (H i j Hin Hc)|auto].
Qed.
Lemma grown_insert I p : candidate m av bs mm (fst p) (snd p) = Some true -> grown [p] I (insert I p).
Proof.
  intros Hc. destruct p as [i j]. cbn [fst snd] in Hc. unfold insert. cbn [fst snd]. destruct (found I i j) eqn:E.
  - split; [apply incl_refl|]. split; [auto|]. intros i' j' [H|[]] _. injection H as <- <-. apply found_spec. exact E.
  - split; [intros z Hz; apply in_or_app; auto|]. split.
    + intros p r H. apply in_app_or in H. destruct H as [H|[H|[]]]; [auto|]. injection H as <- <-. right. cbn. split; [reflexivity|]. split; [auto|]. split; [exact Hc|].
      intros Hl. apply found_spec in Hl. congruence.
    + intros i' j' [H|[]] _. injection H as <- <-. exists (i, j), false. split; [apply in_or_app; right; left; reflexivity|auto].
Qed.
Lemma grown_perm ps ps' I I' : (forall p, In p ps -> In p ps' \/ In (snd p, fst p) ps') -> (forall p, In p ps' -> In p ps \/ In (snd p, fst p) ps) -> grown ps I I' -> grown ps' I I'.
Proof.
  intros H1 H2 (A & B & C). split; [exact A|]. split.
  - intros p r Hin. destruct (B p r Hin) as [H|(-> & Hi & Hc & Hn)]; [auto|]. right. split; [reflexivity|]. split; [|auto].
    destruct p as [i j]. cbn [fst snd] in *. destruct Hi as [Hi|Hi]; apply H1 in Hi; cbn [fst snd] in Hi; tauto.
  - intros i j Hi Hc. apply H2 in Hi. cbn [fst snd] in Hi. destruct Hi as [Hi|Hi]; [auto|]. apply linked_sym. apply C; [exact Hi|]. rewrite candidate_sym. exact Hc.
Qed.

Definition pairs (ev : list event) : list (nat * nat) := map (fun e => (eid (fst e), eid (snd e))) (filter relevant ev).
Lemma collide_events_ok ev : forall I I', collide_events m av bs mm I ev = Some I' -> grown (pairs ev) I I'.
Proof.
  induction ev as [|e ev IH]; intros I I' H; cbn [collide_events] in H.
  - injection H as <-. apply grown_nil.
  - unfold pairs. cbn [filter]. destruct (relevant e); [|apply IH; exact H]. cbn [map]. unfold handleBoundInversion in H.
    destruct (candidate m av bs mm (eid (fst e)) (eid (snd e))) as [[|]|] eqn:Ec; [| |discriminate].
    + change ((eid (fst e), eid (snd e)) :: map (fun e0 => (eid (fst e0), eid (snd e0))) (filter relevant ev)) with ([(eid (fst e), eid (snd e))] ++ pairs ev).
      eapply grown_trans; [|apply IH; exact H]. apply grown_insert. exact Ec.
    + change ((eid (fst e), eid (snd e)) :: map (fun e0 => (eid (fst e0), eid (snd e0))) (filter relevant ev)) with ([(eid (fst e), eid (snd e))] ++ pairs ev).
      apply grown_skip; [|apply IH; exact H]. intros i j [E|[]] Hc. injection E as <- <-. congruence.
Qed.
Lemma insert_all_ok l : forall I, (forall p, In p l -> candidate m av bs mm (fst p) (snd p) = Some true) -> grown l I (insert_all I l).
Proof.
  induction l as [|p l IH]; intros I H; cbn [insert_all fold_left]; [apply grown_nil|].
  change (p :: l) with ([p] ++ l). eapply grown_trans; [apply grown_insert; apply H; left; reflexivity|]. apply IH. intros q Hq. apply H. right. exact Hq.
Qed.
Lemma candidates_ok l : forall r, candidates m av bs mm l = Some r ->
  forall p, In p r <-> In p l /\ candidate m av bs mm (fst p) (snd p) = Some true.
Proof.
  induction l as [|q l IH]; intros r H p; cbn [candidates] in H.
  - injection H as <-. cbn. tauto.
  - destruct (candidate m av bs mm (fst q) (snd q)) as [[|]|] eqn:Eq; [| |discriminate];
      (destruct (candidates m av bs mm l) as [r'|]; [|discriminate]); injection H as <-; specialize (IH r' eq_refl p); cbn [In]; rewrite IH; split.
    + intros [<-|H]; [auto|tauto].
    + intros [[<-|H] Hc]; auto.
    + intros [H Hc]. auto.
    + intros [[<-|H] Hc]; [congruence|auto].
Qed.
Lemma collide_parallel_ok ord I ev I' : (forall l, Permutation l (ord l)) -> collide_parallel m av bs mm ord I ev = Some I' -> grown (pairs ev) I I'.
Proof.
  unfold collide_parallel. intros Ho. set (l0 := map (fun e => (eid (snd e), eid (fst e))) (filter relevant ev)).
  destruct (candidates m av bs mm l0) as [l|] eqn:Ec; [|discriminate]. intros H. injection H as <-.
  pose proof (candidates_ok _ _ Ec) as Hc. set (l1 := filter (fun p => negb (found I (fst p) (snd p))) l).
  assert (Hl1 : forall p, In p (ord l1) <-> In p l0 /\ candidate m av bs mm (fst p) (snd p) = Some true /\ ~ linked I (fst p) (snd p)).
  { intros p. assert (E : In p (ord l1) <-> In p l1) by (split; apply Permutation_in; [symmetry|]; apply Ho).
    rewrite E. unfold l1. rewrite filter_In, Hc, negb_true_iff, <- found_spec, not_true_iff_false. tauto. }
  assert (Hl0 : forall i j, In (i, j) l0 <-> In (j, i) (pairs ev)).
  { intros i j. unfold l0, pairs. rewrite !in_map_iff. split; intros (e & E & Hin); exists e; injection E as <- <-; auto. }
  destruct (insert_all_ok (ord l1) I) as (A & B & C); [intros p Hp; apply Hl1 in Hp; tauto|].
  split; [exact A|]. split.
  - intros p r Hin. destruct (B p r Hin) as [H|(-> & Hi & Hcc & Hn)]; [auto|]. right. split; [reflexivity|]. split; [|auto].
    destruct p as [i j]. cbn [fst snd] in *. destruct Hi as [Hi|Hi]; apply Hl1 in Hi; destruct Hi as [Hi _]; apply Hl0 in Hi; tauto.
  - intros i j Hi Hcc. apply Hl0 in Hi. destruct (found I j i) eqn:Ef.
    + apply found_spec in Ef. apply linked_sym. eapply linked_incl; eassumption.
    + assert (Hn : ~ linked I j i) by (rewrite <- found_spec, Ef; discriminate). apply linked_sym. apply C.
      * apply Hl1. cbn [fst snd]. rewrite candidate_sym. auto.
      * rewrite candidate_sym. exact Hcc.
Qed.
End Run.

Lemma pairs_app e1 e2 : pairs (e1 ++ e2) = pairs e1 ++ pairs e2.
Proof. unfold pairs. rewrite filter_app, map_app. reflexivity. Qed.
Lemma pairs_In ev i j : In (i, j) (pairs ev) <-> exists x y, In (x, y) ev /\ relevant (x, y) = true /\ eid x = i /\ eid y = j.
Proof.
  unfold pairs. rewrite in_map_iff. split.
  - intros ([x y] & E & H). apply filter_In in H. injection E as <- <-. exists x, y. tauto.
  - intros (x & y & H & R & <- & <-). exists (x, y). split; [reflexivity|]. apply filter_In. auto.
Qed.

Lemma sort_axis_ok s bs mm l I r I' : settings_ok s -> sort_axis s bs mm l I = Some (r, I') ->
  exists ev, traced l r ev /\ sorted r /\ grown (me s) (avoid s) bs mm (pairs ev) I I'.
Proof.
  intros (_ & _ & Ho). unfold sort_axis. destruct ((threads s <=? 1) || (length bs <? 1000)).
  - destruct (insertionSort_ok l) as [T S]. destruct (insertionSort l) as [r0 ev]. cbn [fst snd] in *.
    destruct (collide_events (me s) (avoid s) bs mm I ev) as [I1|] eqn:E; [|discriminate]. intros H.
    assert (r0 = r) by congruence. assert (I1 = I') by congruence. subst. exists ev. split; [exact T|]. split; [exact S|]. apply collide_events_ok. exact E.
  - destruct (insertionSortParallel (threads s) (verlet4 s) l) as [[[r0 e1] e2]|] eqn:Es; [|discriminate]. apply insertionSortParallel_ok in Es. destruct Es as [T S].
    destruct (collide_parallel (me s) (avoid s) bs mm (ord s) I e1) as [I1|] eqn:E1; [|discriminate].
    destruct (collide_events (me s) (avoid s) bs mm I1 e2) as [I2|] eqn:E2; [|discriminate]. intros H.
    assert (r0 = r) by congruence. assert (I2 = I') by congruence. subst. exists (e1 ++ e2). split; [exact T|]. split; [exact S|].
    rewrite pairs_app. eapply grown_trans; [eapply collide_parallel_ok; eassumption|apply collide_events_ok; exact E2].
Qed.

(** ** boxes *)
Lemma refresh_boxes_nth bs : forall mm i ob x, nth_error bs i = Some ob -> nth_error mm i = Some x ->
  nth_error (refresh_boxes bs mm) i = Some (refresh_box ob x).
Proof.
  induction bs as [|o bs IH]; intros [|y mm] [|i] ob x H1 H2; cbn in *; try discriminate.
  - injection H1 as <-. injection H2 as <-. reflexivity.
  - eapply IH; eassumption.
Qed.
Lemma refresh_boxes_length bs : forall mm, length (refresh_boxes bs mm) = length mm.
Proof. induction bs as [|o bs IH]; intros [|y mm]; cbn; auto. Qed.
Lemma resize_length mm n : length (resize mm n) = n.
Proof. unfold resize. rewrite app_length, firstn_length, repeat_length. lia. Qed.
Lemma boxes_known bs mm i x : length mm = length bs -> has_box bs i x -> nth_error (refresh_boxes bs mm) i = Some x.
Proof.
  intros Hl (b & Hb & Hx). unfold body_at in Hb. destruct (nth_error bs i) as [[b'|]|] eqn:E; try discriminate. injection Hb as ->.
  assert (Hi : i < length mm) by (rewrite Hl; apply nth_error_Some; congruence). apply nth_error_Some in Hi. destruct (nth_error mm i) as [y|] eqn:Ey; [|contradiction].
  rewrite (refresh_boxes_nth _ _ _ _ _ E Ey). cbn. rewrite Hx. reflexivity.
Qed.
Lemma has_box_fun bs i x y : has_box bs i x -> has_box bs i y -> x = y.
Proof. intros (b & H1 & H2) (b' & H3 & H4). congruence. Qed.
Lemma candidate_touch s bs mm i j : length mm = length bs -> boxes_touch bs i j -> allowed s bs i j ->
  candidate (me s) (avoid s) bs (refresh_boxes bs mm) i j = Some true.
Proof.
  intros Hl (x & y & Hx & Hy & H) Ha. unfold candidate, spatialOverlap. rewrite (boxes_known _ _ _ _ Hl Hx), (boxes_known _ _ _ _ Hl Hy).
  assert (E : overlap x y = true) by (apply overlap_spec; exact H). rewrite E. exact Ha.
Qed.
Lemma candidate_inv s bs mm i j x y : length mm = length bs -> has_box bs i x -> has_box bs j y ->
  candidate (me s) (avoid s) bs (refresh_boxes bs mm) i j = Some true -> boxes_touch bs i j /\ allowed s bs i j.
Proof.
  intros Hl Hx Hy. unfold candidate, spatialOverlap. rewrite (boxes_known _ _ _ _ Hl Hx), (boxes_known _ _ _ _ Hl Hy).
  destruct (overlap x y) eqn:E; [|discriminate]. intros Ha. split; [|exact Ha]. exists x, y. split; [exact Hx|]. split; [exact Hy|]. apply overlap_spec. exact E.
Qed.

(** ** purge *)
Lemma purge_ok mm I : forall I', purge mm I = Some I' ->
  forall p r, In (p, r) I' <-> In (p, r) I /\ (r = true \/ spatialOverlap mm (fst p) (snd p) = Some true).
Proof.
  induction I as [|[q t] I IH]; intros I' H p r; cbn [purge] in H.
  - injection H as <-. cbn. tauto.
  - destruct (purge mm I) as [J|]; [|discriminate]. specialize (IH J eq_refl p r). cbn [fst snd] in H. destruct t.
    + injection H as <-. cbn [In]. rewrite IH. split.
      * intros [E|E]; [injection E as <- <-; auto|tauto].
      * tauto.
    + destruct (spatialOverlap mm (fst q) (snd q)) as [[|]|] eqn:E; [| |discriminate]; injection H as <-; cbn [In]; rewrite IH; split.
      * intros [Eq|Eq]; [injection Eq as <- <-; auto|tauto].
      * intros [[Eq|Eq] Hr]; auto.
      * tauto.
      * intros [[Eq|Eq] Hr]; [|auto]. injection Eq as <- <-. destruct Hr as [Hr|Hr]; congruence.
Qed.

(** ** keys *)
Definition key (e : entry) : nat * bool := (eid e, isMin e).
Definition all_keys (n : nat) : list (nat * bool) := flat_map (fun i => [(i, true); (i, false)]) (seq 0 n).
Lemma all_keys_In n i b : In (i, b) (all_keys n) <-> i < n.
Proof.
  unfold all_keys. rewrite in_flat_map. split.
  - intros (k & Hk & H). apply in_seq in Hk. cbn in H. destruct H as [H|[H|[]]]; injection H as E _; lia.
  - intros H. exists i. split; [apply in_seq; lia|]. destruct b; cbn; auto.
Qed.
Lemma flat_keys_NoDup l : NoDup l -> NoDup (flat_map (fun i : nat => [(i, true); (i, false)]) l).
Proof.
  induction l as [|i l IH]; intros H; cbn; [constructor|]. inversion H as [|? ? Hi Hl]; subst.
  assert (Hn : forall b, ~ In (i, b) (flat_map (fun i : nat => [(i, true); (i, false)]) l)).
  { intros b Hb. apply in_flat_map in Hb. destruct Hb as (k & Hk & Hb). cbn in Hb. destruct Hb as [Hb|[Hb|[]]]; injection Hb as E _; subst; contradiction. }
  constructor; [intros [E|E]; [discriminate|exact (Hn _ E)]|]. constructor; [apply Hn|]. auto.
Qed.
Lemma all_keys_NoDup n : NoDup (all_keys n).
Proof. apply flat_keys_NoDup, seq_NoDup. Qed.
Definition keys_ok (n : nat) (l : list entry) : Prop := Permutation (map key l) (all_keys n).
Lemma keys_NoDup n l : keys_ok n l -> NoDup (map key l).
Proof. intros H. eapply Permutation_NoDup; [symmetry; exact H|apply all_keys_NoDup]. Qed.
Lemma map_NoDup {A B} (f : A -> B) l : NoDup (map f l) -> NoDup l.
Proof. induction l as [|x l IH]; intros H; [constructor|]. cbn in H. inversion H; subst. constructor; [intros Hx; apply H2; apply in_map; exact Hx|auto]. Qed.
Lemma keys_find n l i b : keys_ok n l -> i < n -> exists e, In e l /\ eid e = i /\ isMin e = b.
Proof.
  intros H Hi. assert (Hin : In (i, b) (map key l)) by (eapply Permutation_in; [symmetry; exact H|apply all_keys_In; exact Hi]).
  apply in_map_iff in Hin. destruct Hin as (e & E & Hin). injection E as <- <-. eauto.
Qed.
Lemma key_inj n l e e' : keys_ok n l -> In e l -> In e' l -> key e = key e' -> e = e'.
Proof.
  intros H. apply keys_NoDup in H. induction l as [|x l IH]; intros H1 H2 E; [destruct H1|]. cbn in H. inversion H as [|? ? Hx Hl]; subst.
  destruct H1 as [->|H1], H2 as [->|H2]; auto.
  - exfalso. apply Hx. rewrite E. apply in_map. exact H2.
  - exfalso. apply Hx. rewrite <- E. apply in_map. exact H1.
Qed.

(** the intervals of i and j overlap in the order of the list *)
Definition lov (l : list entry) (i j : nat) : Prop :=
  before (i, true) (j, false) (map key l) /\ before (j, true) (i, false) (map key l).

Lemma refresh_key bs a e : key (refresh bs a e) = key e.
Proof. unfold refresh. destruct (body_at bs (eid e)) as [b|]; [destruct (bbox b)|]; reflexivity. Qed.
Lemma refresh_keys bs a l : map key (map (refresh bs a) l) = map key l.
Proof. rewrite map_map. apply map_ext. apply refresh_key. Qed.
Lemma refresh_expected bs a e : expected bs a (refresh bs a e).
Proof. unfold expected, refresh. destruct (body_at bs (eid e)) as [b|] eqn:Eb; [destruct (bbox b) as [x|] eqn:Ex|]; cbn [eid coord isMin hasBB]; rewrite Eb, ?Ex; auto. Qed.

(** entries of a list that is up to date *)
Definition up_to_date (bs : bodies) (a : nat) (l : list entry) : Prop := keys_ok (length bs) l /\ forall e, In e l -> expected bs a e.
Lemma up_perm bs a l l' : Permutation l l' -> up_to_date bs a l -> up_to_date bs a l'.
Proof.
  intros P [K E]. split.
  - unfold keys_ok. rewrite <- K. symmetry. apply Permutation_map. exact P.
  - intros e He. apply E. eapply Permutation_in; [symmetry; exact P|exact He].
Qed.
Lemma box_lt bs i x : has_box bs i x -> i < length bs.
Proof. intros (b & H & _). unfold body_at in H. apply nth_error_Some. destruct (nth_error bs i) as [[|]|]; congruence. Qed.
Lemma entry_of bs a l i x b : up_to_date bs a l -> has_box bs i x -> exists e, In e l /\ key e = (i, b) /\ coord e = (if b then lo x a else hi x a) /\ hasBB e = true.
Proof.
  intros [K E] Hx. destruct (keys_find _ _ i b K (box_lt _ _ _ Hx)) as (e & He & <- & <-). exists e. split; [exact He|]. split; [reflexivity|].
  specialize (E e He). unfold expected in E. destruct Hx as (bb & Hb & Hx). rewrite Hb, Hx in E. exact E.
Qed.
Lemma expected_box bs a l e : up_to_date bs a l -> In e l -> hasBB e = true -> exists x, has_box bs (eid e) x.
Proof.
  intros [_ E] He Hb. specialize (E e He). unfold expected in E. unfold has_box. destruct (body_at bs (eid e)) as [b|]; [|congruence].
  destruct (bbox b) as [x|] eqn:Ex; [eauto|destruct E; congruence].
Qed.

Lemma strict_lov bs a l i j x y : up_to_date bs a l -> sorted l -> has_box bs i x -> has_box bs j y -> (lo x a < hi y a)%Z ->
  before (i, true) (j, false) (map key l).
Proof.
  intros U S Hx Hy H. destruct (entry_of bs a l i x true U Hx) as (e & He & Ke & Ce & _). destruct (entry_of bs a l j y false U Hy) as (f & Hf & Kf & Cf & _).
  rewrite <- Ke, <- Kf. apply before_map. destruct (before_total e f l He Hf) as [B|B]; [congruence|exact B|]. apply S in B. lia.
Qed.
Lemma lov_coords bs a l i j x y : up_to_date bs a l -> sorted l -> has_box bs i x -> has_box bs j y ->
  before (i, true) (j, false) (map key l) -> (lo x a <= hi y a)%Z.
Proof.
  intros U S Hx Hy H. apply before_map_inv in H. destruct H as (e & f & B & Ke & Kf). apply before_in in B as Hin. destruct Hin as [He Hf].
  destruct (entry_of bs a l i x true U Hx) as (e' & He' & Ke' & Ce & _). destruct (entry_of bs a l j y false U Hy) as (f' & Hf' & Kf' & Cf & _).
  destruct U as [K _]. assert (e' = e) by (eapply key_inj; [exact K| | |congruence]; assumption). assert (f' = f) by (eapply key_inj; [exact K| | |congruence]; assumption).
  subst. apply S in B. congruence.
Qed.
Lemma lov_touch bs (l : nat -> list entry) i j x y : (forall a, a < 3 -> up_to_date bs a (l a) /\ sorted (l a)) -> has_box bs i x -> has_box bs j y ->
  (forall a, a < 3 -> lov (l a) i j) -> boxes_touch bs i j.
Proof.
  intros H Hx Hy Hl. exists x, y. split; [exact Hx|]. split; [exact Hy|]. intros a Ha. destruct (H a Ha) as [U S]. destruct (Hl a Ha) as [L1 L2].
  split; eapply lov_coords; eassumption.
Qed.

Lemma pair_dec (p q : nat * nat) : {p = q} + {p <> q}.
Proof. decide equality; apply Nat.eq_dec. Qed.
(** a pair that comes to overlap in the order of the list makes an event *)
Lemma lov_event bs a l r ev i j : up_to_date bs a l -> traced l r ev -> i <> j ->
  (exists x, has_box bs i x) -> (exists y, has_box bs j y) -> lov r i j -> ~ lov l i j -> In (i, j) (pairs ev) \/ In (j, i) (pairs ev).
Proof.
  intros U (P & T & _) Hij [x Hx] [y Hy] [R1 R2] Hn.
  assert (Hnd : NoDup l) by (apply (map_NoDup key); eapply keys_NoDup; apply U).
  assert (main : forall p q u v, has_box bs p u -> has_box bs q v -> p <> q -> before (p, true) (q, false) (map key r) -> ~ before (p, true) (q, false) (map key l) -> In (p, q) (pairs ev)).
  { intros p q u v Hu Hv Hpq Hr Hl. destruct (entry_of bs a l p u true U Hu) as (e & He & Ke & _ & Be). destruct (entry_of bs a l q v false U Hv) as (f & Hf & Kf & _ & Bf).
    apply before_map_inv in Hr. destruct Hr as (e' & f' & B & Ke' & Kf'). apply before_in in B as Hin. destruct Hin as [He' Hf'].
    apply (Permutation_in _ (Permutation_sym P)) in He'. apply (Permutation_in _ (Permutation_sym P)) in Hf'. destruct U as [K _].
    assert (e' = e) by (eapply key_inj; [exact K| | |congruence]; assumption). assert (f' = f) by (eapply key_inj; [exact K| | |congruence]; assumption). subst e' f'.
    destruct (before_total e f l He Hf) as [Bl|Bl]; [congruence| |].
    - exfalso. apply Hl. rewrite <- Ke, <- Kf. apply before_map. exact Bl.
    - apply pairs_In. exists e, f. split; [apply T; assumption|]. unfold key in Ke, Kf. injection Ke as <- Me. injection Kf as <- Mf. split; [|auto].
      unfold relevant. rewrite Me, Mf, Be, Bf. cbn. apply negb_true_iff. apply Nat.eqb_neq. exact Hpq. }
  destruct (In_dec pair_dec (i, j) (pairs ev)) as [Hi|Hi]; [auto|].
  destruct (In_dec pair_dec (j, i) (pairs ev)) as [Hj|Hj]; [auto|].
  exfalso. apply Hn. split.
  - assert (Hin1 : In (i, true) (map key l) /\ In (j, false) (map key l)).
    { apply before_in in R1. rewrite <- (Permutation_map key P) in R1. exact R1. }
    destruct (before_total (i, true) (j, false) (map key l)) as [B|B]; try tauto; try congruence.
    exfalso. apply Hi. eapply main; eauto. intros B'. eapply before_antisym; [eapply keys_NoDup; apply U| |]; eassumption.
  - assert (Hin1 : In (j, true) (map key l) /\ In (i, false) (map key l)).
    { apply before_in in R2. rewrite <- (Permutation_map key P) in R2. exact R2. }
    destruct (before_total (j, true) (i, false) (map key l)) as [B|B]; try tauto; try congruence.
    exfalso. apply Hj. eapply main; eauto. intros B'. eapply before_antisym; [eapply keys_NoDup; apply U| |]; eassumption.
Qed.
