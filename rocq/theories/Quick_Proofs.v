(** Proofs about the quick sort collider. *)
From Coq Require Import List ZArith Arith Bool Lia Permutation Sorted.
From Verif Require Import Coll_Model Quick_Model Quick_Spec.
Import ListNotations.

Lemma joins_spec i a b : joins a b (ids i) = true <-> pair_of i a b.
Proof.
  unfold joins, pair_of. destruct (ids i) as [x y]. cbn [fst snd]. rewrite orb_true_iff, !andb_true_iff, !Nat.eqb_eq. split.
  - intros [[-> ->]|[-> ->]]; auto.
  - intros [H|H]; injection H as -> ->; auto.
Qed.
Lemma pair_sym i a b : pair_of i a b -> pair_of i b a. Proof. unfold pair_of. tauto. Qed.
Lemma has_spec I a b : has I a b = true <-> exists i, In i I /\ pair_of i a b.
Proof. unfold has. rewrite existsb_exists. split; intros (i & H & E); exists i; split; auto; apply joins_spec; exact E. Qed.
Lemma seen_sym it I a b : seen it I a b -> seen it I b a.
Proof. intros (i & H & P & E). exists i. split; [exact H|]. split; [apply pair_sym; exact P|exact E]. Qed.
Lemma see_in it a b I i : In i (see it a b I) -> exists j, In j I /\ ids j = ids i /\ real j = real i /\ (lastSeen i = it \/ j = i).
Proof.
  unfold see. intros H. apply in_map_iff in H. destruct H as (j & <- & Hj). exists j. split; [exact Hj|]. destruct (joins a b (ids j)); cbn [ids real lastSeen]; auto.
Qed.
Lemma see_of it a b I i : In i I -> exists j, In j (see it a b I) /\ ids j = ids i /\ real j = real i /\ (lastSeen j = it \/ j = i).
Proof.
  intros H. exists (if joins a b (ids i) then mkI (ids i) (real i) it else i). split; [unfold see; apply in_map_iff; exists i; auto|]. destruct (joins a b (ids i)); cbn [ids real lastSeen]; auto.
Qed.
Lemma see_sees it a b I : has I a b = true -> seen it (see it a b I) a b.
Proof.
  intros H. apply has_spec in H. destruct H as (i & Hi & P). exists (mkI (ids i) (real i) it). split; [unfold see; apply in_map_iff; exists i; split; [|exact Hi]; rewrite (proj2 (joins_spec i a b) P); reflexivity|]. split; [exact P|reflexivity].
Qed.

(** ** meeting *)
Lemma meet_seen bs it a b I I' : a <> b -> meet bs it a b I = Done I' -> seen it I' a b.
Proof.
  intros Hn. unfold meet. destruct (body_at bs (min a b)); [|discriminate]. destruct (has I a b) eqn:E; [intros H; injection H as <-; apply see_sees; exact E|].
  destruct (body_at bs (max a b)); [|discriminate]. apply Nat.eqb_neq in Hn. rewrite Hn. intros H. injection H as <-. exists (mkI (a, b) false it). split; [apply in_or_app; right; left; reflexivity|]. split; [left; reflexivity|reflexivity].
Qed.
(** every interaction is kept, at most seen *)
Definition keeps (it : Z) (I I' : list intr) : Prop := forall i, In i I -> exists j, In j I' /\ ids j = ids i /\ real j = real i /\ (lastSeen j = it \/ j = i).
Lemma keeps_refl it I : keeps it I I. Proof. intros i H. exists i. auto. Qed.
Lemma keeps_trans it I1 I2 I3 : keeps it I1 I2 -> keeps it I2 I3 -> keeps it I1 I3.
Proof.
  intros K L i H. destruct (K i H) as (j & Hj & A & B & C). destruct (L j Hj) as (k & Hk & A' & B' & C'). exists k. split; [exact Hk|]. split; [congruence|]. split; [congruence|]. destruct C' as [C'| ->]; [left; exact C'|exact C].
Qed.
Lemma keeps_seen it I I' a b : keeps it I I' -> seen it I a b -> seen it I' a b.
Proof. intros K (i & H & P & E). destruct (K i H) as (j & Hj & A & _ & C). exists j. split; [exact Hj|]. split; [unfold pair_of in *; rewrite A; exact P|]. destruct C as [C| ->]; auto. Qed.
Lemma meet_keeps bs it a b I I' : meet bs it a b I = Done I' -> keeps it I I'.
Proof.
  unfold meet. destruct (body_at bs (min a b)); [|discriminate]. destruct (has I a b); [intros H; injection H as <-; intros i Hi; apply see_of; exact Hi|].
  destruct (body_at bs (max a b)); [|discriminate]. intros H. injection H as <-. destruct (a =? b); [apply keeps_refl|]. intros i Hi. exists i. split; [apply in_or_app; auto|auto].
Qed.
Lemma scan_keeps bs it e rest : forall I I', scan bs it e rest I = Done I' -> keeps it I I'.
Proof.
  induction rest as [|f rest IH]; intros I I'; cbn [scan]; [intros H; injection H as <-; apply keeps_refl|]. destruct (beyond e f); [intros H; injection H as <-; apply keeps_refl|].
  destruct (hit e f); cbn [bind]; [|apply IH]. destruct (meet bs it (qid e) (qid f) I) as [I1| |] eqn:E; cbn [bind]; try discriminate. intros H. eapply keeps_trans; [eapply meet_keeps; exact E|apply IH; exact H].
Qed.
Lemma sweep_keeps bs it l : forall I I', sweep bs it l I = Done I' -> keeps it I I'.
Proof.
  induction l as [|e l IH]; intros I I'; cbn [sweep]; [intros H; injection H as <-; apply keeps_refl|]. destruct (scan bs it e l I) as [I1| |] eqn:E; cbn [bind]; try discriminate. intros H. eapply keeps_trans; [eapply scan_keeps; exact E|apply IH; exact H].
Qed.
(** entries which do not leave each other out *)
Definition crossing (e f : aabb) : Prop := beyond e f = false /\ beyond f e = false /\ hit e f = true.
Lemma hit_sym e f : hit e f = hit f e.
Proof. unfold hit. destruct (qlo f 1%nat <? qhi e 1%nat)%Z, (qlo e 1%nat <? qhi f 1%nat)%Z, (qlo f 2%nat <? qhi e 2%nat)%Z, (qlo e 2%nat <? qhi f 2%nat)%Z; reflexivity. Qed.
Lemma scan_finds bs it e f rest : qid e <> qid f -> crossing e f -> forall I I', StronglySorted (fun x y => (qlo x 0 <= qlo y 0)%Z) rest -> In f rest -> scan bs it e rest I = Done I' -> seen it I' (qid e) (qid f).
Proof.
  intros Hn (B & _ & H). induction rest as [|g rest IH]; intros I I' S Hi E; [contradiction|]. cbn [scan] in E. destruct Hi as [-> |Hi].
  - rewrite B, H in E. destruct (meet bs it (qid e) (qid f) I) as [I1| |] eqn:M; cbn [bind] in E; try discriminate. eapply keeps_seen; [eapply scan_keeps; exact E|]. eapply meet_seen; eassumption.
  - inversion S as [|? ? S' F]; subst. assert (G : beyond e g = false). { rewrite Forall_forall in F. specialize (F f Hi). unfold beyond in *. apply Z.ltb_ge in B. apply Z.ltb_ge. lia. }
    rewrite G in E. destruct (hit e g); cbn [bind] in E; [|apply (IH I I' S' Hi E)]. destruct (meet bs it (qid e) (qid g) I) as [I1| |]; cbn [bind] in E; try discriminate. apply (IH I1 I' S' Hi E).
Qed.
Lemma sweep_finds bs it e f l : qid e <> qid f -> crossing e f -> forall I I', StronglySorted (fun x y => (qlo x 0 <= qlo y 0)%Z) l -> In e l -> In f l -> sweep bs it l I = Done I' -> seen it I' (qid e) (qid f).
Proof.
  intros Hn C. induction l as [|g l IH]; intros I I' S He Hf E; [contradiction|]. cbn [sweep] in E. destruct (scan bs it g l I) as [I1| |] eqn:Es; cbn [bind] in E; try discriminate. inversion S as [|? ? S' F]; subst. destruct He as [-> |He].
  - destruct Hf as [-> |Hf]; [congruence|]. eapply keeps_seen; [eapply sweep_keeps; exact E|]. eapply scan_finds; eassumption.
  - destruct Hf as [-> |Hf]; [|apply (IH I1 I' S' He Hf E)]. eapply keeps_seen; [eapply sweep_keeps; exact E|]. apply seen_sym. eapply scan_finds; try eassumption; [congruence|]. destruct C as (A & B & D). split; [exact B|]. split; [exact A|]. rewrite hit_sym. exact D.
Qed.

(** ** entries *)
Lemma combine_nth {A} (l : list A) : forall s k x, In (k, x) (combine (seq s (length l)) l) <-> exists n, k = s + n /\ nth_error l n = Some x.
Proof.
  induction l as [|y l IH]; intros s k x; cbn [length seq combine In]; [split; [intros []|intros ([|n] & _ & H); discriminate]|]. rewrite (IH (S s)). split.
  - intros [H|(n & -> & H)]; [injection H as <- <-; exists 0; split; [lia|reflexivity]|exists (S n); split; [lia|exact H]].
  - intros ([|n] & -> & H); [left; cbn in H; injection H as ->; f_equal; lia|right; exists n; split; [lia|exact H]].
Qed.
Lemma bounds_in bs e : In e (bounds bs) <-> exists x, has_box bs (qid e) x /\ qlo e = lo x /\ qhi e = hi x.
Proof.
  unfold bounds. rewrite in_flat_map. split.
  - intros ([k o] & H & E). apply combine_nth in H. destruct H as (n & -> & H). cbn [fst snd plus] in E. destruct o as [b|]; [|contradiction]. destruct (bbox b) as [x|] eqn:Eb; [|contradiction]. destruct E as [<- |[]]. exists x. cbn [qid qlo qhi]. split; [|auto]. exists b. unfold body_at. rewrite H. auto.
  - intros (x & (b & Hb & Ex) & E1 & E2). unfold body_at in Hb. destruct (nth_error bs (qid e)) as [[b'|]|] eqn:En; try discriminate. injection Hb as ->. exists (qid e, Some b). split; [apply combine_nth; exists (qid e); auto|]. cbn [fst snd]. rewrite Ex. left. destruct e as [ke le he]. cbn [qlo qhi qid] in *. congruence.
Qed.
Lemma initialised_in r : forall l, initialised r = Some l -> r = map Some l.
Proof. induction r as [|[e|] r IH]; intros l; cbn [initialised]; try discriminate; [intros H; injection H as <-; reflexivity|]. destruct (initialised r) as [l'|]; [|discriminate]. intros H. injection H as <-. cbn [map]. rewrite <- (IH l' eq_refl). reflexivity. Qed.
Lemma initialised_map l : initialised (map Some l) = Some l.
Proof. induction l as [|e l IH]; [reflexivity|]. cbn [map initialised]. rewrite IH. reflexivity. Qed.
Lemma bounds_ids bs : forall s, map qid (flat_map (fun p => match snd p with Some b => match bbox b with Some x => [mkQ (fst p) (lo x) (hi x)] | None => [] end | None => [] end) (combine (seq s (length bs)) bs)) = filter (fun k => match nth_error bs (k - s) with Some (Some b) => match bbox b with Some _ => true | None => false end | _ => false end) (seq s (length bs)).
Proof.
  induction bs as [|o bs IH]; intros s; [reflexivity|]. cbn [length seq combine flat_map]. rewrite map_app, IH. cbn [filter fst snd]. rewrite Nat.sub_diag. cbn [nth_error].
  replace (filter _ (seq (S s) (length bs))) with (filter (fun k => match nth_error (o :: bs) (k - s) with Some (Some b) => match bbox b with Some _ => true | None => false end | _ => false end) (seq (S s) (length bs))).
  - destruct o as [b|]; [destruct (bbox b); reflexivity|reflexivity].
  - apply filter_ext_in. intros k Hk. apply in_seq in Hk. replace (k - s) with (S (k - S s)) by lia. reflexivity.
Qed.
Lemma bounds_nodup bs : NoDup (map qid (bounds bs)).
Proof. unfold bounds. rewrite bounds_ids. apply NoDup_filter, seq_NoDup. Qed.
Lemma bounds_full bs : bounded bs -> length (bounds bs) = length bs.
Proof.
  intros H. rewrite <- (map_length qid). unfold bounds. rewrite bounds_ids. rewrite (filter_ext_in _ (fun _ => true)).
  - transitivity (length (seq 0 (length bs))); [|apply seq_length]. f_equal. induction (seq 0 (length bs)) as [|x l IH]; [reflexivity|]. cbn [filter]. rewrite IH. reflexivity.
  - intros k Hk. apply in_seq in Hk. destruct (H k ltac:(lia)) as (x & b & Hb & Ex). rewrite Nat.sub_0_r. unfold body_at in Hb. destruct (nth_error bs k) as [[b'|]|]; try discriminate. injection Hb as ->. rewrite Ex. reflexivity.
Qed.
Lemma resize_length n r : length (resize n r) = n.
Proof. unfold resize. rewrite app_length, firstn_length, repeat_length. lia. Qed.
Lemma full_rank bs r : bounded bs -> fill (resize (length bs) r) (bounds bs) = map Some (bounds bs).
Proof. intros H. unfold fill. rewrite skipn_all2; [apply app_nil_r|]. rewrite resize_length, (bounds_full bs H). lia. Qed.

(** ** the collider *)
Lemma action_complete srt it bs r I r' I' a b : sorts srt -> action srt false it bs r I = Done (r', I') -> a <> b -> overlapping bs a b -> seen it I' a b.
Proof.
  intros Hs H Hn (x & y & Hx & Hy & O). unfold action in H. destruct (length bs <=? 1) eqn:El.
  - exfalso. apply Nat.leb_le in El. destruct Hx as (bx & Hx & _). destruct Hy as (by_ & Hy & _). unfold body_at in Hx, Hy. destruct (nth_error bs a) as [o|] eqn:Ea; [|discriminate]. destruct (nth_error bs b) as [o'|] eqn:Eb; [|discriminate].
    assert (a < length bs) by (apply nth_error_Some; congruence). assert (b < length bs) by (apply nth_error_Some; congruence). lia.
  - destruct (initialised _) as [l|] eqn:E; [|discriminate]. apply initialised_in in E. destruct (sweep bs it (srt l) (filter real I)) as [I1| |] eqn:Es; cbn [bind] in H; try discriminate. injection H as <- <-.
    destruct (Hs l) as (P & S).
    assert (K : forall c z, has_box bs c z -> In (mkQ c (lo z) (hi z)) (srt l)). { intros c z Hz. eapply Permutation_in; [exact P|]. assert (J : In (Some (mkQ c (lo z) (hi z))) (map Some l)). { rewrite <- E. unfold fill. apply in_or_app. left. apply in_map. apply bounds_in. exists z. auto. } apply in_map_iff in J. destruct J as (e & J & Je). injection J as ->. exact Je. }
    apply (sweep_finds bs it (mkQ a (lo x) (hi x)) (mkQ b (lo y) (hi y)) (srt l)) with (I := filter real I); [exact Hn| |exact S|apply K; exact Hx|apply K; exact Hy|exact Es].
    unfold crossing, beyond, hit. cbn [qlo qhi]. rewrite !Z.ltb_ge, !andb_true_iff, !Z.ltb_lt. lia.
Qed.
Lemma action_keeps srt it bs r I r' I' i : action srt false it bs r I = Done (r', I') -> In i I -> real i = true -> exists j, In j I' /\ ids j = ids i /\ real j = true /\ (lastSeen j = it \/ lastSeen j = lastSeen i).
Proof.
  intros H Hi Hr. assert (F : In i (filter real I)) by (apply filter_In; auto). unfold action in H. destruct (length bs <=? 1); [injection H as <- <-; exists i; auto|]. destruct (initialised _) as [l|]; [|discriminate]. destruct (sweep bs it (srt l) (filter real I)) as [I1| |] eqn:Es; cbn [bind] in H; try discriminate. injection H as <- <-.
  destruct (sweep_keeps _ _ _ _ _ Es i F) as (j & Hj & A & B & C). exists j. split; [exact Hj|]. split; [exact A|]. split; [congruence|]. destruct C as [C| ->]; auto.
Qed.
(** where an interaction comes from *)
Definition from (I : list intr) (ps : list (nat * nat)) (I' : list intr) : Prop := forall j, In j I' -> (exists i, In i I /\ ids i = ids j /\ real i = real j) \/ (real j = false /\ In (ids j) ps).
Lemma from_refl I ps : from I ps I. Proof. intros j H. left. exists j. auto. Qed.
Lemma from_trans I1 ps I2 I3 : from I1 ps I2 -> from I2 ps I3 -> from I1 ps I3.
Proof.
  intros A B j H. destruct (B j H) as [(i & Hi & E & R)|K]; [|right; exact K]. destruct (A i Hi) as [(h & Hh & E' & R')|(R' & K)]; [left; exists h; split; [exact Hh|split; congruence]|right; split; congruence].
Qed.
Lemma from_incl I ps ps' I' : incl ps ps' -> from I ps I' -> from I ps' I'.
Proof. intros S A j H. destruct (A j H) as [K|(R & K)]; [left; exact K|right; auto]. Qed.
Definition visited (e : aabb) (rest : list aabb) : list (nat * nat) := map (fun f => (qid e, qid f)) (filter (fun f => negb (beyond e f) && hit e f && negb (qid e =? qid f)) rest).
Lemma meet_from bs it a b I I' : meet bs it a b I = Done I' -> from I (if a =? b then [] else [(a, b)]) I'.
Proof.
  unfold meet. destruct (body_at bs (min a b)); [|discriminate]. destruct (has I a b).
  - intros H. injection H as <-. intros j Hj. apply see_in in Hj. destruct Hj as (i & Hi & E & R & _). left. exists i. auto.
  - destruct (body_at bs (max a b)); [|discriminate]. intros H. injection H as <-. destruct (a =? b); [apply from_refl|]. intros j Hj. apply in_app_or in Hj. destruct Hj as [Hj|[<- |[]]]; [left; exists j; auto|right; cbn; auto].
Qed.
Lemma scan_from bs it e rest : forall I I', scan bs it e rest I = Done I' -> from I (visited e rest) I'.
Proof.
  induction rest as [|f rest IH]; intros I I'; cbn [scan]; [intros H; injection H as <-; apply from_refl|]. unfold visited. cbn [filter]. destruct (beyond e f) eqn:B; [intros H; injection H as <-; apply from_refl|]. cbn [negb andb].
  destruct (hit e f); cbn [bind andb]; [|intros H; apply IH; exact H]. destruct (meet bs it (qid e) (qid f) I) as [I1| |] eqn:M; cbn [bind]; try discriminate. intros H. apply meet_from in M. apply IH in H. destruct (qid e =? qid f); cbn [negb].
  - eapply from_trans; [eapply from_incl; [|exact M]; intros ? []|exact H].
  - eapply from_trans; [eapply from_incl; [|exact M]; intros q [<- |[]]; left; reflexivity|eapply from_incl; [|exact H]; intros q Hq; right; exact Hq].
Qed.
Fixpoint all_visited (l : list aabb) : list (nat * nat) := match l with [] => [] | e :: rest => visited e rest ++ all_visited rest end.
Lemma sweep_from bs it l : forall I I', sweep bs it l I = Done I' -> from I (all_visited l) I'.
Proof.
  induction l as [|e l IH]; intros I I'; cbn [sweep all_visited]; [intros H; injection H as <-; apply from_refl|]. destruct (scan bs it e l I) as [I1| |] eqn:E; cbn [bind]; try discriminate. intros H. apply scan_from in E. apply IH in H.
  eapply from_trans; [eapply from_incl; [|exact E]; apply incl_appl, incl_refl|eapply from_incl; [|exact H]; apply incl_appr, incl_refl].
Qed.
Lemma all_visited_in l p : StronglySorted (fun x y => (qlo x 0 <= qlo y 0)%Z) l -> In p (all_visited l) -> exists e f, In e l /\ In f l /\ p = (qid e, qid f) /\ qid e <> qid f /\ beyond e f = false /\ hit e f = true /\ (qlo e 0 <= qlo f 0)%Z.
Proof.
  induction l as [|e l IH]; intros S H; [contradiction|]. inversion S as [|? ? S' F]; subst. cbn [all_visited] in H. apply in_app_or in H. destruct H as [H|H].
  - unfold visited in H. apply in_map_iff in H. destruct H as (f & <- & H). apply filter_In in H. destruct H as (Hf & K). rewrite !andb_true_iff, !negb_true_iff, Nat.eqb_neq in K. rewrite Forall_forall in F. exists e, f. split; [left; reflexivity|]. split; [right; exact Hf|]. split; [reflexivity|]. specialize (F f Hf). tauto.
  - destruct (IH S' H) as (x & y & A & B & C). exists x, y. split; [right; exact A|]. split; [right; exact B|exact C].
Qed.
(** bodies with boxes *)
Lemma meet_done bs it a b I : (exists x, has_box bs a x) -> (exists x, has_box bs b x) -> exists I', meet bs it a b I = Done I'.
Proof.
  intros (x & bx & Hx & _) (y & by_ & Hy & _). unfold meet. assert (A : exists c, body_at bs (min a b) = Some c) by (destruct (Nat.min_dec a b) as [-> | ->]; eauto). assert (B : exists c, body_at bs (max a b) = Some c) by (destruct (Nat.max_dec a b) as [-> | ->]; eauto).
  destruct A as (? & ->). destruct B as (? & ->). destruct (has I a b); eauto.
Qed.
Lemma scan_done bs it e rest : (exists x, has_box bs (qid e) x) -> (forall f, In f rest -> exists x, has_box bs (qid f) x) -> forall I, exists I', scan bs it e rest I = Done I'.
Proof.
  intros He. induction rest as [|f rest IH]; intros Hr I; cbn [scan]; [eauto|]. destruct (beyond e f); [eauto|]. destruct (hit e f); cbn [bind]; [|apply IH; intros; apply Hr; right; assumption].
  destruct (meet_done bs it (qid e) (qid f) I He (Hr f (or_introl eq_refl))) as (I1 & ->). cbn [bind]. apply IH. intros. apply Hr. right. assumption.
Qed.
Lemma sweep_done bs it l : (forall f, In f l -> exists x, has_box bs (qid f) x) -> forall I, exists I', sweep bs it l I = Done I'.
Proof.
  induction l as [|e l IH]; intros Hl I; cbn [sweep]; [eauto|]. destruct (scan_done bs it e l (Hl e (or_introl eq_refl)) (fun f H => Hl f (or_intror H)) I) as (I1 & ->). cbn [bind]. apply IH. intros. apply Hl. right. assumption.
Qed.
Lemma action_done srt it bs r I : sorts srt -> bounded bs -> exists r' I', action srt false it bs r I = Done (r', I').
Proof.
  intros Hs Hb. unfold action. destruct (length bs <=? 1); [eauto|]. rewrite (full_rank bs r Hb), initialised_map. destruct (Hs (bounds bs)) as (P & _).
  destruct (sweep_done bs it (srt (bounds bs))) with (I := filter real I) as (I1 & ->); [|cbn [bind]; eauto]. intros f Hf. apply (Permutation_in _ (Permutation_sym P)) in Hf. apply bounds_in in Hf. destruct Hf as (x & Hx & _). eauto.
Qed.
Lemma action_exact srt it bs r I r' I' j : sorts srt -> bounded bs -> proper bs -> action srt false it bs r I = Done (r', I') -> In j I' ->
  (exists i, In i I /\ real i = true /\ ids i = ids j /\ real j = true) \/ (real j = false /\ fst (ids j) <> snd (ids j) /\ overlapping bs (fst (ids j)) (snd (ids j))).
Proof.
  intros Hs Hb Hp H Hj. unfold action in H. destruct (length bs <=? 1); [injection H as <- <-; apply filter_In in Hj; destruct Hj; left; exists j; auto|]. rewrite (full_rank bs r Hb), initialised_map in H. destruct (Hs (bounds bs)) as (P & S).
  destruct (sweep bs it (srt (bounds bs)) (filter real I)) as [I1| |] eqn:Es; cbn [bind] in H; try discriminate. injection H as <- <-. apply sweep_from in Es. destruct (Es j Hj) as [(i & Hi & E & R)|(R & K)].
  - apply filter_In in Hi. destruct Hi as (Hi & Hr). left. exists i. split; [exact Hi|]. split; [exact Hr|]. split; [exact E|congruence].
  - right. split; [exact R|]. apply all_visited_in in K; [|exact S]. destruct K as (e & f & He & Hf & -> & Hn & B & T & L). cbn [fst snd]. split; [exact Hn|].
    apply (Permutation_in _ (Permutation_sym P)) in He. apply (Permutation_in _ (Permutation_sym P)) in Hf. apply bounds_in in He. apply bounds_in in Hf. destruct He as (x & Hx & X1 & X2). destruct Hf as (y & Hy & Y1 & Y2). exists x, y. split; [exact Hx|]. split; [exact Hy|].
    unfold beyond, hit in *. rewrite X1, X2, Y1, Y2 in *. apply Z.ltb_ge in B. rewrite !andb_true_iff, !Z.ltb_lt in T. specialize (Hp _ _ Hy). lia.
Qed.
(** histories *)
Lemma run_app srt s1 : forall s2 st, run srt (s1 ++ s2) st = bind (run srt s1 st) (run srt s2).
Proof. induction s1 as [|[it bs] s1 IH]; intros s2 st; cbn [app run bind]; [reflexivity|]. destruct (action srt false it bs (fst st) (snd st)) as [st1| |]; cbn [bind]; [apply IH|reflexivity|reflexivity]. Qed.
Lemma run_complete srt steps it bs st st' a b : sorts srt -> run srt (steps ++ [(it, bs)]) st = Done st' -> a <> b -> overlapping bs a b -> seen it (snd st') a b.
Proof.
  intros Hs H Hn O. rewrite run_app in H. destruct (run srt steps st) as [st1| |]; cbn [bind] in H; try discriminate. cbn [run] in H. destruct (action srt false it bs (fst st1) (snd st1)) as [[r I]| |] eqn:E; cbn [bind] in H; try discriminate. injection H as <-. eapply action_complete; eassumption.
Qed.
Lemma run_done srt steps : sorts srt -> Forall (fun s => bounded (snd s)) steps -> forall st, exists st', run srt steps st = Done st'.
Proof.
  intros Hs F. induction F as [|[it bs] steps Hb _ IH]; intros st; cbn [run]; [eauto|]. destruct (action_done srt it bs (fst st) (snd st) Hs Hb) as (r & I & ->). cbn [bind]. apply IH.
Qed.
