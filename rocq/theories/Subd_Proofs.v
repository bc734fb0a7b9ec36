From Coq Require Import List Arith ZArith Bool Lia.
From Verif Require Import Subd_Model Subd_Spec.
Import ListNotations.

Ltac sp := repeat match goal with |- _ /\ _ => split end.

Section Proofs.
Context {D X Y : Type} (zero : D).
Notation bodies := (bodies D X Y).
Notation body := (body D X Y).
Notation state := (state D X).

Lemma body_at_nth (w : bodies) id b : nth_error w id = Some (Some b) -> body_at w id = Some b.
Proof. unfold body_at. intros ->. reflexivity. Qed.

Lemma update_length (w : bodies) id b : length (update w id b) = length w.
Proof. revert id. induction w; intros [|id]; cbn; auto. Qed.
Lemma update_same (w : bodies) id b : id < length w -> nth_error (update w id b) id = Some (Some b).
Proof. revert id. induction w; intros [|id] H; cbn in *; try lia; auto. apply IHw. lia. Qed.
Lemma update_other (w : bodies) id b j : j <> id -> nth_error (update w id b) j = nth_error w j.
Proof. revert id j. induction w; intros [|id] [|j] H; cbn; auto; try lia. Qed.

Lemma nth_shift (pre l : list D) i n : length pre = i -> nth_error (pre ++ l) (i + n) = nth_error l n.
Proof. intros <-. rewrite nth_error_app2 by lia. f_equal. lia. Qed.

Lemma read_push (pre rest : list D) i (s : state) (t : state) : length pre = i ->
  read_state (pre ++ push_state s ++ rest) i t = Some (mkState (pos s) (vel s) (angVel s) (ori s) (stRest t)).
Proof.
  intros Hi. unfold read_state, read_vec, read_quat.
  replace (nth_error (pre ++ push_state s ++ rest) i) with (nth_error (pre ++ push_state s ++ rest) (i + 0)) by (f_equal; lia).
  repeat rewrite <- Nat.add_assoc. repeat rewrite (nth_shift _ _ _ _ Hi).
  destruct s as [[? ? ?] [? ? ?] [? ? ?] [? ? ? ?] ?]. reflexivity.
Qed.
Lemma push_state_length (s : state) : length (push_state s) = 13.
Proof. reflexivity. Qed.
Lemma push_bound_length b : length (push_bound zero b) = 6.
Proof. destruct b as [[? ?]|]; reflexivity. Qed.

Lemma read_bound (pre rest : list D) i (s : state) mn mx : length pre = i ->
  read_vec (pre ++ push_state s ++ push_bound zero (Some (mn, mx)) ++ rest) (i + 13) = Some mn /\
  read_vec (pre ++ push_state s ++ push_bound zero (Some (mn, mx)) ++ rest) (i + 16) = Some mx.
Proof.
  intros Hi. unfold read_vec. repeat rewrite <- Nat.add_assoc. repeat rewrite (nth_shift _ _ _ _ Hi).
  destruct s as [[? ? ?] [? ? ?] [? ? ?] [? ? ? ?] ?], mn, mx. split; reflexivity.
Qed.

Lemma get_ok (w : bodies) ids : exist_all w ids ->
  exists m, getStateValuesFromIds w ids = Some m /\ length m = 13 * length ids.
Proof.
  induction ids as [|id ids IH]; intros H.
  - exists []. split; reflexivity.
  - destruct (H id (or_introl eq_refl)) as [b Hb].
    destruct IH as (m & Hm & Hl). { intros j Hj. apply H. right; exact Hj. }
    cbn [getStateValuesFromIds]. rewrite (body_at_nth _ _ _ Hb), Hm. eexists. split; [reflexivity|].
    cbn [length]. rewrite app_length, push_state_length, Hl. lia.
Qed.
Lemma getb_ok (w : bodies) ids : exist_all w ids ->
  exists m, getStateBoundsValuesFromIds zero w ids = Some m /\ length m = 19 * length ids.
Proof.
  induction ids as [|id ids IH]; intros H.
  - exists []. split; reflexivity.
  - destruct (H id (or_introl eq_refl)) as [b Hb].
    destruct IH as (m & Hm & Hl). { intros j Hj. apply H. right; exact Hj. }
    cbn [getStateBoundsValuesFromIds]. rewrite (body_at_nth _ _ _ Hb), Hm. eexists. split; [reflexivity|].
    cbn [length]. rewrite !app_length, push_state_length, push_bound_length, Hl. lia.
Qed.

Lemma nth_lt {A} (l : list A) i x : nth_error l i = Some x -> i < length l.
Proof. intros H. apply nth_error_Some. congruence. Qed.

Lemma set_from_ok (src : bodies) ids : forall k (w : bodies) pre m,
  length pre = k * 13 -> exist_all w ids -> getStateValuesFromIds src ids = Some m ->
  exists w', set_from k w ids (pre ++ m) = Some w' /\ motion_copied src w w' ids.
Proof.
  induction ids as [|id ids IH]; intros k w pre m Hp Hw Hg.
  - exists w. split; [reflexivity|]. split; [reflexivity|split; [reflexivity|intros id []]].
  - cbn [getStateValuesFromIds] in Hg. destruct (body_at src id) as [s|] eqn:Es; [|discriminate].
    destruct (getStateValuesFromIds src ids) as [m'|] eqn:Eg; [|discriminate].
    assert (Em : m = push_state (bstate s) ++ m') by congruence. subst m.
    destruct (Hw id (or_introl eq_refl)) as [b Hb].
    cbn [set_from]. rewrite (body_at_nth _ _ _ Hb).
    rewrite (read_push pre m' (k * 13) (bstate s) (bstate b) Hp).
    set (b1 := mkBody _ _ _). pose (w1 := update w id b1). fold w1.
    assert (Hlt : id < length w) by (apply nth_lt in Hb; exact Hb).
    destruct (IH (S k) w1 (pre ++ push_state (bstate s)) m') as (w' & H1 & H2 & H3 & H4).
    { rewrite app_length, push_state_length, Hp. lia. }
    { intros j Hj. destruct (Nat.eq_dec j id) as [->|Hne].
      - exists b1. unfold w1. apply update_same. exact Hlt.
      - unfold w1. rewrite update_other by exact Hne. apply Hw. right; exact Hj. }
    { reflexivity. }
    rewrite <- app_assoc in H1.
    exists w'. split; [exact H1|]. split; [|split].
    + rewrite H2. unfold w1. apply update_length.
    + intros j Hj. rewrite H3 by (intros ?; apply Hj; right; assumption).
      unfold w1. apply update_other. intros ->. apply Hj. left; reflexivity.
    + assert (Hs : nth_error src id = Some (Some s)).
      { unfold body_at in Es. destruct (nth_error src id) as [[x|]|]; congruence. }
      intros j Hj. destruct (in_dec Nat.eq_dec j ids) as [Hin|Hnin].
      * destruct (H4 j Hin) as (sj & bj & bj' & A1 & A2 & A3 & A4 & A5 & A6).
        destruct (Nat.eq_dec j id) as [->|Hne].
        -- unfold w1 in A2. rewrite (update_same _ _ _ Hlt) in A2. injection A2 as <-.
           exists sj, b, bj'. sp; auto; apply A4.
        -- unfold w1 in A2. rewrite (update_other _ _ _ _ Hne) in A2. exists sj, bj, bj'. sp; auto; try apply A4; apply A5.
      * destruct Hj as [<-|Hj]; [|contradiction].
        exists s, b, b1. sp; auto.
        -- rewrite H3 by exact Hnin. unfold w1. apply update_same. exact Hlt.
        -- unfold same_motion. cbn. auto.
        -- unfold same_rest. cbn. auto.
Qed.

(** C23 *)
Lemma round_trip (src w : bodies) ids : exist_all src ids -> exist_all w ids ->
  exists m w', getStateValuesFromIds src ids = Some m /\ length m = 13 * length ids /\
    setStateValuesFromIds w ids m = Some w' /\ motion_copied src w w' ids.
Proof.
  intros H1 H2. destruct (get_ok _ _ H1) as (m & Hm & Hl).
  destruct (set_from_ok src ids 0 w [] m eq_refl H2 Hm) as (w' & Hs & Hc).
  exists m, w'. sp; auto; apply Hc.
Qed.

Lemma setb_from_ok (src : bodies) ids : forall k (w : bodies) pre m,
  length pre = k * 19 -> exist_all w ids ->
  (forall id s, In id ids -> nth_error src id = Some (Some s) -> bound s <> None) ->
  getStateBoundsValuesFromIds zero src ids = Some m ->
  exists w', setb_from k w ids (pre ++ m) = Some w' /\ motion_bound_copied src w w' ids.
Proof.
  induction ids as [|id ids IH]; intros k w pre m Hp Hw Hbd Hg.
  - exists w. split; [reflexivity|]. split; [reflexivity|split; [reflexivity|intros id []]].
  - cbn [getStateBoundsValuesFromIds] in Hg. destruct (body_at src id) as [s|] eqn:Es; [|discriminate].
    destruct (getStateBoundsValuesFromIds zero src ids) as [m'|] eqn:Eg; [|discriminate].
    assert (Em : m = push_state (bstate s) ++ push_bound zero (bound s) ++ m') by congruence. subst m.
    assert (Hs : nth_error src id = Some (Some s)).
    { unfold body_at in Es. destruct (nth_error src id) as [[x|]|]; congruence. }
    destruct (bound s) as [[mn mx]|] eqn:Ebd; [|exfalso; eapply Hbd; [left; reflexivity|exact Hs|exact Ebd]].
    destruct (Hw id (or_introl eq_refl)) as [b Hb].
    cbn [setb_from]. rewrite (body_at_nth _ _ _ Hb).
    rewrite (read_push pre (push_bound zero (Some (mn, mx)) ++ m') (k * 19) (bstate s) (bstate b) Hp).
    destruct (read_bound pre m' (k * 19) (bstate s) mn mx Hp) as [-> ->].
    set (b1 := mkBody _ _ _). pose (w1 := update w id b1). fold w1.
    assert (Hlt : id < length w) by (apply nth_lt in Hb; exact Hb).
    destruct (IH (S k) w1 (pre ++ push_state (bstate s) ++ push_bound zero (Some (mn, mx))) m') as (w' & H1 & H2 & H3 & H4).
    { rewrite !app_length, push_state_length, push_bound_length, Hp. lia. }
    { intros j Hj. destruct (Nat.eq_dec j id) as [->|Hne].
      - exists b1. unfold w1. apply update_same. exact Hlt.
      - unfold w1. rewrite update_other by exact Hne. apply Hw. right; exact Hj. }
    { intros j t Hj. apply Hbd. right; exact Hj. }
    { reflexivity. }
    rewrite <- !app_assoc in H1.
    exists w'. split; [exact H1|]. split; [|split].
    + rewrite H2. unfold w1. apply update_length.
    + intros j Hj. rewrite H3 by (intros ?; apply Hj; right; assumption).
      unfold w1. apply update_other. intros ->. apply Hj. left; reflexivity.
    + intros j Hj. destruct (in_dec Nat.eq_dec j ids) as [Hin|Hnin].
      * destruct (H4 j Hin) as (sj & bj & bj' & A1 & A2 & A3 & A4 & A5 & A6).
        destruct (Nat.eq_dec j id) as [->|Hne].
        -- unfold w1 in A2. rewrite (update_same _ _ _ Hlt) in A2. injection A2 as <-.
           exists sj, b, bj'. sp; auto; apply A4.
        -- unfold w1 in A2. rewrite (update_other _ _ _ _ Hne) in A2. exists sj, bj, bj'. sp; auto; try apply A4; apply A5.
      * destruct Hj as [<-|Hj]; [|contradiction].
        exists s, b, b1. sp; auto.
        -- rewrite H3 by exact Hnin. unfold w1. apply update_same. exact Hlt.
        -- unfold same_motion. cbn. auto.
        -- unfold same_rest. cbn. auto.
Qed.

Lemma round_trip_bounds (src w : bodies) ids : exist_all src ids -> exist_all w ids ->
  (forall id s, In id ids -> nth_error src id = Some (Some s) -> bound s <> None) ->
  exists m w', getStateBoundsValuesFromIds zero src ids = Some m /\ length m = 19 * length ids /\
    setStateBoundsValuesFromIds w ids m = Some w' /\ motion_bound_copied src w w' ids.
Proof.
  intros H1 H2 H3. destruct (getb_ok _ _ H1) as (m & Hm & Hl).
  destruct (setb_from_ok src ids 0 w [] m eq_refl H2 H3 Hm) as (w' & Hs & Hc).
  exists m, w'. sp; auto; apply Hc.
Qed.

(** a message that is too short is read beyond its end *)
Lemma set_from_short ids : forall k (w : bodies) m, length m < (k + length ids) * 13 -> ids <> [] ->
  set_from k w ids m = None.
Proof.
  induction ids as [|id ids IH]; intros k w m H Hne; [congruence|].
  cbn [set_from]. destruct (body_at w id) as [b|]; [|reflexivity].
  destruct ids as [|id2 ids].
  - cbn [length] in H.
    assert (E : read_quat m (k * 13 + 9) = None).
    { unfold read_quat. replace (nth_error m (k * 13 + 9 + 3)) with (@None D); [reflexivity|].
      symmetry. apply nth_error_None. lia. }
    unfold read_state. rewrite E.
    destruct (read_vec m (k * 13)), (read_vec m (k * 13 + 3)), (read_vec m (k * 13 + 6)); reflexivity.
  - destruct (read_state m (k * 13) (bstate b)) as [s|]; [|reflexivity].
    apply IH; [|discriminate]. cbn [length] in *. lia.
Qed.
Lemma short_message (w : bodies) ids m : length m < 13 * length ids ->
  setStateValuesFromIds w ids m = None.
Proof.
  intros H. apply set_from_short; [lia|]. intros ->. cbn in H. lia.
Qed.
(** extra numbers at the end of a message are ignored *)
Lemma set_from_long ids : forall k (w : bodies) m extra w',
  set_from k w ids m = Some w' -> set_from k w ids (m ++ extra) = Some w'.
Proof.
  assert (Hn : forall (m extra : list D) i d, nth_error m i = Some d -> nth_error (m ++ extra) i = Some d).
  { intros m extra i d H. rewrite nth_error_app1; [exact H|]. apply nth_error_Some. congruence. }
  assert (Hv : forall (m extra : list D) i v, read_vec m i = Some v -> read_vec (m ++ extra) i = Some v).
  { unfold read_vec. intros m extra i v H.
    destruct (nth_error m i) eqn:A, (nth_error m (i + 1)) eqn:B, (nth_error m (i + 2)) eqn:C; try discriminate.
    rewrite (Hn _ _ _ _ A), (Hn _ _ _ _ B), (Hn _ _ _ _ C). exact H. }
  assert (Hq : forall (m extra : list D) i v, read_quat m i = Some v -> read_quat (m ++ extra) i = Some v).
  { unfold read_quat. intros m extra i v H.
    destruct (nth_error m (i + 3)) eqn:E, (nth_error m i) eqn:A, (nth_error m (i + 1)) eqn:B, (nth_error m (i + 2)) eqn:C; try discriminate.
    rewrite (Hn _ _ _ _ E), (Hn _ _ _ _ A), (Hn _ _ _ _ B), (Hn _ _ _ _ C). exact H. }
  induction ids as [|id ids IH]; intros k w m extra w' H; [exact H|].
  cbn [set_from] in *. destruct (body_at w id) as [b|]; [|discriminate].
  destruct (read_state m (k * 13) (bstate b)) as [s|] eqn:E; [|discriminate].
  assert (E' : read_state (m ++ extra) (k * 13) (bstate b) = Some s).
  { unfold read_state in *.
    destruct (read_vec m (k * 13)) eqn:E1; [|discriminate].
    destruct (read_vec m (k * 13 + 3)) eqn:E2; [|discriminate].
    destruct (read_vec m (k * 13 + 6)) eqn:E3; [|discriminate].
    destruct (read_quat m (k * 13 + 9)) eqn:E4; [|discriminate].
    rewrite (Hv _ _ _ _ E1), (Hv _ _ _ _ E2), (Hv _ _ _ _ E3), (Hq _ _ _ _ E4). exact E. }
  rewrite E'. apply IH. exact H.
Qed.
Lemma long_message (w : bodies) ids m extra w' :
  setStateValuesFromIds w ids m = Some w' -> setStateValuesFromIds w ids (m ++ extra) = Some w'.
Proof. apply set_from_long. Qed.

End Proofs.

(** ** box of a subdomain *)
Lemma ext_le_refl a : ext_le a a = true.
Proof. destruct a; cbn; auto. apply Z.leb_refl. Qed.
Lemma ext_le_trans a b c : ext_le a b = true -> ext_le b c = true -> ext_le a c = true.
Proof. destruct a, b, c; cbn; try congruence; auto. rewrite !Z.leb_le. lia. Qed.
Lemma ext_le_total a b : ext_le a b = false -> ext_le b a = true.
Proof. destruct a, b; cbn; try congruence; auto. rewrite Z.leb_gt, Z.leb_le. lia. Qed.
Lemma ext_max_l a b : ext_le a (ext_max a b) = true.
Proof. unfold ext_max. destruct (ext_le a b) eqn:E; auto using ext_le_refl. Qed.
Lemma ext_max_r a b : ext_le b (ext_max a b) = true.
Proof. unfold ext_max. destruct (ext_le a b) eqn:E; auto using ext_le_refl, ext_le_total. Qed.
Lemma ext_min_l a b : ext_le (ext_min a b) a = true.
Proof. unfold ext_min. destruct (ext_le a b) eqn:E; auto using ext_le_refl, ext_le_total. Qed.
Lemma ext_min_r a b : ext_le (ext_min a b) b = true.
Proof. unfold ext_min. destruct (ext_le a b) eqn:E; auto using ext_le_refl, ext_le_total. Qed.
Lemma ext_max_lub a b c : ext_le a c = true -> ext_le b c = true -> ext_le (ext_max a b) c = true.
Proof. unfold ext_max. destruct (ext_le a b); auto. Qed.
Lemma ext_min_glb a b c : ext_le c a = true -> ext_le c b = true -> ext_le c (ext_min a b) = true.
Proof. unfold ext_min. destruct (ext_le a b); auto. Qed.

Section Box.
Context {X Y : Type}.
Notation bodies := (bodies ext X Y).
Definition mmstep (w : bodies) := fun (mm : vec ext * vec ext) (id : nat) =>
      match body_at w id with
      | Some b => match bound b with
                  | Some (mn, mx) => (cwise ext_min (fst mm) mn, cwise ext_max (snd mm) mx)
                  | None => mm end
      | None => mm
      end.
Lemma vle_trans a b c : vle a b -> vle b c -> vle a c.
Proof. intros (?&?&?) (?&?&?). unfold vle. sp; eapply ext_le_trans; eassumption. Qed.
Lemma vle_refl a : vle a a.
Proof. unfold vle. sp; apply ext_le_refl. Qed.
Lemma inside_trans a b c : inside a b -> inside b c -> inside a c.
Proof. intros [? ?] [? ?]. split; eapply vle_trans; eassumption. Qed.
Lemma mmstep_grows w mm id : inside mm (mmstep w mm id).
Proof.
  unfold mmstep. destruct (body_at w id) as [b|]; [|split; apply vle_refl].
  destruct (bound b) as [[mn mx]|]; [|split; apply vle_refl].
  split; unfold vle; cbn; sp; auto using ext_min_l, ext_max_l.
Qed.
Lemma mm_grows w ids : forall mm, inside mm (fold_left (mmstep w) ids mm).
Proof.
  induction ids as [|id ids IH]; intros mm; [split; apply vle_refl|].
  cbn. eapply inside_trans; [apply mmstep_grows|apply IH].
Qed.
Lemma mm_contains w ids : forall mm id b bx, In id ids -> nth_error w id = Some (Some b) -> bound b = Some bx ->
  inside bx (fold_left (mmstep w) ids mm).
Proof.
  induction ids as [|x ids IH]; intros mm id b bx Hin Hb Hbx; [destruct Hin|].
  cbn. destruct Hin as [->|Hin]; [|eapply IH; eassumption].
  eapply inside_trans; [|apply mm_grows].
  unfold mmstep. rewrite (body_at_nth _ _ _ Hb), Hbx. destruct bx as [mn mx].
  split; unfold vle; cbn; sp; auto using ext_min_r, ext_max_r.
Qed.
Lemma mm_least w ids : forall mm big, inside mm big ->
  (forall id b bx, In id ids -> nth_error w id = Some (Some b) -> bound b = Some bx -> inside bx big) ->
  inside (fold_left (mmstep w) ids mm) big.
Proof.
  induction ids as [|x ids IH]; intros mm big H0 H; [exact H0|].
  cbn. apply IH; [|intros; eapply H; [right; eassumption|eassumption|eassumption]].
  unfold mmstep. destruct (body_at w x) as [b|] eqn:Eb; [|exact H0].
  destruct (bound b) as [[mn mx]|] eqn:Ebd; [|exact H0].
  assert (Hb : nth_error w x = Some (Some b)).
  { unfold body_at in Eb. destruct (nth_error w x) as [[y|]|]; congruence. }
  destruct (H x b (mn, mx) (or_introl eq_refl) Hb Ebd) as [(?&?&?) (?&?&?)].
  destruct H0 as [(?&?&?) (?&?&?)].
  split; unfold vle; cbn in *; sp; auto using ext_min_glb, ext_max_lub.
Qed.

Lemma box_contains (w : bodies) ids id b bx :
  In id ids -> nth_error w id = Some (Some b) -> bound b = Some bx -> inside bx (setMinMax w ids).
Proof. apply mm_contains. Qed.
Lemma box_least (w : bodies) ids big :
  (forall id b bx, In id ids -> nth_error w id = Some (Some b) -> bound b = Some bx -> inside bx big) ->
  inside (setMinMax w ids) big.
Proof.
  apply mm_least. split; unfold vle; cbn; sp; auto; destruct big as [[a b c] [d e f]]; cbn;
    repeat match goal with |- ext_le ?x PInf = true => destruct x; reflexivity | |- ext_le MInf _ = true => reflexivity end.
Qed.
Lemma vle_antisym a b : vle a b -> vle b a -> a = b.
Proof.
  assert (E : forall x y, ext_le x y = true -> ext_le y x = true -> x = y).
  { intros [|x|] [|y|]; cbn; try congruence. rewrite !Z.leb_le. intros. f_equal. lia. }
  destruct a, b. intros (?&?&?) (?&?&?). cbn in *. f_equal; apply E; assumption.
Qed.
Lemma box_order_free (w : bodies) ids ids' : (forall id, In id ids <-> In id ids') -> setMinMax w ids = setMinMax w ids'.
Proof.
  intros H.
  assert (A : inside (setMinMax w ids) (setMinMax w ids')).
  { apply box_least. intros id b bx Hin. apply box_contains. apply H. exact Hin. }
  assert (B : inside (setMinMax w ids') (setMinMax w ids)).
  { apply box_least. intros id b bx Hin. apply box_contains. apply H. exact Hin. }
  destruct A as [A1 A2], B as [B1 B2]. destruct (setMinMax w ids), (setMinMax w ids'). cbn in *.
  f_equal; apply vle_antisym; assumption.
Qed.
End Box.
