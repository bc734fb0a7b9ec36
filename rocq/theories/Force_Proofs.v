From Coq Require Import List Arith Bool ZArith Lia.
From Verif Require Import Force_Model Force_Spec.
Import ListNotations.
Ltac sp := repeat match goal with |- _ /\ _ => split end.

(** * Vectors *)
Lemma vresize_length {A} n (x : A) l : length (vresize n x l) = n.
Proof. unfold vresize. rewrite app_length, firstn_length, repeat_length. lia. Qed.

Lemma nth_repeat_same {A} (x : A) n i : nth i (repeat x n) x = x.
Proof. revert i; induction n as [|n IH]; intros [|i]; simpl; auto. Qed.

Lemma nth_vresize {A} n (x : A) l i :
  nth i (vresize n x l) x = if i <? n then nth i l x else x.
Proof.
  unfold vresize. destruct (Nat.ltb_spec i n) as [H|H].
  - destruct (Nat.lt_ge_cases i (length l)) as [Hl|Hl].
    + rewrite app_nth1 by (rewrite firstn_length; lia).
      rewrite <- (firstn_skipn n l) at 2.
      rewrite app_nth1 by (rewrite firstn_length; lia). reflexivity.
    + rewrite app_nth2 by (rewrite firstn_length; lia).
      rewrite nth_repeat_same. rewrite nth_overflow by lia. reflexivity.
  - rewrite nth_overflow; [reflexivity|].
    rewrite app_length, firstn_length, repeat_length. lia.
Qed.

Lemma upd_length {A} i (f : A -> A) l : length (upd i f l) = length l.
Proof. revert i; induction l as [|x l IH]; intros [|i]; simpl; auto. Qed.

Lemma nth_upd {A} i (f : A -> A) l j d :
  i < length l -> nth j (upd i f l) d = if j =? i then f (nth j l d) else nth j l d.
Proof.
  revert i j; induction l as [|x l IH]; intros [|i] [|j] H; simpl in *; try lia; auto.
  apply IH; lia.
Qed.

Lemma nth_error_upd {A} i (f : A -> A) l j :
  nth_error (upd i f l) j = if j =? i then option_map f (nth_error l j) else nth_error l j.
Proof.
  revert i j; induction l as [|x l IH]; intros [|i] [|j]; simpl; auto.
  - destruct (j =? i); reflexivity.
Qed.

Lemma nth_error_nth_lt {A} (l : list A) i d : i < length l -> nth_error l i = Some (nth i l d).
Proof. revert i; induction l as [|x l IH]; intros [|i] H; simpl in *; try lia; auto. apply IH; lia. Qed.

Lemma Forall_nth_lt {A} (P : A -> Prop) l d i : Forall P l -> i < length l -> P (nth i l d).
Proof. intros HF Hi. rewrite Forall_forall in HF. apply HF, nth_In, Hi. Qed.

Lemma Forall_of_nth {A} (P : A -> Prop) l d : (forall i, i < length l -> P (nth i l d)) -> Forall P l.
Proof.
  intros H. apply Forall_forall. intros x Hx. destruct (In_nth _ _ d Hx) as (i & Hi & <-). auto.
Qed.

Section P.
Context {V : Type} (v0 : V) (vadd : V -> V -> V).
Hypothesis H00 : vadd v0 v0 = v0.
Notation cell0 := (cell0 v0).
Notation thread_sum := (thread_sum v0 vadd).
Notation grand := (grand v0 vadd).
Notation run := (run v0 vadd).
Notation step := (step v0 vadd).
Notation perm_actual := (perm_actual v0).
Notation reading := (reading v0 vadd).

(** * History functions on snoc *)
Lemma since_reset_snoc h (o : op V) :
  since_reset (h ++ [o]) = if is_reset o then [] else since_reset h ++ [o].
Proof. unfold since_reset. rewrite fold_left_app. reflexivity. Qed.

Lemma values_snoc t id c h (o : op V) :
  values t id c (h ++ [o]) =
  if is_reset o then [] else
  values t id c h ++
    match o with OAdd t' id' c' v => if (t' =? t) && (id' =? id) && chan_eqb c' c then [v] else [] | _ => [] end.
Proof.
  unfold values. rewrite since_reset_snoc. destruct (is_reset o); [reflexivity|].
  rewrite flat_map_app. simpl. rewrite app_nil_r. reflexivity.
Qed.

Lemma thread_sum_snoc t id c h (o : op V) :
  thread_sum t id c (h ++ [o]) =
  if is_reset o then v0 else
  match o with
  | OAdd t' id' c' v => if (t' =? t) && (id' =? id) && chan_eqb c' c
                        then vadd (thread_sum t id c h) v else thread_sum t id c h
  | _ => thread_sum t id c h end.
Proof.
  unfold Force_Spec.thread_sum. rewrite values_snoc. destruct (is_reset o) eqn:E; [reflexivity|].
  rewrite fold_left_app. destruct o; try reflexivity.
  destruct ((t0 =? t) && (id0 =? id) && chan_eqb c0 c); reflexivity.
Qed.

Lemma perm_actual_snoc h (o : op V) :
  perm_actual (h ++ [o]) = perm_actual_step v0 (perm_actual h) o.
Proof. unfold Force_Spec.perm_actual. rewrite fold_left_app. reflexivity. Qed.

Lemma perm_used_snoc h (o : op V) :
  perm_used (h ++ [o]) =
  match o with OSetPerm _ _ _ _ => true | OReset _ true => false | _ => perm_used h end.
Proof. unfold perm_used. rewrite fold_left_app. reflexivity. Qed.

Lemma dirty_state h : fold_left dirty_step h (false, false) = (dirty h, perm_used (V:=V) h).
Proof.
  induction h as [|o h IH] using rev_ind; [reflexivity|].
  unfold dirty. rewrite fold_left_app. simpl. rewrite IH, perm_used_snoc.
  destruct o as [ | | | |it [|]]; reflexivity.
Qed.

Lemma dirty_snoc h (o : op V) :
  dirty (h ++ [o]) = fst (dirty_step (dirty h, perm_used h) o).
Proof. unfold dirty at 1. rewrite fold_left_app, dirty_state. reflexivity. Qed.

(** * Invariant *)
Definition mr_used (h : list (op V)) : bool :=
  existsb (fun o => match o with OAdd _ _ (ChM|ChR) _ => true | _ => false end) (since_reset h).

Lemma mr_used_snoc h (o : op V) :
  mr_used (h ++ [o]) =
  if is_reset o then false
  else mr_used h || match o with OAdd _ _ (ChM|ChR) _ => true | _ => false end.
Proof.
  unfold mr_used. rewrite since_reset_snoc. destruct (is_reset o); [reflexivity|].
  rewrite existsb_app. simpl. rewrite orb_false_r. reflexivity.
Qed.

Definition mrc (c : chan) : Prop := c = ChM \/ c = ChR.

Lemma mr_unused_values h t id c : mr_used h = false -> mrc c -> values t id c h = [].
Proof.
  unfold mr_used, values. intros H Hc.
  induction (since_reset h) as [|o l IH]; [reflexivity|].
  simpl in *. apply orb_false_iff in H as [Ho Hl]. rewrite (IH Hl), app_nil_r.
  destruct o as [t' id' c' v | | | |]; try reflexivity.
  destruct c'; try discriminate; destruct Hc as [-> | ->];
    rewrite ?andb_false_r; reflexivity.
Qed.

Record Inv (n : nat) (h : list (op V)) (s : fc V) : Prop := {
  i_data : length (data s) = n;
  i_maxId : length (maxId s) = n;
  i_szT : szT s = map (@length _) (data s);
  i_le : Forall (fun d => length d <= size s) (data s);
  i_sums_le : length (sums s) <= size s;
  i_perm_le : length (perm s) <= size s;
  i_ss : syncedSizes s = true ->
         Forall (fun d => length d = size s) (data s) /\ length (sums s) = size s /\ length (perm s) = size s;
  i_sy : synced s = true -> syncedSizes s = true;
  i_content : forall t id c, t < n -> cget c (nth id (nth t (data s) []) cell0) = thread_sum t id c h;
  i_perm : forall id, nth id (perm s) (v0, v0) = perm_actual h id;
  i_pu : permUsed s = perm_used h;
  i_mr : moveRotUsed s = mr_used h;
  i_mrz : moveRotUsed s = false -> forall id c, mrc c -> cget c (nth id (sums s) cell0) = v0;
  i_dirty : synced s = negb (dirty h);
  i_sums : synced s = true -> forall id c, cget c (nth id (sums s) cell0) = reading (perm_actual h) n id c h
}.

Lemma cget_cell0 c : cget c cell0 = v0.
Proof. destruct c; reflexivity. Qed.

Lemma grand_v0 n id c h : (forall t, t < n -> thread_sum t id c h = v0) -> grand n id c h = v0.
Proof.
  intros H. unfold Force_Spec.grand.
  assert (G : forall l, Forall (fun t => t < n) l ->
            fold_left (fun a t => vadd a (thread_sum t id c h)) l v0 = v0).
  { induction l as [|t l IH]; intros HF; [reflexivity|]. inversion HF; subst.
    simpl. rewrite H by assumption. rewrite H00. apply IH; assumption. }
  apply G. apply Forall_forall. intros x Hx. apply in_seq in Hx. lia.
Qed.

Lemma grand_snoc_same n id c h (o : op V) :
  match o with OAdd _ _ _ _ | OReset _ _ => False | _ => True end ->
  grand n id c (h ++ [o]) = grand n id c h.
Proof.
  intros H. unfold Force_Spec.grand.
  assert (G : forall l a, fold_left (fun a t => vadd a (thread_sum t id c (h ++ [o]))) l a
                        = fold_left (fun a t => vadd a (thread_sum t id c h)) l a).
  { induction l as [|t l IH]; intros a; [reflexivity|]. simpl.
    rewrite IH, thread_sum_snoc. destruct o; simpl; try contradiction; reflexivity. }
  apply G.
Qed.

Lemma init_inv n : Inv n [] (init n).
Proof.
  unfold init; constructor; simpl; try rewrite repeat_length; auto.
  - induction n as [|n IH]; simpl; [reflexivity|congruence].
  - apply Forall_forall. intros x Hx. apply repeat_spec in Hx. subst. simpl. lia.
  - intros _. sp; auto. apply Forall_forall. intros x Hx. apply repeat_spec in Hx. subst; reflexivity.
  - intros t id c Ht. rewrite (nth_repeat_same (@nil (cell V))).
    destruct id; simpl; apply cget_cell0.
  - intros id. destruct id; reflexivity.
  - intros _ id c _. destruct id; apply cget_cell0.
  - intros _ id c.
    assert (E : grand n id c [] = v0) by (apply grand_v0; reflexivity).
    destruct id, c; simpl; auto.
Qed.

(** ** resizing keeps the invariant *)
Lemma nth_map_length t (dl : list (list (cell V))) :
  nth_error (map (@length _) dl) t = option_map (@length _) (nth_error dl t).
Proof. apply nth_error_map. Qed.

Lemma map_length_upd t f k (dl : list (list (cell V))) :
  (forall d, length (f d) = k) -> map (@length _) (upd t f dl) = upd t (fun _ => k) (map (@length _) dl).
Proof.
  intros Hf. revert t; induction dl as [|d dl IH]; intros [|t]; simpl; auto.
  - rewrite Hf; reflexivity.
  - rewrite IH; reflexivity.
Qed.

Lemma nth_upd_data t f (dl : list (list (cell V))) j :
  t < length dl -> nth j (upd t f dl) [] = if j =? t then f (nth j dl []) else nth j dl [].
Proof. apply nth_upd. Qed.

Lemma set_maxId_inv n h s t x : Inv n h s -> Inv n h (set_maxId t x s).
Proof. intros I; destruct I; unfold set_maxId; constructor; simpl; auto. rewrite upd_length; assumption. Qed.

(** The part of the invariant that does not depend on [synced]. *)
Record InvW (n : nat) (h : list (op V)) (s : fc V) : Prop := {
  w_data : length (data s) = n;
  w_maxId : length (maxId s) = n;
  w_szT : szT s = map (@length _) (data s);
  w_le : Forall (fun d => length d <= size s) (data s);
  w_sums_le : length (sums s) <= size s;
  w_perm_le : length (perm s) <= size s;
  w_ss : syncedSizes s = true ->
         Forall (fun d => length d = size s) (data s) /\ length (sums s) = size s /\ length (perm s) = size s;
  w_content : forall t id c, t < n -> cget c (nth id (nth t (data s) []) cell0) = thread_sum t id c h;
  w_perm : forall id, nth id (perm s) (v0, v0) = perm_actual h id;
  w_pu : permUsed s = perm_used h;
  w_mr : moveRotUsed s = mr_used h;
  w_mrz : moveRotUsed s = false -> forall id c, mrc c -> cget c (nth id (sums s) cell0) = v0
}.

Lemma Inv_W n h s : Inv n h s -> InvW n h s.
Proof. intros []; constructor; auto. Qed.

Lemma resize_W n h s t k :
  InvW n h s -> t < n -> length (nth t (data s) []) <= k -> InvW n h (resize v0 k t s).
Proof.
  intros I Ht Hk. destruct I. unfold resize. constructor; simpl; auto.
  - rewrite upd_length; assumption.
  - rewrite w_szT0. symmetry. apply map_length_upd. intros; apply vresize_length.
  - apply Forall_of_nth with (d := []). rewrite upd_length. intros j Hj.
    rewrite nth_upd_data by lia.
    pose proof (Forall_nth_lt _ _ [] j w_le0 Hj) as Hle. simpl in Hle.
    destruct (Nat.eqb_spec j t); [rewrite vresize_length|]; destruct (Nat.ltb_spec (size s) k); lia.
  - destruct (Nat.ltb_spec (size s) k); lia.
  - destruct (Nat.ltb_spec (size s) k); lia.
  - discriminate.
  - intros t' id c Ht'. rewrite nth_upd_data by lia.
    destruct (Nat.eqb_spec t' t) as [->|]; [|apply w_content0; assumption].
    rewrite nth_vresize. destruct (Nat.ltb_spec id k); [apply w_content0; assumption|].
    rewrite <- w_content0 by assumption. rewrite (nth_overflow (nth t (data s) [])) by lia. reflexivity.
Qed.

Lemma set_maxId_W n h s t x : InvW n h s -> InvW n h (set_maxId t x s).
Proof. intros I; destruct I; unfold set_maxId; constructor; simpl; auto. rewrite upd_length; assumption. Qed.

Lemma newSize_eq m : newSize m = m + 100.
Proof. unfold newSize. lia. Qed.

Lemma szT_nth n h s t : InvW n h s -> t < n -> nth_error (szT s) t = Some (length (nth t (data s) [])).
Proof.
  intros I Ht. destruct I. rewrite w_szT0, nth_error_map.
  rewrite (nth_error_nth_lt (data s) t []) by lia. reflexivity.
Qed.

Lemma ensureSize_W n h s id t :
  InvW n h s -> t < n ->
  exists s', ensureSize v0 id t s = Val s' /\ InvW n h s' /\ id < length (nth t (data s') []) /\
             maxId s' = upd t (fun _ => 0) (maxId s) /\
             length (maxId s') = length (maxId s).
Proof.
  intros I Ht. unfold ensureSize.
  pose proof (szT_nth _ _ _ _ I Ht) as Hsz. rewrite Hsz.
  rewrite (nth_error_nth_lt (maxId s) t 0) by (rewrite (w_maxId _ _ _ I); assumption).
  set (m := Nat.max id (nth t (maxId s) 0)).
  destruct (Nat.leb_spec (length (nth t (data s) [])) m) as [Hle|Hgt].
  - eexists; split; [reflexivity|].
    split; [|split; [|split]].
    + apply resize_W; auto.
      * apply set_maxId_W; assumption.
      * simpl. rewrite newSize_eq. lia.
    + simpl. rewrite nth_upd_data by (rewrite (w_data _ _ _ I); assumption).
      rewrite Nat.eqb_refl, vresize_length, newSize_eq. lia.
    + reflexivity.
    + simpl; apply upd_length.
  - eexists; split; [reflexivity|]. split; [|split; [|split]].
    + apply set_maxId_W; assumption.
    + simpl. lia.
    + reflexivity.
    + simpl; apply upd_length.
Qed.

(** ** addition *)
Lemma chan_eqb_eq a b : chan_eqb a b = true <-> a = b.
Proof. destruct a, b; simpl; split; intros; congruence. Qed.

Lemma cget_cadd c c' v x :
  cget c (cadd vadd c' v x) = if chan_eqb c' c then vadd (cget c x) v else cget c x.
Proof. destruct c, c'; reflexivity. Qed.

Lemma add_inv n h s t id c v :
  InvW n h s -> t < n ->
  exists s', add v0 vadd t id c v s = Val s' /\ Inv n (h ++ [OAdd t id c v]) s'.
Proof.
  intros I Ht. unfold add.
  destruct (ensureSize_W _ _ _ id _ I Ht) as (s1 & E & I1 & Hid & _ & _). rewrite E.
  rewrite (nth_error_nth_lt (data s1) t []) by (rewrite (w_data _ _ _ I1); assumption).
  apply Nat.ltb_lt in Hid as Hid'. rewrite Hid'.
  eexists; split; [reflexivity|]. destruct I1. constructor; simpl; auto.
  - rewrite upd_length; assumption.
  - rewrite w_szT0. clear - Ht w_data0. revert t Ht. rewrite <- w_data0. clear.
    induction (data s1) as [|d dl IH]; intros [|t] Ht; simpl in *; try lia; auto.
    + rewrite upd_length; reflexivity.
    + rewrite <- IH by lia; reflexivity.
  - apply Forall_of_nth with (d := []). rewrite upd_length. intros j Hj.
    rewrite nth_upd_data by lia. pose proof (Forall_nth_lt _ _ [] j w_le0 Hj) as Hle. simpl in Hle.
    destruct (j =? t); rewrite ?upd_length; assumption.
  - intros Hss. destruct (w_ss0 Hss) as (HF & H2 & H3). split; auto.
    apply Forall_of_nth with (d := []). rewrite upd_length. intros j Hj.
    rewrite nth_upd_data by lia. pose proof (Forall_nth_lt _ _ [] j HF Hj) as Hle. simpl in Hle.
    destruct (j =? t); rewrite ?upd_length; assumption.
  - congruence.
  - intros t' id' c' Ht'. rewrite thread_sum_snoc. simpl.
    rewrite nth_upd_data by lia.
    rewrite (Nat.eqb_sym t' t).
    destruct (Nat.eqb_spec t t') as [<-|Hne]; simpl; [|apply w_content0; assumption].
    rewrite nth_upd by assumption.
    rewrite (Nat.eqb_sym id' id).
    destruct (Nat.eqb_spec id id') as [<-|]; simpl; [|apply w_content0; assumption].
    rewrite cget_cadd. destruct (chan_eqb c c'); rewrite w_content0 by assumption; reflexivity.
  - intros id'. rewrite perm_actual_snoc. simpl. apply w_perm0.
  - rewrite perm_used_snoc; assumption.
  - rewrite mr_used_snoc, w_mr0. simpl. destruct c; rewrite ?orb_false_r, ?orb_true_r; reflexivity.
  - intros Hm id' c' Hc'. apply w_mrz0; auto. destruct c; congruence.
  - rewrite dirty_snoc. reflexivity.
  - discriminate.
Qed.

Lemma same_snoc_W n h s (o : op V) :
  match o with OMaxId _ _ | OSync => True | _ => False end -> InvW n h s -> InvW n (h ++ [o]) s.
Proof.
  intros Ho []. constructor; auto.
  - intros t id c Ht. rewrite thread_sum_snoc.
    destruct o; simpl; try contradiction; apply w_content0; assumption.
  - intros id. rewrite perm_actual_snoc. destruct o; simpl; try contradiction; apply w_perm0.
  - rewrite perm_used_snoc. destruct o; try contradiction; assumption.
  - rewrite mr_used_snoc. destruct o; simpl; try contradiction; rewrite orb_false_r; assumption.
Qed.

Lemma reading_same n id c h (o : op V) :
  match o with OMaxId _ _ | OSync => True | _ => False end ->
  reading (perm_actual (h ++ [o])) n id c (h ++ [o]) = reading (perm_actual h) n id c h.
Proof.
  intros Ho. unfold Force_Spec.reading. rewrite perm_used_snoc, perm_actual_snoc.
  rewrite grand_snoc_same by (destruct o; tauto).
  destruct o; try contradiction; reflexivity.
Qed.

Lemma maxId_inv n h s t id :
  Inv n h s -> t < n ->
  exists s', addMaxId t id s = Val s' /\ Inv n (h ++ [OMaxId t id]) s'.
Proof.
  intros I Ht. unfold addMaxId. rewrite (i_maxId _ _ _ I). apply Nat.ltb_lt in Ht. rewrite Ht.
  eexists; split; [reflexivity|]. pose proof (same_snoc_W n h s (OMaxId t id) Logic.I (Inv_W _ _ _ I)) as W.
  destruct I, W. constructor; simpl; auto.
  - rewrite upd_length; assumption.
  - rewrite dirty_snoc; assumption.
  - intros Hs id' c. rewrite reading_same by exact Logic.I. auto.
Qed.

(** ** permanent values *)
Lemma setPerm_inv n h s g id isF v :
  InvW n h s ->
  exists s', setPerm v0 g id isF v s = Val s' /\ Inv n (h ++ [OSetPerm g id isF v]) s'.
Proof.
  intros I. unfold setPerm, ensureSizePerm, resizePerm. simpl.
  rewrite vresize_length, newSize_eq.
  set (k := Nat.max id g + 100).
  assert (Hk : id <? k = true) by (apply Nat.ltb_lt; unfold k; lia). rewrite Hk.
  eexists; split; [reflexivity|]. destruct I. constructor; simpl; auto.
  - eapply Forall_impl; [|exact w_le0]. simpl. intros d Hd. destruct (Nat.ltb_spec (size s) k); lia.
  - destruct (Nat.ltb_spec (size s) k); lia.
  - rewrite upd_length, vresize_length. destruct (Nat.ltb_spec (size s) k); lia.
  - discriminate.
  - intros t' id' c Ht'. rewrite thread_sum_snoc. simpl. apply w_content0; assumption.
  - intros id'. rewrite perm_actual_snoc. simpl.
    rewrite nth_upd by (rewrite vresize_length; unfold k; lia).
    rewrite nth_vresize. fold k.
    destruct (Nat.eqb_spec id' id) as [->|].
    + rewrite Hk, w_perm0. reflexivity.
    + rewrite w_perm0; reflexivity.
  - rewrite perm_used_snoc; reflexivity.
  - rewrite mr_used_snoc. simpl. rewrite orb_false_r; assumption.
  - rewrite dirty_snoc; reflexivity.
  - discriminate.
Qed.

(** ** size synchronisation *)
Definition sizesOK (s : fc V) : Prop :=
  Forall (fun d => length d = size s) (data s) /\ length (sums s) = size s /\ length (perm s) = size s.

Lemma syncSizes_fold n h l s :
  Forall (fun i => i < n) l -> InvW n h s ->
  let s1 := fold_left (fun s i => if nth i (szT s) (size s) <? size s then resize v0 (size s) i s else s) l s in
  InvW n h s1 /\ size s1 = size s /\ maxId s1 = maxId s /\ synced s1 = synced s /\ sums s1 = sums s /\ perm s1 = perm s /\
  permUsed s1 = permUsed s /\ moveRotUsed s1 = moveRotUsed s /\ syncCount s1 = syncCount s /\
  (forall i, In i l \/ length (nth i (data s) []) = size s -> i < n -> length (nth i (data s1) []) = size s).
Proof.
  revert s; induction l as [|i l IH]; intros s HF W; simpl.
  - sp; auto. intros i [[]|H]; auto.
  - inversion HF as [|? ? Hi HF']; subst.
    pose proof (szT_nth _ _ _ _ W Hi) as Hsz.
    rewrite (nth_error_nth (szT s) i (size s) Hsz).
    destruct (Nat.ltb_spec (length (nth i (data s) [])) (size s)) as [Hlt|Hge].
    + assert (W' : InvW n h (resize v0 (size s) i s)) by (apply resize_W; auto; lia).
      specialize (IH _ HF' W'). simpl in IH. rewrite (Nat.ltb_irrefl (size s)) in IH.
      destruct IH as (A & B & C & D & E & F & G1 & G2 & G3 & H).
      sp; auto. intros j Hj Hjn.
      apply H; auto. simpl. rewrite nth_upd_data by (rewrite (w_data _ _ _ W); assumption).
      destruct (Nat.eqb_spec j i) as [->|]; [right; apply vresize_length|].
      destruct Hj as [[->|Hj]|Hj]; auto. congruence.
    + specialize (IH _ HF' W). simpl in IH.
      destruct IH as (A & B & C & D & E & F & G1 & G2 & G3 & H).
      sp; auto. intros j Hj Hjn. apply H; auto.
      destruct Hj as [[->|Hj]|Hj]; auto. right.
      pose proof (Forall_nth_lt _ _ [] j (w_le _ _ _ W)) as Hle. simpl in Hle.
      rewrite (w_data _ _ _ W) in Hle. specialize (Hle Hi). lia.
Qed.

Lemma syncSizes_W n h s :
  InvW n h s ->
  let s' := syncSizes v0 s in
  InvW n h s' /\ sizesOK s' /\ size s' = size s /\ syncedSizes s' = true /\ synced s' = synced s /\ maxId s' = maxId s /\
  permUsed s' = permUsed s /\ moveRotUsed s' = moveRotUsed s /\
  (forall id, nth id (sums s') cell0 = nth id (sums s) cell0).
Proof.
  intros W. unfold syncSizes. destruct (syncedSizes s) eqn:Ess.
  - simpl. sp; auto. exact (w_ss _ _ _ W Ess).
  - simpl.
    assert (HF : Forall (fun i => i < n) (seq 0 (length (szT s)))).
    { apply Forall_forall. intros x Hx. apply in_seq in Hx.
      rewrite (w_szT _ _ _ W), map_length, (w_data _ _ _ W) in Hx. lia. }
    destruct (syncSizes_fold n h _ s HF W) as (A & B & C & D & E & F & G1 & G2 & G3 & H).
    match type of A with InvW _ _ ?x => set (s1 := x) in * end. clearbody s1.
    assert (Hlen : forall i, i < n -> length (nth i (data s1) []) = size s).
    { intros i Hi. apply H; auto. left. apply in_seq.
      rewrite (w_szT _ _ _ W), map_length, (w_data _ _ _ W). lia. }
    assert (HFd : Forall (fun d => length d = size s1) (data s1)).
    { apply Forall_of_nth with (d := []). intros i Hi. rewrite B. apply Hlen.
      rewrite (w_data _ _ _ A) in Hi; assumption. }
    assert (Hs : forall id, nth id (vresize (size s1) cell0 (sums s1)) cell0 = nth id (sums s) cell0).
    { intros id. rewrite nth_vresize, E. destruct (Nat.ltb_spec id (size s1)); [reflexivity|].
      rewrite nth_overflow; [reflexivity|]. pose proof (w_sums_le _ _ _ W). lia. }
    split; [|split; [|sp; auto]].
    + destruct A. constructor; simpl; auto.
      * rewrite vresize_length; lia.
      * rewrite vresize_length; lia.
      * intros _. rewrite !vresize_length. auto.
      * intros id. rewrite nth_vresize. destruct (Nat.ltb_spec id (size s1)); [apply w_perm0|].
        rewrite <- w_perm0. rewrite nth_overflow by lia. reflexivity.
      * intros Hm id c Hc. rewrite Hs, <- E. apply w_mrz0; auto.
    + unfold sizesOK; simpl. rewrite !vresize_length. auto.
Qed.

(** ** sync *)
Lemma syncMaxIds_fold n h l s :
  Forall (fun i => i < n) l -> InvW n h s ->
  exists s', fold_left (fun r i => bindr r (fun s =>
               match nth_error (maxId s) i with
               | Some m => if 0 <? m then ensureSize v0 m i s else Val s
               | None => UB
               end)) l (Val s) = Val s' /\ InvW n h s' /\
    (forall i, In i l \/ nth i (maxId s) 0 = 0 -> nth i (maxId s') 0 = 0).
Proof.
  revert s; induction l as [|i l IH]; intros s HF W; simpl.
  - eexists; sp; eauto. intros i [[]|H]; auto.
  - inversion HF as [|? ? Hi HF']; subst.
    rewrite (nth_error_nth_lt (maxId s) i 0) by (rewrite (w_maxId _ _ _ W); assumption).
    destruct (Nat.ltb_spec 0 (nth i (maxId s) 0)) as [Hm|Hm].
    + destruct (ensureSize_W n h s (nth i (maxId s) 0) i W Hi) as (s1 & E & W1 & _ & Hmx & _).
      rewrite E. destruct (IH s1 HF' W1) as (s' & E' & W' & H). exists s'. sp; auto.
      intros j Hj. apply H. rewrite Hmx.
      rewrite nth_upd by (rewrite (w_maxId _ _ _ W); assumption).
      destruct (Nat.eqb_spec j i) as [->|]; [right; reflexivity|].
      destruct Hj as [[->|Hj]|Hj]; auto. congruence.
    + destruct (IH s HF' W) as (s' & E' & W' & H). exists s'. sp; auto.
      intros j Hj. apply H. destruct Hj as [[->|Hj]|Hj]; auto. right; lia.
Qed.

Lemma sumThreads_spec n h s id c :
  InvW n h s -> sizesOK s -> id < size s -> sumThreads v0 vadd c (data s) id = Val (grand n id c h).
Proof.
  intros W (HF & _ & _) Hid. unfold sumThreads, Force_Spec.grand.
  assert (G : forall dl k a, length dl + k = n ->
     (forall t, t < length dl -> nth t dl [] = nth (k + t) (data s) []) ->
     fold_left (fun acc dt => match acc, nth_error dt id with
               | Val a, Some x => Val (vadd a (cget c x)) | _, _ => UB end) dl (Val a)
     = Val (fold_left (fun a t => vadd a (thread_sum t id c h)) (seq k (length dl)) a)).
  { induction dl as [|d dl IH]; intros k a Hl Hn; [reflexivity|].
    simpl. simpl in Hl.
    pose proof (Hn 0 (Nat.lt_0_succ _)) as Hd. simpl in Hd. rewrite Nat.add_0_r in Hd.
    assert (Hlen : length d = size s).
    { rewrite Hd. apply (Forall_nth_lt (fun d => length d = size s)); [assumption|].
      rewrite (w_data _ _ _ W). lia. }
    rewrite (nth_error_nth_lt d id cell0) by lia.
    rewrite (IH (S k)).
    - rewrite Hd, (w_content _ _ _ W) by lia. reflexivity.
    - lia.
    - intros t Ht. specialize (Hn (S t)). simpl in Hn. rewrite Hn by lia. f_equal. lia. }
  rewrite (G (data s) 0 v0); rewrite (w_data _ _ _ W); auto.
Qed.

Lemma nth_error_perm n h s id : InvW n h s -> sizesOK s -> id < size s -> nth_error (perm s) id = Some (perm_actual h id).
Proof.
  intros W (_ & _ & Hp) Hid. rewrite (nth_error_nth_lt _ _ (v0, v0)) by lia.
  rewrite (w_perm _ _ _ W). reflexivity.
Qed.

Lemma syncCell_spec n h s id old :
  InvW n h s -> sizesOK s -> id < size s ->
  (moveRotUsed s = false -> cM old = v0 /\ cR old = v0) ->
  exists x, syncCell v0 vadd s id old = Val x /\ forall c, cget c x = reading (perm_actual h) n id c h.
Proof.
  intros W S Hid Hold. unfold syncCell.
  rewrite !(sumThreads_spec n h s id) by assumption. cbn [bindr].
  rewrite (w_pu _ _ _ W), (nth_error_perm n h) by assumption.
  assert (Hmr0 : forall c, moveRotUsed s = false -> mrc c -> grand n id c h = v0).
  { intros c Hm Hc. apply grand_v0. intros t _. unfold Force_Spec.thread_sum.
    rewrite mr_unused_values; auto. rewrite <- (w_mr _ _ _ W); assumption. }
  destruct (perm_used h) eqn:Epu; cbn [bindr fst snd];
  (destruct (moveRotUsed s) eqn:Emr; cbn [bindr];
   eexists; (split; [reflexivity|]); intros [ | | | ]; simpl; rewrite ?Epu; try reflexivity).
  all: destruct (Hold eq_refl) as [HM HR]; rewrite ?HM, ?HR; symmetry; apply Hmr0; auto; unfold mrc; auto.
Qed.

Lemma syncCells_spec n h s olds : forall k,
  InvW n h s -> sizesOK s -> k + length olds <= size s ->
  (moveRotUsed s = false -> Forall (fun old => cM old = v0 /\ cR old = v0) olds) ->
  exists cs, syncCells v0 vadd s k olds = Val cs /\ length cs = length olds /\
   forall j c, j < length olds -> cget c (nth j cs cell0) = reading (perm_actual h) n (k + j) c h.
Proof.
  induction olds as [|o os IH]; intros k W SO Hk Hold; cbn [syncCells].
  - exists []. sp; simpl; auto. intros; lia.
  - simpl in Hk.
    destruct (syncCell_spec n h s k o W SO) as (x & Ex & Hx); [lia| |].
    { intros Hm. specialize (Hold Hm). inversion Hold; auto. }
    rewrite Ex. cbn [bindr].
    destruct (IH (S k) W SO) as (cs & Ecs & Hl & Hcs); [lia| |].
    { intros Hm. specialize (Hold Hm). inversion Hold; auto. }
    rewrite Ecs. cbn [bindr]. exists (x :: cs). simpl. sp; auto.
    intros [|j] c Hj; [rewrite Nat.add_0_r; apply Hx|].
    rewrite Hcs by lia. f_equal; lia.
Qed.

Lemma reading_beyond n h s id c :
  InvW n h s -> size s <= id -> reading (perm_actual h) n id c h = v0.
Proof.
  intros W Hid.
  assert (G : grand n id c h = v0).
  { apply grand_v0. intros t Ht. rewrite <- (w_content _ _ _ W) by assumption.
    rewrite nth_overflow; [apply cget_cell0|].
    pose proof (Forall_nth_lt _ _ [] t (w_le _ _ _ W)) as Hle. simpl in Hle.
    rewrite (w_data _ _ _ W) in Hle. specialize (Hle Ht). lia. }
  assert (P : perm_actual h id = (v0, v0)).
  { rewrite <- (w_perm _ _ _ W). apply nth_overflow. pose proof (w_perm_le _ _ _ W). lia. }
  unfold Force_Spec.reading. destruct c; rewrite G, ?P; simpl; rewrite ?H00; destruct (perm_used h); reflexivity.
Qed.

Lemma sync_inv n h s :
  Inv n h s -> exists s', sync v0 vadd s = Val s' /\ Inv n (h ++ [OSync]) s' /\
                          synced s' = true /\ (forall i, nth i (maxId s') 0 = 0).
Proof.
  intros I. unfold sync.
  destruct (synced s && negb (existsb (fun m => 0 <? m) (maxId s))) eqn:E0.
  - apply andb_true_iff in E0 as [Es Em]. apply negb_true_iff in Em.
    exists s. split; [reflexivity|]. split; [|split; [assumption|]].
    + pose proof (same_snoc_W n h s OSync Logic.I (Inv_W _ _ _ I)) as W.
      destruct I, W. constructor; auto.
      * rewrite dirty_snoc. simpl. assumption.
      * intros Hs id c. rewrite reading_same by exact Logic.I. auto.
    + intros i. destruct (Nat.lt_ge_cases i (length (maxId s))) as [Hi|Hi]; [|apply nth_overflow; lia].
      destruct (nth i (maxId s) 0) eqn:En; [reflexivity|].
      exfalso. assert (X : existsb (fun m => 0 <? m) (maxId s) = true).
      { apply existsb_exists. exists (nth i (maxId s) 0). split; [apply nth_In; assumption|rewrite En; reflexivity]. }
      congruence.
  - pose proof (Inv_W _ _ _ I) as W. unfold syncMaxIds.
    destruct (syncMaxIds_fold n h (seq 0 (length (maxId s))) s) as (s1 & E1 & W1 & Hz); auto.
    { apply Forall_forall. intros x Hx. apply in_seq in Hx. rewrite (w_maxId _ _ _ W) in Hx. lia. }
    rewrite E1. cbn [bindr].
    destruct (syncSizes_W n h s1 W1) as (W2 & S2 & Hsz & Hss & Hsy & Hmx & Hpu & Hmr & Hsums).
    set (s2 := syncSizes v0 s1) in *. clearbody s2.
    destruct S2 as (SF & SS & SP).
    rewrite SS, Nat.eqb_refl.
    destruct (syncCells_spec n h s2 (sums s2) 0 W2) as (cs & Ecs & Hl & Hcs).
    { split; auto. } { lia. }
    { intros Hm. apply Forall_of_nth with (d := cell0). intros i Hi. split.
      - apply (w_mrz _ _ _ W2 Hm i ChM); left; reflexivity.
      - apply (w_mrz _ _ _ W2 Hm i ChR); right; reflexivity. }
    rewrite Ecs. cbn [bindr]. eexists; split; [reflexivity|].
    pose proof (same_snoc_W n h s2 OSync Logic.I W2) as W3.
    assert (Hread : forall id c, cget c (nth id cs cell0) = reading (perm_actual h) n id c h).
    { intros id c. destruct (Nat.lt_ge_cases id (length cs)) as [Hi|Hi].
      - apply Hcs. lia.
      - rewrite nth_overflow by lia. rewrite cget_cell0. symmetry. eapply reading_beyond; [exact W2|]. lia. }
    split; [|split; [reflexivity|]].
    + destruct W3. constructor; simpl; auto.
      * lia.
      * intros _. sp; auto. lia.
      * intros Hm id c Hc. rewrite Hread.
        assert (G : grand n id c h = v0).
        { apply grand_v0. intros t _. unfold Force_Spec.thread_sum. rewrite mr_unused_values; auto.
          rewrite <- (w_mr _ _ _ W2); assumption. }
        unfold Force_Spec.reading. destruct Hc as [-> | ->]; assumption.
      * rewrite dirty_snoc; reflexivity.
      * intros _ id c. rewrite reading_same by exact Logic.I. apply Hread.
    + simpl. rewrite Hmx. intros i.
      destruct (Nat.lt_ge_cases i (length (maxId s))) as [Hi|Hi].
      * apply Hz. left. apply in_seq. lia.
      * apply nth_overflow. rewrite (w_maxId _ _ _ W1). rewrite (w_maxId _ _ _ W) in Hi. assumption.
Qed.

(** ** reset *)
Lemma cget_zeroCell_mr b c x : mrc c -> (b = false -> cget c x = v0) -> cget c (zeroCell v0 b x) = v0.
Proof. intros [-> | ->] H; destruct b; simpl in *; auto. Qed.
Lemma cget_zeroCell_ft b c x : ~ mrc c -> cget c (zeroCell v0 b x) = v0.
Proof. intros H; destruct b, c; simpl; auto; exfalso; apply H; unfold mrc; auto. Qed.
Lemma mrc_dec c : {mrc c} + {~ mrc c}.
Proof. destruct c; unfold mrc; (left; tauto) || (right; intros [|]; discriminate). Qed.

Lemma grand_reset n id c h it all : grand n id c (h ++ [OReset it all]) = v0.
Proof. apply grand_v0. intros t _. rewrite thread_sum_snoc. reflexivity. Qed.

Lemma combine_map_length (dl : list (list (cell V))) :
  forallb (fun p => snd p <=? length (fst p)) (combine dl (map (@length _) dl)) = true.
Proof. induction dl as [|d dl IH]; simpl; auto. rewrite Nat.leb_refl, IH. reflexivity. Qed.

Lemma nth_map_zero b (l : list (cell V)) id : nth id (map (zeroCell v0 b) l) cell0 = zeroCell v0 b (nth id l cell0).
Proof.
  assert (E : cell0 = zeroCell v0 b cell0) by (destruct b; reflexivity).
  rewrite E at 1. apply map_nth.
Qed.

Lemma reset_inv n h s it all :
  InvW n h s -> exists s', reset v0 it all s = Val s' /\ Inv n (h ++ [OReset it all]) s'.
Proof.
  intros W0. unfold reset.
  destruct (syncSizes_W n h s W0) as (W & S & Hsz & Hss & Hsy & Hmx & Hpu & Hmr & Hsums).
  set (s2 := syncSizes v0 s) in *. clearbody s2. destruct S as (SF & SS & SP).
  rewrite (w_szT _ _ _ W), combine_map_length, SS, SP, Nat.leb_refl, andb_false_r. simpl.
  eexists; split; [reflexivity|].
  set (mr := moveRotUsed s2) in *.
  assert (Hmr0 : forall t id c, t < n -> mrc c -> mr = false -> cget c (nth id (nth t (data s2) []) cell0) = v0).
  { intros t id c Ht Hc Hm. rewrite (w_content _ _ _ W) by assumption.
    unfold Force_Spec.thread_sum. rewrite mr_unused_values; auto. rewrite <- (w_mr _ _ _ W). assumption. }
  assert (HFl : Forall (fun d => length d = size s2) (map (map (zeroCell v0 mr)) (data s2))).
  { rewrite Forall_map. eapply Forall_impl; [|exact SF]. simpl. intros d Hd. rewrite map_length; assumption. }
  assert (Hz : forall t id c, t < n -> cget c (nth id (nth t (map (map (zeroCell v0 mr)) (data s2)) []) cell0) = v0).
  { intros t id c Ht. change (@nil (cell V)) with (map (zeroCell v0 mr) []). rewrite map_nth, nth_map_zero.
    destruct (mrc_dec c); [apply cget_zeroCell_mr; auto|apply cget_zeroCell_ft; auto]. }
  assert (Hzs : forall id c, cget c (nth id (map (zeroCell v0 mr) (sums s2)) cell0) = v0).
  { intros id c. rewrite nth_map_zero.
    destruct (mrc_dec c); [apply cget_zeroCell_mr; auto|apply cget_zeroCell_ft; auto].
    intros Hm. apply (w_mrz _ _ _ W); auto. }
  assert (Hpa : forall id, nth id (if all then map (fun _ => (v0, v0)) (perm s2) else perm s2) (v0, v0)
                = perm_actual (h ++ [OReset it all]) id).
  { intros id. rewrite perm_actual_snoc. destruct all; simpl; [|apply (w_perm _ _ _ W)].
    change (nth id (map (fun _ : V * V => (v0, v0)) (perm s2)) ((fun _ : V * V => (v0, v0)) (v0, v0)) = (v0, v0)).
    rewrite map_nth. reflexivity. }
  destruct W. constructor; simpl; auto.
  - rewrite map_length; assumption.
  - rewrite map_map. apply map_ext. intros; symmetry; apply map_length.
  - eapply Forall_impl; [|exact HFl]. simpl; intros; lia.
  - rewrite map_length; lia.
  - destruct all; [rewrite map_length|]; lia.
  - intros _. sp; auto; [rewrite map_length; assumption|].
    destruct all; [rewrite map_length|]; assumption.
  - intros t id c Ht. rewrite thread_sum_snoc. simpl. apply Hz; assumption.
  - rewrite perm_used_snoc. destruct all; auto.
  - rewrite mr_used_snoc; reflexivity.
  - rewrite dirty_snoc. simpl. destruct all; simpl; rewrite ?w_pu0; reflexivity.
  - intros Hs id c. rewrite Hzs. symmetry. unfold Force_Spec.reading.
    rewrite grand_reset, perm_used_snoc.
    destruct all; [destruct c; reflexivity|].
    simpl in Hs. rewrite negb_true_iff, w_pu0 in Hs. rewrite Hs. destruct c; reflexivity.
Qed.

(** * All histories *)
Lemma step_inv n h s o :
  Inv n h s -> valid n o -> exists s', step s o = Val s' /\ Inv n (h ++ [o]) s'.
Proof.
  intros I Hv. destruct o as [t id c v|t id|g id isF v| |it all]; simpl in *.
  - apply add_inv; auto using Inv_W.
  - apply maxId_inv; auto.
  - apply setPerm_inv, Inv_W; assumption.
  - destruct (sync_inv n h s I) as (s' & E & I' & _). eauto.
  - apply reset_inv, Inv_W; assumption.
Qed.

Lemma run_snoc n h o : run n (h ++ [o]) = bindr (run n h) (fun s => step s o).
Proof. unfold Force_Model.run. rewrite fold_left_app. reflexivity. Qed.

Lemma run_inv n h : Forall (valid n) h -> exists s, run n h = Val s /\ Inv n h s.
Proof.
  induction h as [|o h IH] using rev_ind; intros HF.
  - exists (init n). split; [reflexivity|apply init_inv].
  - apply Forall_app in HF as [HF Ho]. inversion Ho; subst.
    destruct (IH HF) as (s & E & I). rewrite run_snoc, E. cbn [bindr].
    apply step_inv; assumption.
Qed.

Lemma get_spec n h s id c : Inv n h s -> synced s = true -> get v0 c id s = Val (reading (perm_actual h) n id c h).
Proof.
  intros I Hs. unfold get. rewrite Hs. simpl.
  destruct (Nat.ltb_spec id (size s)).
  - destruct (i_ss _ _ _ I (i_sy _ _ _ I Hs)) as (_ & Hl & _).
    rewrite (nth_error_nth_lt _ _ cell0) by lia. f_equal. apply (i_sums _ _ _ I Hs).
  - f_equal. symmetry. eapply reading_beyond; [apply Inv_W; exact I|assumption].
Qed.

Lemma read_after_sync n h :
  Forall (valid n) h ->
  exists s, run n (h ++ [OSync]) = Val s /\
    forall id c, get v0 c id s = Val (reading (perm_actual h) n id c h).
Proof.
  intros HF. destruct (run_inv n h HF) as (s & E & I).
  destruct (sync_inv n h s I) as (s' & E' & I' & Hs & _).
  exists s'. rewrite run_snoc, E. cbn [bindr Force_Model.step]. split; [exact E'|].
  intros id c. rewrite (get_spec _ _ _ _ _ I' Hs). rewrite reading_same by exact Logic.I. reflexivity.
Qed.

Lemma sync_idempotent n h :
  Forall (valid n) h -> run n (h ++ [OSync; OSync]) = run n (h ++ [OSync]).
Proof.
  intros HF. change [OSync; OSync] with ([OSync] ++ [@OSync V]). rewrite app_assoc, (run_snoc n (h ++ [OSync])).
  destruct (run_inv n h HF) as (s & E & I).
  destruct (sync_inv n h s I) as (s' & E' & I' & Hs & Hm).
  assert (R : run n (h ++ [OSync]) = Val s') by (rewrite run_snoc, E; exact E').
  rewrite R. cbn [bindr Force_Model.step]. unfold sync. rewrite Hs.
  assert (X : existsb (fun m => 0 <? m) (maxId s') = false).
  { apply not_true_is_false. intros H. apply existsb_exists in H as (x & Hx & Hlt).
    apply In_nth with (d := 0) in Hx as (i & _ & Hi). rewrite Hm in Hi. subst x. discriminate. }
  rewrite X. reflexivity.
Qed.

Lemma read_throws_iff_dirty n h :
  Forall (valid n) h ->
  exists s, run n h = Val s /\
   forall id c, get v0 c id s = if dirty h then Throw else Val (reading (perm_actual h) n id c h).
Proof.
  intros HF. destruct (run_inv n h HF) as (s & E & I). exists s. split; [exact E|].
  intros id c. pose proof (i_dirty _ _ _ I) as Hd. destruct (dirty h) eqn:Ed; simpl in Hd.
  - unfold get. rewrite Hd. reflexivity.
  - apply get_spec; assumption.
Qed.

Lemma perm_read n h :
  Forall (valid n) h ->
  exists s, run n (h ++ [OSync]) = Val s /\
    forall id isF, getPerm v0 isF id s = Val ((if isF : bool then fst else snd) (perm_actual h id)).
Proof.
  intros HF. destruct (run_inv n h HF) as (s & E & I).
  destruct (sync_inv n h s I) as (s' & E' & I' & Hs & _).
  exists s'. rewrite run_snoc, E. split; [exact E'|].
  intros id isF. unfold getPerm. rewrite Hs. simpl.
  pose proof (i_perm _ _ _ I') as Hp. rewrite perm_actual_snoc in Hp. simpl in Hp.
  destruct (i_ss _ _ _ I' (i_sy _ _ _ I' Hs)) as (_ & _ & Hl).
  destruct (Nat.ltb_spec id (size s')).
  - rewrite (nth_error_nth_lt _ _ (v0, v0)) by lia. rewrite Hp. destruct isF; reflexivity.
  - rewrite <- Hp, nth_overflow by lia. destruct isF; reflexivity.
Qed.

(** ** unsynchronised reads *)
Lemma getSingle_sum n h s id c :
  InvW n h s ->
  fold_left (fun acc p =>
                 bindr acc (fun a =>
                 if id <? snd p then
                   match nth_error (fst p) id with Some x => Val (vadd a (cget c x)) | None => UB end
                 else Val (vadd a v0))) (combine (data s) (szT s)) (Val v0) = Val (grand n id c h).
Proof.
  intros W. rewrite (w_szT _ _ _ W). unfold Force_Spec.grand.
  assert (G : forall dl k a, length dl + k = n ->
     (forall t, t < length dl -> nth t dl [] = nth (k + t) (data s) []) ->
     fold_left (fun acc p => bindr acc (fun a =>
                 if id <? snd p then
                   match nth_error (fst p) id with Some x => Val (vadd a (cget c x)) | None => UB end
                 else Val (vadd a v0))) (combine dl (map (@length _) dl)) (Val a)
     = Val (fold_left (fun a t => vadd a (thread_sum t id c h)) (seq k (length dl)) a)).
  { induction dl as [|d dl IH]; intros k a Hl Hn; [reflexivity|].
    simpl. simpl in Hl. pose proof (Hn 0 (Nat.lt_0_succ _)) as Hd. simpl in Hd. rewrite Nat.add_0_r in Hd.
    assert (Hc : cget c (nth id d cell0) = thread_sum k id c h).
    { rewrite Hd. apply (w_content _ _ _ W). lia. }
    assert (E : (if id <? length d then match nth_error d id with
                 | Some x => Val (vadd a (cget c x)) | None => UB end else Val (vadd a v0))
                = Val (vadd a (thread_sum k id c h))).
    { destruct (Nat.ltb_spec id (length d)).
      - rewrite (nth_error_nth_lt d id cell0) by lia. rewrite Hc. reflexivity.
      - rewrite <- Hc, nth_overflow by lia. rewrite cget_cell0. reflexivity. }
    rewrite E. apply IH; [lia|].
    intros t Ht. specialize (Hn (S t)). simpl in Hn. rewrite Hn by lia. f_equal. lia. }
  rewrite (G (data s) 0 v0); rewrite (w_data _ _ _ W); auto.
Qed.

Lemma getSingle_spec n h s id c :
  InvW n h s -> (perm_used h = true -> (c = ChF \/ c = ChT) -> id < length (perm s)) ->
  getSingle v0 vadd c id s = Val (reading (perm_actual h) n id c h).
Proof.
  intros W Hid. unfold getSingle. rewrite (getSingle_sum n h s id c W).
  unfold Force_Spec.reading. rewrite (w_pu _ _ _ W).
  destruct c; try reflexivity; destruct (perm_used h) eqn:E; try reflexivity; cbn [bindr];
    (rewrite (nth_error_nth_lt _ _ (v0, v0)) by (apply Hid; auto)); rewrite (w_perm _ _ _ W); reflexivity.
Qed.

Lemma single_read_no_perm n h :
  Forall (valid n) h -> perm_used h = false ->
  exists s s', run n h = Val s /\ run n (h ++ [OSync]) = Val s' /\
     forall id c, getSingle v0 vadd c id s = get v0 c id s' /\ getSingle v0 vadd c id s <> UB.
Proof.
  intros HF Hpu. destruct (run_inv n h HF) as (s & E & I).
  destruct (read_after_sync n h HF) as (s' & E' & Hr).
  exists s, s'. split; [exact E|]. split; [exact E'|]. intros id c.
  rewrite Hr, (getSingle_spec n h s id c (Inv_W _ _ _ I)) by congruence. split; [reflexivity|discriminate].
Qed.

End P.

(** * Commutative monoid corollaries *)
Section M.
Context {V : Type} (v0 : V) (vadd : V -> V -> V) (CM : is_cmonoid v0 vadd).

Lemma cm_unit_r a : vadd a v0 = a.
Proof. rewrite (cm_comm _ _ CM). apply (cm_unit _ _ CM). Qed.

Lemma medial a b c d : vadd (vadd a b) (vadd c d) = vadd (vadd a c) (vadd b d).
Proof.
  rewrite <- !(cm_assoc _ _ CM). f_equal. rewrite !(cm_assoc _ _ CM). f_equal. apply (cm_comm _ _ CM).
Qed.

Lemma fold_left_acc l a : fold_left vadd l a = vadd a (fold_left vadd l v0).
Proof.
  revert a; induction l as [|x l IH]; intros a; simpl.
  - symmetry; apply cm_unit_r.
  - rewrite IH, (IH (vadd v0 x)), (cm_unit _ _ CM), (cm_assoc _ _ CM). reflexivity.
Qed.

Lemma values_flat (t id : nat) c (l : list (op V)) :
  flat_map (fun o => match o with
                     | OAdd t' id' c' v => if (t' =? t) && (id' =? id) && chan_eqb c' c then [v] else []
                     | _ => [] end) l
  = flat_map (fun o => match o with
                     | OAdd t' id' c' v => if t' =? t then (if (id' =? id) && chan_eqb c' c then [v] else []) else []
                     | _ => [] end) l.
Proof.
  induction l as [|o l IH]; [reflexivity|]. simpl. rewrite IH. f_equal.
  destruct o; try reflexivity. destruct (t0 =? t), (id0 =? id), (chan_eqb c0 c); reflexivity.
Qed.

Lemma all_values_split (n id : nat) c (l : list (op V)) :
  Forall (valid n) l ->
  fold_left (fun a t => vadd a (fold_left vadd
     (flat_map (fun o => match o with
                     | OAdd t' id' c' v => if (t' =? t) && (id' =? id) && chan_eqb c' c then [v] else []
                     | _ => [] end) l) v0)) (seq 0 n) v0
  = fold_left vadd (flat_map (fun o => match o with
                     | OAdd _ id' c' v => if (id' =? id) && chan_eqb c' c then [v] else []
                     | _ => [] end) l) v0.
Proof.
  (* sum over threads of f t *)
  assert (Sacc : forall (f : nat -> V) l a, fold_left (fun a t => vadd a (f t)) l a = vadd a (fold_left (fun a t => vadd a (f t)) l v0)).
  { intros f l0; induction l0 as [|x l0 IH]; intros a; simpl; [symmetry; apply cm_unit_r|].
    rewrite IH, (IH (vadd v0 (f x))), (cm_unit _ _ CM), (cm_assoc _ _ CM). reflexivity. }
  assert (Sadd : forall (f g : nat -> V) l, fold_left (fun a t => vadd a (vadd (f t) (g t))) l v0
      = vadd (fold_left (fun a t => vadd a (f t)) l v0) (fold_left (fun a t => vadd a (g t)) l v0)).
  { intros f g l0; induction l0 as [|x l0 IH]; simpl; [symmetry; apply (cm_unit _ _ CM)|].
    rewrite (Sacc (fun t => vadd (f t) (g t)) l0), IH, (Sacc f l0 (vadd v0 (f x))), (Sacc g l0 (vadd v0 (g x))), !(cm_unit _ _ CM).
    apply medial. }
  assert (Sext : forall (f g : nat -> V) l, (forall t, In t l -> f t = g t) -> forall a,
      fold_left (fun a t => vadd a (f t)) l a = fold_left (fun a t => vadd a (g t)) l a).
  { intros f g l0 H; induction l0 as [|x l0 IH]; intros a; simpl; [reflexivity|].
    rewrite H by (left; reflexivity). apply IH. intros; apply H; right; assumption. }
  assert (Szero : forall l, fold_left (fun a (_ : nat) => vadd a v0) l v0 = v0).
  { induction l0 as [|x l0 IH]; simpl; [reflexivity|]. rewrite cm_unit_r. exact IH. }
  assert (Sone : forall k v l, NoDup l -> fold_left (fun a t => vadd a (if k =? t then v else v0)) l v0
       = if in_dec Nat.eq_dec k l then v else v0).
  { intros k v l0; induction l0 as [|x l0 IH]; intros ND; [reflexivity|].
    inversion ND as [|? ? Hx ND']; subst. cbn [fold_left].
    rewrite Sacc, IH, (cm_unit _ _ CM) by assumption.
    destruct (Nat.eqb_spec k x) as [->|Hne].
    - destruct (in_dec Nat.eq_dec x l0); [contradiction|].
      destruct (in_dec Nat.eq_dec x (x :: l0)) as [_|Hn]; [apply cm_unit_r|exfalso; apply Hn; left; reflexivity].
    - rewrite (cm_unit _ _ CM).
      destruct (in_dec Nat.eq_dec k l0) as [Hi|Hi], (in_dec Nat.eq_dec k (x :: l0)) as [Hj|Hj]; auto.
      + exfalso; apply Hj; right; assumption.
      + exfalso; destruct Hj as [Hj|Hj]; congruence. }
  intros HF. induction HF as [|o l Ho HF IH]; cbn [flat_map].
  - apply Szero.
  - set (hd := fun t => match o with
             | OAdd t' id' c' v => if t' =? t then (if (id' =? id) && chan_eqb c' c then v else v0) else v0
             | _ => v0 end).
    rewrite (Sext _ (fun t => vadd (hd t) (fold_left vadd
     (flat_map (fun o => match o with
                     | OAdd t' id' c' v => if (t' =? t) && (id' =? id) && chan_eqb c' c then [v] else []
                     | _ => [] end) l) v0))).
    2:{ intros t _. rewrite fold_left_app, fold_left_acc. f_equal. unfold hd.
        destruct o; try reflexivity.
        destruct (t0 =? t), (id0 =? id), (chan_eqb c0 c); simpl; try reflexivity. apply (cm_unit _ _ CM). }
    rewrite Sadd, IH. rewrite fold_left_app. etransitivity; [|symmetry; apply fold_left_acc]. f_equal.
    destruct o as [t' id' c' v| | | |]; try apply Szero.
    unfold hd. rewrite Sone by apply seq_NoDup.
    destruct (in_dec Nat.eq_dec t' (seq 0 n)) as [Hi|Hi].
    + destruct ((id' =? id) && chan_eqb c' c); simpl; [symmetry; apply (cm_unit _ _ CM)|reflexivity].
    + exfalso. apply Hi. apply in_seq. simpl in Ho. lia.
Qed.

Lemma since_reset_valid n (h : list (op V)) : Forall (valid n) h -> Forall (valid n) (since_reset h).
Proof.
  induction h as [|o h IH] using rev_ind; intros HF; [constructor|].
  apply Forall_app in HF as [HF Ho]. rewrite since_reset_snoc.
  destruct (is_reset o); [constructor|]. apply Forall_app; split; auto.
Qed.

Lemma grand_all_values n id c h :
  Forall (valid n) h -> grand v0 vadd n id c h = fold_left vadd (all_values id c h) v0.
Proof.
  intros HF. unfold grand, thread_sum, values, all_values.
  apply all_values_split. apply since_reset_valid; assumption.
Qed.
End M.

(** * Windows of permanent ids *)
Section Win.
Context {V : Type} (v0 : V).

Definition perm_ids (h : list (op V)) : list nat :=
  flat_map (fun o => match o with OSetPerm _ id _ _ => [id] | _ => [] end) h.

Lemma perm_ids_snoc h o : perm_ids (h ++ [o]) = perm_ids h ++ match o with OSetPerm _ id _ _ => [id] | _ => [] end.
Proof. unfold perm_ids. rewrite flat_map_app. simpl. rewrite app_nil_r. reflexivity. Qed.

Lemma perm_ideal_snoc h o : perm_ideal v0 (h ++ [o]) = perm_ideal_step v0 (perm_ideal v0 h) o.
Proof. unfold perm_ideal. rewrite fold_left_app. reflexivity. Qed.

Lemma perm_ideal_unset h id : ~ In id (perm_ids h) -> perm_ideal v0 h id = (v0, v0).
Proof.
  induction h as [|o h IH] using rev_ind; intros Hn; [reflexivity|].
  rewrite perm_ideal_snoc. rewrite perm_ids_snoc in Hn.
  assert (Hn1 : ~ In id (perm_ids h)) by (intros H; apply Hn, in_or_app; auto).
  destruct o as [ | |g i isF v| |it [|]]; simpl; auto.
  destruct (Nat.eqb_spec id i) as [->|]; auto.
  exfalso. apply Hn, in_or_app. right; left; reflexivity.
Qed.

Lemma perm_window h :
  (forall a b, In a (perm_ids h) -> In b (perm_ids h) -> b < a + 100) ->
  forall id, perm_actual v0 h id = perm_ideal v0 h id.
Proof.
  induction h as [|o h IH] using rev_ind; intros Hw id; [reflexivity|].
  rewrite perm_ideal_snoc. unfold perm_actual. rewrite fold_left_app. fold (perm_actual v0 h). simpl.
  assert (Hw' : forall a b, In a (perm_ids h) -> In b (perm_ids h) -> b < a + 100).
  { intros a b Ha Hb. apply Hw; rewrite perm_ids_snoc; apply in_or_app; auto. }
  specialize (IH Hw').
  destruct o as [ | |g i isF v| |it [|]]; simpl; auto.
  rewrite !IH. destruct (Nat.eqb_spec id i); [reflexivity|].
  destruct (Nat.ltb_spec id (Nat.max i g + 100)) as [|Hge]; [reflexivity|].
  symmetry. apply perm_ideal_unset. intros Hin.
  assert (id < i + 100); [|lia].
  apply Hw; rewrite perm_ids_snoc; apply in_or_app; [right; left; reflexivity|left; assumption].
Qed.
End Win.
