(** Recursive bisection: one split, one level, all levels. *)
From Coq Require Import List ZArith Arith Bool Lia Permutation.
From Verif Require Import Comm_Model Comm_Spec Tree_Model Tree_Spec.
Import ListNotations.

(** ** one split *)
Lemma insert_perm a x l : Permutation (x :: l) (insert_by a x l).
Proof.
  induction l as [|y l IH]; cbn [insert_by]; [apply Permutation_refl|]. destruct (_ <=? _)%Z; [apply Permutation_refl|].
  eapply Permutation_trans; [apply perm_swap|]. apply perm_skip. exact IH.
Qed.
Lemma sort_perm a l : Permutation l (sort_data a l).
Proof. induction l as [|x l IH]; cbn [sort_data fold_right]; [constructor|]. eapply Permutation_trans; [apply perm_skip; exact IH|apply insert_perm]. Qed.
Fixpoint up (a : nat) (l : list item) : Prop :=
  match l with [] => True | x :: l' => (forall y, In y l' -> (coord x a <= coord y a)%Z) /\ up a l' end.
Lemma insert_up a x l : up a l -> up a (insert_by a x l).
Proof.
  induction l as [|y l IH]; intros U; cbn [insert_by]; [split; [intros ? []|exact I]|]. destruct U as [U1 U2].
  destruct (Z.leb_spec (coord x a) (coord y a)) as [L|L].
  - split; [|split; assumption]. intros z [<- |Hz]; [exact L|]. specialize (U1 z Hz). lia.
  - split; [|apply IH; exact U2]. intros z Hz. apply (Permutation_in _ (Permutation_sym (insert_perm a x l))) in Hz. destruct Hz as [<- |Hz]; [lia|apply U1; exact Hz].
Qed.
Lemma sort_up a l : up a (sort_data a l).
Proof. induction l as [|x l IH]; cbn [sort_data fold_right]; [exact I|]. apply insert_up. exact IH. Qed.
Lemma up_split a l1 l2 : up a (l1 ++ l2) -> forall x y, In x l1 -> In y l2 -> (coord x a <= coord y a)%Z.
Proof.
  induction l1 as [|z l1 IH]; intros U x y Hx Hy; [destruct Hx|]. destruct U as [U1 U2]. destruct Hx as [<- |Hx]; [|apply IH; assumption].
  apply U1. apply in_or_app. right. exact Hy.
Qed.

Lemma process_some ndim lev l : l <> [] -> exists k s, process_data ndim lev l = Some (k, s).
Proof.
  intros Hl. unfold process_data. destruct (nth_error _ _) eqn:E; [eauto|]. apply nth_error_None in E. exfalso.
  rewrite <- (Permutation_length (sort_perm (lev mod ndim) l)) in E. destruct l as [|x l]; [congruence|]. cbn [length] in E.
  pose proof (Nat.div_lt (S (length l)) 2 ltac:(lia) ltac:(lia)). lia.
Qed.
Lemma skipn_nth {A} (l : list A) : forall h x, nth_error l h = Some x -> skipn h l = x :: skipn (h + 1) l.
Proof. induction l as [|y l IH]; intros [|h] x E; try discriminate; [injection E as <-; reflexivity|]. cbn [skipn Nat.add]. apply IH. exact E. Qed.
Lemma process_ok ndim lev l k s : process_data ndim lev l = Some (k, s) ->
  Permutation l (k ++ s) /\ length k = length l / 2 /\ length s = length l - length l / 2 /\
  forall x y, In x k -> In y s -> (coord x (lev mod ndim) <= coord y (lev mod ndim))%Z.
Proof.
  unfold process_data. set (a := lev mod ndim). set (so := sort_data a l). intros E. assert (Pm : Permutation l so) by apply sort_perm.
  assert (Ln : length so = length l) by (symmetry; apply Permutation_length; exact Pm).
  remember (length so / 2) as h eqn:Eh. destruct (nth_error so h) as [x|] eqn:En; [|discriminate]. injection E as <- <-.
  pose proof (skipn_nth so h x En) as Sk. pose proof (nth_error_Some so h) as Hh. rewrite En in Hh.
  assert (Hlt : h < length so) by (apply Hh; discriminate).
  assert (Ps : Permutation (skipn h so) (skipn (h + 1) so ++ [x])) by (rewrite Sk; apply Permutation_cons_append).
  split; [|split; [|split]].
  - eapply Permutation_trans; [exact Pm|]. rewrite <- (firstn_skipn h so) at 1. apply Permutation_app_head. exact Ps.
  - rewrite firstn_length_le by (apply Nat.lt_le_incl; exact Hlt). rewrite Eh, Ln. reflexivity.
  - rewrite <- (Permutation_length Ps), skipn_length, Ln. rewrite Eh, Ln. reflexivity.
  - intros y z Hy Hz. apply (up_split a (firstn h so) (skipn h so)); [rewrite firstn_skipn; apply sort_up|exact Hy|].
    apply (Permutation_in _ (Permutation_sym Ps)). exact Hz.
Qed.

(** ** all levels, as functions of the number m = rank - 1 of the worker *)
Lemma flat_ext {A} (f g : nat -> list A) l : (forall i, In i l -> f i = g i) -> flat_map f l = flat_map g l.
Proof. induction l as [|x l IH]; intros H; [reflexivity|]. cbn [flat_map]. rewrite H by (left; reflexivity). rewrite IH; [reflexivity|]. intros i Hi. apply H. right. exact Hi. Qed.
Lemma flat_nil {A} (f : nat -> list A) l : (forall i, In i l -> f i = []) -> flat_map f l = [].
Proof. induction l as [|x l IH]; intros H; [reflexivity|]. cbn [flat_map]. rewrite H by (left; reflexivity). apply IH. intros i Hi. apply H. right. exact Hi. Qed.
Lemma flat_perm {A} (f g h : nat -> list A) l : (forall i, In i l -> Permutation (f i) (g i ++ h i)) -> Permutation (flat_map f l) (flat_map g l ++ flat_map h l).
Proof.
  induction l as [|x l IH]; intros H; [constructor|]. cbn [flat_map]. specialize (IH (fun i Hi => H i (or_intror Hi))). specialize (H x (or_introl eq_refl)).
  eapply Permutation_trans; [apply Permutation_app; [exact H|exact IH]|]. rewrite <- !app_assoc. apply Permutation_app_head.
  rewrite !app_assoc. apply Permutation_app_tail. apply Permutation_app_comm.
Qed.
Lemma flat_shift {A} (f : nat -> list A) p q : flat_map f (seq p q) = flat_map (fun i => f (i + p)) (seq 0 q).
Proof.
  revert f p. induction q as [|q IH]; intros f p; [reflexivity|]. cbn [seq flat_map]. rewrite (IH f), (IH (fun i => f (i + p)) 1). cbn [Nat.add]. f_equal. apply flat_ext. intros i _. f_equal. lia.
Qed.

Section Levels.
Variables (ndim n : nat) (sph : list item).
Definition halves (lev : nat) (l : list item) : list item * list item := match process_data ndim lev l with Some r => r | None => (l, []) end.
Definition spread_step (lev : nat) (D : nat -> list item) (m : nat) : list item :=
  if m <? 2 ^ lev then (if m + 2 ^ lev <? n then fst (halves lev (D m)) else D m)
  else if (m <? 2 ^ (lev + 1)) && (m <? n) then snd (halves lev (D (m - 2 ^ lev))) else D m.
Fixpoint spread (lev : nat) : nat -> list item :=
  match lev with O => fun m => if m =? 0 then sph else [] | S l => spread_step l (spread l) end.

Lemma halves_ok lev l : l <> [] ->
  Permutation l (fst (halves lev l) ++ snd (halves lev l)) /\ length (fst (halves lev l)) = length l / 2 /\ length (snd (halves lev l)) = length l - length l / 2 /\
  forall x y, In x (fst (halves lev l)) -> In y (snd (halves lev l)) -> (coord x (lev mod ndim) <= coord y (lev mod ndim))%Z.
Proof. intros Hl. unfold halves. destruct (process_some ndim lev l Hl) as (k & s & E). rewrite E. exact (process_ok _ _ _ _ _ E). Qed.

Lemma pow_S l : 2 ^ (l + 1) = 2 * 2 ^ l. Proof. rewrite Nat.add_1_r. reflexivity. Qed.
Lemma pow_pos l : 0 < 2 ^ l. Proof. pose proof (Nat.pow_nonzero 2 l). lia. Qed.

Lemma spread_empty lev : forall m, 2 ^ lev <= m -> spread lev m = [].
Proof.
  induction lev as [|l IH]; intros m Hm; cbn [spread].
  - cbn in Hm. rewrite (proj2 (Nat.eqb_neq m 0)) by lia. reflexivity.
  - pose proof (pow_S l). pose proof (pow_pos l). rewrite Nat.add_1_r in H. unfold spread_step. rewrite (proj2 (Nat.ltb_ge m (2 ^ l))) by lia. rewrite Nat.add_1_r.
    rewrite (proj2 (Nat.ltb_ge m (2 ^ S l))) by lia. cbn [andb]. apply IH. lia.
Qed.
(** sizes *)
Let N := length sph.
Lemma div_pow_S l : N / 2 ^ S l = (N / 2 ^ l) / 2.
Proof. rewrite Nat.pow_succ_r', Nat.mul_comm, Nat.div_div; [reflexivity| |lia]. apply Nat.pow_nonzero. lia. Qed.
Lemma spread_least lev : enough n lev N -> forall m, m < 2 ^ lev -> m < n -> N / 2 ^ lev <= length (spread lev m).
Proof.
  induction lev as [|l IH]; intros En m Hm Hn.
  - cbn in Hm. replace m with 0 by lia. cbn [spread Nat.eqb Nat.pow]. rewrite Nat.div_1_r. unfold N. lia.
  - assert (En' : enough n l N) by (intros j Hj; apply En; lia). pose proof (pow_pos l). cbn [spread]. unfold spread_step. rewrite Nat.add_1_r. rewrite div_pow_S.
    pose proof (Nat.div_le_mono (N / 2 ^ l)).
    destruct (Nat.ltb_spec m (2 ^ l)) as [L|L].
    + specialize (IH En' m L Hn). destruct (Nat.ltb_spec (m + 2 ^ l) n) as [L2|L2].
      * assert (Hne : spread l m <> []).
        { intros E. rewrite E in IH. cbn [length] in IH. specialize (En l ltac:(lia) ltac:(lia)). pose proof (Nat.div_le_mono (2 ^ l) N (2 ^ l) ltac:(lia) En). rewrite Nat.div_same in H1 by lia. lia. }
        rewrite (proj1 (proj2 (halves_ok l _ Hne))). apply Nat.div_le_mono; [lia|exact IH].
      * pose proof (Nat.div_le_upper_bound (N / 2 ^ l) 2 (length (spread l m))). lia.
    + rewrite (proj2 (Nat.ltb_lt m (2 ^ S l)) Hm), (proj2 (Nat.ltb_lt m n) Hn). cbn [andb]. cbn [Nat.pow] in Hm. specialize (IH En' (m - 2 ^ l) ltac:(lia) ltac:(lia)).
      assert (Hne : spread l (m - 2 ^ l) <> []).
      { intros E. rewrite E in IH. cbn [length] in IH. specialize (En l ltac:(lia) ltac:(lia)). pose proof (Nat.div_le_mono (2 ^ l) N (2 ^ l) ltac:(lia) En). rewrite Nat.div_same in H1 by lia. lia. }
      rewrite (proj1 (proj2 (proj2 (halves_ok l _ Hne)))). set (q := length (spread l (m - 2 ^ l))) in *. pose proof (Nat.div_mod_eq q 2). pose proof (Nat.mod_upper_bound q 2).
      pose proof (Nat.div_mod_eq (N / 2 ^ l) 2). lia.
Qed.
Lemma sender_nonempty lev l m : enough n lev N -> l < lev -> m < 2 ^ l -> m + 2 ^ l < n -> spread l m <> [].
Proof.
  intros En Hl Hm Hn E. assert (En' : enough n l N) by (intros j Hj; apply En; lia). pose proof (spread_least l En' m Hm ltac:(lia)) as S. rewrite E in S. cbn [length] in S.
  specialize (En l Hl ltac:(lia)). pose proof (pow_pos l). pose proof (Nat.div_le_mono (2 ^ l) N (2 ^ l) ltac:(lia) En). rewrite Nat.div_same in H0 by lia. lia.
Qed.
(** the size never exceeds that of an equal share at a completed level *)
Lemma spread_most lev j : enough n lev N -> j <= lev -> 2 ^ j <= n -> forall m, length (spread lev m) <= ceil_div N (2 ^ j).
Proof.
  revert j. induction lev as [|l IH]; intros j En Hj Hn m.
  - replace j with 0 by lia. cbn [Nat.pow spread]. unfold ceil_div. replace (N + 1 - 1) with N by lia. rewrite Nat.div_1_r. destruct (m =? 0); unfold N; cbn [length]; lia.
  - assert (En' : enough n l N) by (intros k Hk; apply En; lia). cbn [spread]. unfold spread_step. rewrite Nat.add_1_r.
    assert (Hne : forall m, m < 2 ^ l -> m + 2 ^ l < n -> spread l m <> []) by (intros m0 H1 H2; exact (sender_nonempty (S l) l m0 En (Nat.lt_succ_diag_r l) H1 H2)).
    assert (Half : forall q, forall b, 0 < b -> q <= ceil_div N b -> q - q / 2 <= ceil_div N (2 * b) /\ q / 2 <= ceil_div N (2 * b)).
    { intros q b Hb Hq. unfold ceil_div in *. assert (C : (N + b - 1) / b <= 2 * ((N + 2 * b - 1) / (2 * b))).
      { pose proof (Nat.div_mod_eq (N + 2 * b - 1) (2 * b)) as D. pose proof (Nat.mod_upper_bound (N + 2 * b - 1) (2 * b) ltac:(lia)) as U.
        set (c := (N + 2 * b - 1) / (2 * b)) in *. apply Nat.lt_succ_r. apply Nat.div_lt_upper_bound; [lia|]. nia. }
      pose proof (Nat.div_mod_eq q 2). pose proof (Nat.mod_upper_bound q 2 ltac:(lia)). lia. }
    pose proof (pow_pos l) as Pp.
    destruct (Nat.eq_dec j (S l)) as [-> |Hj'].
    + (* this level is complete *)
      cbn [Nat.pow] in Hn. assert (Hl : 2 ^ l <= n) by lia. specialize (IH l En' (le_n l) Hl). change (2 ^ S l) with (2 * 2 ^ l) in *.
      destruct (Nat.ltb_spec m (2 ^ l)) as [L|L].
      * rewrite (proj2 (Nat.ltb_lt (m + 2 ^ l) n)) by lia. rewrite (proj1 (proj2 (halves_ok l _ (Hne m L ltac:(lia))))). apply (Half _ _ Pp). apply IH.
      * destruct (Nat.ltb_spec m (2 * 2 ^ l)) as [L2|L2]; cbn [andb].
        -- rewrite (proj2 (Nat.ltb_lt m n)) by lia. rewrite (proj1 (proj2 (proj2 (halves_ok l _ (Hne (m - 2 ^ l) ltac:(lia) ltac:(lia)))))). apply (Half _ _ Pp). apply IH.
        -- rewrite spread_empty by lia. cbn [length]. lia.
    + specialize (IH j En' ltac:(lia) Hn). destruct (Nat.ltb_spec m (2 ^ l)) as [L|L].
      * destruct (Nat.ltb_spec (m + 2 ^ l) n) as [L2|L2]; [|apply IH]. rewrite (proj1 (proj2 (halves_ok l _ (Hne m L L2)))). specialize (IH m).
        pose proof (Nat.div_le_upper_bound (length (spread l m)) 2 (length (spread l m))). lia.
      * destruct ((m <? 2 ^ S l) && (m <? n)) eqn:E; [|apply IH]. apply andb_true_iff in E. destruct E as [E1 E2]. apply Nat.ltb_lt in E1, E2. cbn [Nat.pow] in E1.
        rewrite (proj1 (proj2 (proj2 (halves_ok l _ (Hne (m - 2 ^ l) ltac:(lia) ltac:(lia)))))). specialize (IH (m - 2 ^ l)). lia.
Qed.

(** ** nothing is lost or duplicated *)
Lemma spread_perm lev : enough n lev N -> 0 < n -> Permutation (flat_map (spread lev) (seq 0 n)) sph.
Proof.
  induction lev as [|l IH]; intros En Hn.
  - destruct n as [|k]; [lia|]. cbn [seq flat_map spread Nat.eqb]. rewrite (flat_nil _ (seq 1 k)), app_nil_r; [apply Permutation_refl|].
    intros i Hi. apply in_seq in Hi. rewrite (proj2 (Nat.eqb_neq i 0)) by lia. reflexivity.
  - assert (En' : enough n l N) by (intros k Hk; apply En; lia). eapply Permutation_trans; [|apply (IH En' Hn)]. clear IH. pose proof (pow_pos l) as Pp. set (P := 2 ^ l) in *.
    destruct (Nat.le_gt_cases n P) as [C|C].
    + rewrite (flat_ext (spread (S l)) (spread l)); [apply Permutation_refl|]. intros i Hi. apply in_seq in Hi. cbn [spread]. unfold spread_step. fold P.
      rewrite (proj2 (Nat.ltb_lt i P)) by lia. rewrite (proj2 (Nat.ltb_ge (i + P) n)) by lia. reflexivity.
    + set (q := Nat.min P (n - P)). assert (Sq : seq 0 n = seq 0 q ++ seq q (P - q) ++ seq P q ++ seq (P + q) (n - P - q)).
      { rewrite app_assoc, <- seq_app. replace (q + (P - q)) with P by (unfold q; lia). rewrite <- seq_app. replace (q + (n - P - q)) with (n - P) by (unfold q; lia).
        rewrite <- seq_app. f_equal. lia. }
      rewrite Sq, !flat_map_app. rewrite (flat_nil (spread l) (seq P q)), (flat_nil (spread l) (seq (P + q) _)).
      2, 3: intros i Hi; apply in_seq in Hi; apply spread_empty; fold P; lia.
      rewrite (flat_nil (spread (S l)) (seq (P + q) _)).
      2: { intros i Hi. apply in_seq in Hi. apply spread_empty. change (2 ^ S l) with (2 * P). unfold q in Hi. lia. }
      rewrite (flat_ext (spread (S l)) (spread l) (seq q (P - q))).
      2: { intros i Hi. apply in_seq in Hi. cbn [spread]. unfold spread_step. fold P. unfold q in Hi. rewrite (proj2 (Nat.ltb_lt i P)) by lia. rewrite (proj2 (Nat.ltb_ge (i + P) n)) by lia. reflexivity. }
      rewrite !app_nil_r.
      eapply Permutation_trans; [apply Permutation_app_head, Permutation_app_comm|]. rewrite app_assoc. apply Permutation_app_tail. apply Permutation_sym.
      rewrite (flat_shift (spread (S l)) P q). apply flat_perm. intros i Hi. apply in_seq in Hi. unfold q in Hi. cbn [spread]. unfold spread_step. fold P. rewrite pow_S. fold P.
      rewrite (proj2 (Nat.ltb_lt i P)), (proj2 (Nat.ltb_lt (i + P) n)), (proj2 (Nat.ltb_ge (i + P) P)), (proj2 (Nat.ltb_lt (i + P) (2 * P))) by lia. cbn [andb].
      replace (i + P - P) with i by lia. apply halves_ok. apply (sender_nonempty (S l) l i En); fold P; lia.
Qed.

(** ** the parts are separated *)
Lemma mod_pow_le l j m : j <= l -> (m mod 2 ^ l) mod 2 ^ j = m mod 2 ^ j.
Proof.
  intros H. replace l with (j + (l - j)) by lia. rewrite Nat.pow_add_r. pose proof (pow_pos j). pose proof (pow_pos (l - j)).
  rewrite Nat.mod_mul_r by lia. rewrite (Nat.mul_comm (2 ^ j)), Nat.mod_add by lia. apply Nat.mod_mod. lia.
Qed.
Lemma spread_from l m x : enough n (S l) N -> In x (spread (S l) m) -> m < n -> In x (spread l (m mod 2 ^ l)).
Proof.
  intros En Hx Hn. cbn [spread] in Hx. unfold spread_step in Hx. pose proof (pow_pos l) as Pp. rewrite pow_S in Hx.
  destruct (Nat.ltb_spec m (2 ^ l)) as [L|L].
  - rewrite Nat.mod_small by exact L. destruct (Nat.ltb_spec (m + 2 ^ l) n) as [L2|L2]; [|exact Hx].
    eapply Permutation_in; [apply Permutation_sym; apply (proj1 (halves_ok l _ (sender_nonempty (S l) l m En ltac:(lia) L L2)))|]. apply in_or_app. left. exact Hx.
  - destruct (Nat.ltb_spec m (2 * 2 ^ l)) as [L2|L2]; cbn [andb] in Hx.
    + rewrite (proj2 (Nat.ltb_lt m n) Hn) in Hx. replace (m mod 2 ^ l) with (m - 2 ^ l).
      2: { replace m with ((m - 2 ^ l) + 1 * 2 ^ l) at 2 by lia. rewrite Nat.mod_add by lia. rewrite Nat.mod_small by lia. reflexivity. }
      eapply Permutation_in; [apply Permutation_sym; apply (proj1 (halves_ok l _ (sender_nonempty (S l) l (m - 2 ^ l) En ltac:(lia) ltac:(lia) ltac:(lia))))|]. apply in_or_app. right. exact Hx.
    + rewrite spread_empty in Hx by lia. destruct Hx.
Qed.
Lemma spread_parted lev : enough n lev N -> forall j m m', j < lev -> m < n -> m' < n -> m mod 2 ^ j = m' mod 2 ^ j -> Nat.testbit m j = false -> Nat.testbit m' j = true ->
  forall x y, In x (spread lev m) -> In y (spread lev m') -> (coord x (j mod ndim) <= coord y (j mod ndim))%Z.
Proof.
  induction lev as [|l IH]; intros En j m m' Hj Hm Hm' E B B' x y Hx Hy; [lia|]. assert (En' : enough n l N) by (intros k Hk; apply En; lia). pose proof (pow_pos l) as Pp.
  destruct (Nat.eq_dec j l) as [-> |Hjl].
  - (* last split *)
    assert (Lm : forall i z, In z (spread (S l) i) -> i < 2 * 2 ^ l).
    { intros i z Hz. destruct (Nat.lt_ge_cases i (2 * 2 ^ l)) as [C|C]; [exact C|]. rewrite spread_empty in Hz by (cbn [Nat.pow]; lia). destruct Hz. }
    pose proof (Lm m x Hx) as M1. pose proof (Lm m' y Hy) as M2.
    assert (T : forall i, i < 2 * 2 ^ l -> Nat.testbit i l = negb (i <? 2 ^ l)).
    { intros i Hi. destruct (Nat.ltb_spec i (2 ^ l)) as [C|C]; cbn [negb].
      - destruct (Nat.eq_dec i 0) as [-> |Hi0]; [apply Nat.bits_0|]. apply Nat.bits_above_log2. apply Nat.log2_lt_pow2; lia.
      - replace l with (Nat.log2 i); [apply Nat.bit_log2; lia|]. apply Nat.log2_unique; [lia|]. cbn [Nat.pow]. lia. }
    rewrite T in B by exact M1. rewrite T in B' by exact M2. destruct (Nat.ltb_spec m (2 ^ l)) as [C|C]; [|discriminate]. destruct (Nat.ltb_spec m' (2 ^ l)) as [C'|C']; [discriminate|].
    assert (Em : m' = m + 2 ^ l).
    { rewrite (Nat.mod_small m) in E by exact C. replace m' with ((m' - 2 ^ l) + 1 * 2 ^ l) in E by lia. rewrite Nat.mod_add in E by lia. rewrite Nat.mod_small in E by lia. lia. }
    subst m'. cbn [spread] in Hx, Hy. unfold spread_step in Hx, Hy. rewrite pow_S in Hy.
    rewrite (proj2 (Nat.ltb_lt m (2 ^ l)) C), (proj2 (Nat.ltb_lt (m + 2 ^ l) n) Hm') in Hx.
    rewrite (proj2 (Nat.ltb_ge (m + 2 ^ l) (2 ^ l))), (proj2 (Nat.ltb_lt (m + 2 ^ l) (2 * 2 ^ l))), (proj2 (Nat.ltb_lt (m + 2 ^ l) n) Hm') in Hy by lia. cbn [andb] in Hy.
    replace (m + 2 ^ l - 2 ^ l) with m in Hy by lia.
    exact (proj2 (proj2 (proj2 (halves_ok l _ (sender_nonempty (S l) l m En ltac:(lia) C Hm')))) x y Hx Hy).
  - apply (spread_from l m x En) in Hx; [|exact Hm]. apply (spread_from l m' y En) in Hy; [|exact Hm'].
    assert (TB : forall i, Nat.testbit (i mod 2 ^ l) j = Nat.testbit i j) by (intros i; apply Nat.mod_pow2_bits_low; lia).
    pose proof (Nat.mod_le m (2 ^ l) ltac:(lia)). pose proof (Nat.mod_le m' (2 ^ l) ltac:(lia)).
    apply (IH En' j (m mod 2 ^ l) (m' mod 2 ^ l)); [lia|lia|lia| | | |exact Hx|exact Hy].
    + rewrite !mod_pow_le by lia. exact E.
    + rewrite TB. exact B.
    + rewrite TB. exact B'.
Qed.
End Levels.
