From Coq Require Import List Arith ZArith Bool Lia.
From Verif Require Import Energy_Model Energy_Spec.
Import ListNotations.

(** ** helpers *)
Lemma upd_same {A} (f : nat -> A) i x : upd f i x i = x.
Proof. unfold upd. rewrite Nat.eqb_refl. reflexivity. Qed.
Lemma upd_other {A} (f : nat -> A) i x j : j <> i -> upd f i x j = f j.
Proof. intros H. unfold upd. apply Nat.eqb_neq in H. rewrite H. reflexivity. Qed.
Lemma sum_ext f g k : (forall t, t < k -> f t = g t) -> sum_threads f k = sum_threads g k.
Proof. induction k as [|k IH]; intros H; [reflexivity|]. cbn. rewrite IH by (intros; apply H; lia). rewrite H by lia. reflexivity. Qed.
Lemma sum_zero f k : (forall t, t < k -> f t = 0%Z) -> sum_threads f k = 0%Z.
Proof. induction k as [|k IH]; intros H; [reflexivity|]. cbn. rewrite IH by (intros; apply H; lia). rewrite H by lia. reflexivity. Qed.
Lemma sum_one f g k t : t < k -> (forall u, u < k -> u <> t -> f u = g u) -> sum_threads f k = (sum_threads g k + f t - g t)%Z.
Proof.
  induction k as [|k IH]; intros Ht H; [lia|]. cbn. destruct (Nat.eq_dec t k) as [->|N].
  - rewrite (sum_ext f g k) by (intros; apply H; lia). lia.
  - rewrite IH by (lia || (intros; apply H; lia)). rewrite (H k) by lia. lia.
Qed.
Lemma lookup_in l n i : lookup l n = Some i -> In (n, i) l.
Proof. induction l as [|[k j] l IH]; cbn; [discriminate|]. destruct (Nat.eqb_spec k n) as [->|]; [intros H; injection H as ->; left; reflexivity|intros H; right; auto]. Qed.
Lemma lookup_none l n : lookup l n = None <-> ~ In n (map fst l).
Proof.
  induction l as [|[k j] l IH]; cbn; [tauto|]. destruct (Nat.eqb_spec k n) as [->|N]; [split; [discriminate|tauto]|]. rewrite IH. intuition.
Qed.
Lemma in_lookup l n i : NoDup (map fst l) -> In (n, i) l -> lookup l n = Some i.
Proof.
  induction l as [|[k j] l IH]; cbn; [intros _ []|]. intros Hd [E|H]; [injection E as -> ->; rewrite Nat.eqb_refl; reflexivity|]. inversion Hd as [|x xs Hx Hd']; subst.
  destruct (Nat.eqb_spec k n) as [->|N]; [exfalso; apply Hx; apply in_map_iff; exists (n, i); auto|auto].
Qed.
Lemma assign_new l n i : lookup l n = None -> assign l n i = l ++ [(n, i)].
Proof. induction l as [|[k j] l IH]; cbn; [reflexivity|]. destruct (Nat.eqb_spec k n); [discriminate|]. intros H. rewrite IH by exact H. reflexivity. Qed.
Lemma lookup_app l n k i : lookup (l ++ [(k, i)]) n = match lookup l n with Some j => Some j | None => if k =? n then Some i else None end.
Proof. induction l as [|[a j] l IH]; cbn; [reflexivity|]. destruct (a =? n); [reflexivity|exact IH]. Qed.
Lemma names_bound l k n i : map snd l = seq 0 k -> lookup l n = Some i -> i < k.
Proof. intros E H. apply lookup_in in H. apply (in_map snd) in H. rewrite E in H. apply in_seq in H. cbn in H. lia. Qed.
Lemma names_inj l k n n' i : NoDup (map fst l) -> map snd l = seq 0 k -> lookup l n = Some i -> lookup l n' = Some i -> n = n'.
Proof.
  intros Hd E H H'. apply lookup_in in H, H'. assert (Hs : NoDup (map snd l)) by (rewrite E; apply seq_NoDup). clear -Hs H H'. induction l as [|[a j] l IH]; [destruct H|]. inversion Hs as [|x xs Hx Hs']; subst. cbn in *.
  destruct H as [H|H], H' as [H'|H'].
  - congruence.
  - injection H as -> ->. exfalso. apply Hx. apply in_map_iff. exists (n', i). auto.
  - injection H' as -> ->. exfalso. apply Hx. apply in_map_iff. exists (n, i). auto.
  - auto.
Qed.
Lemma names_all l k i : map snd l = seq 0 k -> i < k -> exists n : nat, In (n, i) l.
Proof. intros E H. assert (In i (map snd l)) by (rewrite E; apply in_seq; lia). apply in_map_iff in H0. destruct H0 as ([n j] & <- & Hin). exists n. exact Hin. Qed.

(** ** resize *)
Lemma lines_enough P n : 1 <= perCL P -> n <= nCL_for_N P n * perCL P.
Proof.
  intros H. unfold nCL_for_N. pose proof (Nat.div_mod n (perCL P) ltac:(lia)) as D. pose proof (Nat.mod_upper_bound n (perCL P) ltac:(lia)). destruct (Nat.eqb_spec (n mod perCL P) 0); nia.
Qed.
Lemma resize_grow P s : 1 <= perCL P -> sz s <= cap s ->
  let s1 := resize P s (sz s + 1) in
  sz s1 = sz s + 1 /\ sz s1 <= cap s1 /\ (forall t i, i < sz s -> mem s1 t i = mem s t i) /\ (forall t, mem s1 t (sz s) = 0%Z) /\
  names s1 = names s /\ rstep s1 = rstep s /\ own s1 = own s /\ pc s1 = pc s.
Proof.
  intros HP Hc. cbv zeta. unfold resize. destruct (Nat.eqb_spec (sz s + 1) (sz s)); [lia|]. cbn [sz cap mem names rstep own pc]. pose proof (lines_enough P (sz s + 1) HP).
  split; [reflexivity|]. split; [destruct (Nat.ltb_spec (cap s) (nCL_for_N P (sz s + 1) * perCL P)); lia|]. split.
  - intros t i Hi. replace (sz s <=? i) with false by (symmetry; apply Nat.leb_gt; lia). cbn [andb]. destruct (cap s <? nCL_for_N P (sz s + 1) * perCL P); [|reflexivity]. replace (i <? cap s) with true by (symmetry; apply Nat.ltb_lt; lia). reflexivity.
  - split; [intros t; rewrite Nat.leb_refl; replace (sz s <? sz s + 1) with true by (symmetry; apply Nat.ltb_lt; lia); reflexivity|]. repeat split.
Qed.
Lemma set_nth_length l : forall i b, length (set_nth l i b) = length l.
Proof. induction l as [|x l IH]; intros [|i] b; cbn; auto. Qed.
Lemma flags_grow l b : set_nth (grow_flags l (length l + 1)) (length l) b = l ++ [b].
Proof.
  unfold grow_flags. rewrite firstn_all2 by lia. replace (length l + 1 - length l) with 1 by lia. cbn [repeat]. induction l as [|x l IH]; [reflexivity|]. cbn. f_equal. exact IH.
Qed.
Lemma create_spec P s n r : 1 <= perCL P -> sz s <= cap s -> length (rstep s) = sz s -> lookup (names s) n = None ->
  exists s1, create P s n r = (s1, sz s) /\ names s1 = names s ++ [(n, sz s)] /\ rstep s1 = rstep s ++ [r] /\ sz s1 = sz s + 1 /\ sz s1 <= cap s1 /\
    (forall t i, i < sz s -> mem s1 t i = mem s t i) /\ (forall t, mem s1 t (sz s) = 0%Z) /\ own s1 = own s /\ pc s1 = pc s.
Proof.
  intros HP Hc Hl Hn. destruct (resize_grow P s HP Hc) as (A & B & C & D & E & F & G & K). unfold create. rewrite A, E, F. replace (sz s + 1 - 1) with (sz s) by lia. eexists. split; [reflexivity|]. cbn [names rstep sz cap mem own pc].
  split; [apply assign_new; exact Hn|]. split; [rewrite <- Hl; apply flags_grow|]. split; [reflexivity|]. split; [lia|]. auto.
Qed.

(** ** invariant *)
Definition carry (P : params) (x : stage) (n : nat) : Z :=
  match x with Idle => 0%Z | Find o v | Create o v | Acc o v => if nm P o =? n then v else 0%Z end.
Definition carries (P : params) (x : stage) (n : nat) : Prop :=
  match x with Idle => False | Find o v | Create o v | Acc o v => nm P o = n end.
Definition pend (P : params) (s : est) (n : nat) : Z := sum_threads (fun t => carry P (pc s t) n) (nThreads P).

Record inv (P : params) (s : est) (L : ledger) : Prop := mkI {
  i_dup : NoDup (map fst (names s));
  i_ids : map snd (names s) = seq 0 (sz s);
  i_flags : length (rstep s) = sz s;
  i_cap : sz s <= cap s;
  i_own : forall o i, own s o = Some i -> lookup (names s) (nm P o) = Some i;
  i_acc : forall t o v, t < nThreads P -> pc s t = Acc o v -> own s o <> None;
  i_val : forall n i, lookup (names s) n = Some i -> exists f, L n = Some (get P s i + pend P s n, f)%Z /\ nth_error (rstep s) i = Some f;
  i_new : forall n, lookup (names s) n = None ->
    (L n = None /\ forall t, t < nThreads P -> ~ carries P (pc s t) n) \/
    (L n = Some (pend P s n, rf P n) /\ exists t, t < nThreads P /\ carries P (pc s t) n) }.

Lemma pend_set_pc P s t x n : t < nThreads P -> pend P (set_pc s t x) n = (pend P s n + carry P x n - carry P (pc s t) n)%Z.
Proof.
  intros Ht. unfold pend. cbn [pc set_pc]. rewrite (sum_one _ (fun u => carry P (pc s u) n) _ t Ht); [rewrite upd_same; reflexivity|]. intros u Hu N. rewrite upd_other by exact N. reflexivity.
Qed.
Lemma pend_quiet P s n : quiet P s -> pend P s n = 0%Z.
Proof. intros H. apply sum_zero. intros t Ht. rewrite (H t Ht). reflexivity. Qed.
Lemma quiet_new P s L n : inv P s L -> quiet P s -> lookup (names s) n = None -> L n = None.
Proof. intros HI Hq Hn. destruct (i_new _ _ _ HI n Hn) as [[E _]|(_ & t & Ht & C)]; [exact E|]. rewrite (Hq t Ht) in C. destruct C. Qed.
Lemma get_same P s s1 i : (forall t, mem s1 t i = mem s t i) -> get P s1 i = get P s i.
Proof. intros H. apply sum_ext. auto. Qed.

Lemma inv_init P : inv P (init P) (fun _ => None).
Proof.
  constructor; cbn; try (constructor; fail); try reflexivity; try lia; try discriminate. intros n _. left. split; [reflexivity|]. intros t _ [].
Qed.

(** no change but the stage of one thread, carrying the same *)
Lemma inv_stage P s L t x : inv P s L -> t < nThreads P -> (forall n, carry P x n = carry P (pc s t) n) -> (forall n, carries P x n <-> carries P (pc s t) n) ->
  (forall o v, x = Acc o v -> own s o <> None) -> inv P (set_pc s t x) L.
Proof.
  intros HI Ht Hc Hs Ha. assert (Hp : forall n, pend P (set_pc s t x) n = pend P s n) by (intros n; rewrite pend_set_pc by exact Ht; rewrite Hc; lia).
  assert (Hx : forall u n, carries P (pc (set_pc s t x) u) n <-> carries P (pc s u) n). { intros u n. cbn [pc set_pc]. unfold upd. destruct (Nat.eqb_spec u t) as [->|]; [apply Hs|tauto]. }
  constructor; try (apply HI).
  - intros u o v Hu E. cbn [pc set_pc own] in *. unfold upd in E. destruct (Nat.eqb_spec u t) as [->|]; [exact (Ha o v E)|exact (i_acc _ _ _ HI u o v Hu E)].
  - intros n i E. rewrite Hp. exact (i_val _ _ _ HI n i E).
  - intros n E. rewrite Hp. destruct (i_new _ _ _ HI n E) as [[A B]|(A & u & Hu & B)]; [left|right]; (split; [exact A|]).
    + intros u Hu. rewrite Hx. apply B. exact Hu.
    + exists u. split; [exact Hu|]. apply Hx. exact B.
Qed.
Lemma inv_own P s L o i : inv P s L -> lookup (names s) (nm P o) = Some i -> inv P (set_own s o (Some i)) L.
Proof.
  intros HI E. constructor; try (apply HI).
  - intros o' j. cbn [own set_own names]. unfold upd. destruct (Nat.eqb_spec o' o) as [->|]; [intros H; injection H as <-; exact E|apply HI].
  - intros t o' v Ht H. cbn [own set_own pc] in *. unfold upd. destruct (Nat.eqb_spec o' o); [discriminate|]. exact (i_acc _ _ _ HI t o' v Ht H).
Qed.
Lemma inv_create P s L n t o v : good P -> inv P s L -> t < nThreads P -> pc s t = Create o v -> nm P o = n -> lookup (names s) n = None ->
  exists s1, create P s n (rf P n) = (s1, sz s) /\ inv P s1 L /\ lookup (names s1) n = Some (sz s) /\ pc s1 = pc s.
Proof.
  intros [HP _] HI Ht Epc En Hn. destruct (create_spec P s n (rf P n) HP (i_cap _ _ _ HI) (i_flags _ _ _ HI) Hn) as (s1 & E & N1 & F1 & S1 & C1 & M1 & Z1 & O1 & P1).
  exists s1. split; [exact E|]. assert (Hl : lookup (names s1) n = Some (sz s)) by (rewrite N1, lookup_app, Hn, Nat.eqb_refl; reflexivity). split; [|split; [exact Hl|exact P1]].
  assert (Hp : forall k, pend P s1 k = pend P s k) by (intros k; unfold pend; rewrite P1; reflexivity). constructor.
  - rewrite N1, map_app. cbn [map fst]. rewrite <- (rev_involutive (map fst (names s) ++ [n])). apply NoDup_rev. rewrite rev_app_distr. cbn [rev app]. constructor; [rewrite <- in_rev; apply lookup_none; exact Hn|apply NoDup_rev; exact (i_dup _ _ _ HI)].
  - rewrite N1, map_app, (i_ids _ _ _ HI), S1, seq_app. reflexivity.
  - rewrite F1, app_length, S1, (i_flags _ _ _ HI). reflexivity.
  - exact C1.
  - intros o' i. rewrite O1. intros H. apply (i_own _ _ _ HI) in H. rewrite N1, lookup_app, H. reflexivity.
  - intros u o' v' Hu. rewrite P1, O1. apply (i_acc _ _ _ HI u o' v' Hu).
  - intros k i Hk. rewrite Hp. rewrite N1, lookup_app in Hk. destruct (lookup (names s) k) as [j|] eqn:Ek.
    + injection Hk as <-. destruct (i_val _ _ _ HI k j Ek) as (f & EL & EF). pose proof (names_bound _ _ _ _ (i_ids _ _ _ HI) Ek) as Hb. exists f. rewrite (get_same P s s1 j) by (intros; apply M1; exact Hb). split; [exact EL|]. rewrite F1, nth_error_app1 by (rewrite (i_flags _ _ _ HI); exact Hb). exact EF.
    + destruct (Nat.eqb_spec n k) as [<-|]; [|discriminate]. injection Hk as <-. destruct (i_new _ _ _ HI n Hn) as [[_ B]|(A & _)]; [exfalso; apply (B t Ht); rewrite Epc; exact En|]. exists (rf P n). split.
      * rewrite A. f_equal. f_equal. replace (get P s1 (sz s)) with 0%Z; [lia|]. symmetry. apply sum_zero. intros; apply Z1.
      * rewrite F1, nth_error_app2, (i_flags _ _ _ HI), Nat.sub_diag by (rewrite (i_flags _ _ _ HI); lia). reflexivity.
  - intros k Hk. rewrite N1, lookup_app in Hk. destruct (lookup (names s) k) as [j|] eqn:Ek; [discriminate|]. rewrite Hp, P1. exact (i_new _ _ _ HI k Ek).
Qed.
Lemma inv_put P s L n i v : good P -> inv P s L -> quiet P s -> lookup (names s) n = Some i -> inv P (put s i v) (upd L n (Some (match L n with Some (_, f) => (v, f) | None => (v, false) end))).
Proof.
  intros [_ HT] HI Hq E. assert (G : forall j, get P (put s i v) j = if j =? i then v else get P s j).
  { intros j. unfold get. cbn [mem put]. destruct (Nat.eqb_spec j i) as [->|]; [|reflexivity]. destruct (nThreads P) as [|k]; [lia|]. clear. induction k as [|k IH]; [cbn; lia|]. change (sum_threads (fun t => if t =? 0 then v else 0%Z) (S (S k))) with (Z.add (sum_threads (fun t => if t =? 0 then v else 0%Z) (S k)) 0%Z). rewrite IH. lia. }
  constructor; try (apply HI); cbn [names put rstep].
  - intros k j Hk. change (pend P (put s i v) k) with (pend P s k). rewrite G, (pend_quiet P s k Hq). destruct (i_val _ _ _ HI k j Hk) as (f & EL & EF). exists f. split; [|exact EF]. unfold upd. destruct (Nat.eqb_spec k n) as [->|N].
    + assert (j = i) by congruence. subst j. rewrite Nat.eqb_refl, EL. f_equal. f_equal. lia.
    + destruct (Nat.eqb_spec j i) as [->|]; [destruct N; exact (names_inj _ _ _ _ _ (i_dup _ _ _ HI) (i_ids _ _ _ HI) Hk E)|]. rewrite EL, (pend_quiet P s k Hq). reflexivity.
  - intros k Hk. change (pend P (put s i v) k) with (pend P s k). unfold upd. destruct (Nat.eqb_spec k n) as [->|]; [congruence|]. exact (i_new _ _ _ HI k Hk).
Qed.
(** creation by SetItem: the name gets a cell with value 0 *)
Lemma inv_create_py P s L n : good P -> inv P s L -> quiet P s -> lookup (names s) n = None ->
  exists s1, create P s n false = (s1, sz s) /\ inv P s1 (upd L n (Some (0%Z, false))) /\ lookup (names s1) n = Some (sz s) /\ pc s1 = pc s /\ sz s < cap s1.
Proof.
  intros [HP _] HI Hq Hn. destruct (create_spec P s n false HP (i_cap _ _ _ HI) (i_flags _ _ _ HI) Hn) as (s1 & E & N1 & F1 & S1 & C1 & M1 & Z1 & O1 & P1).
  exists s1. split; [exact E|]. assert (Hl : lookup (names s1) n = Some (sz s)) by (rewrite N1, lookup_app, Hn, Nat.eqb_refl; reflexivity). split; [|split; [exact Hl|split; [exact P1|lia]]].
  assert (Hp : forall k, pend P s1 k = 0%Z) by (intros k; unfold pend; rewrite P1; exact (pend_quiet P s k Hq)). constructor.
  - rewrite N1, map_app. cbn [map fst]. rewrite <- (rev_involutive (map fst (names s) ++ [n])). apply NoDup_rev. rewrite rev_app_distr. cbn [rev app]. constructor; [rewrite <- in_rev; apply lookup_none; exact Hn|apply NoDup_rev; exact (i_dup _ _ _ HI)].
  - rewrite N1, map_app, (i_ids _ _ _ HI), S1, seq_app. reflexivity.
  - rewrite F1, app_length, S1, (i_flags _ _ _ HI). reflexivity.
  - exact C1.
  - intros o' i. rewrite O1. intros H. apply (i_own _ _ _ HI) in H. rewrite N1, lookup_app, H. reflexivity.
  - intros u o' v' Hu. rewrite P1, O1. apply (i_acc _ _ _ HI u o' v' Hu).
  - intros k i Hk. rewrite Hp. rewrite N1, lookup_app in Hk. unfold upd. destruct (lookup (names s) k) as [j|] eqn:Ek.
    + injection Hk as <-. destruct (Nat.eqb_spec k n) as [->|]; [congruence|]. destruct (i_val _ _ _ HI k j Ek) as (f & EL & EF). pose proof (names_bound _ _ _ _ (i_ids _ _ _ HI) Ek) as Hb. exists f. rewrite (get_same P s s1 j) by (intros; apply M1; exact Hb). rewrite (pend_quiet P s k Hq) in EL. split; [exact EL|]. rewrite F1, nth_error_app1 by (rewrite (i_flags _ _ _ HI); exact Hb). exact EF.
    + destruct (Nat.eqb_spec n k) as [<-|]; [|discriminate]. injection Hk as <-. rewrite Nat.eqb_refl. exists false. split.
      * f_equal. f_equal. replace (get P s1 (sz s)) with 0%Z; [lia|]. symmetry. apply sum_zero. intros; apply Z1.
      * rewrite F1, nth_error_app2, (i_flags _ _ _ HI), Nat.sub_diag by (rewrite (i_flags _ _ _ HI); lia). reflexivity.
  - intros k Hk. rewrite N1, lookup_app in Hk. destruct (lookup (names s) k) as [j|] eqn:Ek; [discriminate|]. unfold upd. destruct (Nat.eqb_spec n k) as [<-|Nk]; [discriminate|]. destruct (Nat.eqb_spec k n); [congruence|]. rewrite P1. left. split; [exact (quiet_new P s L k HI Hq Ek)|]. intros t Ht. rewrite (Hq t Ht). intros [].
Qed.
Lemma reset_from_spec P flags : good P -> forall s k, let s1 := reset_from s flags k in
  names s1 = names s /\ rstep s1 = rstep s /\ sz s1 = sz s /\ cap s1 = cap s /\ own s1 = own s /\ pc s1 = pc s /\
  (forall i, get P s1 i = if match nth_error flags (i - k) with Some b => b && (k <=? i) | None => false end then 0%Z else get P s i).
Proof.
  intros [_ HT]. assert (G : forall s i j, get P (put s i 0) j = if j =? i then 0%Z else get P s j).
  { intros s i j. unfold get. cbn [mem put]. destruct (j =? i); [|reflexivity]. apply sum_zero. intros t _. destruct (t =? 0); reflexivity. }
  assert (NF : forall x : option bool, match x with Some b => b && false | None => false end = false) by (intros [b|]; [apply andb_false_r|reflexivity]).
  induction flags as [|b flags IH]; intros s k; cbn [reset_from].
  - repeat split. intros i. destruct (i - k); reflexivity.
  - specialize (IH (if b then put s k 0%Z else s) (S k)). destruct IH as (A & B & C & D & E & F & H).
    assert (X : names (if b then put s k 0%Z else s) = names s /\ rstep (if b then put s k 0%Z else s) = rstep s /\ sz (if b then put s k 0%Z else s) = sz s /\ cap (if b then put s k 0%Z else s) = cap s /\ own (if b then put s k 0%Z else s) = own s /\ pc (if b then put s k 0%Z else s) = pc s) by (destruct b; repeat split).
    destruct X as (X1 & X2 & X3 & X4 & X5 & X6). split; [congruence|]. split; [congruence|]. split; [congruence|]. split; [congruence|]. split; [congruence|]. split; [congruence|]. intros i. rewrite H.
    destruct (lt_eq_lt_dec i k) as [[Hlt| -> ]|Hgt].
    + replace (S k <=? i) with false by (symmetry; apply Nat.leb_gt; lia). replace (k <=? i) with false by (symmetry; apply Nat.leb_gt; lia). rewrite !NF. destruct b; [rewrite G; replace (i =? k) with false by (symmetry; apply Nat.eqb_neq; lia)|]; reflexivity.
    + replace (S k <=? k) with false by (symmetry; apply Nat.leb_gt; lia). rewrite NF, Nat.sub_diag, Nat.leb_refl. cbn [nth_error]. rewrite andb_true_r. destruct b; [rewrite G, Nat.eqb_refl|]; reflexivity.
    + replace (i - k) with (S (i - S k)) by lia. cbn [nth_error]. replace (S k <=? i) with true by (symmetry; apply Nat.leb_le; lia). replace (k <=? i) with true by (symmetry; apply Nat.leb_le; lia). destruct (nth_error flags (i - S k)) as [[|]|]; cbn [andb]; try reflexivity; (destruct b; [rewrite G; replace (i =? k) with false by (symmetry; apply Nat.eqb_neq; lia)|]; reflexivity).
Qed.

Theorem inv_step P s L a : good P -> inv P s L -> proper P s a -> calm P s a -> exists s1, step P s a = Some s1 /\ inv P s1 (book P L a).
Proof.
  intros HP HI Hpr Hcalm. destruct a as [t o v|t|n v| | | |]; cbn [step proper calm book] in *.
  - (* Begin *) destruct Hpr as [Ht Hid]. eexists. split; [reflexivity|]. unfold begin. set (x := match own s o with Some _ => Acc o v | None => Find o v end).
    assert (Ec : forall n, carry P x n = if nm P o =? n then v else 0%Z) by (intros n; subst x; destruct (own s o); reflexivity). assert (Es : forall n, carries P x n <-> nm P o = n) by (intros n; subst x; destruct (own s o); cbn; tauto).
    assert (Hp : forall n, pend P (set_pc s t x) n = (pend P s n + if (nm P o =? n)%nat then v else 0)%Z) by (intros n; rewrite pend_set_pc by exact Ht; rewrite Hid, Ec; cbn [carry]; lia).
    constructor; try (apply HI).
    + intros u o' v' Hu E. cbn [pc set_pc own] in *. unfold upd in E. destruct (Nat.eqb_spec u t) as [->|]; [|exact (i_acc _ _ _ HI u o' v' Hu E)]. subst x. destruct (own s o) eqn:Eo; [injection E as <- <-; congruence|discriminate].
    + intros n i E. rewrite Hp. change (get P (set_pc s t x) i) with (get P s i). destruct (i_val _ _ _ HI n i E) as (f & EL & EF). exists f. split; [|exact EF]. unfold upd. rewrite (Nat.eqb_sym n). destruct (Nat.eqb_spec (nm P o) n) as [<-|]; [rewrite EL; f_equal; f_equal; lia|rewrite EL; f_equal; f_equal; lia].
    + intros n E. rewrite Hp. unfold upd at 1 2. rewrite (Nat.eqb_sym n). destruct (Nat.eqb_spec (nm P o) n) as [<-|Nn].
      * right. split; [|exists t; split; [exact Ht|]; cbn [pc set_pc]; rewrite upd_same; apply Es; reflexivity]. destruct (i_new _ _ _ HI (nm P o) E) as [[A B]|(A & _)]; rewrite A; [|reflexivity]. f_equal. f_equal.
        assert (pend P s (nm P o) = 0%Z) as ->; [|lia]. apply sum_zero. intros u Hu. specialize (B u Hu). destruct (pc s u) as [|o' v'|o' v'|o' v']; cbn [carry carries] in *; [reflexivity| | |]; (destruct (Nat.eqb_spec (nm P o') (nm P o)); [contradiction|reflexivity]).
      * rewrite Z.add_0_r. destruct (i_new _ _ _ HI n E) as [[A B]|(A & u & Hu & B)]; [left|right]; (split; [exact A|]).
        { intros u Hu. cbn [pc set_pc]. unfold upd. destruct (Nat.eqb_spec u t) as [->|]; [rewrite Es; exact Nn|apply B; exact Hu]. }
        { exists u. split; [exact Hu|]. cbn [pc set_pc]. rewrite upd_other; [exact B|]. intros ->. rewrite Hid in B. destruct B. }
  - (* Go *) unfold go. destruct (pc s t) as [|o v|o v|o v] eqn:Epc.
    + eexists. split; [reflexivity|exact HI].
    + assert (A : exists s1, match lookup (names s) (nm P o) with Some i => Some (set_pc (set_own s o (Some i)) t (Acc o v)) | None => Some (set_pc s t (Create o v)) end = Some s1 /\ inv P s1 L).
      2:{ destruct (own s o) as [[|i]|] eqn:Eo; [exact A| |exact A]. eexists. split; [reflexivity|]. apply inv_stage; [exact HI|exact Hpr| | |]; rewrite ?Epc; cbn; try tauto; try reflexivity. intros o' v' H. injection H as <- <-. rewrite Eo. discriminate. }
      destruct (lookup (names s) (nm P o)) as [i|] eqn:El.
      * eexists. split; [reflexivity|]. apply inv_stage; [apply inv_own; assumption|exact Hpr| | |]; cbn [pc set_own]; rewrite ?Epc; cbn; try tauto; try reflexivity. intros o' v' H. injection H as <- <-. rewrite upd_same. discriminate.
      * eexists. split; [reflexivity|]. apply inv_stage; [exact HI|exact Hpr| | |]; rewrite ?Epc; cbn; try tauto; try reflexivity. discriminate.
    + destruct (inv_create P s L (nm P o) t o v HP HI Hpr Epc eq_refl Hcalm) as (s1 & -> & I1 & L1 & P1). eexists. split; [reflexivity|]. apply inv_stage; [apply inv_own; assumption|exact Hpr| | |]; cbn [pc set_own]; rewrite ?P1, ?Epc; cbn; try tauto; try reflexivity. intros o' v' H. injection H as <- <-. rewrite upd_same. discriminate.
    + destruct (own s o) as [i|] eqn:Eo; [|destruct (i_acc _ _ _ HI t o v Hpr Epc Eo)]. pose proof (i_own _ _ _ HI o i Eo) as El. pose proof (names_bound _ _ _ _ (i_ids _ _ _ HI) El) as Hb. pose proof (i_cap _ _ _ HI) as Hc.
      replace (i <? cap s) with true by (symmetry; apply Nat.ltb_lt; lia). eexists. split; [reflexivity|]. set (s0 := mkS _ _ _ _ _ _ _ _).
      assert (G : forall j, get P (set_pc s0 t Idle) j = (get P s j + if (j =? i)%nat then v else 0)%Z).
      { intros j. unfold get. cbn [mem set_pc s0]. rewrite (sum_one _ (fun u => mem s u j) _ t Hpr); [|intros u _ N; unfold upd2; apply Nat.eqb_neq in N; rewrite N; reflexivity]. unfold upd2. rewrite Nat.eqb_refl. cbn [andb]. destruct (Nat.eqb_spec j i) as [->|]; lia. }
      assert (Hp : forall n, pend P (set_pc s0 t Idle) n = (pend P s n - if (nm P o =? n)%nat then v else 0)%Z). { intros n. rewrite pend_set_pc by exact Hpr. change (pc s0 t) with (pc s t). rewrite Epc. cbn [carry]. change (pend P s0 n) with (pend P s n). lia. }
      constructor; try (apply HI).
      * intros u o' v' Hu E. cbn [pc set_pc own s0] in *. unfold upd in E. destruct (Nat.eqb_spec u t); [discriminate|]. exact (i_acc _ _ _ HI u o' v' Hu E).
      * intros n j E. cbn [names set_pc s0 rstep] in *. destruct (i_val _ _ _ HI n j E) as (f & EL & EF). exists f. split; [|exact EF]. rewrite G, Hp, EL. f_equal. f_equal. destruct (Nat.eqb_spec (nm P o) n) as [<-|N].
        { assert (j = i) by congruence. subst j. rewrite Nat.eqb_refl. lia. }
        { destruct (Nat.eqb_spec j i) as [->|]; [destruct N; exact (names_inj _ _ _ _ _ (i_dup _ _ _ HI) (i_ids _ _ _ HI) El E)|]. lia. }
      * intros n E. cbn [names set_pc s0] in *. assert (N : nm P o <> n) by (intros <-; congruence). rewrite Hp. apply Nat.eqb_neq in N. rewrite N, Z.sub_0_r. apply Nat.eqb_neq in N. destruct (i_new _ _ _ HI n E) as [[A B]|(A & u & Hu & B)]; [left|right]; (split; [exact A|]).
        { intros u Hu. cbn [pc set_pc s0]. unfold upd. destruct (Nat.eqb_spec u t) as [->|]; [intros []|apply B; exact Hu]. }
        { exists u. split; [exact Hu|]. cbn [pc set_pc s0]. rewrite upd_other; [exact B|]. intros ->. rewrite Epc in B. cbn in B. contradiction. }
  - (* SetItem *) unfold setItem_py. destruct (lookup (names s) n) as [i|] eqn:El.
    + pose proof (names_bound _ _ _ _ (i_ids _ _ _ HI) El) as Hb. pose proof (i_cap _ _ _ HI) as Hc. replace (i <? cap s) with true by (symmetry; apply Nat.ltb_lt; lia). eexists. split; [reflexivity|]. apply inv_put; assumption.
    + destruct (inv_create_py P s L n HP HI Hpr El) as (s1 & -> & I1 & L1 & P1 & C1). replace (sz s <? cap s1) with true by (symmetry; apply Nat.ltb_lt; exact C1). eexists. split; [reflexivity|].
      assert (Hq : quiet P s1) by (intros t Ht; rewrite P1; apply Hpr; exact Ht). pose proof (inv_put P s1 _ n (sz s) v HP I1 Hq L1) as I2. rewrite upd_same in I2. rewrite (quiet_new P s L n HI Hpr El).
      destruct I2 as [J1 J2 J3 J4 J5 J6 J7 J8]. constructor; try assumption; intros k; [intros i Hk; destruct (J7 k i Hk) as (f & A & B); exists f; split; [|exact B]; rewrite <- A|intros Hk; destruct (J8 k Hk) as [[A B]|[A B]]; [left|right]; (split; [rewrite <- A|exact B])]; unfold upd; destruct (k =? n); reflexivity.
  - (* Reset *) eexists. split; [reflexivity|]. unfold resetResettables. rewrite firstn_all2 by (rewrite (i_flags _ _ _ HI); lia). destruct (reset_from_spec P (rstep s) HP s 0) as (A & B & C & D & E & F & G).
    assert (Hp : forall n, pend P (reset_from s (rstep s) 0) n = 0%Z) by (intros n; unfold pend; rewrite F; exact (pend_quiet P s n Hpr)).
    constructor; rewrite ?A, ?B, ?C, ?D, ?E, ?F; try (apply HI).
    + intros n i El. destruct (i_val _ _ _ HI n i El) as (f & EL & EF). exists f. split; [|exact EF]. rewrite Hp, G, Nat.sub_0_r, EF, EL, (pend_quiet P s n Hpr). cbn [Nat.leb]. rewrite andb_true_r. destruct f; f_equal; f_equal; lia.
    + intros n El. left. rewrite (quiet_new P s L n HI Hpr El). split; [reflexivity|]. intros t Ht. rewrite (Hpr t Ht). intros [].
  - (* Clear *) eexists. split; [reflexivity|]. assert (R : sz (resize P s 0) = 0 /\ own (resize P s 0) = own s /\ pc (resize P s 0) = pc s). { unfold resize. destruct (Nat.eqb_spec 0 (sz s)); [auto|]. repeat split. } destruct R as (R1 & R2 & R3).
    unfold clear. constructor; cbn; rewrite ?R1, ?R2, ?R3; try (constructor; fail); try reflexivity; try lia.
    + intros o i H. rewrite Hcalm in H. discriminate.
    + intros t o v Ht H. rewrite (Hpr t Ht) in H. discriminate.
    + discriminate.
    + intros n _. left. split; [reflexivity|]. intros t Ht. rewrite (Hpr t Ht). intros [].
  - (* NewEngines *) eexists. split; [reflexivity|]. constructor; try (apply HI); cbn.
    + discriminate.
    + intros t o v Ht H. rewrite (Hpr t Ht) in H. discriminate.
  - (* NewTracker *) eexists. split; [reflexivity|]. constructor; cbn; try (constructor; fail); try reflexivity; try lia.
    + intros o i H. rewrite Hcalm in H. discriminate.
    + intros t o v Ht H. rewrite (Hpr t Ht) in H. discriminate.
    + discriminate.
    + intros n _. left. split; [reflexivity|]. intros t Ht. rewrite (Hpr t Ht). intros [].
Qed.
Theorem inv_run P l : good P -> forall s L, inv P s L -> along P (proper P) s l -> along P (calm P) s l -> exists s1, run P s l = Some s1 /\ inv P s1 (fold_left (book P) l L).
Proof.
  intros HP. induction l as [|a l IH]; intros s L HI Hp Hc; [exists s; split; [reflexivity|exact HI]|]. cbn [along] in Hp, Hc. destruct Hp as [Hp1 Hp2], Hc as [Hc1 Hc2]. destruct (inv_step P s L a HP HI Hp1 Hc1) as (s1 & E & I1). cbn [run fold_left]. rewrite E in *. apply IH; assumption.
Qed.
Lemma total_names P s L : inv P s L -> total P s = fold_right Z.add 0%Z (map (fun n => match lookup (names s) n with Some i => get P s i | None => 0%Z end) (keys s)).
Proof.
  intros HI. unfold total, keys. rewrite <- (i_ids _ _ _ HI), !map_map. f_equal. apply map_ext_in. intros [n i] Hin. cbn [fst snd]. rewrite (in_lookup _ n i (i_dup _ _ _ HI) Hin). reflexivity.
Qed.
Theorem values P l : good P -> along P (proper P) (init P) l -> along P (calm P) (init P) l -> exists s, run P (init P) l = Some s /\
  (quiet P s -> (forall n, getItem_py P s n = option_map fst (books P l n)) /\ NoDup (keys s) /\
     total P s = fold_right Z.add 0%Z (map (fun n => match books P l n with Some (x, _) => x | None => 0%Z end) (keys s)) /\
     forall n, In n (keys s) <-> books P l n <> None).
Proof.
  intros HP Hp Hc. destruct (inv_run P l HP _ _ (inv_init P) Hp Hc) as (s & E & HI). exists s. split; [exact E|]. intros Hq. fold (books P l) in HI.
  assert (V : forall n, match lookup (names s) n with Some i => exists f, books P l n = Some (get P s i, f) | None => books P l n = None end).
  { intros n. destruct (lookup (names s) n) as [i|] eqn:El; [|exact (quiet_new P s _ n HI Hq El)]. destruct (i_val _ _ _ HI n i El) as (f & EL & _). exists f. rewrite EL, (pend_quiet P s n Hq). f_equal. f_equal. lia. }
  split; [|split; [exact (i_dup _ _ _ HI)|split]].
  - intros n. specialize (V n). unfold getItem_py. destruct (lookup (names s) n); [destruct V as (f & ->)|rewrite V]; reflexivity.
  - rewrite (total_names P s _ HI). f_equal. apply map_ext. intros n. specialize (V n). destruct (lookup (names s) n); [destruct V as (f & ->)|rewrite V]; reflexivity.
  - intros n. specialize (V n). unfold keys. destruct (lookup (names s) n) as [i|] eqn:El.
    + destruct V as (f & ->). split; [discriminate|]. intros _. apply lookup_in in El. apply in_map_iff. exists (n, i). auto.
    + rewrite V. apply lookup_none in El. tauto.
Qed.

(** ** memory *)
Lemma lines_one P n : 1 <= perCL P -> n <= perCL P -> nCL_for_N P n = 0 \/ nCL_for_N P n = 1.
Proof.
  intros HP Hn. unfold nCL_for_N. destruct (Nat.eq_dec n (perCL P)) as [->|N]; [rewrite Nat.div_same, Nat.mod_same by lia; auto|]. rewrite Nat.div_small by lia. destruct (n mod perCL P =? 0); auto.
Qed.
Definition lean (P : params) (s : est) : Prop := overread s = false /\ (nThreads P <= 1 \/ cap s = 0 \/ cap s = perCL P).
Lemma resize_lean P s n : 1 <= perCL P -> lean P s -> nThreads P <= 1 \/ n <= perCL P -> lean P (resize P s n).
Proof.
  intros HP [Ho Hc] Hn. unfold lean, resize. destruct (n =? sz s); [split; assumption|]. cbn [overread cap]. rewrite Ho. cbn [orb].
  destruct (le_lt_dec (nThreads P) 1) as [HT|HT]; [split; [|left; exact HT]; replace (1 <? nThreads P) with false by (symmetry; apply Nat.ltb_ge; lia); apply andb_false_r|].
  destruct Hn as [Hn|Hn]; [lia|]. destruct Hc as [Hc|Hc]; [lia|]. pose proof (lines_one P n HP Hn) as L. destruct Hc as [Hc|Hc]; rewrite Hc.
  - cbn [Nat.ltb Nat.leb]. rewrite andb_false_r. split; [reflexivity|]. right. destruct L as [-> | ->]; rewrite ?Nat.mul_0_l, ?Nat.mul_1_l; [left; reflexivity|]. destruct (perCL P); auto.
  - replace (perCL P <? nCL_for_N P n * perCL P) with false by (symmetry; apply Nat.ltb_ge; destruct L as [-> | ->]; lia). auto.
Qed.
Lemma create_lean P s n r : 1 <= perCL P -> lean P s -> nThreads P <= 1 \/ sz s + 1 <= perCL P -> lean P (fst (create P s n r)).
Proof. intros HP Hl Hs. exact (resize_lean P s (sz s + 1) HP Hl Hs). Qed.
Lemma reset_lean P flags : forall s k, lean P s -> lean P (reset_from s flags k).
Proof. induction flags as [|b l IH]; intros s k H; [exact H|]. cbn [reset_from]. apply IH. destruct b; exact H. Qed.

(** few names *)
Definition mentions (P : params) (x : stage) (NS : list nat) : Prop := match x with Find o _ | Create o _ => In (nm P o) NS | _ => True end.
Definition within (P : params) (NS : list nat) (s : est) : Prop := lean P s /\ incl (map fst (names s)) NS /\ forall t, t < nThreads P -> mentions P (pc s t) NS.
Lemma room P NS s L n : inv P s L -> NoDup NS -> length NS <= perCL P -> incl (map fst (names s)) NS -> In n NS -> lookup (names s) n = None -> sz s + 1 <= perCL P.
Proof.
  intros HI Hd Hl Hi Hn E. apply lookup_none in E. assert (N : NoDup (n :: map fst (names s))) by (constructor; [exact E|apply HI]). apply NoDup_incl_length with (l' := NS) in N; [|intros k [<-|Hk]; auto]. cbn [length] in N. rewrite map_length in N.
  pose proof (f_equal (@length nat) (i_ids _ _ _ HI)) as Q. rewrite map_length, seq_length in Q. lia.
Qed.
Lemma mentions_upd P s t x NS : (forall u, u < nThreads P -> mentions P (pc s u) NS) -> mentions P x NS -> forall u, u < nThreads P -> mentions P (pc (set_pc s t x) u) NS.
Proof. intros H Hx u Hu. cbn [pc set_pc]. unfold upd. destruct (u =? t); auto. Qed.
Lemma create_names P s n r : 1 <= perCL P -> sz s <= cap s -> length (rstep s) = sz s -> lookup (names s) n = None -> names (fst (create P s n r)) = names s ++ [(n, sz s)] /\ pc (fst (create P s n r)) = pc s.
Proof. intros A B C D. destruct (create_spec P s n r A B C D) as (s1 & E & N1 & _ & _ & _ & _ & _ & _ & P1). rewrite E. auto. Qed.
Lemma within_step P NS s L a s1 : good P -> NoDup NS -> length NS <= perCL P -> inv P s L -> proper P s a -> calm P s a -> names_of P a NS -> within P NS s -> step P s a = Some s1 -> within P NS s1.
Proof.
  intros [HP HT] Hd Hl HI Hpr Hcalm Hn (Hle & Hi & Hm) E. destruct a as [t o v|t|n v| | | |]; cbn [step proper calm names_of] in *.
  - injection E as <-. unfold begin. repeat (split; try assumption; try (apply Hle)). apply mentions_upd; [exact Hm|]. destruct (own s o); cbn; auto.
  - unfold go in E. destruct (pc s t) as [|o v|o v|o v] eqn:Epc.
    + injection E as <-. repeat (split; try assumption; try (apply Hle)).
    + assert (Hin : In (nm P o) NS) by (specialize (Hm t Hpr); rewrite Epc in Hm; exact Hm). destruct (own s o) as [[|i]|]; [destruct (lookup (names s) (nm P o))| |destruct (lookup (names s) (nm P o))]; injection E as <-; (split; [exact Hle|]; split; [exact Hi|]; apply mentions_upd; [exact Hm|]; cbn; auto).
    + assert (Hin : In (nm P o) NS) by (specialize (Hm t Hpr); rewrite Epc in Hm; exact Hm). pose proof (room P NS s L _ HI Hd Hl Hi Hin Hcalm) as R. pose proof (create_lean P s (nm P o) (rf P (nm P o)) HP Hle (or_intror R)) as Q. destruct (create_names P s (nm P o) (rf P (nm P o)) HP (i_cap _ _ _ HI) (i_flags _ _ _ HI) Hcalm) as [N1 P1].
      destruct (create P s (nm P o) (rf P (nm P o))) as [s2 i]. cbn [fst] in *. injection E as <-. split; [exact Q|]. split; [cbn [names set_pc set_own]; rewrite N1, map_app; intros k Hk; apply in_app_iff in Hk; destruct Hk as [Hk|[<-|[]]]; [apply Hi; exact Hk|exact Hin]|]. apply mentions_upd; [cbn [pc set_own]; rewrite P1; exact Hm|exact I].
    + destruct (own s o) as [i|]; [|discriminate]. destruct (i <? cap s); [|discriminate]. injection E as <-. split; [exact Hle|]. split; [exact Hi|]. apply mentions_upd; [exact Hm|exact I].
  - unfold setItem_py in E. destruct (lookup (names s) n) as [i|] eqn:El.
    + destruct (i <? cap s); [|discriminate]. injection E as <-. repeat (split; try assumption; try (apply Hle)).
    + pose proof (room P NS s L _ HI Hd Hl Hi Hn El) as R. pose proof (create_lean P s n false HP Hle (or_intror R)) as Q. destruct (create_names P s n false HP (i_cap _ _ _ HI) (i_flags _ _ _ HI) El) as [N1 P1].
      destruct (create P s n false) as [s2 i]. cbn [fst] in *. destruct (i <? cap s2); [|discriminate]. injection E as <-. split; [exact Q|]. split; [cbn [names put]; rewrite N1, map_app; intros k Hk; apply in_app_iff in Hk; destruct Hk as [Hk|[<-|[]]]; [apply Hi; exact Hk|exact Hn]|]. cbn [pc put]. rewrite P1. exact Hm.
  - injection E as <-. unfold resetResettables. split; [apply reset_lean; exact Hle|]. destruct (reset_from_spec P (firstn (sz s) (rstep s)) (conj HP HT) s 0) as (A & _ & _ & _ & _ & F & _). rewrite A, F. auto.
  - injection E as <-. split; [exact (resize_lean P s 0 HP Hle (or_intror (Nat.le_0_l _)))|]. split; [intros k []|]. unfold clear. cbn [pc]. replace (pc (resize P s 0)) with (pc s) by (unfold resize; destruct (0 =? sz s); reflexivity). exact Hm.
  - injection E as <-. split; [exact Hle|]. auto.
  - injection E as <-. split; [split; [exact (proj1 Hle)|right; left; reflexivity]|]. split; [intros k []|exact Hm].
Qed.
Theorem few_names P NS l : good P -> NoDup NS -> length NS <= perCL P -> (forall a, In a l -> names_of P a NS) ->
  along P (proper P) (init P) l -> along P (calm P) (init P) l -> forall s, run P (init P) l = Some s -> overread s = false.
Proof.
  intros HP Hd Hl. assert (G : forall s0 L s, inv P s0 L -> within P NS s0 -> (forall a, In a l -> names_of P a NS) -> along P (proper P) s0 l -> along P (calm P) s0 l -> run P s0 l = Some s -> overread s = false).
  { induction l as [|a l IH]; intros s0 L s HI Hw Hn Hp Hc E; cbn [run along] in *; [injection E as <-; apply Hw|]. destruct Hp as [Hp1 Hp2], Hc as [Hc1 Hc2]. destruct (inv_step P s0 L a HP HI Hp1 Hc1) as (s1 & E1 & I1). rewrite E1 in *.
    refine (IH s1 _ s I1 _ _ Hp2 Hc2 E); [|intros b Hb; apply Hn; right; exact Hb]. exact (within_step P NS s0 L a s1 HP Hd Hl HI Hp1 Hc1 (Hn a (or_introl eq_refl)) Hw E1). }
  intros Hn Hp Hc s E. refine (G (init P) _ s (inv_init P) _ Hn Hp Hc E). split; [split; [reflexivity|right; left; reflexivity]|]. split; [intros k []|intros t _; exact I].
Qed.
Theorem one_thread P l : nThreads P <= 1 -> forall s0 s, overread s0 = false -> run P s0 l = Some s -> overread s = false.
Proof.
  intros HT. assert (R : forall s n, overread s = false -> overread (resize P s n) = false). { intros s n H. unfold resize. destruct (n =? sz s); [exact H|]. cbn [overread]. rewrite H. replace (1 <? nThreads P) with false by (symmetry; apply Nat.ltb_ge; lia). apply andb_false_r. }
  induction l as [|a l IH]; intros s0 s H E; cbn [run] in E; [injection E as <-; exact H|]. destruct (step P s0 a) as [s1|] eqn:E1; [|discriminate]. refine (IH s1 s _ E). clear IH E. destruct a as [t o v|t|n v| | | |]; cbn [step] in E1.
  - injection E1 as <-. exact H.
  - unfold go in E1. destruct (pc s0 t) as [|o v|o v|o v]; [injection E1 as <-; exact H| | |].
    + destruct (own s0 o) as [[|i]|]; [destruct (lookup (names s0) (nm P o))| |destruct (lookup (names s0) (nm P o))]; injection E1 as <-; exact H.
    + unfold create in E1. injection E1 as <-. exact (R s0 _ H).
    + destruct (own s0 o) as [i|]; [|discriminate]. destruct (i <? cap s0); [|discriminate]. injection E1 as <-. exact H.
  - unfold setItem_py in E1. destruct (lookup (names s0) n) as [i|]; [destruct (i <? cap s0); [|discriminate]; injection E1 as <-; exact H|]. pose proof (R s0 (sz s0 + 1) H) as Q. unfold create in E1. cbn [cap] in E1. destruct (_ <? _) in E1; [|discriminate]. injection E1 as <-. exact Q.
  - injection E1 as <-. unfold resetResettables. generalize (firstn (sz s0) (rstep s0)), 0. intros fl. revert s0 H. induction fl as [|b fl IH]; intros s0 H k; [exact H|]. cbn [reset_from]. apply IH. destruct b; exact H.
  - injection E1 as <-. exact (R s0 0 H).
  - injection E1 as <-. exact H.
  - injection E1 as <-. exact H.
Qed.
