(** Registered classes *)
From Coq Require Import List Bool Arith Lia Permutation.
From Verif Require Import Regi_Model Regi_Spec.
Import ListNotations.

Lemma mem_in n l : mem n l = true <-> In n l.
Proof. unfold mem. rewrite existsb_exists. split; [intros (x & I & E); apply Nat.eqb_eq in E; subst x; exact I|intros I; exists n; split; [exact I|apply Nat.eqb_refl]]. Qed.
Lemma mem_false n l : mem n l = false <-> ~ In n l.
Proof.
  split; intros H.
  - intros I. apply mem_in in I. congruence.
  - destruct (mem n l) eqn:E; [apply mem_in in E; contradiction|reflexivity].
Qed.

(** ** C275: rounds *)
Lemma round_spec base l : forall known k p, round base known l = (k, p) -> exists d, k = known ++ d /\ Permutation l (d ++ p) /\ after_bases base known d /\ (forall c, In c p -> In c l /\ ~ In (base c) known) /\ (forall c, In c l -> In (base c) known -> In c d).
Proof.
  induction l as [|c l IH]; intros known k p H; cbn [round] in H.
  - injection H as <- <-. exists []. rewrite app_nil_r. split; [reflexivity|]. split; [constructor|]. split; [exact I|]. split; [intros c []|intros c []].
  - destruct (mem (base c) known) eqn:M.
    + destruct (IH (known ++ [c]) k p H) as (d & E & P & A & Q & R). exists (c :: d). split; [rewrite E, <- app_assoc; reflexivity|]. split; [cbn [app]; constructor; exact P|]. split; [split; [apply mem_in; exact M|exact A]|]. split.
      * intros x X. destruct (Q x X) as (Q1 & Q2). split; [right; exact Q1|intros Z; apply Q2; apply in_or_app; left; exact Z].
      * intros x [<- | X] B; [left; reflexivity|]. right. apply R; [exact X|apply in_or_app; left; exact B].
    + destruct (round base known l) as [k' p'] eqn:E'. injection H as <- <-. destruct (IH known k' p' E') as (d & E & P & A & Q & R). exists d. split; [exact E|]. split; [rewrite P; apply Permutation_middle|]. split; [exact A|]. split.
      * intros x [<- | X]; [split; [left; reflexivity|apply mem_false; exact M]|]. destruct (Q x X) as (Q1 & Q2). split; [right; exact Q1|exact Q2].
      * intros x [<- | X] B; [apply mem_in in B; rewrite B in M; discriminate M|]. apply R; assumption.
Qed.
Lemma after_app base d1 : forall known d2, after_bases base known d1 -> after_bases base (known ++ d1) d2 -> after_bases base known (d1 ++ d2).
Proof.
  induction d1 as [|c d1 IH]; intros known d2 A B; [rewrite app_nil_r in B; exact B|]. destruct A as (A1 & A2). split; [exact A1|]. apply IH; [exact A2|]. rewrite <- app_assoc. exact B.
Qed.
Lemma rounds_cons n base known c l : rounds (S n) base known (c :: l) = rounds n base (fst (round base known (c :: l))) (snd (round base known (c :: l))).
Proof. cbn [rounds]. destruct (round base known (c :: l)). reflexivity. Qed.
Theorem rounds_order n base : forall known l k p, rounds n base known l = (k, p) -> exists d, k = known ++ d /\ Permutation l (d ++ p) /\ after_bases base known d.
Proof.
  induction n as [|n IH]; intros known l k p H.
  - injection H as <- <-. exists []. rewrite app_nil_r. split; [reflexivity|]. split; [reflexivity|exact I].
  - destruct l as [|c l]; [injection H as <- <-; exists []; rewrite app_nil_r; split; [reflexivity|]; split; [reflexivity|exact I]|]. rewrite rounds_cons in H. remember (c :: l) as m eqn:Em. clear Em.
    destruct (round base known m) as [k1 p1] eqn:E1. cbn [fst snd] in H. destruct (round_spec base m known k1 p1 E1) as (d1 & -> & P1 & A1 & _). destruct (IH _ _ _ _ H) as (d2 & -> & P2 & A2).
    exists (d1 ++ d2). split; [rewrite app_assoc; reflexivity|]. split; [rewrite P1, P2, app_assoc; reflexivity|]. apply after_app; assumption.
Qed.
Theorem rounds_complete n base : forall known l k p, rounds n base known l = (k, p) -> (forall c, In c l -> within base known l n c) -> p = [] /\ (forall c, In c l -> In c k).
Proof.
  assert (G : forall n known l k p, rounds n base known l = (k, p) -> forall c, In c l -> within base known l n c -> In c k).
  { clear n. induction n as [|n IH]; intros known l k p H c C W; [destruct W|]. destruct l as [|x l]; [destruct C|]. rewrite rounds_cons in H. remember (x :: l) as m eqn:Em. clear Em x l.
    destruct (round base known m) as [k1 p1] eqn:E1. cbn [fst snd] in H. destruct (round_spec base m known k1 p1 E1) as (d1 & -> & P1 & A1 & Q1 & R1).
    destruct (rounds_order n base _ _ _ _ H) as (d2 & -> & P2 & A2). 
    assert (IN : In c d1 \/ In c p1) by (apply in_app_or; apply (Permutation_in _ P1); exact C). destruct IN as [IN | IN]; [apply in_or_app; left; apply in_or_app; right; exact IN|].
    destruct W as [W | (W1 & W2)]; [exfalso; exact (proj2 (Q1 c IN) W)|].
    (* the base is registered by now, or one step nearer *)
    assert (M : forall j x, In x p1 -> within base known m (S j) x -> within base (known ++ d1) p1 j x).
    { induction j as [|j IHj]; intros x X V.
      - destruct V as [V | (V1 & V2)]; [exfalso; exact (proj2 (Q1 x X) V)|destruct V2].
      - destruct V as [V | (V1 & V2)]; [exfalso; exact (proj2 (Q1 x X) V)|]. assert (D : In (base x) d1 \/ In (base x) p1) by (apply in_app_or; apply (Permutation_in _ P1); exact V1). destruct D as [D | D]; [left; apply in_or_app; right; exact D|]. right. split; [exact D|]. apply IHj; assumption. }
    apply (IH (known ++ d1) p1 _ _ H c IN). apply M; [exact IN|]. right. split; assumption. }
  intros known l k p H W. assert (A : forall c, In c l -> In c k) by (intros c C; exact (G n known l k p H c C (W c C))). split; [|exact A].
  (* nothing is left *)
  clear A G. revert known l k p H W. induction n as [|n IH]; intros known l k p H W.
  - injection H as <- <-. destruct l as [|c l]; [reflexivity|]. destruct (W c (or_introl eq_refl)).
  - destruct l as [|x l]; [injection H as <- <-; reflexivity|]. rewrite rounds_cons in H. remember (x :: l) as m eqn:Em. clear Em x l. destruct (round base known m) as [k1 p1] eqn:E1. cbn [fst snd] in H. destruct (round_spec base m known k1 p1 E1) as (d1 & -> & P1 & A1 & Q1 & R1).
    apply (IH (known ++ d1) p1 k p H). intros c C. assert (M : forall j x, In x p1 -> within base known m (S j) x -> within base (known ++ d1) p1 j x).
    { induction j as [|j IHj]; intros x X V.
      - destruct V as [V | (V1 & V2)]; [exfalso; exact (proj2 (Q1 x X) V)|destruct V2].
      - destruct V as [V | (V1 & V2)]; [exfalso; exact (proj2 (Q1 x X) V)|]. assert (D : In (base x) d1 \/ In (base x) p1) by (apply in_app_or; apply (Permutation_in _ P1); exact V1). destruct D as [D | D]; [left; apply in_or_app; right; exact D|]. right. split; [exact D|]. apply IHj; assumption. }
    apply M; [exact C|]. apply W. exact (proj1 (Q1 c C)).
Qed.
Theorem registered_in_order base known l : (forall c, In c l -> within base known l hundred c) ->
  exists d, rounds hundred base known l = (known ++ d, []) /\ Permutation l d /\ after_bases base known d.
Proof.
  intros W. destruct (rounds hundred base known l) as [k p] eqn:E. destruct (rounds_complete hundred base known l k p E W) as (-> & _). destruct (rounds_order hundred base known l k [] E) as (d & -> & P & A). exists d. rewrite app_nil_r in P. split; [reflexivity|]. split; assumption.
Qed.
(** a chain whose classes are listed before their bases: each round registers one *)
Lemma round_chain n : forall m known, ~ (exists i, i < m /\ In i known) -> round (chain n) known (rev (seq 1 m)) = (known, rev (seq 1 m)).
Proof.
  induction m as [|m IH]; intros known K; [reflexivity|]. rewrite seq_S, rev_app_distr. cbn [rev app]. replace (1 + m) with (S m) by lia. cbn [round chain].
  assert (Q : mem m known = false) by (apply mem_false; intros I; apply K; exists m; split; [lia|exact I]). rewrite Q. rewrite IH; [reflexivity|]. intros (i & L & I). apply K. exists i. split; [lia|exact I].
Qed.
Lemma seq_shift_last m a : seq a (S m) = a :: seq (S a) m. Proof. reflexivity. Qed.
Lemma round_ladder n a known m : In a known -> (forall i, a < i -> ~ In i known) -> round (chain n) known (rev (seq (S a) (S m))) = (known ++ [S a], rev (seq (S (S a)) m)).
Proof.
  intros A K. cbn [seq rev]. 
  assert (G : forall m t, round (chain n) known (rev (seq (S (S a)) m) ++ t) = let (k, p) := round (chain n) known t in (k, rev (seq (S (S a)) m) ++ p)).
  { clear m. induction m as [|m IH]; intros t; [cbn [seq rev app]; destruct (round (chain n) known t); reflexivity|]. rewrite seq_S, rev_app_distr. cbn [rev app]. replace (S (S a) + m) with (S (S (a + m))) by lia. cbn [round chain].
    assert (Q : mem (S (a + m)) known = false) by (apply mem_false; apply K; lia). rewrite Q, IH. destruct (round (chain n) known t). reflexivity. }
  rewrite G. cbn [round chain]. rewrite (proj2 (mem_in a known) A). rewrite app_nil_r. reflexivity.
Qed.
Theorem rounds_ladder n : forall k a known m, In a known -> (forall i, a < i -> ~ In i known) -> k <= m -> snd (rounds k (chain n) known (rev (seq (S a) m))) = rev (seq (S (a + k)) (m - k)).
Proof.
  induction k as [|k IH]; intros a known m A K L; [cbn [rounds snd]; rewrite Nat.add_0_r, Nat.sub_0_r; reflexivity|].
  destruct m as [|m]; [lia|]. pose proof (round_ladder n a known m A K) as R. destruct (rev (seq (S a) (S m))) as [|c l] eqn:E.
  - exfalso. apply (f_equal (@length nat)) in E. rewrite rev_length, seq_length in E. discriminate E.
  - rewrite rounds_cons, R. cbn [fst snd]. rewrite (IH (S a) (known ++ [S a]) m); [|apply in_or_app; right; left; reflexivity| |lia].
    + replace (S a + k) with (a + S k) by lia. reflexivity.
    + intros i I X. apply in_app_or in X as [X | [<- | []]]; [exact (K i ltac:(lia) X)|lia].
Qed.
Theorem left_refuted k : snd (rounds k (chain 0) [0] (rev (seq 1 (S k)))) = [S k].
Proof.
  rewrite (rounds_ladder 0 k 0 [0] (S k)); [|left; reflexivity|intros i I [<- | []]; lia|lia]. replace (S k - k) with 1 by lia. cbn [seq rev app Nat.add]. reflexivity.
Qed.

(** ** C276: isChildClassOf *)
Lemma find_touch r n m : find (touch r n) m = match find r m with Some b => Some b | None => if n =? m then match find r n with Some b => Some b | None => Some [] end else None end.
Proof.
  unfold touch. destruct (find r n) as [b|] eqn:F.
  - destruct (find r m) eqn:G; [reflexivity|]. destruct (n =? m) eqn:E; [apply Nat.eqb_eq in E; subst m; congruence|reflexivity].
  - assert (A : forall q, find (q ++ [(n, [])]) m = match find q m with Some b => Some b | None => if n =? m then Some [] else None end) by (induction q as [|[k c] q IH]; [reflexivity|]; cbn [app find]; destruct (k =? m); [reflexivity|exact IH]).
    rewrite A. reflexivity.
Qed.
Lemma bases_touch r n m : bases (touch r n) m = bases r m.
Proof. unfold bases. rewrite find_touch. destruct (find r m) eqn:F; [reflexivity|]. destruct (n =? m) eqn:E; [|reflexivity]. apply Nat.eqb_eq in E. subst m. rewrite F. reflexivity. Qed.
Lemma keys_touch r n : keys (touch r n) = keys r \/ keys (touch r n) = keys r ++ [n] /\ ~ In n (keys r).
Proof.
  unfold touch. destruct (find r n) eqn:F; [left; reflexivity|right]. split; [unfold keys; apply map_app|]. intros I. unfold keys in I. apply in_map_iff in I as ([k b] & E & I). cbn in E. subst k.
  induction r as [|[k c] r IH]; [destruct I|]. cbn [find] in F. destruct (k =? n) eqn:K; [discriminate F|]. destruct I as [I | I]; [injection I as -> _; rewrite Nat.eqb_refl in K; discriminate K|exact (IH F I)].
Qed.
Lemma recursive_spec : forall f r c b, (forall m, bases (snd (recursive f r c b)) m = bases r m) /\ exists d, keys (snd (recursive f r c b)) = keys r ++ d.
Proof.
  induction f as [|f IH]; intros r c b; [split; [reflexivity|exists []; rewrite app_nil_r; reflexivity]|]. cbn [recursive]. 
  assert (T : (forall m, bases (touch r c) m = bases r m) /\ exists d, keys (touch r c) = keys r ++ d) by (split; [intros m; apply bases_touch|]; destruct (keys_touch r c) as [E | (E & _)]; [exists []; rewrite app_nil_r; exact E|exists [c]; exact E]).
  destruct (mem b (bases (touch r c) c)); [exact T|]. revert T. generalize (bases (touch r c) c) as l. generalize (touch r c) as r2. intros r2 l. revert r2. induction l as [|p l IHl]; intros r2 T; [exact T|].
  destruct (IH r2 p b) as (B & d & D). destruct (recursive f r2 p b) as [o r3]. cbn [snd] in B, D.
  assert (T3 : (forall m, bases r3 m = bases r m) /\ exists d, keys r3 = keys r ++ d). { destruct T as (T1 & d' & T2). split; [intros m; rewrite B; apply T1|]. exists (d' ++ d). rewrite D, T2, app_assoc. reflexivity. }
  destruct o as [[|]|]; [exact T3|apply IHl; exact T3|exact T3].
Qed.
Lemma derives_ext p q c b : (forall n, p n = q n) -> derives p c b -> derives q c b.
Proof. intros E D. induction D as [c b I | c p' b I D IH]; [apply derives_base; rewrite <- E; exact I|apply (derives_step q c p' b); [rewrite <- E; exact I|exact IH]]. Qed.
Lemma derives_inv p c b : derives p c b -> In b (p c) \/ exists q, In q (p c) /\ derives p q b.
Proof. intros D. destruct D as [c b I | c q b I D]; [left; exact I|right; exists q; split; assumption]. Qed.
Lemma recursive_answer rk : forall f r c b, ranked rk (bases r) -> rk c < f -> exists a, fst (recursive f r c b) = Some a /\ (a = true <-> derives (bases r) c b).
Proof.
  induction f as [|f IH]; intros r c b K L; [lia|]. cbn [recursive]. rewrite bases_touch. destruct (mem b (bases r c)) eqn:M.
  - exists true. split; [reflexivity|]. split; [intros _; apply derives_base; apply mem_in; exact M|reflexivity].
  - assert (NB : ~ In b (bases r c)) by (apply mem_false; exact M). clear M.
    assert (G : forall l r2, (forall m, bases r2 m = bases r m) -> (forall p, In p l -> rk p < f) -> exists a, fst ((fix loop (l : list nat) (r2 : registry) : option bool * registry :=
                   match l with
                   | [] => (Some false, r2)
                   | p :: l' => match recursive f r2 p b with
                                | (Some true, r3) => (Some true, r3)
                                | (Some false, r3) => loop l' r3
                                | (None, r3) => (None, r3)
                                end
                   end) l r2) = Some a /\ (a = true <-> exists p, In p l /\ derives (bases r) p b)).
    { induction l as [|p l IHl]; intros r2 B R; [exists false; split; [reflexivity|]; split; [discriminate|intros (p & [] & _)]|].
      assert (K2 : ranked rk (bases r2)) by (intros x y X; rewrite B in X; exact (K x y X)). destruct (IH r2 p b K2 (R p (or_introl eq_refl))) as (a & E & A). destruct (recursive_spec f r2 p b) as (B3 & _). destruct (recursive f r2 p b) as [o r3]. cbn [fst snd] in *. subst o.
      assert (A' : a = true <-> derives (bases r) p b) by (rewrite A; split; apply derives_ext; intros n; rewrite B; reflexivity). destruct a.
      - exists true. split; [reflexivity|]. split; [intros _; exists p; split; [left; reflexivity|apply A'; reflexivity]|reflexivity].
      - destruct (IHl r3) as (a & E2 & A2); [intros m; rewrite B3; apply B|intros q Q; apply R; right; exact Q|]. exists a. split; [exact E2|]. rewrite A2. split; [intros (q & Q & D); exists q; split; [right; exact Q|exact D]|]. intros (q & [<- | Q] & D); [exfalso; apply A' in D; discriminate D|exists q; split; assumption]. }
    destruct (G (bases r c) (touch r c)) as (a & E & A); [intros m; apply bases_touch|intros p P; pose proof (K c p P); lia|]. exists a. split; [exact E|]. rewrite A. split; [intros (p & P & D); exact (derives_step _ c p b P D)|]. intros D. destruct (derives_inv _ _ _ D) as [I | X]; [contradiction|exact X].
Qed.
Theorem child_class rk f r c b : ranked rk (bases r) -> rk c < f -> exists a, fst (recursive f r c b) = Some a /\ (a = true <-> derives (bases r) c b).
Proof. apply recursive_answer. Qed.

(** ** C277: questions *)
Theorem questions r qs : (forall n, bases (fold_left ask qs r) n = bases r n) /\ exists d, plugins (fold_left ask qs r) = plugins r ++ d.
Proof.
  revert r. induction qs as [|q qs IH]; intros r; [split; [reflexivity|exists []; rewrite app_nil_r; reflexivity]|]. cbn [fold_left].
  assert (Q : (forall n, bases (ask r q) n = bases r n) /\ exists d, keys (ask r q) = keys r ++ d).
  { destruct q as [c b | f c b]; cbn [ask].
    - cbn [isInheritingFrom snd]. split; [intros n; apply bases_touch|]. destruct (keys_touch r c) as [E | (E & _)]; [exists []; rewrite app_nil_r; exact E|exists [c]; exact E].
    - apply recursive_spec. }
  destruct Q as (Q1 & d1 & Q2). destruct (IH (ask r q)) as (I1 & d2 & I2). split; [intros n; rewrite I1; apply Q1|]. exists (d1 ++ d2). unfold plugins in *. rewrite I2, Q2, app_assoc. reflexivity.
Qed.
Theorem plugins_refuted : plugins small = [3; 2; 5] /\ fst (recursive 9 small 7 1) = Some false /\ plugins (ask small (QChild 9 7 1)) = [3; 2; 5; 7].
Proof. repeat split. Qed.

(** ** C278: childClasses *)
Lemma base_key r c b : In b (bases r c) -> In c (keys r).
Proof.
  unfold bases. induction r as [|[k l] r IH]; cbn [find]; [intros []|]. destruct (k =? c) eqn:E; [intros _; left; apply Nat.eqb_eq; exact E|]. intros I. right. exact (IH I).
Qed.
Lemma nonrec r b c : In c (child_nonrecursive r b) <-> In b (bases r c).
Proof. unfold child_nonrecursive. rewrite filter_In, mem_in. split; [tauto|]. intros I. split; [exact (base_key r c b I)|exact I]. Qed.
Lemma derives_last p c b : derives p c b <-> In b (p c) \/ exists q, In b (p q) /\ derives p c q.
Proof.
  split.
  - intros D. induction D as [c b I | c q b I D IH]; [left; exact I|]. right. destruct IH as [IH | (x & X1 & X2)]; [exists q; split; [exact IH|apply derives_base; exact I]|exists x; split; [exact X1|exact (derives_step p c q x I X2)]].
  - intros [I | (q & I & D)]; [apply derives_base; exact I|]. induction D as [c x J | c y x J D IH]; [apply (derives_step p c x b J); apply derives_base; exact I|exact (derives_step p c y b J (IH I))].
Qed.
Lemma collect_spec f l : (forall x, In x l -> exists a, f x = Some a) -> exists m, collect f l = Some m /\ forall c, In c m <-> exists x a, In x l /\ f x = Some a /\ In c a.
Proof.
  induction l as [|x l IH]; intros H; [exists []; split; [reflexivity|]; intros c; split; [intros []|intros (x & a & [] & _)]|].
  destruct (H x (or_introl eq_refl)) as (a & A). destruct IH as (m & M & Q); [intros y Y; apply H; right; exact Y|]. exists (a ++ m). cbn [collect]. rewrite A, M. split; [reflexivity|]. intros c. rewrite in_app_iff, Q. split.
  - intros [C | (y & a' & Y & A' & C)]; [exists x, a; split; [left; reflexivity|split; assumption]|exists y, a'; split; [right; exact Y|split; assumption]].
  - intros (y & a' & [<- | Y] & A' & C); [left; congruence|right; exists y, a'; split; [exact Y|split; assumption]].
Qed.
Theorem child_classes rk top : forall f r b, ranked rk (bases r) -> (forall c, In c (keys r) -> rk c <= top) -> top < f + rk b -> exists l, childClasses (S f) r b = Some l /\ forall c, In c l <-> derives (bases r) c b.
Proof.
  induction f as [|f IH]; intros r b K T L.
  - cbn [childClasses]. cbv zeta. destruct (child_nonrecursive r b) as [|c m] eqn:E.
    + exists []. split; [reflexivity|]. intros c. split; [intros []|]. intros D. apply derives_last in D as [I | (q & I & D)]; apply nonrec in I; rewrite E in I; destruct I.
    + exfalso. assert (I : In c (child_nonrecursive r b)) by (rewrite E; left; reflexivity). apply nonrec in I. pose proof (K c b I). pose proof (T c (base_key r c b I)). lia.
  - remember (S f) as g eqn:Eg. cbn [childClasses]. destruct (collect_spec (childClasses g r) (child_nonrecursive r b)) as (m & M & Q).
    + intros x I. apply nonrec in I. destruct (IH r x K T) as (l & E & _); [pose proof (K x b I); lia|]. exists l. exact E.
    + cbv zeta. rewrite M. eexists. split; [reflexivity|]. intros c. rewrite in_app_iff, nonrec, Q, derives_last. split; (intros [H | H]; [left; exact H|right]).
      * destruct H as (x & a & I & E & C). apply nonrec in I. exists x. split; [exact I|]. destruct (IH r x K T) as (l & E' & H); [pose proof (K x b I); lia|]. rewrite E in E'. injection E' as <-. apply H. exact C.
      * destruct H as (x & I & D). destruct (IH r x K T) as (l & E' & H); [pose proof (K x b I); lia|]. exists x, l. split; [apply nonrec; exact I|]. split; [exact E'|]. apply H. exact D.
Qed.

(** ** C279: the database *)
Lemma find_add r n b m : find (add_bases r n b) m = if n =? m then Some (bases r n ++ filter (fun x => negb (mem x (bases r n))) b) else find r m.
Proof.
  unfold bases. induction r as [|[k c] r IH]; cbn [add_bases find].
  - destruct (n =? m); [|reflexivity]. f_equal. induction b as [|x b IH]; [reflexivity|]. cbn [filter mem existsb negb app]. f_equal. exact IH.
  - destruct (k =? n) eqn:K; cbn [find].
    + apply Nat.eqb_eq in K. subst k. destruct (n =? m) eqn:E; reflexivity.
    + rewrite IH. destruct (k =? m) eqn:M; [|reflexivity]. destruct (n =? m) eqn:E; [|reflexivity]. apply Nat.eqb_eq in M, E. subst. rewrite Nat.eqb_refl in K. discriminate K.
Qed.
Lemma in_add r n b m x : In x (bases (add_bases r n b) m) <-> In x (bases r m) \/ n = m /\ In x b.
Proof.
  unfold bases at 1. rewrite find_add. destruct (n =? m) eqn:E.
  - apply Nat.eqb_eq in E. subst m. rewrite in_app_iff, filter_In, negb_true_iff, mem_false. split; [intros [H | (H & _)]; [left; exact H|right; split; [reflexivity|exact H]]|]. intros [H | (_ & H)]; [left; exact H|]. destruct (in_dec Nat.eq_dec x (bases r n)) as [D | D]; [left; exact D|right; split; assumption].
  - apply Nat.eqb_neq in E. unfold bases. split; [intros H; left; exact H|intros [H | (H & _)]; [exact H|contradiction]].
Qed.
Lemma has_add r n b m : find (add_bases r n b) m <> None <-> find r m <> None \/ n = m.
Proof. rewrite find_add. destruct (n =? m) eqn:E; [apply Nat.eqb_eq in E; split; [intros _; right; exact E|intros _ H; discriminate H]|apply Nat.eqb_neq in E; tauto]. Qed.
(** the registry holds the declared bases of the plugins, and no others *)
Definition faithful (create : nat -> option (list nat)) (plugs : list nat) (r : registry) : Prop :=
  (forall n, find r n <> None <-> In n plugs /\ create n <> None) /\ (forall n x, In x (bases r n) <-> In n plugs /\ In x (declared create n)).
Lemma first_spec create plugs : faithful create plugs (first_pass create plugs).
Proof.
  unfold first_pass, faithful. assert (G : forall done todo r, faithful create done r -> faithful create (done ++ todo) (fold_left (fun r n => match create n with Some b => add_bases r n b | None => r end) todo r)).
  { intros done todo. revert done. induction todo as [|n todo IH]; intros done r F; [rewrite app_nil_r; exact F|]. cbn [fold_left]. replace (done ++ n :: todo) with ((done ++ [n]) ++ todo) by (rewrite <- app_assoc; reflexivity). apply IH. destruct F as (F1 & F2). unfold faithful, declared in *. destruct (create n) as [b|] eqn:C; split.
    - intros m. rewrite has_add, F1, in_app_iff. cbn [In]. split; [intros [(H1 & H2) | <-]; [tauto|split; [tauto|congruence]]|]. intros ([H | [<- | []]] & H2); [left; split; assumption|right; reflexivity].
    - intros m x. rewrite in_add, F2, in_app_iff. cbn [In]. split; [intros [(H1 & H2) | (<- & H)]; [tauto|rewrite C; tauto]|]. intros ([H | [<- | []]] & H2); [left; split; assumption|right; rewrite C in H2; split; [reflexivity|exact H2]].
    - intros m. rewrite F1, in_app_iff. cbn [In]. split; [tauto|]. intros ([H | [<- | []]] & H2); [tauto|contradiction].
    - intros m x. rewrite F2, in_app_iff. cbn [In]. split; [tauto|]. intros ([H | [<- | []]] & H2); [tauto|rewrite C in H2; destruct H2]. }
  apply (G [] plugs []). split; [intros n; cbn [find]; split; [intros H; contradiction H; reflexivity|intros ([] & _)]|intros n x; cbn [find bases]; split; [intros []|intros ([] & _)]].
Qed.
Lemma visit_faithful create leaf plugs l : forall r, faithful create plugs r -> (forall b, In b l -> leaf b = true \/ In b plugs /\ create b <> None) -> exists r', visit create leaf l r = Some r' /\ faithful create plugs r'.
Proof.
  induction l as [|b l IH]; intros r F C; [exists r; split; [reflexivity|exact F]|]. cbn [visit]. destruct (leaf b) eqn:L; [apply IH; [exact F|intros x X; apply C; right; exact X]|].
  destruct (C b (or_introl eq_refl)) as [D | (D1 & D2)]; [congruence|]. destruct (create b) as [bb|] eqn:E; [|contradiction]. apply IH; [|intros x X; apply C; right; exact X]. destruct F as (F1 & F2). split.
  - intros n. rewrite has_add, F1. split; [intros [H | <-]; [exact H|split; [exact D1|congruence]]|intros H; left; exact H].
  - intros n x. rewrite in_add, F2. split; [intros [H | (<- & H)]; [exact H|split; [exact D1|unfold declared; rewrite E; exact H]]|intros H; left; exact H].
Qed.
Theorem database create leaf top plugs : closed create leaf plugs -> exists r, build create leaf top plugs = Some r /\ (forall n, In n (plugins r) <-> In n plugs /\ create n <> None) /\ (forall n x, In x (bases r n) <-> In n plugs /\ In x (declared create n)).
Proof.
  intros C. unfold build. assert (G : forall names r, faithful create plugs r -> exists r', second_pass create leaf names r = Some r' /\ faithful create plugs r').
  { induction names as [|n names IH]; intros r F; [exists r; split; [reflexivity|exact F]|]. cbn [second_pass]. destruct (find r n) as [l|] eqn:E; [|apply IH; exact F].
    destruct (visit_faithful create leaf plugs l r F) as (r' & V & F'); [|rewrite V; apply IH; exact F']. intros b B. destruct F as (F1 & F2). assert (X : In b (bases r n)) by (unfold bases; rewrite E; exact B). apply F2 in X as (X1 & X2). unfold declared in X2. destruct (create n) as [ln|] eqn:Cn; [|destruct X2]. exact (C n b ln X1 Cn X2). }
  destruct (G (seq 0 top) _ (first_spec create plugs)) as (r & E & F1 & F2). exists r. split; [exact E|]. split; [|exact F2]. intros n. rewrite <- F1. unfold plugins. clear. unfold keys. induction r as [|[k l] r IH]; [cbn; split; [intros []|intros H; apply H; reflexivity]|]. cbn [map fst In find]. destruct (k =? n) eqn:E; [apply Nat.eqb_eq in E; split; [intros _ H; discriminate H|intros _; left; exact E]|]. apply Nat.eqb_neq in E. rewrite <- IH. split; [intros [H | H]; [contradiction|exact H]|intros H; right; exact H].
Qed.
Theorem ladder_refuted : derives (declared ladder) 3 0 /\ build ladder (fun _ => false) 4 [3] = Some [(3, [2]); (2, [1])] /\ fst (recursive 9 [(3, [2]); (2, [1])] 3 0) = Some false.
Proof. split; [apply (derives_step _ 3 2 0); [left; reflexivity|]; apply (derives_step _ 2 1 0); [left; reflexivity|]; apply derives_base; left; reflexivity|]. split; reflexivity. Qed.
(** a base that cannot be factored ends the program *)
Theorem unfactored_refuted : build (fun n => match n with 1 => Some [0] | _ => None end) (fun _ => false) 2 [1] = None.
Proof. reflexivity. Qed.
