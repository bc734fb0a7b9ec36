From Coq Require Import List Arith Bool Lia.
From Verif Require Import Disp_Model Disp_Spec.
Import ListNotations.

(** ** the list of functors *)
Lemma kept_from_in old l : forall f, In f (kept_from old l) -> In f l.
Proof.
  revert old. induction l as [|g l IH]; intros old f H; [destruct H|]. cbn in H. destruct (existsb _ old); [right; eapply IH; exact H|]. destruct H as [->|H]; [left; reflexivity|right; eapply IH; exact H].
Qed.
Lemma existsb_name f old : existsb (fun g => fname g =? fname f) old = true <-> In (fname f) (map fname old).
Proof.
  rewrite existsb_exists, in_map_iff. split; intros (g & A & B).
  - apply Nat.eqb_eq in B. eauto.
  - exists g. split; [exact B|]. apply Nat.eqb_eq. exact A.
Qed.
Lemma kept_from_different old l : NoDup (map fname l) -> (forall f, In f l -> ~ In (fname f) (map fname old)) -> kept_from old l = l.
Proof.
  revert old. induction l as [|f l IH]; intros old Hd Hn; [reflexivity|]. cbn. inversion Hd as [|n ns Hf Hd']; subst.
  destruct (existsb (fun g => fname g =? fname f) old) eqn:E; [exfalso; apply (Hn f); [left; reflexivity|apply existsb_name; exact E]|].
  f_equal. apply IH; [exact Hd'|]. intros g Hg Hin. rewrite map_app, in_app_iff in Hin. destruct Hin as [Hin|[Hin|[]]]; [apply (Hn g); [right; exact Hg|exact Hin]|].
  apply Hf. rewrite Hin. apply in_map. exact Hg.
Qed.
Lemma kept_different l : different l -> kept l = l.
Proof. intros H. apply kept_from_different; [exact H|]. intros f _ []. Qed.
Lemma kept_from_dup l1 : forall old g l2, (In (fname g) (map fname l1) \/ In (fname g) (map fname old)) -> kept_from old (l1 ++ g :: l2) = kept_from old (l1 ++ l2).
Proof.
  induction l1 as [|f l1 IH]; intros old g l2 H.
  - destruct H as [[]|H]. cbn [app kept_from]. apply existsb_name in H. rewrite H. reflexivity.
  - cbn [app kept_from]. destruct (existsb (fun g0 => fname g0 =? fname f) old) eqn:E.
    + apply IH. destruct H as [[H|H]|H]; auto. right. rewrite <- H. apply existsb_name. exact E.
    + f_equal. apply IH. rewrite map_app, in_app_iff. cbn. cbn in H. destruct H as [[H|H]|H]; auto.
Qed.
Lemma kept_dup l1 f g l2 : In f l1 -> fname f = fname g -> kept (l1 ++ g :: l2) = kept (l1 ++ l2).
Proof. intros Hf E. apply kept_from_dup. left. rewrite <- E. apply in_map. exact Hf. Qed.
Lemma kept_from_nodup l : forall old, NoDup (map fname (kept_from old l)) /\ forall f, In f (kept_from old l) -> ~ In (fname f) (map fname old).
Proof.
  induction l as [|f l IH]; intros old; [split; [constructor|intros f []]|]. cbn. destruct (existsb (fun g => fname g =? fname f) old) eqn:E; [apply IH|].
  destruct (IH (old ++ [f])) as [A B]. split.
  - cbn. constructor; [|exact A]. intros H. apply in_map_iff in H. destruct H as (g & Hg & Hin). apply (B g Hin). rewrite map_app, in_app_iff. right. left. symmetry. exact Hg.
  - intros g [<-|Hg]; [intros H; apply existsb_name in H; congruence|]. intros H. apply (B g Hg). rewrite map_app, in_app_iff. left. exact H.
Qed.

(** ** chains *)
Lemma h_zero h : hierarchy h -> forall c, above h c 0 c.
Proof. intros H c. destruct (H c) as [(l & E) _]. unfold above. rewrite E. reflexivity. Qed.
Lemma nth_skipn {A} (l : list A) : forall d k, nth_error (skipn d l) k = nth_error l (d + k).
Proof. induction l as [|x l IH]; intros [|d] k; cbn; auto. destruct k; reflexivity. Qed.
Lemma above_trans h : hierarchy h -> forall c d x d' y, above h c d x -> above h x d' y -> above h c (d + d') y.
Proof. intros H c d x d' y A B. unfold above in *. destruct (H c) as [_ Hc]. rewrite (Hc d x A), nth_skipn in B. exact B. Qed.
Lemma above_self h : hierarchy h -> forall c d, above h c d c -> d = 0.
Proof.
  intros H c d A. destruct (H c) as [(l & E) Hc]. pose proof (Hc d c A) as B. apply (f_equal (@length nat)) in B. rewrite skipn_length in B.
  assert (d < length (h c)) by (apply nth_error_Some; unfold above in A; congruence). lia.
Qed.
Lemma derives_trans h : hierarchy h -> forall a b c, derives h a b -> derives h b c -> derives h a c.
Proof. intros H a b c (d & A) (d' & B). exists (d + d'). eapply above_trans; eassumption. Qed.
Lemma derives_refl h : hierarchy h -> forall a, derives h a a.
Proof. intros H a. exists 0. apply h_zero. exact H. Qed.

(** ** one argument *)
Lemma given_snoc l f g c : given (l ++ [g]) f c <-> (f = g /\ ft1 g = c) \/ (given l f c /\ ft1 g <> c).
Proof.
  split.
  - intros (l1 & l2 & E & Hf & Hn). destruct l2 as [|z l2 _] using rev_ind.
    + apply app_inj_tail in E. destruct E as [_ ->]. left. auto.
    + replace (l1 ++ f :: l2 ++ [z]) with ((l1 ++ f :: l2) ++ [z]) in E by (rewrite <- app_assoc; reflexivity). apply app_inj_tail in E. destruct E as [-> ->]. right. split.
      * exists l1, l2. split; [reflexivity|]. split; [exact Hf|]. intros k Hk. apply Hn. apply in_or_app. left. exact Hk.
      * apply Hn. apply in_or_app. right. left. reflexivity.
  - intros [[-> E]|[(l1 & l2 & -> & Hf & Hn) E]].
    + exists l, []. split; [reflexivity|]. split; [exact E|intros k []].
    + exists l1, (l2 ++ [g]). split; [rewrite <- app_assoc; reflexivity|]. split; [exact Hf|]. intros k Hk. apply in_app_or in Hk. destruct Hk as [Hk|[<-|[]]]; auto.
Qed.
Lemma given_nil f c : ~ given [] f c.
Proof. intros (l1 & l2 & E & _). destruct l1; discriminate E. Qed.
Lemma adds1_given l : forall c f, fold_left add1DEntry l (fun _ => None) c = Some f <-> given l f c.
Proof.
  induction l as [|g l IH] using rev_ind; intros c f.
  - cbn. split; [discriminate|intros H; destruct (given_nil _ _ H)].
  - rewrite fold_left_app, given_snoc. cbn. unfold add1DEntry at 1, upd1. destruct (Nat.eqb_spec c (ft1 g)) as [E|E].
    + split; [intros H; injection H as <-; auto|]. intros [[-> _]|[_ H]]; congruence.
    + rewrite IH. split; [intros H; right; auto|]. intros [[-> H]|[H _]]; [congruence|exact H].
Qed.
Lemma set1_given l c f : set1 l c = Some f <-> given (kept l) f c.
Proof. apply adds1_given. Qed.

Section One.
Context (h : hier) (Hh : hierarchy h) (l : list functor).
Notation reg := (set1 l).
Definition inv1 (m : mat1) : Prop := forall c, m c = reg c \/ (reg c = None /\ m c = climb reg (h c)).
Lemma climb_inv m : inv1 m -> forall n c, length (h c) <= n -> climb m (h c) = climb reg (h c).
Proof.
  intros Hm. assert (G : forall k c d, length (skipn d (h c)) <= k -> climb m (skipn d (h c)) = climb reg (skipn d (h c))).
  { induction k as [|k IH]; intros c d Hk; [destruct (skipn d (h c)); [reflexivity|cbn in Hk; lia]|].
    destruct (skipn d (h c)) as [|x rest] eqn:E; [reflexivity|]. cbn [climb].
    assert (A : above h c d x). { unfold above. pose proof (nth_skipn (h c) d 0) as N. rewrite E in N. cbn in N. rewrite Nat.add_0_r in N. symmetry. exact N. }
    assert (R : climb m rest = climb reg rest). { assert (Es : rest = skipn (S d) (h c)). { clear -E. revert rest x E. generalize (h c). induction d as [|d IHd]; intros l0 rest x E; destruct l0; cbn in *; try discriminate; [congruence|]. eapply IHd. exact E. }
      rewrite Es. apply IH. rewrite <- Es. cbn in Hk. lia. }
    destruct (Hm x) as [->|[En Em]]; [rewrite R; reflexivity|]. rewrite En, Em. destruct (Hh c) as [_ Hc]. rewrite (Hc d x A), E. cbn [climb]. rewrite En. destruct (climb reg rest) eqn:Ec; [reflexivity|]. exact R. }
  intros n c _. exact (G (length (skipn 0 (h c))) c 0 (le_n _)).
Qed.
Lemma locate1_ok m c : inv1 m -> inv1 (fst (locate1 h m c)) /\ snd (locate1 h m c) = climb reg (h c).
Proof.
  intros Hm. pose proof (climb_inv m Hm _ c (le_n _)) as E. destruct (Hh c) as [(r & Er) _]. unfold locate1. rewrite Er in E. cbn [climb] in E. rewrite Er. cbn [tl].
  destruct (m c) as [f|] eqn:Ec; [cbn [fst snd]; split; [exact Hm|exact E]|]. destruct (climb m r) as [f|] eqn:Ef; cbn [fst snd]; [|split; [exact Hm|exact E]].
  split; [|exact E]. intros c'. unfold upd1. destruct (Nat.eqb_spec c' c) as [->|_]; [|apply Hm]. right. rewrite Er. split; [|exact E]. destruct (Hm c) as [Hc|[Hc _]]; congruence.
Qed.
Lemma run1_inv hist : forall m, inv1 m -> inv1 (run1 h m hist).
Proof. induction hist as [|c hist IH]; intros m Hm; [exact Hm|]. cbn. apply IH. apply locate1_ok. exact Hm. Qed.
Lemma climb_spec lst : forall f, climb reg lst = Some f <-> exists d x, nth_error lst d = Some x /\ reg x = Some f /\ forall d' y, d' < d -> nth_error lst d' = Some y -> reg y = None.
Proof.
  induction lst as [|i lst IH]; intros f; cbn [climb].
  - split; [discriminate|]. intros (d & x & E & _). destruct d; discriminate E.
  - destruct (reg i) as [g|] eqn:Ei.
    + split.
      * intros H. injection H as <-. exists 0, i. split; [reflexivity|]. split; [exact Ei|]. intros d' y Hd. lia.
      * intros (d & x & E & Hr & Hn). destruct d as [|d]; [cbn in E; injection E as <-; congruence|]. specialize (Hn 0 i ltac:(lia) eq_refl). congruence.
    + rewrite IH. split.
      * intros (d & x & E & Hr & Hn). exists (S d), x. split; [exact E|]. split; [exact Hr|]. intros [|d'] y Hd E'; [cbn in E'; congruence|]. apply (Hn d' y); [lia|exact E'].
      * intros (d & x & E & Hr & Hn). destruct d as [|d]; [cbn in E; congruence|]. exists d, x. split; [exact E|]. split; [exact Hr|]. intros d' y Hd E'. apply (Hn (S d') y); [lia|exact E'].
Qed.
Lemma reg_none x : reg x = None <-> forall g, ~ given (kept l) g x.
Proof.
  split; [intros E g Hg; apply set1_given in Hg; congruence|]. intros H. destruct (reg x) as [g|] eqn:E; [|reflexivity]. apply set1_given in E. destruct (H g E).
Qed.
Lemma climb_nearest c f : climb reg (h c) = Some f <-> nearest h (kept l) c f.
Proof.
  rewrite climb_spec. unfold nearest, above. split; intros (d & x & E & Hr & Hn); exists d, x; (split; [exact E|]); (split; [apply set1_given; exact Hr|]); intros d' y Hd E'; apply reg_none; eapply Hn; eassumption.
Qed.
Lemma climb_none c : climb reg (h c) = None <-> none_given h (kept l) c.
Proof.
  split.
  - intros E d x f Ha Hg. assert (G : forall lst, climb reg lst = None -> forall d x, nth_error lst d = Some x -> reg x = None).
    { induction lst as [|i lst IH]; intros Hn k y Ek; [destruct k; discriminate Ek|]. cbn in Hn. destruct (reg i) eqn:Ei; [discriminate|]. destruct k as [|k]; [cbn in Ek; congruence|]. eapply IH; eassumption. }
    apply set1_given in Hg. rewrite (G _ E d x Ha) in Hg. discriminate.
  - intros H. destruct (climb reg (h c)) as [f|] eqn:E; [|reflexivity]. apply climb_nearest in E. destruct E as (d & x & A & G & _). destruct (H d x f A G).
Qed.
Theorem lookup1 hist c : match snd (locate1 h (run1 h reg hist) c) with Some f => nearest h (kept l) c f | None => none_given h (kept l) c end.
Proof.
  assert (I0 : inv1 reg) by (intros x; left; reflexivity). destruct (locate1_ok _ c (run1_inv hist _ I0)) as [_ ->].
  destruct (climb reg (h c)) as [f|] eqn:E; [apply climb_nearest|apply climb_none]; exact E.
Qed.
End One.
Lemma nearest_unique h l c f g : hierarchy h -> nearest h l c f -> nearest h l c g -> f = g.
Proof.
  intros Hh (d & x & A & G & N) (d' & x' & A' & G' & N'). assert (d = d'). { destruct (lt_eq_lt_dec d d') as [[H|H]|H]; [destruct (N' d x H A f G)|exact H|destruct (N d' x' H A' g G')]. } subst d'.
  unfold above in *. assert (x = x') by congruence. subst x'. clear N N' A A'. revert f g G G'. induction l as [|k l IH] using rev_ind; intros f g G G'; [destruct (given_nil _ _ G)|].
  apply given_snoc in G, G'. destruct G as [[-> E]|[G E]], G' as [[-> E']|[G' E']]; try congruence. apply IH; assumption.
Qed.

(** ** two arguments *)
Lemma meant_dec sym f x y : {meant sym f x y} + {~ meant sym f x y}.
Proof.
  unfold meant. destruct (Nat.eq_dec (ft1 f) x), (Nat.eq_dec (ft2 f) y); [left; tauto|..]; destruct sym, (Nat.eq_dec (ft1 f) y), (Nat.eq_dec (ft2 f) x); try (left; tauto); right; intuition congruence.
Qed.
Lemma given2_snoc sym l f g x y : given2 sym (l ++ [g]) f x y <-> (f = g /\ meant sym g x y) \/ (given2 sym l f x y /\ ~ meant sym g x y).
Proof.
  split.
  - intros (l1 & l2 & E & Hf & Hn). destruct l2 as [|z l2 _] using rev_ind.
    + apply app_inj_tail in E. destruct E as [_ ->]. left. auto.
    + replace (l1 ++ f :: l2 ++ [z]) with ((l1 ++ f :: l2) ++ [z]) in E by (rewrite <- app_assoc; reflexivity). apply app_inj_tail in E. destruct E as [-> ->]. right. split.
      * exists l1, l2. split; [reflexivity|]. split; [exact Hf|]. intros k Hk. apply Hn. apply in_or_app. left. exact Hk.
      * apply Hn. apply in_or_app. right. left. reflexivity.
  - intros [[-> E]|[(l1 & l2 & -> & Hf & Hn) E]].
    + exists l, []. split; [reflexivity|]. split; [exact E|intros k []].
    + exists l1, (l2 ++ [g]). split; [rewrite <- app_assoc; reflexivity|]. split; [exact Hf|]. intros k Hk. apply in_app_or in Hk. destruct Hk as [Hk|[<-|[]]]; auto.
Qed.
Lemma given2_nil sym f x y : ~ given2 sym [] f x y.
Proof. intros (l1 & l2 & E & _). destruct l1; discriminate E. Qed.
Lemma given2_unique sym l x y : forall f g, given2 sym l f x y -> given2 sym l g x y -> f = g.
Proof.
  induction l as [|k l IH] using rev_ind; intros f g G G'; [destruct (given2_nil _ _ _ _ G)|]. apply given2_snoc in G, G'. destruct G as [[-> E]|[G E]], G' as [[-> E']|[G' E']]; try tauto. apply IH; assumption.
Qed.
Lemma upd2_eq m i j x i' j' : upd2 m i j x i' j' = if (i' =? i) && (j' =? j) then Some x else m i' j'.
Proof. reflexivity. Qed.

Definition oriented (sym auto : bool) (f : functor) (s : bool) (x y : nat) : Prop := expects sym auto f = if s then (y, x) else (x, y).
Lemma add2_spec sym auto m f x y :
  (meant sym f x y -> exists s, add2DEntry sym auto m f x y = Some (f, s) /\ oriented sym auto f s x y) /\ (~ meant sym f x y -> add2DEntry sym auto m f x y = m x y).
Proof.
  unfold meant, add2DEntry, oriented, expects. split.
  - intros H. destruct sym; cbn [andb].
    + destruct (auto || negb (frev f) || (ft1 f =? ft2 f)) eqn:E; rewrite !upd2_eq.
      * destruct (Nat.eqb_spec x (ft1 f)) as [E1|E1], (Nat.eqb_spec y (ft2 f)) as [E2|E2]; cbn [andb].
        { exists false. split; [reflexivity|]. subst. destruct auto; cbn in *; [reflexivity|]. destruct (frev f); cbn in *; [|reflexivity]. apply Nat.eqb_eq in E. congruence. }
        all: destruct H as [H|(_ & H1 & H2)]; [lia|]; subst; rewrite !Nat.eqb_refl; cbn [andb]; exists true; (split; [reflexivity|]); destruct auto; cbn in *; try reflexivity; destruct (frev f); cbn in *; try reflexivity; apply Nat.eqb_eq in E; congruence.
      * apply orb_false_iff in E. destruct E as [E En]. apply orb_false_iff in E. destruct E as [-> Er]. apply negb_false_iff in Er. rewrite Er. cbn [negb andb].
        destruct (Nat.eqb_spec x (ft1 f)) as [E1|E1], (Nat.eqb_spec y (ft2 f)) as [E2|E2]; cbn [andb].
        { exists true. subst. split; reflexivity. }
        all: destruct H as [H|(_ & H1 & H2)]; [lia|]; subst; rewrite !Nat.eqb_refl; cbn [andb]; exists false; split; reflexivity.
    + destruct H as [[<- <-]|[H _]]; [|discriminate]. exists false. rewrite upd2_eq, !Nat.eqb_refl. split; reflexivity.
  - intros H. destruct sym.
    + assert (N1 : (x =? ft1 f) && (y =? ft2 f) = false). { apply andb_false_iff. destruct (Nat.eqb_spec x (ft1 f)); [|auto]. right. apply Nat.eqb_neq. intros E. apply H. left. auto. }
      assert (N2 : (x =? ft2 f) && (y =? ft1 f) = false). { apply andb_false_iff. destruct (Nat.eqb_spec x (ft2 f)); [|auto]. right. apply Nat.eqb_neq. intros E. apply H. right. auto. }
      destruct (auto || negb (frev f) || (ft1 f =? ft2 f)); rewrite !upd2_eq, N1, N2; reflexivity.
    + assert (N1 : (x =? ft1 f) && (y =? ft2 f) = false). { apply andb_false_iff. destruct (Nat.eqb_spec x (ft1 f)); [|auto]. right. apply Nat.eqb_neq. intros E. apply H. left. auto. }
      rewrite upd2_eq, N1. reflexivity.
Qed.
Lemma adds2_given sym auto l : forall x y,
  (forall f s, fold_left (add2DEntry sym auto) l (fun _ _ => None) x y = Some (f, s) -> given2 sym l f x y /\ oriented sym auto f s x y) /\
  (forall f, given2 sym l f x y -> exists s, fold_left (add2DEntry sym auto) l (fun _ _ => None) x y = Some (f, s)).
Proof.
  induction l as [|g l IH] using rev_ind; intros x y.
  - split; [discriminate|]. intros f H. destruct (given2_nil _ _ _ _ H).
  - rewrite fold_left_app. cbn [fold_left]. destruct (IH x y) as [IH1 IH2]. destruct (add2_spec sym auto (fold_left (add2DEntry sym auto) l (fun _ _ => None)) g x y) as [A B].
    destruct (meant_dec sym g x y) as [M|M].
    + destruct (A M) as (s & E & O). rewrite E. split.
      * intros f s' H. injection H as <- <-. split; [apply given2_snoc; left; auto|exact O].
      * intros f H. apply given2_snoc in H. destruct H as [[-> _]|[_ H]]; [eauto|contradiction].
    + rewrite (B M). split.
      * intros f s H. destruct (IH1 f s H) as [G O]. split; [apply given2_snoc; right; auto|exact O].
      * intros f H. apply given2_snoc in H. destruct H as [[-> H]|[H _]]; [contradiction|auto].
Qed.

Section Two.
Context (h1 h2 : hier) (H1 : hierarchy h1) (H2 : hierarchy h2).

(** *** one distance *)
Lemma row_keeps a b dist dps : forall m found big x y, (x <> a \/ y <> b) ->
  match row h1 h2 a b dist dps m found big with Ambiguous m1 => m1 x y = m x y | Scanned m1 _ _ => m1 x y = m x y end.
Proof.
  induction dps as [|dp dps IH]; intros m found big x y N; [reflexivity|]. cbn [row].
  destruct (nth_error (h1 a) dp) as [u|]; [|apply IH; exact N]. destruct (nth_error (h2 b) (dist - dp)) as [v|]; [|apply IH; exact N].
  destruct (m u v) as [fs|]; [|apply IH; exact N]. destruct (match found with Some _ => _ | None => _ end); [reflexivity|].
  specialize (IH (upd2 m a b fs) (Some (u, v)) false x y N). assert (E : upd2 m a b fs x y = m x y).
  { rewrite upd2_eq. destruct (Nat.eqb_spec x a), (Nat.eqb_spec y b); cbn; try reflexivity. lia. }
  rewrite E in IH. exact IH.
Qed.
Lemma search_keeps fuel : forall a b dist m x y, (x <> a \/ y <> b) -> fst (search fuel h1 h2 a b dist m) x y = m x y.
Proof.
  induction fuel as [|fuel IH]; intros a b dist m x y N; [reflexivity|]. cbn [search]. pose proof (row_keeps a b dist (seq 0 (S dist)) m None true x y N) as R.
  destruct (row h1 h2 a b dist (seq 0 (S dist)) m None true) as [m1|m1 [p|] big]; cbn [fst]; try exact R. destruct big; cbn [fst]; [exact R|]. rewrite IH by exact N. exact R.
Qed.
Lemma locate2_keeps m a b x y fs : m x y = Some fs -> fst (locate2 h1 h2 m a b) x y = Some fs.
Proof.
  intros E. unfold locate2. destruct (m a b) as [[f s]|] eqn:Eab; [exact E|]. rewrite search_keeps; [exact E|].
  destruct (Nat.eq_dec x a) as [->|]; [|auto]. destruct (Nat.eq_dec y b) as [->|]; [congruence|auto].
Qed.
Lemma locate2_other m a b x y : (x <> a \/ y <> b) -> fst (locate2 h1 h2 m a b) x y = m x y.
Proof. intros N. unfold locate2. destruct (m a b) as [[f s]|]; [reflexivity|]. apply search_keeps. exact N. Qed.
Lemma run2_keeps hist : forall m x y fs, m x y = Some fs -> run2 h1 h2 m hist x y = Some fs.
Proof. induction hist as [|[a b] hist IH]; intros m x y fs E; [exact E|]. cbn [run2]. apply IH. apply locate2_keeps. exact E. Qed.
Lemma run2_other hist : forall m x y, (forall a b, In (a, b) hist -> x <> a \/ y <> b) -> run2 h1 h2 m hist x y = m x y.
Proof.
  induction hist as [|[a b] hist IH]; intros m x y N; [reflexivity|]. cbn [run2]. rewrite IH; [|intros c d Hc; apply N; right; exact Hc].
  apply locate2_other. apply N. left. reflexivity.
Qed.

(** *** the loop ends *)
Definition valid (a b dist dp : nat) : Prop := nth_error (h1 a) dp <> None /\ nth_error (h2 b) (dist - dp) <> None.
Lemma row_novalid a b dist dps : forall m, (forall dp, In dp dps -> ~ valid a b dist dp) -> row h1 h2 a b dist dps m None true = Scanned m None true.
Proof.
  induction dps as [|dp dps IH]; intros m Hn; [reflexivity|]. cbn [row]. specialize (Hn dp (or_introl eq_refl)) as Hd. unfold valid in Hd.
  destruct (nth_error (h1 a) dp) eqn:E1; [destruct (nth_error (h2 b) (dist - dp)) eqn:E2|]; try (apply IH; intros; apply Hn; right; assumption). exfalso. apply Hd. split; discriminate.
Qed.
Lemma row_big a b dist dps : forall m found big m1 fd, row h1 h2 a b dist dps m found big = Scanned m1 fd true -> big = true /\ forall dp, In dp dps -> ~ valid a b dist dp.
Proof.
  induction dps as [|dp dps IH]; intros m found big m1 fd E; cbn [row] in E; [injection E as _ _ ->; split; [reflexivity|intros dp []]|].
  unfold valid in *. destruct (nth_error (h1 a) dp) as [u|] eqn:E1; [destruct (nth_error (h2 b) (dist - dp)) as [v|] eqn:E2|].
  - destruct (m u v) as [fs|].
    + destruct (match found with Some _ => _ | None => _ end); [discriminate|]. apply IH in E. destruct E as [E _]. discriminate.
    + apply IH in E. destruct E as [E _]. discriminate.
  - apply IH in E. destruct E as [-> Hn]. split; [reflexivity|]. intros d [<-|Hd]; [intros [_ N]; congruence|apply Hn; exact Hd].
  - apply IH in E. destruct E as [-> Hn]. split; [reflexivity|]. intros d [<-|Hd]; [intros [N _]; congruence|apply Hn; exact Hd].
Qed.
Lemma search_ends fuel : forall a b dist m, 1 <= dist -> length (h1 a) + length (h2 b) <= fuel + dist -> 1 <= fuel -> snd (search fuel h1 h2 a b dist m) <> OutOfFuel.
Proof.
  induction fuel as [|fuel IH]; intros a b dist m Hd Hf Hf1; [lia|]. cbn [search]. destruct fuel as [|fuel].
  - rewrite row_novalid; [discriminate|]. intros dp Hin [V1 V2]. apply nth_error_Some in V1, V2. apply in_seq in Hin. lia.
  - destruct (row h1 h2 a b dist (seq 0 (S dist)) m None true) as [m1|m1 [p|] big]; cbn [snd]; [discriminate| |]; [destruct (m1 a b) as [[f s]|]; discriminate|]. destruct big; cbn [snd]; [discriminate|]. apply IH; lia.
Qed.
Theorem locate2_ends m a b : snd (locate2 h1 h2 m a b) <> OutOfFuel.
Proof.
  unfold locate2. destruct (m a b) as [[f s]|]; [discriminate|]. apply search_ends; [lia|lia|]. destruct (H1 a) as [(l & ->) _]. cbn. lia.
Qed.

(** *** arguments always fit *)
Section Fit.
Context (sym auto : bool).
Definition fits (m : mat2) : Prop := forall x y f s, m x y = Some (f, s) -> well_called sym auto h1 h2 x y f s.
Lemma well_up a b x y f s : derives h1 a x -> derives h2 b y -> well_called sym auto h1 h2 x y f s -> well_called sym auto h1 h2 a b f s.
Proof.
  unfold well_called. destruct (expects sym auto f) as [u v]. intros A B. destruct s; intros [C D]; split; eapply derives_trans; eauto.
Qed.
Lemma row_fits a b dist dps : forall m found big, fits m -> match row h1 h2 a b dist dps m found big with Ambiguous m1 => fits m1 | Scanned m1 _ _ => fits m1 end.
Proof.
  induction dps as [|dp dps IH]; intros m found big Hm; [exact Hm|]. cbn [row]. destruct (nth_error (h1 a) dp) as [u|] eqn:E1; [|apply IH; exact Hm]. destruct (nth_error (h2 b) (dist - dp)) as [v|] eqn:E2; [|apply IH; exact Hm].
  destruct (m u v) as [[f s]|] eqn:E; [|apply IH; exact Hm]. destruct (match found with Some _ => _ | None => _ end); [exact Hm|]. apply IH.
  intros x y f' s' E'. rewrite upd2_eq in E'. destruct (Nat.eqb_spec x a) as [->|]; cbn in E'; [|eapply Hm; exact E']. destruct (Nat.eqb_spec y b) as [->|]; cbn in E'; [|eapply Hm; exact E'].
  injection E' as <- <-. eapply well_up; [exists dp; exact E1|exists (dist - dp); exact E2|]. eapply Hm. exact E.
Qed.
Lemma search_fits fuel : forall a b dist m, fits m -> fits (fst (search fuel h1 h2 a b dist m)) /\ (forall f s, snd (search fuel h1 h2 a b dist m) = Chosen f s -> well_called sym auto h1 h2 a b f s).
Proof.
  induction fuel as [|fuel IH]; intros a b dist m Hm; [split; [exact Hm|discriminate]|]. cbn [search]. pose proof (row_fits a b dist (seq 0 (S dist)) m None true Hm) as R.
  destruct (row h1 h2 a b dist (seq 0 (S dist)) m None true) as [m1|m1 [p|] big]; cbn [fst snd]; [split; [exact R|discriminate]| |].
  - split; [exact R|]. intros f s E. destruct (m1 a b) as [[f' s']|] eqn:E'; [|discriminate]. injection E as <- <-. eapply R. exact E'.
  - destruct big; cbn [fst snd]; [split; [exact R|discriminate]|]. apply IH. exact R.
Qed.
Lemma locate2_fits m a b : fits m -> fits (fst (locate2 h1 h2 m a b)) /\ (forall f s, snd (locate2 h1 h2 m a b) = Chosen f s -> well_called sym auto h1 h2 a b f s).
Proof.
  intros Hm. unfold locate2. destruct (m a b) as [[f s]|] eqn:E; [|apply search_fits; exact Hm]. split; [exact Hm|]. intros f' s' E'. injection E' as <- <-. eapply Hm. exact E.
Qed.
Lemma run2_fits hist : forall m, fits m -> fits (run2 h1 h2 m hist).
Proof. induction hist as [|[a b] hist IH]; intros m Hm; [exact Hm|]. cbn [run2]. apply IH. apply locate2_fits. exact Hm. Qed.
Lemma set2_fits l : fits (set2 sym auto l).
Proof.
  intros x y f s E. apply (proj1 (adds2_given sym auto (kept l) x y)) in E. destruct E as [_ O]. unfold oriented in O. unfold well_called. destruct (expects sym auto f) as [u v].
  destruct s; injection O as -> ->; split; apply derives_refl; assumption.
Qed.
Theorem always_fits l hist a b f s : snd (locate2 h1 h2 (run2 h1 h2 (set2 sym auto l) hist) a b) = Chosen f s -> well_called sym auto h1 h2 a b f s.
Proof. apply locate2_fits, run2_fits, set2_fits. Qed.
End Fit.

(** *** the right answer *)
Section Right.
Context (sym auto : bool) (l : list functor) (a b : nat).
Notation reg := (set2 sym auto l).
Notation atd := (at_dist sym h1 h2 (kept l) a b).
(** apart from the cell itself, the cells above are as at the start *)
Definition clean (m : mat2) : Prop := forall d1 d2 x y, above h1 a d1 x -> above h2 b d2 y -> 1 <= d1 + d2 -> m x y = reg x y.
Lemma not_self d1 d2 x y : above h1 a d1 x -> above h2 b d2 y -> 1 <= d1 + d2 -> x <> a \/ y <> b.
Proof.
  intros A B Hd. destruct (Nat.eq_dec x a) as [->|]; [|auto]. destruct (Nat.eq_dec y b) as [->|]; [|auto]. apply above_self in A; [|exact H1]. apply above_self in B; [|exact H2]. lia.
Qed.
Lemma clean_upd m fs : clean m -> clean (upd2 m a b fs).
Proof.
  intros Hc d1 d2 x y A B Hd. rewrite upd2_eq. destruct (not_self d1 d2 x y A B Hd) as [N|N]; apply Nat.eqb_neq in N; rewrite N; [|rewrite andb_false_r]; cbn [andb]; eapply Hc; eassumption.
Qed.
Lemma reg_at n f : atd n f <-> exists d1 d2 x y s, d1 + d2 = n /\ above h1 a d1 x /\ above h2 b d2 y /\ reg x y = Some (f, s).
Proof.
  split.
  - intros (d1 & d2 & x & y & E & A & B & G). apply (proj2 (adds2_given sym auto (kept l) x y)) in G. destruct G as (s & G). exists d1, d2, x, y, s. auto.
  - intros (d1 & d2 & x & y & s & E & A & B & G). apply (proj1 (adds2_given sym auto (kept l) x y)) in G. exists d1, d2, x, y. tauto.
Qed.
(** [f] is found for one of the depths *)
Definition hit (dist : nat) (dps : list nat) (f : functor) : Prop :=
  exists dp x y s, In dp dps /\ above h1 a dp x /\ above h2 b (dist - dp) y /\ reg x y = Some (f, s).
Definition found_ok (dist : nat) (m : mat2) (fd : option (nat * nat)) : Prop :=
  match fd with None => True | Some (x, y) => exists dp f s, dp <= dist /\ above h1 a dp x /\ above h2 b (dist - dp) y /\ reg x y = Some (f, s) /\ m a b = Some (f, s) end.
Lemma row_spec dist dps : 1 <= dist -> (forall dp, In dp dps -> dp <= dist) -> forall m fd big, clean m -> found_ok dist m fd ->
  match row h1 h2 a b dist dps m fd big with
  | Ambiguous m1 => exists f g, fid f <> fid g /\ atd dist f /\ atd dist g
  | Scanned m1 fd1 _ => clean m1 /\ found_ok dist m1 fd1 /\
      match fd1 with
      | None => fd = None /\ m1 = m /\ forall f, ~ hit dist dps f
      | Some (x1, y1) => exists f1 s1, reg x1 y1 = Some (f1, s1) /\ (forall f, hit dist dps f -> fid f = fid f1) /\
          (forall x0 y0 f0 s0, fd = Some (x0, y0) -> reg x0 y0 = Some (f0, s0) -> fid f0 = fid f1)
      end
  end.
Proof.
  intros Hdist. induction dps as [|dp dps IH]; intros Hdp m fd big Hc Hf; cbn [row].
  - split; [exact Hc|]. split; [exact Hf|]. destruct fd as [[x0 y0]|].
    + destruct Hf as (dp & f & s & _ & _ & _ & E & _). exists f, s. split; [exact E|]. split; [intros g (d & x & y & s' & [] & _)|]. intros x1 y1 f0 s0 Ex E0. injection Ex as <- <-. congruence.
    + split; [reflexivity|]. split; [reflexivity|]. intros f (d & x & y & s & [] & _).
  - assert (Hdps : forall d, In d dps -> d <= dist) by (intros; apply Hdp; right; assumption). specialize (IH Hdps).
    destruct (nth_error (h1 a) dp) as [u|] eqn:E1; [destruct (nth_error (h2 b) (dist - dp)) as [v|] eqn:E2|].
    + assert (Hle : dp <= dist) by (apply Hdp; left; reflexivity). assert (Em : m u v = reg u v) by (apply (Hc dp (dist - dp)); [exact E1|exact E2|lia]). destruct (m u v) as [[f s]|] eqn:E.
      * assert (Af : atd dist f). { apply reg_at. exists dp, (dist - dp), u, v, s. split; [lia|]. split; [exact E1|]. split; [exact E2|symmetry; exact Em]. }
        destruct (match fd with Some (x0, y0) => match m x0 y0 with Some gs => negb (fid (fst gs) =? fid (fst (f, s))) | None => true end | None => false end) eqn:Ed.
        { destruct fd as [[x0 y0]|]; [|discriminate]. destruct Hf as (d0 & g & t & Hd0 & A0 & B0 & R0 & _). assert (E0 : m x0 y0 = reg x0 y0) by (apply (Hc d0 (dist - d0)); [exact A0|exact B0|lia]). rewrite E0, R0 in Ed. cbn [fst] in Ed. apply negb_true_iff, Nat.eqb_neq in Ed.
          exists g, f. split; [exact Ed|]. split; [|exact Af]. apply reg_at. exists d0, (dist - d0), x0, y0, t. split; [lia|]. auto. }
        assert (F' : found_ok dist (upd2 m a b (f, s)) (Some (u, v))). { exists dp, f, s. split; [exact Hle|]. split; [exact E1|]. split; [exact E2|]. split; [symmetry; exact Em|]. rewrite upd2_eq, !Nat.eqb_refl. reflexivity. }
        specialize (IH (upd2 m a b (f, s)) (Some (u, v)) false (clean_upd m (f, s) Hc) F'). destruct (row h1 h2 a b dist dps (upd2 m a b (f, s)) (Some (u, v)) false) as [m1|m1 fd1 big1]; [exact IH|].
        destruct IH as (C & F1 & R). split; [exact C|]. split; [exact F1|]. destruct fd1 as [[x1 y1]|]; [|destruct R as [R _]; discriminate]. destruct R as (f1 & s1 & R1 & Rh & R0).
        assert (Ef : fid f = fid f1) by (eapply R0; [reflexivity|symmetry; exact Em]). exists f1, s1. split; [exact R1|]. split.
        { intros g (d & x & y & t & [<-|Hin] & A & B & Rg); [|apply Rh; exists d, x, y, t; auto]. unfold above in A, B. assert (x = u) by congruence. assert (y = v) by congruence. subst. assert (g = f) by congruence. subst. exact Ef. }
        { intros x0 y0 f0 s0 -> E0. destruct Hf as (d0 & g & t & Hd0 & A0 & B0 & Rg & _). assert (Em0 : m x0 y0 = reg x0 y0) by (apply (Hc d0 (dist - d0)); [exact A0|exact B0|lia]). rewrite Em0, E0 in Ed. cbn [fst] in Ed. apply negb_false_iff, Nat.eqb_eq in Ed. congruence. }
      * specialize (IH m fd false Hc Hf). destruct (row h1 h2 a b dist dps m fd false) as [m1|m1 fd1 big1]; [exact IH|]. destruct IH as (C & F1 & R). split; [exact C|]. split; [exact F1|].
        assert (Hh : forall g, hit dist (dp :: dps) g -> hit dist dps g). { intros g (d & x & y & t & [<-|Hin] & A & B & Rg); [|exists d, x, y, t; auto]. unfold above in A, B. assert (x = u) by congruence. assert (y = v) by congruence. subst. congruence. }
        destruct fd1 as [[x1 y1]|].
        { destruct R as (f1 & s1 & R1 & Rh & R0). exists f1, s1. split; [exact R1|]. split; [intros g Hg; apply Rh, Hh, Hg|exact R0]. }
        { destruct R as (Rf & Rm & Rh). split; [exact Rf|]. split; [exact Rm|]. intros g Hg. apply (Rh g), Hh, Hg. }
    + specialize (IH m fd big Hc Hf). destruct (row h1 h2 a b dist dps m fd big) as [m1|m1 fd1 big1]; [exact IH|]. destruct IH as (C & F1 & R). split; [exact C|]. split; [exact F1|].
      assert (Hh : forall g, hit dist (dp :: dps) g -> hit dist dps g). { intros g (d & x & y & t & [<-|Hin] & A & B & Rg); [|exists d, x, y, t; auto]. unfold above in A, B. congruence. }
      destruct fd1 as [[x1 y1]|].
      { destruct R as (f1 & s1 & R1 & Rh & R0). exists f1, s1. split; [exact R1|]. split; [intros g Hg; apply Rh, Hh, Hg|exact R0]. }
      { destruct R as (Rf & Rm & Rh). split; [exact Rf|]. split; [exact Rm|]. intros g Hg. apply (Rh g), Hh, Hg. }
    + specialize (IH m fd big Hc Hf). destruct (row h1 h2 a b dist dps m fd big) as [m1|m1 fd1 big1]; [exact IH|]. destruct IH as (C & F1 & R). split; [exact C|]. split; [exact F1|].
      assert (Hh : forall g, hit dist (dp :: dps) g -> hit dist dps g). { intros g (d & x & y & t & [<-|Hin] & A & B & Rg); [|exists d, x, y, t; auto]. unfold above in A, B. congruence. }
      destruct fd1 as [[x1 y1]|].
      { destruct R as (f1 & s1 & R1 & Rh & R0). exists f1, s1. split; [exact R1|]. split; [intros g Hg; apply Rh, Hh, Hg|exact R0]. }
      { destruct R as (Rf & Rm & Rh). split; [exact Rf|]. split; [exact Rm|]. intros g Hg. apply (Rh g), Hh, Hg. }
Qed.
Lemma hit_all dist f : atd dist f <-> hit dist (seq 0 (S dist)) f.
Proof.
  rewrite reg_at. split.
  - intros (d1 & d2 & x & y & s & E & A & B & R). exists d1, x, y, s. split; [apply in_seq; lia|]. replace (dist - d1) with d2 by lia. auto.
  - intros (dp & x & y & s & Hin & A & B & R). apply in_seq in Hin. exists dp, (dist - dp), x, y, s. split; [lia|]. auto.
Qed.
Lemma too_far dist : (forall dp, In dp (seq 0 (S dist)) -> ~ valid a b dist dp) -> forall n f, dist <= n -> ~ atd n f.
Proof.
  intros Hn n f Hle (d1 & d2 & x & y & E & A & B & _). unfold above in A, B. assert (L1 : d1 < length (h1 a)) by (apply nth_error_Some; congruence). assert (L2 : d2 < length (h2 b)) by (apply nth_error_Some; congruence).
  apply (Hn (Nat.min d1 dist)); [apply in_seq; lia|]. split; apply nth_error_Some; lia.
Qed.
Lemma search_right fuel : forall dist m, 1 <= dist -> length (h1 a) + length (h2 b) <= fuel + dist -> 1 <= fuel -> clean m -> (forall k f, k < dist -> ~ atd k f) ->
  right_answer sym h1 h2 (kept l) a b (snd (search fuel h1 h2 a b dist m)).
Proof.
  induction fuel as [|fuel IH]; intros dist m Hd Hf Hf1 Hc Hk; [lia|]. cbn [search]. pose proof (search_ends (S fuel) a b dist m Hd Hf Hf1) as Hend. cbn [search] in Hend.
  pose proof (row_spec dist (seq 0 (S dist)) Hd ltac:(intros dp Hin; apply in_seq in Hin; lia) m None true Hc I) as R. destruct (row h1 h2 a b dist (seq 0 (S dist)) m None true) as [m1|m1 [[x y]|] big] eqn:Er; cbn [snd] in *.
  - destruct R as (f & g & N & A & B). exists dist, f, g. split; [split; [eauto|exact Hk]|]. auto.
  - destruct R as (_ & (dp & f & s & Hle & A & B & E & Em) & f1 & s1 & R1 & Rh & _). rewrite Em. assert (f1 = f) by congruence. subst f1. exists dist. assert (Af : atd dist f) by (apply reg_at; exists dp, (dist - dp), x, y, s; split; [lia|auto]). split.
    + split; [exists f; exact Af|exact Hk].
    + split; [exact Af|]. intros g Hg. apply Rh, hit_all, Hg.
  - destruct R as (C & _ & _ & -> & Rh). assert (Hk' : forall k f, k < S dist -> ~ atd k f). { intros k f Hlt. destruct (Nat.eq_dec k dist) as [->|]; [intros H; apply (Rh f), hit_all, H|apply Hk; lia]. }
    destruct big; cbn [snd] in *.
    + destruct (row_big _ _ _ _ _ _ _ _ _ Er) as [_ Hn]. intros n f. destruct (Nat.lt_ge_cases n dist); [apply Hk; assumption|apply (too_far dist Hn); assumption].
    + destruct fuel as [|fuel]; [exfalso; apply Hend; reflexivity|]. apply IH; try lia; assumption.
Qed.
Lemma locate2_right m : clean m -> m a b = reg a b -> right_answer sym h1 h2 (kept l) a b (snd (locate2 h1 h2 m a b)).
Proof.
  intros Hc Ha. unfold locate2. destruct (m a b) as [[f s]|] eqn:E.
  - cbn [snd]. assert (A0 : atd 0 f). { apply reg_at. exists 0, 0, a, b, s. split; [reflexivity|]. split; [apply h_zero; exact H1|]. split; [apply h_zero; exact H2|symmetry; exact Ha]. }
    exists 0. split; [split; [eauto|intros; lia]|]. split; [exact A0|]. intros g G. apply reg_at in G. destruct G as (d1 & d2 & x & y & t & Ed & A & B & R). assert (d1 = 0) by lia. assert (d2 = 0) by lia. subst.
    pose proof (h_zero h1 H1 a) as Z1. pose proof (h_zero h2 H2 b) as Z2. unfold above in *. assert (x = a) by congruence. assert (y = b) by congruence. subst. congruence.
  - apply search_right; [lia|lia|destruct (H1 a) as [(r & ->) _]; cbn; lia|exact Hc|]. intros k f Hk G. assert (k = 0) by lia. subst. apply reg_at in G. destruct G as (d1 & d2 & x & y & t & Ed & A & B & R). assert (d1 = 0) by lia. assert (d2 = 0) by lia. subst.
    pose proof (h_zero h1 H1 a) as Z1. pose proof (h_zero h2 H2 b) as Z2. unfold above in *. assert (x = a) by congruence. assert (y = b) by congruence. subst. congruence.
Qed.
End Right.

Theorem lookup2_right sym auto l hist a b : (forall p, In p hist -> not_below h1 h2 a b p) ->
  right_answer sym h1 h2 (kept l) a b (snd (locate2 h1 h2 (run2 h1 h2 (set2 sym auto l) hist) a b)).
Proof.
  intros Hn. assert (G : forall d1 d2 x y, above h1 a d1 x -> above h2 b d2 y -> run2 h1 h2 (set2 sym auto l) hist x y = set2 sym auto l x y).
  { intros d1 d2 x y A B. apply run2_other. intros c d Hin. destruct (Nat.eq_dec x c) as [->|]; [|auto]. destruct (Nat.eq_dec y d) as [->|]; [|auto]. exfalso. apply (Hn _ Hin). split; [exists d1; exact A|exists d2; exact B]. }
  apply (locate2_right sym auto l a b); [intros d1 d2 x y A B _; eapply G; eassumption|]. apply (G 0 0); apply h_zero; assumption.
Qed.
(** an answer that has been given is given again *)
Lemma locate2_stores m a b f s : snd (locate2 h1 h2 m a b) = Chosen f s -> fst (locate2 h1 h2 m a b) a b = Some (f, s).
Proof.
  unfold locate2. destruct (m a b) as [[g t]|] eqn:E; [cbn [fst snd]; intros H; injection H as <- <-; exact E|]. clear E. generalize 1 as dist. revert m. induction (length (h1 a) + length (h2 b)) as [|fuel IH]; intros m dist; [discriminate|]. cbn [search].
  destruct (row h1 h2 a b dist (seq 0 (S dist)) m None true) as [m1|m1 [p|] big]; cbn [fst snd]; [discriminate| |].
  - destruct (m1 a b) as [[g t]|] eqn:E; [|discriminate]. intros H. injection H as <- <-. exact eq_refl || exact E.
  - destruct big; cbn [fst snd]; [discriminate|]. apply IH.
Qed.
Theorem lookup2_stable m a b f s hist : snd (locate2 h1 h2 m a b) = Chosen f s -> snd (locate2 h1 h2 (run2 h1 h2 (fst (locate2 h1 h2 m a b)) hist) a b) = Chosen f s.
Proof.
  intros H. apply locate2_stores in H. apply (run2_keeps hist) in H. unfold locate2 at 1. rewrite H. reflexivity.
Qed.
End Two.

(** ** shapes and interactions that keep their functor *)
Lemma shape_new h l hist u : hierarchy h -> ucache u = None ->
  match snd (use_shape h (run1 h (set1 l) hist) u) with Some f => nearest h (kept l) (ucls u) f | None => none_given h (kept l) (ucls u) end.
Proof.
  intros Hh E. unfold use_shape. rewrite E. pose proof (lookup1 h Hh l hist (ucls u)) as L. destruct (locate1 h (run1 h (set1 l) hist) (ucls u)) as [m1 r]. exact L.
Qed.
Lemma shape_old h m u f : snd (use_shape h m u) = Some f -> forall m', snd (use_shape h m' (snd (fst (use_shape h m u)))) = Some f.
Proof.
  unfold use_shape. destruct (ucache u) as [g|] eqn:E.
  - cbn [fst snd]. intros H m'. rewrite E. exact H.
  - destruct (locate1 h m (ucls u)) as [m1 r]. cbn [fst snd ucache]. intros -> m'. reflexivity.
Qed.
Lemma intr_new h sym auto l hist u : hierarchy h -> ucache u = None -> uexists u = true -> (forall p, In p hist -> not_below h h (ucls u) (ucls2 u) p) ->
  match snd (use_intr h (run2 h h (set2 sym auto l) hist) u) with
  | Some f => exists s, right_answer sym h h (kept l) (ucls u) (ucls2 u) (Chosen f s)
  | None => right_answer sym h h (kept l) (ucls u) (ucls2 u) NoFunctor \/ right_answer sym h h (kept l) (ucls u) (ucls2 u) Raises
  end.
Proof.
  intros Hh E Ex Hn. unfold use_intr. rewrite E, Ex. cbn [negb]. pose proof (lookup2_right h h Hh Hh sym auto l hist _ _ Hn) as R.
  destruct (locate2 h h (run2 h h (set2 sym auto l) hist) (ucls u) (ucls2 u)) as [m1 [f s| | |]]; cbn [fst snd] in *; [exists s; exact R|left; exact R|right; exact R|destruct R].
Qed.
Lemma intr_old h m u f : snd (use_intr h m u) = Some f -> forall m', snd (use_intr h m' (snd (fst (use_intr h m u)))) = Some f.
Proof.
  unfold use_intr. destruct (uexists u) eqn:Ex; cbn [negb]; [|discriminate]. destruct (ucache u) as [g|] eqn:E.
  - cbn [fst snd]. intros H m'. rewrite Ex, E. exact H.
  - destruct (locate2 h h m (ucls u) (ucls2 u)) as [m1 [g s| | |]]; cbn [fst snd]; try discriminate. intros H m'. injection H as <-. destruct s; reflexivity.
Qed.
Lemma intr_args h sym auto l hist u f : hierarchy h -> ucache u = None ->
  snd (use_intr h (run2 h h (set2 sym auto l) hist) u) = Some f ->
  let u1 := snd (fst (use_intr h (run2 h h (set2 sym auto l) hist) u)) in
  well_called sym auto h h (ucls u1) (ucls2 u1) f false /\
  ((ucls u1, ucls2 u1) = (ucls u, ucls2 u) \/ (ucls u1, ucls2 u1) = (ucls2 u, ucls u)).
Proof.
  intros Hh E. unfold use_intr. destruct (uexists u); cbn [negb]; [|discriminate]. rewrite E. pose proof (always_fits h h Hh Hh sym auto l hist (ucls u) (ucls2 u)) as A.
  destruct (locate2 h h (run2 h h (set2 sym auto l) hist) (ucls u) (ucls2 u)) as [m1 [g s| | |]]; cbn [fst snd] in *; try discriminate. intros H. injection H as <-. specialize (A g s eq_refl). unfold well_called in *.
  destruct (expects sym auto g) as [x y]. destruct s; cbn [ucls ucls2]; [split; [tauto|right; reflexivity]|split; [exact A|left; reflexivity]].
Qed.
