(** Common vertices and edges of facets *)
From Coq Require Import Reals List Bool Arith Lia Lra.
From Verif Require Import Vec_Model Vec_Proofs Topo_Model Topo_Spec.
Import ListNotations.

(** ** C280: the sweep *)
Lemma filter_take {A} (p q : A -> bool) l : (forall x, In x l -> q x = true -> p x = true) -> ascending (fun x y => p x = false -> p y = false) l -> filter q (take_while p l) = filter q l.
Proof.
  induction l as [|x l IH]; intros H S; [reflexivity|]. destruct S as (S1 & S2). cbn [take_while]. destruct (p x) eqn:P.
  - cbn [filter]. rewrite IH; [reflexivity|intros y Y; apply H; right; exact Y|exact S2].
  - symmetry. assert (N : forall y, In y (x :: l) -> q y = false).
    { intros y Y. destruct (q y) eqn:Q; [|reflexivity]. pose proof (H y Y Q) as PY. destruct Y as [<- | Y]; [congruence|]. rewrite (S1 y Y eq_refl) in PY. discriminate PY. }
    clear - N. induction (x :: l) as [|y m IH]; [reflexivity|]. cbn [filter]. rewrite (N y (or_introl eq_refl)). apply IH. intros z Z. apply N. right. exact Z.
Qed.
Lemma filter_map_pair {A} (x : A) (q : A * A -> bool) l : filter q (map (pair x) l) = map (pair x) (filter (fun y => q (x, y)) l).
Proof. induction l as [|y l IH]; [reflexivity|]. cbn [map filter]. destruct (q (x, y)); cbn [map]; rewrite IH; reflexivity. Qed.
Lemma ascending_imp {A} (P Q : A -> A -> Prop) l : (forall x y, P x y -> Q x y) -> ascending P l -> ascending Q l.
Proof. intros H. induction l as [|x l IH]; [auto|]. intros (S1 & S2). split; [intros y Y; apply H; exact (S1 y Y)|exact (IH S2)]. Qed.
Lemma leqR_true a b : leqR a b = true <-> (a <= b)%R. Proof. unfold leqR. destruct (Rle_dec a b); split; intros; try discriminate; try contradiction; auto. Qed.
Lemma leqR_false a b : leqR a b = false <-> (b < a)%R. Proof. unfold leqR. destruct (Rle_dec a b); split; intros; try discriminate; try lra; auto. Qed.
Lemma sq_le a b : (0 <= b)%R -> (a * a <= b * b)%R -> (Rabs a <= b)%R.
Proof. intros B H. rewrite <- (Rabs_pos_eq b B). apply Rsqr_le_abs_0. exact H. Qed.
Lemma touches_near tol u v : (0 <= tol)%R -> touches tol u v = near tol (u, v).
Proof.
  intros T. unfold touches, near. cbv zeta. cbn [fst snd]. fold (leqR (norm2 (vsub (vpos u) (vpos v))) (tol * tol)). generalize (vsub (vpos u) (vpos v)) as d. intros d.
  destruct (leqR (norm2 d) (tol * tol)) eqn:E; [|apply andb_false_r]. apply leqR_true in E. unfold norm2, dot in E. pose proof (Rle_0_sqr (vx d)) as X. pose proof (Rle_0_sqr (vy d)) as Y. pose proof (Rle_0_sqr (vz d)) as Z. unfold Rsqr in X, Y, Z.
  rewrite (proj2 (leqR_true (Rabs (vx d)) tol)), (proj2 (leqR_true (Rabs (vy d)) tol)), (proj2 (leqR_true (Rabs (vz d)) tol)); [reflexivity| | |]; apply sq_le; lra.
Qed.
Lemma cauchy a b : (dot a b * dot a b <= norm2 a * norm2 b)%R.
Proof. pose proof (lagrange a b). pose proof (norm2_pos (cross a b)). lra. Qed.
Theorem sweep_all tol axis l : (0 <= tol)%R -> (norm2 axis <= 1)%R -> (forall v, In v l -> vcoord v = dot (vpos v) axis) -> ascending (fun u v => (vcoord u <= vcoord v)%R) l -> sweep tol l = filter (near tol) (all_pairs l).
Proof.
  intros T A. induction l as [|v l IH]; intros C S; [reflexivity|]. destruct S as (S1 & S2). cbn [sweep all_pairs]. rewrite filter_app, filter_map_pair. f_equal; [|apply IH; [intros w W; apply C; right; exact W|exact S2]]. f_equal.
  rewrite (filter_take (fun w => leqR (vcoord w - vcoord v) tol) (touches tol v)).
  - apply filter_ext. intros w. apply touches_near. exact T.
  - intros w W H. rewrite (touches_near tol v w T) in H. unfold near in H. cbn [fst snd] in H. destruct (Rle_dec (norm2 (vsub (vpos v) (vpos w))) (tol * tol)) as [N|]; [clear H|discriminate H]. apply leqR_true.
    rewrite (C w (or_intror W)), (C v (or_introl eq_refl)). pose proof (cauchy (vsub (vpos v) (vpos w)) axis) as K. assert (P : (0 <= norm2 (vsub (vpos v) (vpos w)))%R) by apply norm2_pos. pose proof (norm2_pos axis) as P2.
    assert (L : (norm2 (vsub (vpos v) (vpos w)) * norm2 axis <= tol * tol)%R). { apply Rle_trans with (norm2 (vsub (vpos v) (vpos w)) * 1)%R; [apply Rmult_le_compat_l; [exact P|exact A]|lra]. }
    pose proof (sq_le (dot (vsub (vpos v) (vpos w)) axis) tol T (Rle_trans _ _ _ K L)) as Q. assert (E : (dot (vpos w) axis - dot (vpos v) axis = - dot (vsub (vpos v) (vpos w)) axis)%R) by (unfold dot, vsub; cbn [vx vy vz]; ring). rewrite E. pose proof (Rle_abs (- dot (vsub (vpos v) (vpos w)) axis)) as M. rewrite Rabs_Ropp in M. lra.
  - apply (ascending_imp (fun u w => (vcoord u <= vcoord w)%R)); [|exact S2]. intros x y H F. apply leqR_false in F. apply leqR_false. lra.
Qed.
(** an axis longer than one *)
Theorem axis_refuted : exists u v, vcoord u = dot (vpos u) (V 2 0 0) /\ vcoord v = dot (vpos v) (V 2 0 0) /\ (vcoord u <= vcoord v)%R /\ near 1 (u, v) = true /\ sweep 1 [u; v] = [].
Proof.
  exists (mkV 0 (V 0 0 0) 0), (mkV 1 (V 1 0 0) 2). cbn [vcoord vpos]. split; [unfold dot; cbn [vx vy vz]; ring|]. split; [unfold dot; cbn [vx vy vz]; ring|]. split; [lra|]. split.
  - unfold near, norm2, dot, vsub. cbn [fst snd vpos vx vy vz]. destruct (Rle_dec _ _) as [|N]; [reflexivity|exfalso; apply N; lra].
  - cbn [sweep take_while vcoord]. rewrite (proj2 (leqR_false (2 - 0) 1)) by lra. reflexivity.
Qed.
(** rotations *)
Theorem unturned b i : bori b (bvert b i) = bvert b i -> corner b i = place b i.
Proof. intros E. unfold corner, place. rewrite E. reflexivity. Qed.
Theorem turned_refuted : place turned 0 = place straight 0 /\ touches 1 (mk_vert (V 1 0 0) turned 0 0) (mk_vert (V 1 0 0) straight 1 0) = false.
Proof.
  split; [unfold place, turned, straight, vadd; cbn [bori bvert bpos vx vy vz]; f_equal; ring|]. rewrite touches_near by lra. unfold near, mk_vert, corner, turned, straight, norm2, dot, vsub, vadd. cbn [fst snd vpos bvert bpos vx vy vz]. destruct (Rle_dec _ _) as [L|]; [exfalso; lra|reflexivity].
Qed.

(** ** C281: numbers *)
Lemma fold_upd l i : forall m x, fold_left (fun m w => upd m w i) l m x = if in_dec Nat.eq_dec x l then Some i else m x.
Proof.
  induction l as [|w l IH]; intros m x; [reflexivity|]. cbn [fold_left]. rewrite IH. destruct (in_dec Nat.eq_dec x l) as [I | I].
  - destruct (in_dec Nat.eq_dec x (w :: l)) as [J | J]; [reflexivity|contradiction J; right; exact I].
  - unfold upd. destruct (x =? w) eqn:E.
    + apply Nat.eqb_eq in E. subst w. destruct (in_dec Nat.eq_dec x (x :: l)) as [J | J]; [reflexivity|contradiction J; left; reflexivity].
    + apply Nat.eqb_neq in E. destruct (in_dec Nat.eq_dec x (w :: l)) as [[J | J] | J]; [congruence|contradiction|reflexivity].
Qed.
Definition numbered (rel : nat -> nat -> Prop) (all done : list nat) (ids : nat -> option nat) (fresh : nat) : Prop :=
  (forall w, In w all -> (ids w <> None <-> exists u, In u done /\ same rel u w)) /\
  (forall u w i, In u all -> In w all -> ids u = Some i -> (ids w = Some i <-> same rel u w)) /\
  (forall w i, In w all -> ids w = Some i -> i < fresh) /\
  (forall i, i < fresh -> exists w, In w all /\ ids w = Some i).
Lemma number_inv (rel : nat -> nat -> Prop) all next : (forall u v, rel u v -> rel v u) -> (forall u v w, In u all -> In v all -> In w all -> rel u v -> rel v w -> same rel u w) ->
  (forall v w, In v all -> (In w (next v) <-> In w all /\ v < w /\ rel v w)) ->
  forall todo done ids fresh, all = done ++ todo -> ascending lt all -> numbered rel all done ids fresh -> numbered rel all all (fst (number next todo ids fresh)) (snd (number next todo ids fresh)).
Proof.
  intros SY TR NX. assert (SS : forall u v, same rel u v -> same rel v u) by (intros u v [-> | H]; [left; reflexivity|right; apply SY; exact H]).
  assert (ST : forall u v w, In u all -> In v all -> In w all -> same rel u v -> same rel v w -> same rel u w). { intros u v w U V W [-> | H] [-> | K]; [left; reflexivity|right; exact K|right; exact H|exact (TR u v w U V W H K)]. }
  induction todo as [|v todo IH]; intros done ids fresh E A N; [cbn [number fst snd]; rewrite E at 2; rewrite app_nil_r; exact N|].
  assert (VA : In v all) by (rewrite E; apply in_or_app; right; left; reflexivity).
  assert (DA : forall u, In u done -> In u all) by (intros u U; rewrite E; apply in_or_app; left; exact U).
  assert (LOW : forall w, In w all -> w < v -> In w done).
  { intros w W L. rewrite E in W. apply in_app_or in W as [W | [W | W]]; [exact W|lia|]. exfalso. rewrite E in A. clear - A W L. induction done as [|x d IHd]; [destruct A as (A1 & _); pose proof (A1 w W); lia|destruct A as (_ & A2); exact (IHd A2)]. }
  destruct N as (N1 & N2 & N3 & N4). cbn [number]. destruct (ids v) as [i|] eqn:I.
  - assert (EX : forall x, In x all -> fold_left (fun m w => upd m w i) (next v) ids x = ids x).
    { intros x X. rewrite fold_upd. destruct (in_dec Nat.eq_dec x (next v)) as [J | J]; [|reflexivity]. apply NX in J as (J1 & J2 & J3); [|exact VA]. symmetry. apply (N2 v x i VA X I). right. exact J3. }
    apply (IH (done ++ [v])); [rewrite <- app_assoc; exact E|exact A|]. destruct (proj1 (N1 v VA)) as (u & U1 & U2); [congruence|]. split; [|split; [|split]].
    + intros w W. rewrite EX by exact W. rewrite N1 by exact W. split; [intros (x & X1 & X2); exists x; split; [apply in_or_app; left; exact X1|exact X2]|]. intros (x & X1 & X2). apply in_app_or in X1 as [X1 | [<- | []]]; [exists x; split; assumption|]. exists u. split; [exact U1|]. exact (ST u v w (DA u U1) VA W U2 X2).
    + intros x w j X W. rewrite !EX by assumption. apply N2; assumption.
    + intros w j W. rewrite EX by exact W. apply N3. exact W.
    + intros j J. destruct (N4 j J) as (w & W1 & W2). exists w. rewrite EX by exact W1. split; assumption.
  - assert (NONE : forall x, In x all -> same rel v x -> ids x = None).
    { intros x X S. destruct (ids x) as [k|] eqn:K; [|reflexivity]. exfalso. destruct (proj1 (N1 x X)) as (u & U1 & U2); [congruence|]. apply (proj2 (N1 v VA)); [exists u; split; [exact U1|]; exact (ST u x v (DA u U1) X VA U2 (SS v x S))|exact I]. }
    assert (EX : forall x, In x all -> (same rel v x -> fold_left (fun m w => upd m w fresh) (next v) (upd ids v fresh) x = Some fresh) /\ (~ same rel v x -> fold_left (fun m w => upd m w fresh) (next v) (upd ids v fresh) x = ids x)).
    { intros x X. rewrite fold_upd. destruct (in_dec Nat.eq_dec x (next v)) as [J | J].
      - apply NX in J as (J1 & J2 & J3); [|exact VA]. split; [reflexivity|intros C; contradiction C; right; exact J3].
      - unfold upd. destruct (x =? v) eqn:Q; [apply Nat.eqb_eq in Q; subst x; split; [reflexivity|intros C; contradiction C; left; reflexivity]|]. apply Nat.eqb_neq in Q. split; [|reflexivity]. intros [-> | S]; [contradiction|]. exfalso.
        destruct (Nat.lt_trichotomy v x) as [L | [L | L]]; [apply J; apply NX; [exact VA|]; split; [exact X|split; assumption]|congruence|].
        apply (proj2 (N1 v VA)); [exists x; split; [exact (LOW x X L)|right; apply SY; exact S]|exact I]. }
    assert (DEC : forall x, In x all -> same rel v x \/ ~ same rel v x).
    { intros x X. destruct (Nat.eq_dec x v) as [-> | Q]; [left; left; reflexivity|]. destruct (in_dec Nat.eq_dec x (next v)) as [J | J]; [left; right; apply NX in J as (_ & _ & J); [exact J|exact VA]|]. right. intros [-> | S]; [contradiction|].
      destruct (Nat.lt_trichotomy v x) as [L | [L | L]]; [apply J; apply NX; [exact VA|]; split; [exact X|split; assumption]|congruence|].
      apply (proj2 (N1 v VA)); [exists x; split; [exact (LOW x X L)|right; apply SY; exact S]|exact I]. }
    apply (IH (done ++ [v])); [rewrite <- app_assoc; exact E|exact A|]. split; [|split; [|split]].
    + intros w W. destruct (EX w W) as (E1 & E2). destruct (DEC w W) as [S | S].
      * rewrite (E1 S). split; [intros _; exists v; split; [apply in_or_app; right; left; reflexivity|exact S]|intros _; discriminate].
      * rewrite (E2 S), (N1 w W). split; [intros (x & X1 & X2); exists x; split; [apply in_or_app; left; exact X1|exact X2]|]. intros (x & X1 & X2). apply in_app_or in X1 as [X1 | [<- | []]]; [exists x; split; assumption|contradiction].
    + intros x w j X W. destruct (EX x X) as (E1 & E2). destruct (EX w W) as (F1 & F2). destruct (DEC x X) as [S | S]; destruct (DEC w W) as [Q | Q].
      * rewrite (E1 S), (F1 Q). intros [= <-]. split; [intros _; exact (ST x v w X VA W (SS v x S) Q)|reflexivity].
      * rewrite (E1 S), (F2 Q). intros [= <-]. split; [intros K; exfalso; pose proof (N3 w fresh W K); lia|intros K; exfalso; apply Q; exact (ST v x w VA X W S K)].
      * rewrite (E2 S), (F1 Q). intros K. split; [intros [= <-]; exfalso; pose proof (N3 x fresh X K); lia|intros M; exfalso; apply S; exact (ST v w x VA W X Q (SS x w M))].
      * rewrite (E2 S), (F2 Q). intros K. apply N2; assumption.
    + intros w j W. destruct (EX w W) as (E1 & E2). destruct (DEC w W) as [S | S]; [rewrite (E1 S); intros [= <-]; lia|rewrite (E2 S); intros K; pose proof (N3 w j W K); lia].
    + intros j J. destruct (Nat.eq_dec j fresh) as [-> | Q]; [exists v; split; [exact VA|apply EX; [exact VA|left; reflexivity]]|]. destruct (N4 j ltac:(lia)) as (w & W1 & W2). exists w. split; [exact W1|]. destruct (EX w W1) as (E1 & E2). rewrite E2; [exact W2|]. intros S. rewrite (NONE w W1 S) in W2. discriminate W2.
Qed.
Theorem numbers (rel : nat -> nat -> Prop) all next : ascending lt all -> (forall u v, rel u v -> rel v u) -> (forall u v w, In u all -> In v all -> In w all -> rel u v -> rel v w -> same rel u w) ->
  (forall v w, In v all -> (In w (next v) <-> In w all /\ v < w /\ rel v w)) ->
  exists ids n, number next all (fun _ => None) 0 = (ids, n) /\ (forall u, In u all -> exists i, ids u = Some i /\ i < n) /\ (forall u w, In u all -> In w all -> (ids u = ids w <-> same rel u w)) /\ (forall i, i < n -> exists u, In u all /\ ids u = Some i).
Proof.
  intros A SY TR NX. pose proof (number_inv rel all next SY TR NX all [] (fun _ => None) 0 eq_refl A) as H. destruct (number next all (fun _ => None) 0) as [ids n] eqn:E. cbn [fst snd] in H. destruct H as (N1 & N2 & N3 & N4).
  - split; [|split; [|split]]; [intros w W; split; [intros C; contradiction C; reflexivity|intros (u & [] & _)]|intros u w i U W K; discriminate K|intros w i W K; discriminate K|intros i L; lia].
  - exists ids, n. split; [reflexivity|]. assert (AS : forall u, In u all -> exists i, ids u = Some i) by (intros u U; destruct (ids u) as [i|] eqn:I; [exists i; reflexivity|exfalso; apply (proj2 (N1 u U)); [exists u; split; [exact U|left; reflexivity]|exact I]]).
    split; [intros u U; destruct (AS u U) as (i & I); exists i; split; [exact I|exact (N3 u i U I)]|]. split; [|exact N4]. intros u w U W. destruct (AS u U) as (i & I). rewrite I, <- (N2 u w i U W I). split; intros K; symmetry; exact K.
Qed.
Lemma next_spec pairs v w : In w (nextIdentical pairs v) <-> v < w /\ (In (v, w) pairs \/ In (w, v) pairs) \/ v = w /\ In (v, v) pairs.
Proof.
  unfold nextIdentical. rewrite in_concat. split.
  - intros (l & L & W). apply in_map_iff in L as ([i j] & <- & P). destruct (i <? j) eqn:E; [apply Nat.ltb_lt in E|apply Nat.ltb_ge in E].
    + destruct (i =? v) eqn:Q; [apply Nat.eqb_eq in Q; subst i|destruct W]. destruct W as [<- | []]. left. split; [exact E|left; exact P].
    + destruct (j =? v) eqn:Q; [apply Nat.eqb_eq in Q; subst j|destruct W]. destruct W as [<- | []]. destruct (Nat.eq_dec v i) as [<- | D]; [right; split; [reflexivity|exact P]|left; split; [lia|right; exact P]].
  - intros [(L & [P | P]) | (<- & P)]; (eexists; split; [apply in_map_iff; eexists; split; [reflexivity|exact P]|]); cbv beta iota.
    + rewrite (proj2 (Nat.ltb_lt v w) L), Nat.eqb_refl. left. reflexivity.
    + rewrite (proj2 (Nat.ltb_ge w v)) by lia. rewrite Nat.eqb_refl. left. reflexivity.
    + rewrite Nat.ltb_irrefl, Nat.eqb_refl. left. reflexivity.
Qed.
(** the numbers from the pairs which were found *)
Theorem vertices all pairs : ascending lt all -> (forall u v, In (u, v) pairs -> In u all /\ In v all /\ u <> v) ->
  (forall u v w, (In (u, v) pairs \/ In (v, u) pairs) -> (In (v, w) pairs \/ In (w, v) pairs) -> u = w \/ In (u, w) pairs \/ In (w, u) pairs) ->
  exists ids n, number (nextIdentical pairs) all (fun _ => None) 0 = (ids, n) /\ (forall u, In u all -> exists i, ids u = Some i /\ i < n) /\ (forall u w, In u all -> In w all -> (ids u = ids w <-> u = w \/ In (u, w) pairs \/ In (w, u) pairs)) /\ (forall i, i < n -> exists u, In u all /\ ids u = Some i).
Proof.
  intros A P T. apply (numbers (fun u v => In (u, v) pairs \/ In (v, u) pairs)); [exact A|tauto|intros u v w _ _ _; apply T|].
  intros v w V. rewrite next_spec. split.
  - intros [(L & D) | (<- & D)]; [|destruct (P v v D) as (_ & _ & C); contradiction C; reflexivity]. split; [destruct D as [D | D]; apply P in D; tauto|]. split; assumption.
  - intros (W & L & D). left. split; assumption.
Qed.
Theorem chain_refuted : let ids := fst (number (nextIdentical [(0, 2); (1, 2)]) [0; 1; 2] (fun _ => None) 0) in ids 0 = Some 0 /\ ids 2 = Some 1.
Proof. split; reflexivity. Qed.

(** ** C282: the search *)
Lemma mem3 x t : ((x =? v0 t) || (x =? v1 t) || (x =? v2 t)) = if in_dec Nat.eq_dec x (corners t) then true else false.
Proof.
  destruct (in_dec Nat.eq_dec x (corners t)) as [I | I].
  - destruct I as [<- | [<- | [<- | []]]]; rewrite Nat.eqb_refl, ?orb_true_r; reflexivity.
  - apply not_true_is_false. intros H. apply I. apply orb_true_iff in H as [H | H]; [apply orb_true_iff in H as [H | H]|]; apply Nat.eqb_eq in H; subst x; unfold corners; cbn [In]; tauto.
Qed.
Lemma common_shared s t : common s t = shared s t.
Proof. unfold common, shared. apply filter_ext. intros x. apply mem3. Qed.
Theorem search_all l : ascending (fun s t => minVertex s <= minVertex t) l -> search l = filter adjacent (all_pairs l).
Proof.
  induction l as [|s l IH]; intros S; [reflexivity|]. destruct S as (S1 & S2). cbn [search all_pairs]. rewrite filter_app, filter_map_pair. f_equal; [|exact (IH S2)]. f_equal.
  rewrite (filter_take (fun t => negb (maxVertex s <? minVertex t)) (fun t => negb (length (common s t) <? 2))).
  - apply filter_ext. intros t. unfold adjacent. cbn [fst snd]. rewrite common_shared, Nat.ltb_antisym, negb_involutive. reflexivity.
  - intros t T H. rewrite common_shared in H. apply negb_true_iff, Nat.ltb_ge in H. apply negb_true_iff, Nat.ltb_ge. destruct (shared s t) as [|x m] eqn:E; [cbn in H; lia|]. assert (X : In x (shared s t)) by (rewrite E; left; reflexivity). unfold shared in X. apply filter_In in X as (X1 & X2). destruct (in_dec Nat.eq_dec x (corners t)) as [X3|]; [|discriminate X2].
    unfold minVertex, maxVertex. destruct X1 as [<- | [<- | [<- | []]]]; destruct X3 as [X3 | [X3 | [X3 | []]]]; lia.
  - apply (ascending_imp (fun s t => minVertex s <= minVertex t)); [|exact S2]. intros x y L H. apply negb_false_iff, Nat.ltb_lt in H. apply negb_false_iff, Nat.ltb_lt. lia.
Qed.

(** ** C283: edges *)
Lemma vertex_from t e : e < 3 -> vertex t e = from t e. Proof. intros L. destruct e as [|[|[|e]]]; try reflexivity. lia. Qed.
Lemma is_edge t a b e f : ((a =? vertex t e) && (b =? vertex t f)) || ((a =? vertex t f) && (b =? vertex t e)) = true <-> a = vertex t e /\ b = vertex t f \/ a = vertex t f /\ b = vertex t e.
Proof. rewrite orb_true_iff, !andb_true_iff, !Nat.eqb_eq. reflexivity. Qed.
Lemma edge_sound t a b e : edge_of t a b = Some e -> e < 3 /\ (a = from t e /\ b = to t e \/ a = to t e /\ b = from t e).
Proof.
  unfold edge_of. cbv zeta. destruct (_ || _) eqn:E0; [intros [= <-]; apply is_edge in E0; split; [lia|exact E0]|]. destruct ((a =? vertex t 1) && _ || _) eqn:E1; [intros [= <-]; apply is_edge in E1; split; [lia|exact E1]|]. destruct ((a =? vertex t 2) && _ || _) eqn:E2; [intros [= <-]; apply is_edge in E2; split; [lia|exact E2]|discriminate].
Qed.
Lemma edge_complete t a b : In a (corners t) -> In b (corners t) -> a <> b -> exists e, edge_of t a b = Some e.
Proof.
  intros A B N. unfold edge_of. cbv zeta. destruct (_ || _) eqn:E0; [eexists; reflexivity|]. destruct ((a =? vertex t 1) && _ || _) eqn:E1; [eexists; reflexivity|]. destruct ((a =? vertex t 2) && _ || _) eqn:E2; [eexists; reflexivity|]. exfalso.
  assert (X : forall e f, ((a =? vertex t e) && (b =? vertex t f)) || ((a =? vertex t f) && (b =? vertex t e)) = false -> ~ (a = vertex t e /\ b = vertex t f \/ a = vertex t f /\ b = vertex t e)) by (intros e f F G; apply is_edge in G; congruence).
  apply X in E0, E1, E2. cbn [vertex] in E0, E1, E2. destruct A as [A | [A | [A | []]]], B as [B | [B | [B | []]]]; subst; tauto.
Qed.
Lemma shared_in s t x : In x (shared s t) <-> In x (corners s) /\ In x (corners t).
Proof. unfold shared. rewrite filter_In. destruct (in_dec Nat.eq_dec x (corners t)); split; intros (H1 & H2); split; try assumption; try reflexivity; try discriminate; contradiction. Qed.
Theorem edges_spec s t : proper s -> proper t -> adjacent (s, t) = true -> exists ei ej inv, edges s t = Some (ei, ej, inv) /\ ei < 3 /\ ej < 3 /\ (inv = true -> from s ei = from t ej /\ to s ei = to t ej) /\ (inv = false -> from s ei = to t ej /\ to s ei = from t ej).
Proof.
  intros PS PT A. unfold adjacent in A. cbn [fst snd] in A. apply Nat.leb_le in A. unfold edges. rewrite common_shared. destruct (shared s t) as [|a [|b m]] eqn:E; [cbn in A; lia|cbn in A; lia|].
  assert (ND : NoDup (shared s t)) by (unfold shared; apply NoDup_filter; exact PS). rewrite E in ND. assert (N : a <> b) by (intros ->; inversion ND as [|? ? Q]; apply Q; left; reflexivity).
  assert (IA : In a (shared s t)) by (rewrite E; left; reflexivity). assert (IB : In b (shared s t)) by (rewrite E; right; left; reflexivity). apply shared_in in IA as (A1 & A2). apply shared_in in IB as (B1 & B2).
  destruct (edge_complete s a b A1 B1 N) as (ei & Ei). destruct (edge_complete t a b A2 B2 N) as (ej & Ej). rewrite Ei, Ej. destruct (edge_sound s a b ei Ei) as (L1 & D1). destruct (edge_sound t a b ej Ej) as (L2 & D2).
  exists ei, ej, (vertex s ei =? vertex t ej). split; [reflexivity|]. split; [exact L1|]. split; [exact L2|]. rewrite !vertex_from by assumption. split; intros I; [apply Nat.eqb_eq in I|apply Nat.eqb_neq in I]; destruct D1 as [(D1 & D1') | (D1 & D1')], D2 as [(D2 & D2') | (D2 & D2')]; split; congruence.
Qed.
Lemma all_pairs_in {A} (l : list A) s t : In (s, t) (all_pairs l) -> In s l /\ In t l.
Proof. induction l as [|x l IH]; [intros []|]. cbn [all_pairs]. rewrite in_app_iff, in_map_iff. intros [(y & [= <- <-] & Y) | H]; [split; [left; reflexivity|right; exact Y]|]. destruct (IH H). split; right; assumption. Qed.
Theorem no_error l : ascending (fun s t => minVertex s <= minVertex t) l -> Forall proper l -> exists m, analyze l = Some (m, length (filter adjacent (all_pairs l))).
Proof.
  intros S P. unfold analyze. rewrite (search_all l S). rewrite Forall_forall in P.
  assert (G : forall q m, (forall s t, In (s, t) q -> proper s /\ proper t /\ adjacent (s, t) = true) -> exists m', mark_all q m = Some m').
  { induction q as [|[s t] q IH]; intros m H; [eexists; reflexivity|]. cbn [mark_all]. destruct (H s t (or_introl eq_refl)) as (H1 & H2 & H3). destruct (edges_spec s t H1 H2 H3) as (ei & ej & inv & -> & _). apply IH. intros s' t' I. apply H. right. exact I. }
  destruct (G (filter adjacent (all_pairs l)) (fun _ _ => None)) as (m & ->); [|exists m; reflexivity]. intros s t I. apply filter_In in I as (I1 & I2). destruct (all_pairs_in l s t I1). split; [apply P; assumption|split; [apply P; assumption|exact I2]].
Qed.
(** an edge is marked if it was found for a pair *)
Lemma mark_all_spec q : forall m m' f e, mark_all q m = Some m' -> (m' f e <> None <-> m f e <> None \/ exists s t ei ej inv, In (s, t) q /\ edges s t = Some (ei, ej, inv) /\ (f = fid s /\ e = ei \/ f = fid t /\ e = ej)).
Proof.
  induction q as [|[s t] q IH]; intros m m' f e H; cbn [mark_all] in H.
  - injection H as <-. split; [intros N; left; exact N|intros [N | (s & t & ei & ej & inv & [] & _)]; exact N].
  - destruct (edges s t) as [[[ei ej] inv]|] eqn:E; [|discriminate H]. rewrite (IH _ _ f e H). clear H IH. unfold mark.
    assert (B : forall a b c d : nat, (a =? b) && (c =? d) = true <-> a = b /\ c = d) by (intros; rewrite andb_true_iff, !Nat.eqb_eq; reflexivity).
    split.
    + intros [N | (s' & t' & x & y & i & I & K)]; [|right; exists s', t', x, y, i; split; [right; exact I|exact K]].
      destruct ((f =? fid t) && (e =? ej)) eqn:Q1; [apply B in Q1; right; exists s, t, ei, ej, inv; split; [left; reflexivity|split; [exact E|right; exact Q1]]|]. destruct ((f =? fid s) && (e =? ei)) eqn:Q2; [apply B in Q2; right; exists s, t, ei, ej, inv; split; [left; reflexivity|split; [exact E|left; exact Q2]]|]. left. exact N.
    + intros [N | (s' & t' & x & y & i & [I | I] & K1 & K2)].
      * left. destruct ((f =? fid t) && (e =? ej)); [discriminate|]. destruct ((f =? fid s) && (e =? ei)); [discriminate|exact N].
      * injection I as <- <-. rewrite E in K1. injection K1 as <- <- <-. left. destruct K2 as [K2 | K2]; apply B in K2; rewrite K2; [destruct ((f =? fid t) && (e =? ej)); discriminate|discriminate].
      * right. exists s', t', x, y, i. split; [exact I|split; assumption].
Qed.
Theorem marked l m n f e : ascending (fun s t => minVertex s <= minVertex t) l -> analyze l = Some (m, n) ->
  (m f e <> None <-> exists s t ei ej inv, In (s, t) (all_pairs l) /\ adjacent (s, t) = true /\ edges s t = Some (ei, ej, inv) /\ (f = fid s /\ e = ei \/ f = fid t /\ e = ej)).
Proof.
  intros S H. unfold analyze in H. rewrite (search_all l S) in H. destruct (mark_all (filter adjacent (all_pairs l)) (fun _ _ => None)) as [m'|] eqn:E; [|discriminate H]. injection H as -> _. rewrite (mark_all_spec _ _ _ f e E). split.
  - intros [N | (s & t & ei & ej & inv & I & K)]; [contradiction N; reflexivity|]. apply filter_In in I as (I1 & I2). exists s, t, ei, ej, inv. split; [exact I1|]. split; [exact I2|exact K].
  - intros (s & t & ei & ej & inv & I1 & I2 & K). right. exists s, t, ei, ej, inv. split; [apply filter_In; split; assumption|exact K].
Qed.
Theorem own_refuted : exists m, analyze two_facets = Some (m, 1) /\ m 0 1 = Some 0 /\ m 1 0 = Some 1.
Proof. eexists. split; [reflexivity|]. split; reflexivity. Qed.
(** what is written is always the facet itself *)
Lemma mark_own q : forall m m', (forall f e i, m f e = Some i -> i = f) -> mark_all q m = Some m' -> forall f e i, m' f e = Some i -> i = f.
Proof.
  induction q as [|[s t] q IH]; intros m m' H E; cbn [mark_all] in E; [injection E as <-; exact H|]. destruct (edges s t) as [[[ei ej] inv]|]; [|discriminate E]. refine (IH _ _ _ E). unfold mark. intros f e i. destruct (f =? fid t) eqn:Q1; [apply Nat.eqb_eq in Q1|]; destruct (f =? fid s) eqn:Q2; try (apply Nat.eqb_eq in Q2); destruct (e =? ej), (e =? ei); cbn [andb]; try (intros [= <-]; congruence); apply H.
Qed.
Theorem always_own_refuted l m n f e i : analyze l = Some (m, n) -> m f e = Some i -> i = f.
Proof.
  intros H. unfold analyze in H. destruct (mark_all (search l) (fun _ _ => None)) as [m'|] eqn:E; [|discriminate H]. injection H as -> _. refine (mark_own _ _ _ _ E f e i). intros; discriminate.
Qed.
(** a facet with twice the same vertex *)
Theorem flat_refuted : analyze [mkF 0 0 0 1; mkF 1 0 2 3] = None.
Proof. reflexivity. Qed.
