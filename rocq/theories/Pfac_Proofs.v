From Coq Require Import List Arith Bool Lia.
From Verif Require Import Pfac_Model Pfac_Spec.
From Coq Require Import Permutation.
Import ListNotations.

Lemma nd_comm {A} (l m : list A) : NoDup (m ++ l) -> NoDup (l ++ m).
Proof. intros H. eapply Permutation_NoDup; [apply Permutation_app_comm|exact H]. Qed.
Section Mesh.
Context {P : Type} (peq : P -> P -> bool).
Hypothesis D : decides peq.
Notation scene := (scene P).

Lemma unbind_nth (l : list (gbody P)) ids : forall k i, nth_error (unbind l ids k) i = option_map (fun b => if existsb (Nat.eqb (k + i)) ids then mkG (gk b) (gpos b) false else b) (nth_error l i).
Proof.
  induction l as [|b l IH]; intros k [|i]; cbn [unbind nth_error option_map]; try reflexivity; [rewrite Nat.add_0_r; reflexivity|]. rewrite IH. rewrite <- plus_n_Sm. reflexivity.
Qed.
Lemma unbind_length (l : list (gbody P)) ids : forall k, length (unbind l ids k) = length l.
Proof. induction l as [|b l IH]; intros k; [reflexivity|]. cbn [unbind length]. rewrite IH. reflexivity. Qed.
Lemma nth_app_old {A} (l m : list A) i x : nth_error l i = Some x -> nth_error (l ++ m) i = Some x.
Proof. intros H. rewrite nth_error_app1; [exact H|]. apply nth_error_Some. congruence. Qed.
Lemma nth_app_new {A} (l : list A) x : nth_error (l ++ [x]) (length l) = Some x.
Proof. rewrite nth_error_app2 by lia. rewrite Nat.sub_diag. reflexivity. Qed.

(** later scenes: bodies keep shape and place, unbounded ones stay so, those before [n0] are the same *)
Definition later (n0 : nat) (s s' : scene) : Prop :=
  (forall id b, nth_error (gb s) id = Some b -> exists b', nth_error (gb s') id = Some b' /\ gk b' = gk b /\ gpos b' = gpos b /\ (gbounded b' = gbounded b \/ (gbounded b' = false /\ (gk b = KNode \/ exists x y, gk b = KConn x y)))) /\
  (forall id, id < n0 -> nth_error (gb s') id = nth_error (gb s) id).
Lemma later_refl n0 s : later n0 s s.
Proof. split; [|reflexivity]. intros id b H. exists b. auto. Qed.
Lemma later_trans n0 s1 s2 s3 : later n0 s1 s2 -> later n0 s2 s3 -> later n0 s1 s3.
Proof.
  intros (A & A') (B & B'). split; [|intros id H; rewrite B' by exact H; auto]. intros id b H. destruct (A id b H) as (b1 & H1 & K1 & P1 & Q1). destruct (B id b1 H1) as (b2 & H2 & K2 & P2 & Q2). exists b2. split; [exact H2|]. split; [congruence|]. split; [congruence|].
  rewrite K1 in Q2. destruct Q2 as [Q2|Q2]; [|right; exact Q2]. rewrite Q2. exact Q1.
Qed.
Lemma later_shape n0 s s' id k : later n0 s s' -> shape_of s id = Some k -> shape_of s' id = Some k.
Proof. intros (A & _) H. unfold shape_of in *. destruct (nth_error (gb s) id) as [b|] eqn:E; [|discriminate]. injection H as <-. destruct (A id b E) as (b' & E' & K & _). rewrite E'. cbn [option_map]. rewrite K. reflexivity. Qed.
Lemma later_place n0 s s' id p : later n0 s s' -> place s id = Some p -> place s' id = Some p.
Proof. intros (A & _) H. unfold place in *. destruct (nth_error (gb s) id) as [b|] eqn:E; [|discriminate]. injection H as <-. destruct (A id b E) as (b' & E' & _ & K & _). rewrite E'. cbn [option_map]. rewrite K. reflexivity. Qed.
Lemma later_unbounded n0 s s' id : later n0 s s' -> bounded_at s id = Some false -> bounded_at s' id = Some false.
Proof. intros (A & _) H. unfold bounded_at in *. destruct (nth_error (gb s) id) as [b|] eqn:E; [|discriminate]. injection H as H. destruct (A id b E) as (b' & E' & _ & _ & Q). rewrite E'. cbn [option_map]. destruct Q as [Q|(Q & _)]; rewrite Q; [rewrite H|]; reflexivity. Qed.
Lemma later_bounded n0 s s' id k : later n0 s s' -> shape_of s id = Some k -> (k <> KNode) -> (forall x y, k <> KConn x y) -> bounded_at s id = Some true -> bounded_at s' id = Some true.
Proof.
  intros (A & _) S N C H. unfold bounded_at, shape_of in *. destruct (nth_error (gb s) id) as [b|] eqn:E; [|discriminate]. injection H as H. injection S as S. destruct (A id b E) as (b' & E' & _ & _ & Q). rewrite E'. cbn [option_map]. destruct Q as [Q|(_ & [Q|(x & y & Q)])]; [rewrite Q, H; reflexivity|congruence|exfalso; apply (C x y); congruence].
Qed.
Lemma later_joins n0 s s' c a b : later n0 s s' -> joins s c a b -> joins s' c a b.
Proof. intros L [H|H]; [left|right]; eapply later_shape; eassumption. Qed.
Lemma later_app n0 s b g : n0 <= length (gb s) -> later n0 s (mkScene (gb s ++ [b]) g).
Proof.
  intros N. split; cbn [gb].
  - intros id x H. exists x. split; [apply nth_app_old; exact H|]. auto.
  - intros id H. apply nth_error_app1. lia.
Qed.
Lemma later_unbind n0 s ids g : (forall i, In i ids -> n0 <= i /\ exists k, shape_of s i = Some k /\ (k = KNode \/ exists x y, k = KConn x y)) -> later n0 s (mkScene (unbind (gb s) ids 0) g).
Proof.
  intros H. split; cbn [gb].
  - intros id b E. rewrite unbind_nth, E. cbn [option_map Nat.add]. destruct (existsb (Nat.eqb id) ids) eqn:X.
    + eexists. split; [reflexivity|]. cbn [gk gpos gbounded]. split; [reflexivity|]. split; [reflexivity|]. right. split; [reflexivity|]. apply existsb_exists in X as (y & Y & Q). apply Nat.eqb_eq in Q. subst y. destruct (H id Y) as (_ & k & K & C). unfold shape_of in K. rewrite E in K. injection K as <-. exact C.
    + exists b. auto.
  - intros id L. rewrite unbind_nth. destruct (nth_error (gb s) id) as [b|]; [|reflexivity]. cbn [option_map Nat.add]. destruct (existsb (Nat.eqb id) ids) eqn:X; [|reflexivity]. apply existsb_exists in X as (y & Y & Q). apply Nat.eqb_eq in Q. subst y. destruct (H id Y). lia.
Qed.

(** ** What holds at all times *)
Record inv (n0 : nat) (s0 : scene) (VP : P -> Prop) (EP : P -> P -> Prop) (done : list (P * P * P)) (L : lists) (s : scene) : Prop := mkInv {
  v_n : n0 <= length (gb s);
  v_old : later n0 s0 s;
  v_nodes : forall i, In i (nodesIds L) -> n0 <= i /\ shape_of s i = Some KNode;
  v_nd : NoDup (nodesIds L);
  v_pos : forall i j p, In i (nodesIds L) -> In j (nodesIds L) -> place s i = Some p -> place s j = Some p -> i = j;
  v_vert : forall p, (exists i, In i (nodesIds L) /\ place s i = Some p) <-> VP p;
  v_gi : forall a b c, In (a, b, c) (gi s) -> In a (nodesIds L) /\ In b (nodesIds L) /\ n0 <= c /\ shape_of s c = Some (KConn a b) /\ exists p q, place s a = Some p /\ place s b = Some q /\ EP p q;
  v_cyl : cylIds L = map snd (gi s);
  v_one : forall a b c a' b' c', In (a, b, c) (gi s) -> In (a', b', c') (gi s) -> (a = a' /\ b = b') \/ (a = b' /\ b = a') -> c = c';
  v_cnd : NoDup (cylIds L);
  v_pf : Forall2 (fun f face => is_facet s L f face) (pfIds L) done
}.
Lemma shape_place (s : scene) i k : shape_of s i = Some k -> exists p, place s i = Some p.
Proof. unfold shape_of, place. destruct (nth_error (gb s) i) as [b|]; [|discriminate]. intros _. exists (gpos b). reflexivity. Qed.
Lemma shape_length (s : scene) i k : shape_of s i = Some k -> i < length (gb s).
Proof. unfold shape_of. intros H. apply nth_error_Some. intros E. rewrite E in H. discriminate. Qed.
Lemma facet_later n0 s s' L L' f face : later n0 s s' -> (forall i, In i (nodesIds L) -> In i (nodesIds L')) -> (forall i, In i (cylIds L) -> In i (cylIds L')) -> is_facet s L f face -> is_facet s' L' f face.
Proof.
  destruct face as ((a, b), c). intros T N C (n1 & n2 & n3 & c1 & c2 & c3 & H1 & H2 & H3 & H4 & H5 & H6 & H7 & H8 & H9 & H10 & H11 & H12 & H13 & H14 & H15 & H16 & H17 & H18).
  exists n1, n2, n3, c1, c2, c3.
  split; [eapply later_shape; eassumption|]. split; [eapply later_place; eassumption|]. split; [eapply later_bounded; [eassumption|exact H1|discriminate|discriminate|assumption]|].
  split; [auto|]. split; [auto|]. split; [auto|]. split; [eapply later_place; eassumption|]. split; [eapply later_place; eassumption|]. split; [eapply later_place; eassumption|].
  split; [auto|]. split; [auto|]. split; [auto|]. split; [eapply later_joins; eassumption|]. split; [eapply later_joins; eassumption|]. split; [eapply later_joins; eassumption|].
  split; [eapply later_unbounded; eassumption|]. split; eapply later_unbounded; eassumption.
Qed.
Lemma facets_later n0 s s' L L' l done : later n0 s s' -> (forall i, In i (nodesIds L) -> In i (nodesIds L')) -> (forall i, In i (cylIds L) -> In i (cylIds L')) -> Forall2 (fun f face => is_facet s L f face) l done -> Forall2 (fun f face => is_facet s' L' f face) l done.
Proof. intros T N C H. induction H; constructor; [eapply facet_later; eassumption|assumption]. Qed.

(** nodes known *)
Lemma known_spec (s : scene) l p : match known peq s l p with Some j => In j l /\ place s j = Some p | None => forall j, In j l -> place s j <> Some p end.
Proof.
  unfold known. assert (G : forall l r, (match r with Some j => place s j = Some p | None => True end) ->
    match fold_left (fun r j => match pos_at s j with Some q => if peq p q then Some j else r | None => r end) l r with
    | Some j => (In j l \/ r = Some j) /\ place s j = Some p
    | None => r = None /\ forall j, In j l -> place s j <> Some p end).
  { clear l. induction l as [|x l IH]; intros r R; cbn [fold_left].
    - destruct r; [split; [right; reflexivity|exact R]|]. split; [reflexivity|]. intros j [].
    - change (pos_at s x) with (place s x). destruct (place s x) as [q|] eqn:E.
      + destruct (peq p q) eqn:X.
        * apply D in X. subst q. specialize (IH (Some x) E). destruct (fold_left _ l (Some x)); [|destruct IH; discriminate]. destruct IH as ([A|A] & B); (split; [|exact B]); left; [right; exact A|left; congruence].
        * specialize (IH r R). destruct (fold_left _ l r); [destruct IH as ([A|A] & B); (split; [|exact B]); [left; right; exact A|right; exact A]|]. destruct IH as (A & B). split; [exact A|]. intros j [<- |J]; [|auto]. intros Q. rewrite E in Q. injection Q as ->. rewrite (proj2 (D p p) eq_refl) in X. discriminate.
      + specialize (IH r R). destruct (fold_left _ l r); [destruct IH as ([A|A] & B); (split; [|exact B]); [left; right; exact A|right; exact A]|]. destruct IH as (A & B). split; [exact A|]. intros j [<- |J]; [|auto]. rewrite E. discriminate. }
  specialize (G l None Logic.I). destruct (fold_left _ l None); [destruct G as ([A|A] & B); [split; assumption|discriminate]|apply G].
Qed.
(** one more node *)
Lemma add_node n0 s0 VP EP done L s p : inv n0 s0 VP EP done L s -> (forall j, In j (nodesIds L) -> place s j <> Some p) ->
  inv n0 s0 (fun q => VP q \/ q = p) EP done (mkLists (nodesIds L ++ [length (gb s)]) (cylIds L) (pfIds L)) (mkScene (gb s ++ [gridNode p]) (gi s)).
Proof.
  intros I K. destruct I as [N O NS ND PS VE GI CY ON CN PF]. set (s' := mkScene (gb s ++ [gridNode p]) (gi s)). assert (T : later n0 s s') by (apply later_app; exact N).
  assert (NEW : nth_error (gb s') (length (gb s)) = Some (gridNode p)) by apply nth_app_new.
  assert (OLD : forall i, In i (nodesIds L) -> i < length (gb s)) by (intros i Hi; eapply shape_length; apply NS; exact Hi).
  assert (PN : forall i q, In i (nodesIds L) -> place s' i = Some q -> place s i = Some q).
  { intros i q Hi H. destruct (NS i Hi) as (_ & S). destruct (shape_place s i _ S) as (q' & Q). pose proof (later_place _ _ _ _ _ T Q). congruence. }
  constructor; cbn [nodesIds cylIds pfIds].
  - cbn [s' gb]. rewrite app_length. lia.
  - exact (later_trans _ _ _ _ O T).
  - intros i Hi. apply in_app_iff in Hi as [Hi|[<- |[]]]; [split; [apply NS; exact Hi|eapply later_shape; [exact T|apply NS; exact Hi]]|]. split; [exact N|]. unfold shape_of. rewrite NEW. reflexivity.
  - apply nd_comm. cbn [app]. constructor; [|exact ND]. intros Hi. specialize (OLD _ Hi). lia.
  - intros i j q Hi Hj A B. apply in_app_iff in Hi as [Hi|[<- |[]]]; apply in_app_iff in Hj as [Hj|[<- |[]]]; [| | |reflexivity].
    + apply (PS i j q Hi Hj); eapply PN; eassumption.
    + exfalso. unfold place in B. rewrite NEW in B. injection B as <-. apply (K i Hi). apply PN; assumption.
    + exfalso. unfold place in A. rewrite NEW in A. injection A as <-. apply (K j Hj). apply PN; assumption.
  - intros q. split.
    + intros (i & Hi & A). apply in_app_iff in Hi as [Hi|[<- |[]]]; [left; apply VE; exists i; split; [exact Hi|apply PN; assumption]|]. right. unfold place in A. rewrite NEW in A. injection A as <-. reflexivity.
    + intros [H| ->]; [apply VE in H as (i & Hi & A); exists i; split; [apply in_app_iff; left; exact Hi|eapply later_place; eassumption]|]. exists (length (gb s)). split; [apply in_app_iff; right; left; reflexivity|]. unfold place. rewrite NEW. reflexivity.
  - intros a b c H. cbn [s' gi] in H. destruct (GI a b c H) as (A & B & C & S & x & y & X & Y & E). split; [apply in_app_iff; left; exact A|]. split; [apply in_app_iff; left; exact B|]. split; [exact C|]. split; [eapply later_shape; eassumption|]. exists x, y. split; [eapply later_place; eassumption|]. split; [eapply later_place; eassumption|exact E].
  - exact CY.
  - exact ON.
  - exact CN.
  - eapply facets_later; [exact T| | |exact PF]; cbn [nodesIds cylIds]; [intros i Hi; apply in_app_iff; left; exact Hi|auto].
Qed.
(** what find finds *)
Lemma find_spec (s : scene) a b : match find s a b with Some c => In (a, b, c) (gi s) \/ In (b, a, c) (gi s) | None => forall c, ~ In (a, b, c) (gi s) /\ ~ In (b, a, c) (gi s) end.
Proof.
  unfold find. destruct (List.find _ (gi s)) as [((i, j), c)|] eqn:E; cbn [option_map].
  - apply find_some in E as (E & H). cbn [snd]. apply orb_true_iff in H as [H|H]; apply andb_true_iff in H as (A & B); apply Nat.eqb_eq in A, B; subst; [left|right]; exact E.
  - intros c. split; intros H; pose proof (find_none _ _ E _ H) as X; cbn beta iota in X; rewrite !Nat.eqb_refl in X; cbn [andb orb] in X; [discriminate|]. rewrite orb_true_r in X. discriminate.
Qed.
(** connect two nodes if they are not yet *)
Lemma connect_inv n0 s0 VP EP done L s a b p q : inv n0 s0 VP EP done L s -> In a (nodesIds L) -> In b (nodesIds L) -> place s a = Some p -> place s b = Some q -> exists L' s', try_connect a b L s = (L', s') /\
  inv n0 s0 VP (fun x y => EP x y \/ (x = p /\ y = q)) done L' s' /\ later n0 s s' /\ nodesIds L' = nodesIds L /\ pfIds L' = pfIds L /\ (exists c, find s' a b = Some c) /\ (forall x y c, In (x, y, c) (gi s) -> In (x, y, c) (gi s')) /\ (find s a b = None -> begins s' a) /\ (forall x y c, In (x, y, c) (gi s') -> In (x, y, c) (gi s) \/ (x = a /\ y = b)).
Proof.
  intros I HA HB PA PB. destruct I as [N O NS ND PS VE GI CY ON CN PF]. pose proof (find_spec s a b) as F. unfold try_connect, connect. change (pos_at s a) with (place s a). rewrite PA. destruct (find s a b) as [c|] eqn:E.
  - exists L, s. split; [reflexivity|]. split; [|split; [apply later_refl|split; [reflexivity|split; [reflexivity|split; [exists c; exact E|split; [auto|split; [discriminate|auto]]]]]]].
    constructor; try assumption. intros x y d H. destruct (GI x y d H) as (A & B & C & S & u & v & U & V & W). split; [exact A|]. split; [exact B|]. split; [exact C|]. split; [exact S|]. exists u, v. auto.
  - set (s' := mkScene (gb s ++ [mkG (KConn a b) p true]) (gi s ++ [(a, b, length (gb s))])). set (L' := mkLists (nodesIds L) (cylIds L ++ [length (gb s)]) (pfIds L)). exists L', s'. split; [reflexivity|].
    assert (T : later n0 s s') by (apply later_app; exact N). assert (NEW : nth_error (gb s') (length (gb s)) = Some (mkG (KConn a b) p true)) by apply nth_app_new.
    assert (CL : forall x y c, In (x, y, c) (gi s) -> c < length (gb s)) by (intros x y c H; eapply shape_length; apply (GI x y c H)).
    assert (PN : forall i r, In i (nodesIds L) -> place s' i = Some r -> place s i = Some r).
    { intros i r Hi H. destruct (NS i Hi) as (_ & S). destruct (shape_place s i _ S) as (q' & Q). pose proof (later_place _ _ _ _ _ T Q). congruence. }
    split; [|split; [exact T|split; [reflexivity|split; [reflexivity|split; [|split; [|split]]]]]].
    + constructor; cbn [L' nodesIds cylIds pfIds].
      * cbn [s' gb]. rewrite app_length. lia.
      * exact (later_trans _ _ _ _ O T).
      * intros i Hi. split; [apply NS; exact Hi|eapply later_shape; [exact T|apply NS; exact Hi]].
      * exact ND.
      * intros i j r Hi Hj A B. apply (PS i j r Hi Hj); eapply PN; eassumption.
      * intros r. rewrite <- VE. split; intros (i & Hi & A); exists i; (split; [exact Hi|]); [apply PN; assumption|eapply later_place; eassumption].
      * intros x y c H. cbn [s' gi] in H. apply in_app_iff in H as [H|[H|[]]].
        -- destruct (GI x y c H) as (A & B & C & S & u & v & U & V & W). split; [exact A|]. split; [exact B|]. split; [exact C|]. split; [eapply later_shape; eassumption|]. exists u, v. split; [eapply later_place; eassumption|]. split; [eapply later_place; eassumption|left; exact W].
        -- injection H as <- <- <-. split; [exact HA|]. split; [exact HB|]. split; [exact N|]. split; [unfold shape_of; rewrite NEW; reflexivity|]. exists p, q. split; [eapply later_place; eassumption|]. split; [eapply later_place; eassumption|right; split; reflexivity].
      * cbn [s' gi]. rewrite CY, map_app. reflexivity.
      * intros x y c x' y' c' H H' Q. cbn [s' gi] in H, H'. apply in_app_iff in H as [H|[H|[]]]; apply in_app_iff in H' as [H'|[H'|[]]].
        -- exact (ON x y c x' y' c' H H' Q).
        -- injection H' as <- <- <-. exfalso. destruct (F c) as (F1 & F2). destruct Q as [(-> & ->)|(-> & ->)]; contradiction.
        -- injection H as <- <- <-. exfalso. destruct (F c') as (F1 & F2). destruct Q as [(<- & <-)|(<- & <-)]; contradiction.
        -- congruence.
      * apply nd_comm. cbn [app]. constructor; [|exact CN]. rewrite CY. intros H. apply in_map_iff in H as (((x, y), c) & E' & H). cbn [snd] in E'. subst c. specialize (CL x y _ H). lia.
      * eapply facets_later; [exact T| | |exact PF]; cbn [L' nodesIds cylIds]; [auto|intros i Hi; apply in_app_iff; left; exact Hi].
    + pose proof (find_spec s' a b) as F'. destruct (find s' a b) as [c|]; [exists c; reflexivity|]. exfalso. destruct (F' (length (gb s))) as (F1 & _). apply F1. cbn [s' gi]. apply in_app_iff. right. left. reflexivity.
    + intros x y c H. cbn [s' gi]. apply in_app_iff. left. exact H.
    + intros _. exists b, (length (gb s)). cbn [s' gi]. apply in_app_iff. right. left. reflexivity.
    + intros x y c H. cbn [s' gi] in H. apply in_app_iff in H as [H|[H|[]]]; [left; exact H|]. injection H as <- <- <-. right. split; reflexivity.
Qed.
(** make a facet of three connected nodes *)
Lemma facet_inv n0 s0 VP EP done L s a b c p q r : inv n0 s0 VP EP done L s -> In a (nodesIds L) -> In b (nodesIds L) -> In c (nodesIds L) -> place s a = Some p -> place s b = Some q -> place s c = Some r ->
  (exists x, find s a b = Some x) -> (exists x, find s b c = Some x) -> (exists x, find s a c = Some x) -> exists f s', facet a b c s = Ok f s' /\ inv n0 s0 VP EP (done ++ [(p, q, r)]) (mkLists (nodesIds L) (cylIds L) (pfIds L ++ [f])) s' /\ gi s' = gi s /\ later n0 s s'.
Proof.
  intros I HA HB HC PA PB PC (x & FX) (y & FY) (z & FZ). pose proof I as I0. destruct I as [N O NS ND PS VE GI CY ON CN PF]. unfold facet. change (pos_at s a) with (place s a). rewrite FX, FY, FZ, PA. cbv zeta. cbn [gb gi].
  assert (J : forall i j k, find s i j = Some k -> joins s k i j /\ n0 <= k /\ In k (cylIds L)).
  { intros i j k H. pose proof (find_spec s i j) as F. rewrite H in F. rewrite CY. destruct F as [F|F]; destruct (GI _ _ _ F) as (_ & _ & A & B & _); (split; [|split; [exact A|exact (in_map snd _ _ F)]]); [left|right]; exact B. }
  destruct (J _ _ _ FX) as (JX & NX & CX). destruct (J _ _ _ FY) as (JY & NY & CY'). destruct (J _ _ _ FZ) as (JZ & NZ & CZ).
  set (s1 := mkScene (unbind (gb s) [a; b; c] 0) (gi s)). assert (T1 : later n0 s s1).
  { apply later_unbind. assert (G : forall i, In i (nodesIds L) -> n0 <= i /\ exists k, shape_of s i = Some k /\ (k = KNode \/ exists x y, k = KConn x y)) by (intros i Hi; destruct (NS i Hi) as (A & B); split; [exact A|exists KNode; auto]). intros i [<- |[<- |[<- |[]]]]; apply G; assumption. }
  set (s2 := mkScene (unbind (gb s1) [x; y; z] 0) (gi s)). assert (T2 : later n0 s1 s2).
  { apply later_unbind. assert (K : forall k i j, joins s k i j -> exists kk, shape_of s1 k = Some kk /\ (kk = KNode \/ exists x y, kk = KConn x y)).
    { intros k i j [H|H]; eexists; (split; [eapply later_shape; [exact T1|exact H]|]); right; eauto. }
    intros i [<- |[<- |[<- |[]]]]; (split; [assumption|]); eapply K; eassumption. }
  set (f := length (unbind (gb s1) [x; y; z] 0)). set (s3 := mkScene (unbind (gb s1) [x; y; z] 0 ++ [mkG (KFacet a b c x y z) p true]) (gi s)). assert (T3 : later n0 s2 s3).
  { assert (n0 <= length (gb s2)) as M by (cbn [s2 gb]; rewrite unbind_length; cbn [s1 gb]; rewrite unbind_length; exact N). exact (later_app n0 s2 _ (gi s) M). }
  assert (T : later n0 s s3) by (eapply later_trans; [exact T1|eapply later_trans; [exact T2|exact T3]]).
  exists f, s3. split; [reflexivity|]. split; [|split; [reflexivity|exact T]].
  assert (NEW : nth_error (gb s3) f = Some (mkG (KFacet a b c x y z) p true)) by apply nth_app_new.
  assert (PN : forall i t, In i (nodesIds L) -> place s3 i = Some t -> place s i = Some t).
  { intros i t Hi H. destruct (NS i Hi) as (_ & S). destruct (shape_place s i _ S) as (q' & Q). pose proof (later_place _ _ _ _ _ T Q). congruence. }
  assert (UB : forall k, In k [x; y; z] -> joins s k a b \/ joins s k b c \/ joins s k a c -> bounded_at s3 k = Some false).
  { intros k Hk Jk. eapply later_unbounded; [exact T3|]. unfold bounded_at. cbn [s2 gb]. rewrite unbind_nth. assert (existsb (Nat.eqb (0 + k)) [x; y; z] = true) as -> by (apply existsb_exists; exists k; split; [exact Hk|apply Nat.eqb_refl]).
    assert (exists kk, shape_of s1 k = Some kk) as (kk & KK) by (destruct Jk as [[Q|Q]|[[Q|Q]|[Q|Q]]]; eexists; eapply later_shape; eassumption). unfold shape_of in KK. destruct (nth_error (gb s1) k); [reflexivity|discriminate]. }
  constructor; cbn [nodesIds cylIds pfIds].
  - cbn [s3 gb]. rewrite app_length, unbind_length. cbn [s1 gb]. rewrite unbind_length. lia.
  - exact (later_trans _ _ _ _ O T).
  - intros i Hi. split; [apply NS; exact Hi|eapply later_shape; [exact T|apply NS; exact Hi]].
  - exact ND.
  - intros i j t Hi Hj A B. apply (PS i j t Hi Hj); eapply PN; eassumption.
  - intros t. rewrite <- VE. split; intros (i & Hi & A); exists i; (split; [exact Hi|]); [apply PN; assumption|eapply later_place; eassumption].
  - intros u v k H. cbn [s3 gi] in H. destruct (GI u v k H) as (A & B & C & S & u' & v' & U & V & W). split; [exact A|]. split; [exact B|]. split; [exact C|]. split; [eapply later_shape; eassumption|]. exists u', v'. split; [eapply later_place; eassumption|]. split; [eapply later_place; eassumption|exact W].
  - exact CY.
  - exact ON.
  - exact CN.
  - apply Forall2_app.
    + eapply facets_later; [exact T| | |exact PF]; auto.
    + constructor; [|constructor]. exists a, b, c, x, y, z. cbn [nodesIds cylIds]. unfold shape_of at 1, place at 1, bounded_at at 1. rewrite NEW. cbn [option_map gk gpos gbounded].
      split; [reflexivity|]. split; [reflexivity|]. split; [reflexivity|]. split; [exact HA|]. split; [exact HB|]. split; [exact HC|]. split; [eapply later_place; eassumption|]. split; [eapply later_place; eassumption|]. split; [eapply later_place; eassumption|].
      split; [exact CX|]. split; [exact CY'|]. split; [exact CZ|]. split; [eapply later_joins; eassumption|]. split; [eapply later_joins; eassumption|]. split; [eapply later_joins; eassumption|].
      split; [apply UB; [left; reflexivity|left; exact JX]|]. split; [apply UB; [right; left; reflexivity|right; left; exact JY]|apply UB; [right; right; left; reflexivity|right; right; exact JZ]].
Qed.
End Mesh.
