(** The collider in a periodic scene: what holds after every run. *)
From Coq Require Import List ZArith Arith Bool Lia Permutation.
From Verif Require Import Coll_Model Coll_Spec Coll_Proofs2 Peri_Model Peri_Spec Peri_Sort Peri_Refine Peri_Proofs1.
Import ListNotations.
Local Open Scope Z_scope.

(** a list and the sequence it stands for *)
Record good (nb : nat) (d : Z) (bs : bodies) (v : vb) (A : seqz) (X : ident -> Z) (H : ident -> bool) : Prop := {
  g_rep : rep (Z.of_nat (2 * nb)) d v A X H;
  g_inj : injA (Z.of_nat (2 * nb)) A;
  g_sorted : sortedA d X A;
  g_occ : forall i b, (i < nb)%nat -> exists p, fst (A p) = (i, b);
  g_rng : forall p, (fst (fst (A p)) < nb)%nat;
  g_gap : forall i, (i < nb)%nat -> 0 <= X (i, false) - X (i, true) < d;
  g_box : forall i x, has_box bs i x -> X (i, true) < X (i, false) /\ H (i, true) = true /\ H (i, false) = true;
  g_has : forall i b, (i < nb)%nat -> H (i, b) = true -> exists x, has_box bs i x }.

(** i and the image k of j overlap in the order of the list *)
Definition ordov (A : seqz) (i j : nat) (k : Z) : Prop :=
  before A (i, true) 0 (j, false) k /\ before A (j, true) k (i, false) 0.

Record state_ok (s : psettings) (c : pcoll) (bs : bodies) (I : pints) (A : nat -> seqz) (X : nat -> ident -> Z) (H : nat -> ident -> bool) (sh : nat -> nat -> Z) : Prop := {
  k_pos : (0 < length bs)%nat;
  k_set : psettings_ok s;
  k_fit : all_fit (pcell s) bs;
  k_size : psize c = (2 * length bs)%nat;
  k_len : plen c = (2 * length bs)%nat;
  k_peri : pperiodic c = true;
  k_good : forall a, (a < 3)%nat -> good (length bs) (dim (pcell s) a) bs (pbb c a) (A a) (X a) (H a);
  k_shift : forall a i x, (a < 3)%nat -> has_box bs i x ->
     X a (i, true) = lo x a - dim (pcell s) a * sh a i /\ X a (i, false) = hi x a - dim (pcell s) a * sh a i;
  k_link : forall i j x y, i <> j -> has_box bs i x -> has_box bs j y -> pallowed s bs i j ->
     (forall a, (a < 3)%nat -> exists k, ordov (A a) i j k) -> plinked I i j }.

Lemma has_box_lt bs i x : has_box bs i x -> (i < length bs)%nat.
Proof.
  intros (b & H & _). unfold body_at in H. destruct (nth_error bs i) as [o|] eqn:E; [|discriminate]. apply nth_error_Some. congruence.
Qed.
Lemma dims s a : psettings_ok s -> (a < 3)%nat -> 0 < dim (pcell s) a.
Proof. intros (_ & [_ H] & _) Ha. apply H. exact Ha. Qed.

Lemma good_pos nb d bs v A X H i b m : good nb d bs v A X H -> (0 < nb)%nat -> (i < nb)%nat -> exists p, A p = ((i, b), m).
Proof.
  intros G Hnb Hi. destruct (g_occ _ _ _ _ _ _ _ G i b Hi) as [p Hp].
  pose proof (rep_periodic (Z.of_nat (2 * nb)) d ltac:(lia) v A X H (g_rep _ _ _ _ _ _ _ G)) as HP.
  exists (p + (m - snd (A p)) * Z.of_nat (2 * nb)). rewrite HP, Hp. f_equal. lia.
Qed.
Lemma sorted_before d X A p q : sortedA d X A -> cov d X A p < cov d X A q -> p < q.
Proof. intros S H. destruct (Z.lt_ge_cases p q) as [|G]; [assumption|]. pose proof (sortedA_le d X A S q p G). lia. Qed.
Lemma good_before nb d bs v A X H i b m j b' k : good nb d bs v A X H -> (0 < nb)%nat -> (i < nb)%nat -> (j < nb)%nat ->
  X (i, b) + d * m < X (j, b') + d * k -> before A (i, b) m (j, b') k.
Proof.
  intros G Hnb Hi Hj L. destruct (good_pos nb d bs v A X H i b m G Hnb Hi) as [p Ep]. destruct (good_pos nb d bs v A X H j b' k G Hnb Hj) as [q Eq].
  exists p, q. split; [|auto]. apply (sorted_before d X A); [apply (g_sorted _ _ _ _ _ _ _ G)|]. unfold cov. rewrite Ep, Eq. exact L.
Qed.
Lemma before_le nb d bs v A X H e m f k : good nb d bs v A X H -> before A e m f k -> X e + d * m <= X f + d * k.
Proof.
  intros G (p & q & L & Ep & Eq). pose proof (sortedA_le d X A (g_sorted _ _ _ _ _ _ _ G) p q ltac:(lia)) as K. unfold cov in K. rewrite Ep, Eq in K. exact K.
Qed.

(** order-overlap on all axes means that the boxes meet in some image *)
Lemma ordov_meets c nb bs bb A X H sh i j x y :
  (forall a, (a < 3)%nat -> good nb (dim c a) bs (bb a) (A a) (X a) (H a)) ->
  (forall a i x, (a < 3)%nat -> has_box bs i x -> X a (i, true) = lo x a - dim c a * sh a i /\ X a (i, false) = hi x a - dim c a * sh a i) ->
  has_box bs i x -> has_box bs j y ->
  (forall a, (a < 3)%nat -> exists k, ordov (A a) i j k) -> exists k, box_meets c x y k.
Proof.
  intros HG HS Hx Hy O.
  assert (M : forall a, (a < 3)%nat -> exists k, meets (dim c a) 0 (lo x a) (hi x a) (lo y a) (hi y a) k).
  { intros a Ha. destruct (O a Ha) as (k & B1 & B2). pose proof (HG a Ha) as G.
    pose proof (before_le _ _ _ _ _ _ _ _ _ _ _ G B1) as L1. pose proof (before_le _ _ _ _ _ _ _ _ _ _ _ G B2) as L2.
    destruct (HS a i x Ha Hx) as [E1 E2]. destruct (HS a j y Ha Hy) as [E3 E4].
    exists (k + sh a i - sh a j). unfold meets. lia. }
  destruct (M 0%nat ltac:(lia)) as [k0 M0]. destruct (M 1%nat ltac:(lia)) as [k1 M1]. destruct (M 2%nat ltac:(lia)) as [k2 M2].
  exists (k0, k1, k2). intros [|[|[|a]]] Ha; cbn [image_of]; [exact M0|exact M1|exact M2|lia].
Qed.

Lemma state_complete s c bs I A X H sh : state_ok s c bs I A X H sh -> pcomplete s bs I.
Proof.
  intros K i j x y k Nij Hx Hy M Al. apply (k_link _ _ _ _ _ _ _ _ K i j x y Nij Hx Hy Al).
  intros a Ha. specialize (M a Ha). destruct M as [M1 M2].
  destruct (k_shift _ _ _ _ _ _ _ _ K a i x Ha Hx) as [E1 E2]. destruct (k_shift _ _ _ _ _ _ _ _ K a j y Ha Hy) as [E3 E4].
  pose proof (k_good _ _ _ _ _ _ _ _ K a Ha) as G. pose proof (has_box_lt _ _ _ Hx). pose proof (has_box_lt _ _ _ Hy). pose proof (k_pos _ _ _ _ _ _ _ _ K).
  exists (image_of k a - sh a i + sh a j). split; eapply good_before; try eassumption; lia.
Qed.

(** ** refreshing the list in a regular run *)
Definition newX (bs : bodies) (a : nat) (X : ident -> Z) (e : ident) : Z :=
  match body_at bs (fst e) with
  | Some b => match bbox b with Some x => if snd e then lo x a else hi x a | None => pos b a end
  | None => X e
  end.
Definition newH (bs : bodies) (e : ident) : bool :=
  match body_at bs (fst e) with Some b => match bbox b with Some _ => true | None => false end | None => false end.

Lemma refresh_rep n d d' bs a v A X H : 1 < n ->
  rep n d v A X H -> (d' = d \/ forall p, body_at bs (fst (fst (A p))) <> None) ->
  rep n d' (mkVb (fun k => prefresh false d' bs a (vec v k)) (loIdx v)) A (newX bs a X) (newH bs).
Proof.
  intros Hn (L & EL & E & EX & EH) D. exists L. cbn [vec loIdx]. split; [exact EL|].
  assert (W : forall e, who (prefresh false d' bs a e) = who e /\ per (prefresh false d' bs a e) = per e).
  { intros e. unfold prefresh, who. destruct (body_at bs (pid e)) as [b|]; [|split; reflexivity]. destruct (bbox b); split; reflexivity. }
  repeat split; intros i.
  - rewrite E. destruct (W (vec v (i mod n))) as [-> ->]. reflexivity.
  - destruct (W (vec v (i mod n))) as [-> ->]. unfold newX, prefresh, who. cbn [fst snd].
    destruct (body_at bs (pid (vec v (i mod n)))) as [b|] eqn:B.
    + destruct (bbox b); cbn [pco]; lia.
    + cbn [pco]. specialize (EX i). unfold who in EX. destruct D as [->|D]; [exact EX|].
      exfalso. apply (D i). rewrite E. exact B.
  - destruct (W (vec v (i mod n))) as [-> _]. unfold newH, prefresh, who. cbn [fst].
    destruct (body_at bs (pid (vec v (i mod n)))) as [b|]; [|reflexivity]. destruct (bbox b); reflexivity.
Qed.

Lemma twins_guard nb d d' bs bs' v A X H a : good nb d bs v A X H -> (0 < nb)%nat -> 0 < d -> 0 < d' ->
  (d' = d \/ forall i, (i < nb)%nat -> body_at bs' i <> None) ->
  (forall i y, has_box bs' i y -> exists x, has_box bs i x) ->
  (forall i x, has_box bs' i x -> lo x a < hi x a < lo x a + d') ->
  (forall i, (i < nb)%nat -> 0 <= newX bs' a X (i, false) - newX bs' a X (i, true) < d') /\ guarded d' (newX bs' a X) A.
Proof.
  intros G Hnb Hd Hd' D HB HF.
  assert (Gap : forall i, (i < nb)%nat -> 0 <= newX bs' a X (i, false) - newX bs' a X (i, true) < d').
  { intros i Hi. unfold newX. cbn [fst snd]. destruct (body_at bs' i) as [b|] eqn:B.
    - destruct (bbox b) as [x|] eqn:Bx; [|lia]. specialize (HF i x (ex_intro _ b (conj B Bx))). lia.
    - destruct D as [->|D]; [apply (g_gap _ _ _ _ _ _ _ G); exact Hi|exfalso; exact (D i Hi B)]. }
  split; [exact Gap|].
  assert (Main : forall i p q, (i < nb)%nat -> p < q ->
     (fst (A p) = (i, true) /\ fst (A q) = (i, false)) \/ (fst (A p) = (i, false) /\ fst (A q) = (i, true)) ->
     cov d' (newX bs' a X) A p <= cov d' (newX bs' a X) A q).
  { intros i p q Hi L K. pose proof (sortedA_le d X A (g_sorted _ _ _ _ _ _ _ G) p q ltac:(lia)) as C.
    pose proof (g_gap _ _ _ _ _ _ _ G i Hi) as G0. pose proof (Gap i Hi) as G1. unfold cov in *.
    destruct K as [[Ep Eq] | [Ep Eq]]; rewrite Ep, Eq in *; set (m := snd (A p)) in *; set (k := snd (A q)) in *.
    - assert (m <= k) by nia. nia.
    - assert (m <= k) by nia. destruct (Z.eq_dec k m) as [->|N]; [|nia].
      unfold newX in *. cbn [fst snd] in *. destruct (body_at bs' i) as [b|] eqn:B; [|lia].
      destruct (bbox b) as [x|] eqn:Bx; [|lia]. exfalso. destruct (HB i x (ex_intro _ b (conj B Bx))) as [y Hy].
      pose proof (g_box _ _ _ _ _ _ _ G i y Hy). lia. }
  intros r. destruct (A r) as [[i b] m] eqn:Er. assert (Hi : (i < nb)%nat) by (pose proof (g_rng _ _ _ _ _ _ _ G r) as K; rewrite Er in K; exact K).
  destruct (g_occ _ _ _ _ _ _ _ G i (negb b) Hi) as [r' E']. exists r'. rewrite E'. cbn [fst]. split; [intros K; injection K as K; destruct b; discriminate|].
  intros p q L K. apply (Main i p q Hi L). destruct b; cbn [negb] in K; tauto.
Qed.

(** ** the sort of one axis in a regular run *)
Lemma axis_regular nb d d' bs bs' a v A X H f w ev : good nb d bs v A X H -> (0 < nb)%nat -> 0 < d -> 0 < d' ->
  (d' = d \/ forall i, (i < nb)%nat -> body_at bs' i <> None) -> length bs' = nb ->
  (forall i y, has_box bs' i y -> exists x, has_box bs i x) ->
  (forall i x, has_box bs' i x -> lo x a < hi x a < lo x a + d') ->
  insertionSortPeri f (Z.of_nat (2 * nb)) d' (mkVb (fun k => prefresh false d' bs' a (vec v k)) (loIdx v)) = Ok (w, ev) ->
  exists A', good nb d' bs' w A' (newX bs' a X) (newH bs') /\
    forall e m g k, before A' e m g k -> before A e m g k \/
       (exists x y, In (x, y) ev /\ who x = e /\ who y = g /\ phas x = newH bs' e /\ phas y = newH bs' g).
Proof.
  intros G Hnb Hd Hd' D HL HB HF E. assert (Hn : 1 < Z.of_nat (2 * nb)) by lia.
  assert (R : rep (Z.of_nat (2 * nb)) d' (mkVb (fun k => prefresh false d' bs' a (vec v k)) (loIdx v)) A (newX bs' a X) (newH bs')).
  { eapply refresh_rep; [exact Hn|apply (g_rep _ _ _ _ _ _ _ G)|]. destruct D as [D|D]; [left; exact D|right].
    intros p. apply D. apply (g_rng _ _ _ _ _ _ _ G). }
  destruct (twins_guard nb d d' bs bs' v A X H a G Hnb Hd Hd' D HB HF) as [Gap Gd].
  destruct (sortPeri_ok _ d' Hn Hd' f _ A (newX bs' a X) (newH bs') w ev R E Gd) as (A' & R' & SW & SO).
  exists A'. split; [|intros e m g k B; exact (swaps_before _ _ Hn _ _ _ _ _ SW (rep_periodic _ _ Hn _ _ _ _ R) e m g k B)].
  constructor.
  - exact R'.
  - exact (swaps_inj _ _ Hn _ _ _ _ _ SW (g_inj _ _ _ _ _ _ _ G)).
  - exact SO.
  - intros i b Hi. destruct (g_occ _ _ _ _ _ _ _ G i b Hi) as [p Ep]. destruct (swaps_occ _ _ Hn _ _ _ _ _ SW p) as [q Eq]. exists q. rewrite Eq. exact Ep.
  - intros p. destruct (swaps_occ_back _ _ _ _ _ _ _ SW p) as [q Eq]. rewrite Eq. apply (g_rng _ _ _ _ _ _ _ G).
  - exact Gap.
  - intros i x Hx. specialize (HF i x Hx). destruct Hx as (b & B & Bx). unfold newX, newH. cbn [fst snd]. rewrite B, Bx. repeat split; lia.
  - intros i b Hi. unfold newH. cbn [fst]. destruct (body_at bs' i) as [y|] eqn:B; [|discriminate]. destruct (bbox y) as [x|] eqn:Bx; [|discriminate].
    intros _. exists x, y. auto.
Qed.

(** ** the traversal of one axis *)
Lemma walk_in nb d bs w A X H fuel L i j x y k p1 p2 p3 p4 : good nb d bs w A X H -> (0 < nb)%nat -> i <> j ->
  has_box bs i x -> has_box bs j y ->
  ptraverse fuel (Z.of_nat (2 * nb)) (vec w) (2 * nb) 0 = Ok L ->
  A p1 = ((i, true), 0) -> A p4 = ((i, false), 0) -> A p3 = ((j, true), k) -> A p2 = ((j, false), k) ->
  p1 < p3 -> p3 < p4 -> p4 < p1 + Z.of_nat (2 * nb) -> In (i, j) L.
Proof.
  intros G Hnb Nij Hx Hy E E1 E4 E3 E2 L1 L2 L3. set (n := Z.of_nat (2 * nb)) in *. assert (Hn : 1 < n) by (unfold n; lia).
  destruct (g_rep _ _ _ _ _ _ _ G) as (Lo & EL & R1 & R2 & R3). fold n in R1, R2, R3, EL.
  assert (W : forall q, pid (vec w (q mod n)) = fst (fst (A q)) /\ pmin (vec w (q mod n)) = snd (fst (A q)) /\ phas (vec w (q mod n)) = H (fst (A q))).
  { intros q. rewrite <- R3, R1. cbn [fst]. unfold who. cbn [fst snd]. auto. }
  destruct (W p1) as (W1 & W2 & W3). rewrite E1 in W1, W2, W3. cbn [fst snd] in W1, W2, W3.
  destruct (W p3) as (V1 & V2 & V3). rewrite E3 in V1, V2, V3. cbn [fst snd] in V1, V2, V3.
  destruct (g_box _ _ _ _ _ _ _ G i x Hx) as (_ & Hi & _). destruct (g_box _ _ _ _ _ _ _ G j y Hy) as (_ & Hj & _).
  rewrite Hi in W3. rewrite Hj in V3. pose proof (Z.mod_pos_bound p1 n ltac:(lia)) as MB.
  destruct (traverse_in _ _ _ _ _ _ E (p1 mod n) ltac:(unfold n in *; lia) W2 W3) as (l & El & Il).
  apply Il. rewrite Zplus_mod_idemp_l, W1 in El.
  rewrite <- V1. apply (mins_in fuel n (vec w) i Hn (p1 + 1) p3 l El ltac:(lia)); [|exact V2|exact V3].
  intros q Hq K. destruct (W q) as (Q & _ & _). rewrite K in Q. destruct (A q) as [[i' b] m] eqn:Eq. cbn [fst] in Q. subst i'.
  pose proof (g_inj _ _ _ _ _ _ _ G) as J. fold n in J. destruct b.
  - specialize (J p1 q). rewrite E1, Eq in J. cbn [fst snd] in J. specialize (J eq_refl). assert (0 < (m - 0) * n < n) by lia. destruct (Z.le_gt_cases m 0); nia.
  - specialize (J p4 q). rewrite E4, Eq in J. cbn [fst snd] in J. specialize (J eq_refl). assert (- n < (m - 0) * n < 0) by lia. destruct (Z.lt_ge_cases m 0); nia.
Qed.

Lemma shift_seq nb d bs w A X H p c : good nb d bs w A X H -> (0 < nb)%nat -> A (p + c * Z.of_nat (2 * nb)) = (fst (A p), snd (A p) + c).
Proof. intros G Hnb. exact (rep_periodic (Z.of_nat (2 * nb)) d ltac:(lia) _ _ _ _ (g_rep _ _ _ _ _ _ _ G) p c). Qed.

Lemma traverse_finds nb d bs w A X H fuel L i j x y k : good nb d bs w A X H -> (0 < nb)%nat -> 0 < d -> i <> j ->
  has_box bs i x -> has_box bs j y -> (i < nb)%nat -> (j < nb)%nat ->
  ptraverse fuel (Z.of_nat (2 * nb)) (vec w) (2 * nb) 0 = Ok L -> ordov A i j k -> In (i, j) L \/ In (j, i) L.
Proof.
  intros G Hnb Hd Nij Hx Hy Hi Hj E [(p1 & p2 & L12 & E1 & E2) (p3 & p4 & L34 & E3 & E4)].
  set (n := Z.of_nat (2 * nb)) in *.
  pose proof (g_sorted _ _ _ _ _ _ _ G) as SO.
  destruct (g_box _ _ _ _ _ _ _ G i x Hx) as (Bi & _ & _). destruct (g_box _ _ _ _ _ _ _ G j y Hy) as (Bj & _ & _).
  pose proof (g_gap _ _ _ _ _ _ _ G i Hi) as Gi. pose proof (g_gap _ _ _ _ _ _ _ G j Hj) as Gj.
  assert (L14 : p1 < p4). { apply (sorted_before d X A _ _ SO). unfold cov. rewrite E1, E4. cbn [fst snd]. lia. }
  assert (L32 : p3 < p2). { apply (sorted_before d X A _ _ SO). unfold cov. rewrite E3, E2. cbn [fst snd]. lia. }
  assert (L41 : p4 < p1 + n). { apply (sorted_before d X A _ _ SO). replace (p1 + n) with (p1 + 1 * n) by lia. unfold cov, n. rewrite (shift_seq _ _ _ _ _ _ _ p1 1 G Hnb), E1, E4. cbn [fst snd]. lia. }
  assert (L23 : p2 < p3 + n). { apply (sorted_before d X A _ _ SO). replace (p3 + n) with (p3 + 1 * n) by lia. unfold cov, n. rewrite (shift_seq _ _ _ _ _ _ _ p3 1 G Hnb), E3, E2. cbn [fst snd]. lia. }
  destruct (Z.lt_trichotomy p1 p3) as [O|[O|O]].
  - left. apply (walk_in nb d bs w A X H fuel L i j x y k p1 p2 p3 p4); assumption.
  - exfalso. subst p3. rewrite E1 in E3. injection E3 as E3 _. congruence.
  - right.
    apply (walk_in nb d bs w A X H fuel L j i y x (- k) (p3 + (- k) * n) (p4 + (- k) * n) (p1 + (- k) * n) (p2 + (- k) * n)); try assumption; try lia; try congruence;
      unfold n; rewrite (shift_seq _ _ _ _ _ _ _ _ _ G Hnb), ?E1, ?E2, ?E3, ?E4; cbn [fst snd]; f_equal; lia.
Qed.

(** ** a regular run *)
Lemma event_in ev i j h h' : (exists x y, In (x, y) ev /\ who x = (i, true) /\ who y = (j, false) /\ phas x = h /\ phas y = h') ->
  h = true -> h' = true -> i <> j -> In (i, j) (event_pairs ev).
Proof.
  intros (x & y & Hin & Wx & Wy & Px & Py) -> -> N. unfold who in *. injection Wx as X1 X2. injection Wy as Y1 Y2.
  unfold event_pairs. apply in_map_iff. exists (x, y). cbn [fst snd]. rewrite X1, Y1. split; [reflexivity|]. apply filter_In. split; [exact Hin|].
  unfold prelevant. rewrite X2, Y2, Px, Py, X1, Y1, (proj2 (Nat.eqb_neq i j) N). reflexivity.
Qed.
Lemma newH_box bs i x b : has_box bs i x -> newH bs (i, b) = true.
Proof. intros (y & B & Bx). unfold newH. cbn [fst]. rewrite B, Bx. reflexivity. Qed.

Lemma regular_ok s c bs I A X H sh f s' bs' I' c'' I'' :
  state_ok s c bs I A X H sh -> psettings_ok s' -> all_fit (pcell s') bs' -> pdoSort s' = false -> pdirty s' = false ->
  ptame s bs I s' bs' I' -> paction f s' c bs' I' = Ok (c'', I'') ->
  exists A', state_ok s' c'' bs' I'' A' (fun a => newX bs' a (X a)) (fun _ => newH bs') (fun _ _ => 0).
Proof.
  intros K Hs Hf D1 D2 (TL & TD & TB & TP) E.
  pose proof (k_pos _ _ _ _ _ _ _ _ K) as Hnb. set (nb := length bs) in *.
  unfold paction in E. rewrite TL in E. fold nb in E.
  unfold detect_periodicity in E. rewrite (k_peri _ _ _ _ _ _ _ _ K) in E.
  unfold pinit_run, padjust in E. rewrite (k_size _ _ _ _ _ _ _ _ K), D1, D2 in E. fold nb in E. rewrite Nat.eqb_refl in E.
  cbn [orb andb negb plen pbb pmm psize] in E.
  destruct (_ || _); [discriminate|].
  apply bind_ok in E. destruct E as (I0 & E0 & E).
  apply bind_ok in E. destruct E as ([v0 ev0] & S0 & E). apply bind_ok in E. destruct E as ([v1 ev1] & S1 & E). apply bind_ok in E. destruct E as ([v2 ev2] & S2 & E).
  apply bind_ok in E. destruct E as (l & El & E). apply bind_ok in E. destruct E as (I1 & E1 & E). injection E as <- <-.
  set (ev := by_axis ev0 ev1 ev2). set (w := by_axis v0 v1 v2) in *.
  assert (HF : forall a i x, (a < 3)%nat -> has_box bs' i x -> lo x a < hi x a < lo x a + dim (pcell s') a).
  { intros a i x Ha Hx. pose proof (Hf i x Hx a Ha). lia. }
  assert (AX : forall a, (a < 3)%nat -> exists A', good nb (dim (pcell s') a) bs' (w a) A' (newX bs' a (X a)) (newH bs') /\
    forall e m g k, before A' e m g k -> before (A a) e m g k \/
       (exists x y, In (x, y) (ev a) /\ who x = e /\ who y = g /\ phas x = newH bs' e /\ phas y = newH bs' g)).
  { intros a Ha.
    apply (axis_regular nb (dim (pcell s) a) (dim (pcell s') a) bs bs' a (pbb c a) (A a) (X a) (H a) f (w a) (ev a)).
    - exact (k_good _ _ _ _ _ _ _ _ K a Ha).
    - exact Hnb.
    - apply dims; [apply (k_set _ _ _ _ _ _ _ _ K)|exact Ha].
    - apply dims; assumption.
    - destruct TD as [TD|TD]; [right; exact TD|left; apply TD; exact Ha].
    - exact TL.
    - exact TB.
    - intros i x Hx. exact (HF a i x Ha Hx).
    - destruct a as [|[|[|a]]]; [exact S0|exact S1|exact S2|lia]. }
  destruct (AX 0%nat ltac:(lia)) as (A0 & G0 & B0). destruct (AX 1%nat ltac:(lia)) as (A1 & G1 & B1). destruct (AX 2%nat ltac:(lia)) as (A2 & G2 & B2).
  clear AX. exists (by_axis A0 A1 A2).
  assert (GG : forall a, (a < 3)%nat -> good nb (dim (pcell s') a) bs' (w a) (by_axis A0 A1 A2 a) (newX bs' a (X a)) (newH bs')).
  { intros [|[|[|a]]] Ha; [exact G0|exact G1|exact G2|lia]. }
  assert (BB : forall a, (a < 3)%nat -> forall e m g k, before (by_axis A0 A1 A2 a) e m g k -> before (A a) e m g k \/
       (exists x y, In (x, y) (ev a) /\ who x = e /\ who y = g /\ phas x = newH bs' e /\ phas y = newH bs' g)).
  { intros [|[|[|a]]] Ha; [exact B0|exact B1|exact B2|lia]. }
  assert (SH : forall a i x, (a < 3)%nat -> has_box bs' i x -> newX bs' a (X a) (i, true) = lo x a - dim (pcell s') a * 0 /\ newX bs' a (X a) (i, false) = hi x a - dim (pcell s') a * 0).
  { intros a i x Ha (b & Bb & Bx). unfold newX. cbn [fst snd]. rewrite Bb, Bx. lia. }
  clear G0 G1 G2 B0 B1 B2.
  constructor; try assumption.
  - rewrite TL. exact Hnb.
  - cbn [psize]. rewrite TL. reflexivity.
  - cbn [plen]. rewrite TL. apply (k_len _ _ _ _ _ _ _ _ K).
  - reflexivity.
  - cbn [pbb]. rewrite TL. exact GG.
  - intros i j x y Nij Hx Hy Al O.
    destruct (ordov_meets (pcell s') nb bs' w (by_axis A0 A1 A2) (fun a => newX bs' a (X a)) (fun _ => newH bs') (fun _ _ => 0) i j x y GG SH Hx Hy O) as [kk M].
    assert (KN : known bs' (refresh_boxes bs' (resize (pmm c) nb))) by (apply known_refresh; symmetry; exact TL).
    destruct Hs as (HA & Hc & HS).
    assert (Case : (In (i, j) l \/ In (j, i) l) \/ forall a, (a < 3)%nat -> exists k, ordov (A a) i j k).
    { destruct (psortThenCollide s').
      - left. destruct (O (psortAxis s') HA) as [k Ok]. pose proof (has_box_lt _ _ _ Hx). pose proof (has_box_lt _ _ _ Hy). rewrite TL in *.
        eapply (traverse_finds nb (dim (pcell s') (psortAxis s'))); try eassumption; [apply GG; exact HA|apply Hc; exact HA].
      - injection El as <-.
        assert (Inev : forall a p, (a < 3)%nat -> In p (event_pairs (ev a)) -> In p (event_pairs ev0 ++ event_pairs ev1 ++ event_pairs ev2)).
        { intros a p Ha Hp. rewrite !in_app_iff. destruct a as [|[|[|a]]]; cbn in Hp; [tauto|tauto|tauto|lia]. }
        assert (One : forall a, (a < 3)%nat -> (In (i, j) (event_pairs (ev a)) \/ In (j, i) (event_pairs (ev a))) \/ exists k, ordov (A a) i j k).
        { intros a Ha. destruct (O a Ha) as (k & O1 & O2).
          destruct (BB a Ha _ _ _ _ O1) as [P1|P1]; [|left; left; eapply event_in; [exact P1| | |exact Nij]; eapply newH_box; eassumption].
          destruct (BB a Ha _ _ _ _ O2) as [P2|P2]; [|left; right; eapply event_in; [exact P2| | |congruence]; eapply newH_box; eassumption].
          right. exists k. split; assumption. }
        destruct (One 0%nat ltac:(lia)) as [[Z0|Z0]|Z0]; [left; left; eapply (Inev 0%nat); [lia|exact Z0]|left; right; eapply (Inev 0%nat); [lia|exact Z0]|].
        destruct (One 1%nat ltac:(lia)) as [[Z1|Z1]|Z1]; [left; left; eapply (Inev 1%nat); [lia|exact Z1]|left; right; eapply (Inev 1%nat); [lia|exact Z1]|].
        destruct (One 2%nat ltac:(lia)) as [[Z2|Z2]|Z2]; [left; left; eapply (Inev 2%nat); [lia|exact Z2]|left; right; eapply (Inev 2%nat); [lia|exact Z2]|].
        right. intros [|[|[|a]]] Ha; [exact Z0|exact Z1|exact Z2|lia]. }
    destruct Case as [Hin|Old].
    + exact (handle_all_links s' bs' _ l I0 i j I1 x y kk Hc Hf KN Hx Hy M Al Hin E1).
    + destruct (TB i x Hx) as [x0 Hx0]. destruct (TB j y Hy) as [y0 Hy0]. destruct (TP i j x y Nij Hx Hy Al) as [Al0 Lk].
      pose proof (k_link _ _ _ _ _ _ _ _ K i j x0 y0 Nij Hx0 Hy0 Al0 Old) as PL.
      apply (plinked_incl I0); [exact (handle_all_incl _ _ _ _ _ _ _ _ E1)|].
      exact (purge_links (pcell s') bs' _ I' I0 i j x y kk Hc Hf KN Hx Hy M E0 (Lk PL)).
Qed.
