(** Proofs about data kept for plots: dictionaries and addData. *)
From Coq Require Import String Ascii Arith Bool List Lia.
From Verif Require Import Plot_Model Plot_Spec.
Import ListNotations.
Local Open Scope string_scope.
Local Open Scope nat_scope.
Local Open Scope list_scope.

(** ** dictionaries *)
Section D.
Context {V : Type}.
Implicit Types (d : dict V) (k : string) (v : V).
Lemma lookup_in d k v : lookup d k = Some v -> In (k, v) d.
Proof. induction d as [|[k' v'] d IH]; cbn [lookup]; [discriminate|]. destruct (String.eqb_spec k k') as [->|]; [intros [= ->]; now left|intros H; right; auto]. Qed.
Lemma in_keys d k v : In (k, v) d -> In k (keys d).
Proof. intros H. exact (in_map fst d _ H). Qed.
Lemma lookup_none d k : lookup d k = None <-> ~ In k (keys d).
Proof.
  induction d as [|[k' v'] d IH]; cbn [lookup keys map fst]; [split; [intros _ []|reflexivity]|]. destruct (String.eqb_spec k k') as [->|N].
  - split; [discriminate|intros H; exfalso; apply H; now left].
  - rewrite IH. split; [intros H [E|E]; [congruence|auto]|intros H E; apply H; now right].
Qed.
Lemma keys_lookup d k : In k (keys d) -> exists v, lookup d k = Some v.
Proof. intros H. destruct (lookup d k) eqn:E; [eauto|]. now apply lookup_none in E. Qed.
Lemma in_lookup d k v : NoDup (keys d) -> In (k, v) d -> lookup d k = Some v.
Proof.
  induction d as [|[k' v'] d IH]; cbn [lookup keys map fst]; [intros _ []|]. intros N [E|E].
  - injection E as -> ->. now rewrite String.eqb_refl.
  - inversion N as [|? ? N1 N2]; subst. destruct (String.eqb_spec k k') as [->|]; [exfalso; apply N1; exact (in_keys _ _ _ E)|]. auto.
Qed.
Lemma lookup_set d k v k' : lookup (set d k v) k' = if String.eqb k' k then Some v else lookup d k'.
Proof.
  induction d as [|[q w] d IH]; cbn [set lookup]; [reflexivity|]. destruct (String.eqb_spec k q) as [->|N]; cbn [lookup].
  - destruct (String.eqb k' q) eqn:E; reflexivity.
  - rewrite IH. destruct (String.eqb_spec k' q) as [->|]; [|reflexivity]. destruct (String.eqb_spec q k); [congruence|reflexivity].
Qed.
Lemma keys_set d k v x : In x (keys (set d k v)) <-> x = k \/ In x (keys d).
Proof.
  assert (K : forall (e : dict V), In x (keys e) <-> lookup e x <> None).
  { intros e. pose proof (lookup_none e x) as H. destruct (lookup e x) eqn:E; [split; [discriminate|intros _; apply lookup_in in E; exact (in_keys _ _ _ E)]|]. split; [intros I; exfalso; now apply H|intros F; exfalso; now apply F]. }
  rewrite !K, lookup_set. destruct (String.eqb_spec x k) as [E|N]; [split; [now left|discriminate]|]. split; [now right|intros [E|H]; [congruence|exact H]].
Qed.
Lemma nodup_set d k v : NoDup (keys d) -> NoDup (keys (set d k v)).
Proof.
  induction d as [|[q w] d IH]; cbn [set keys map fst]; intros N; [constructor; [intros []|constructor]|]. inversion N as [|? ? N1 N2]; subst. destruct (String.eqb_spec k q) as [->|Nq]; cbn [map fst]; [constructor; assumption|].
  constructor; [|exact (IH N2)]. intros H. apply (keys_set d k v q) in H. destruct H as [->|H]; [congruence|auto].
Qed.
Lemma keys_del d k x : In x (keys (del d k)) -> In x (keys d).
Proof. induction d as [|[q w] d IH]; cbn [del keys map fst]; [intros []|]. destruct (String.eqb k q); [now right|]. cbn [map fst]. intros [->|H]; [now left|right; auto]. Qed.
Lemma nodup_del d k : NoDup (keys d) -> NoDup (keys (del d k)).
Proof.
  induction d as [|[q w] d IH]; cbn [del keys map fst]; intros N; [constructor|]. inversion N as [|? ? N1 N2]; subst. destruct (String.eqb k q); [assumption|]. cbn [map fst]. constructor; [|exact (IH N2)]. intros H. apply N1. exact (keys_del _ _ _ H).
Qed.
Lemma lookup_del d k x : NoDup (keys d) -> lookup (del d k) x = if String.eqb x k then None else lookup d x.
Proof.
  induction d as [|[q w] d IH]; cbn [del keys map fst lookup]; intros N; [now destruct (String.eqb x k)|]. inversion N as [|? ? N1 N2]; subst. destruct (String.eqb_spec k q) as [->|Nq].
  - destruct (String.eqb_spec x q) as [Ex|]; [subst x; now apply lookup_none|reflexivity].
  - cbn [lookup]. rewrite (IH N2). destruct (String.eqb_spec x q) as [Ex|]; [|reflexivity]. subst x. destruct (String.eqb_spec q k); [congruence|reflexivity].
Qed.
Lemma lookup_first k0 d x : NoDup (keys d) -> lookup (first k0 d) x = lookup d x.
Proof.
  intros N. unfold first. destruct (lookup d k0) eqn:E; [|reflexivity]. cbn [lookup]. rewrite (lookup_del d k0 x N). destruct (String.eqb_spec x k0) as [Ex|]; [subst x; now symmetry|reflexivity].
Qed.
Lemma nodup_first k0 d : NoDup (keys d) -> NoDup (keys (first k0 d)).
Proof.
  intros N. unfold first. destruct (lookup d k0) eqn:E; [|assumption]. cbn [keys map fst]. constructor; [|exact (nodup_del d k0 N)].
  assert (F : lookup (del d k0) k0 = None) by (rewrite lookup_del, String.eqb_refl by assumption; reflexivity). now apply lookup_none in F.
Qed.
Lemma has_spec d k : has d k = true <-> In k (keys d).
Proof. unfold has. destruct (lookup d k) eqn:E; [split; [intros _; apply lookup_in in E; exact (in_keys _ _ _ E)|reflexivity]|]. apply lookup_none in E. split; [discriminate|intros H; contradiction]. Qed.
Lemma add_missing_spec v ks d : NoDup (keys d) ->
  NoDup (keys (add_missing v ks d)) /\
  forall x, lookup (add_missing v ks d) x = match lookup d x with Some w => Some w | None => if in_dec string_dec x ks then Some v else None end.
Proof.
  unfold add_missing. revert d. induction ks as [|k ks IH]; intros d N; cbn [fold_left].
  - split; [assumption|]. intros x. destruct (lookup d x); [reflexivity|]. destruct (in_dec string_dec x []) as [[]|]; reflexivity.
  - assert (N' : NoDup (keys (if has d k then d else set d k v))) by (destruct (has d k); [assumption|now apply nodup_set]).
    destruct (IH _ N') as [H1 H2]. split; [exact H1|]. intros x. rewrite H2. clear H1 H2 N'. unfold has.
    destruct (lookup d k) as [w|] eqn:E.
    + destruct (lookup d x) eqn:Ex; [reflexivity|]. destruct (in_dec string_dec x ks), (in_dec string_dec x (k :: ks)) as [Hx|Hx]; try reflexivity; [exfalso; apply Hx; now right|]. destruct Hx as [->|]; [congruence|contradiction].
    + rewrite lookup_set. destruct (String.eqb_spec x k) as [->|Nx].
      * rewrite E. destruct (in_dec string_dec k (k :: ks)) as [|Hx]; [reflexivity|exfalso; apply Hx; now left].
      * destruct (lookup d x) eqn:Ex; [reflexivity|]. destruct (in_dec string_dec x ks), (in_dec string_dec x (k :: ks)) as [Hx|Hx]; try reflexivity; [exfalso; apply Hx; now right|]. destruct Hx as [->|]; [congruence|contradiction].
Qed.
Lemma keys_map_values {W} (f : string -> V -> W) d : keys (map_values f d) = keys d.
Proof. unfold keys, map_values. rewrite map_map. reflexivity. Qed.
Lemma lookup_map_values {W} (f : string -> V -> W) d x : lookup (map_values f d) x = option_map (f x) (lookup d x).
Proof. induction d as [|[q w] d IH]; [reflexivity|]. cbn [map_values map lookup fst snd]. destruct (String.eqb_spec x q) as [->|]; [reflexivity|exact IH]. Qed.
Lemma update_other d l k : ~ In k (keys l) -> lookup (update d l) k = lookup d k.
Proof.
  unfold update. revert d. induction l as [|[q w] l IH]; intros d H; cbn [fold_left fst snd]; [reflexivity|]. rewrite IH by (intros E; apply H; now right). rewrite lookup_set. destruct (String.eqb_spec k q) as [->|]; [exfalso; apply H; now left|reflexivity].
Qed.
Lemma update_in d l k v : (forall a b, In (k, a) l -> In (k, b) l -> a = b) -> In (k, v) l -> lookup (update d l) k = Some v.
Proof.
  unfold update. revert d. induction l as [|[q w] l IH]; intros d F H; [destruct H|]. cbn [fold_left fst snd].
  destruct (in_dec string_dec k (keys l)) as [I|I].
  - apply in_map_iff in I. destruct I as ([k1 v1] & E1 & I). cbn [fst] in E1. subst k1. apply IH; [intros a b Ha Hb; exact (F a b (or_intror Ha) (or_intror Hb))|]. rewrite (F v v1 H (or_intror I)). exact I.
  - destruct H as [E|H]; [injection E as -> ->|exfalso; apply I; exact (in_keys _ _ _ H)]. fold (update (set d k v) l). rewrite update_other by exact I. rewrite lookup_set, String.eqb_refl. reflexivity.
Qed.
Lemma nodup_update d l : NoDup (keys d) -> NoDup (keys (update d l)).
Proof. unfold update. revert d. induction l as [|[q w] l IH]; intros d N; cbn [fold_left]; [assumption|]. apply IH, nodup_set, N. Qed.
End D.

(** ** tables *)
Section T.
Context {V : Type}.
Implicit Types d : dict (list V).
Lemma table_lookup n d : table n d <-> NoDup (keys d) /\ forall k c, lookup d k = Some c -> length c = n.
Proof. split; intros [N H]; (split; [exact N|]); intros k c E; [exact (H k c (lookup_in _ _ _ E))|exact (H k c (in_lookup _ _ _ N E))]. Qed.
Lemma table_rows n d : table n d -> d = [] \/ num_rows d = n.
Proof. intros [_ H]. destruct d as [|[k c] d]; [now left|right]. exact (H k c (or_introl eq_refl)). Qed.
Lemma table_num n d : table n d -> table (num_rows d) d.
Proof. intros T. destruct (table_rows n d T) as [->| ->]; [split; [constructor|intros k c []]|exact T]. Qed.
Lemma table_nil n : table n ([] : dict (list V)).
Proof. split; [constructor|intros k c []]. Qed.
End T.

(** ** addData *)
Section A.
Context {A : Type}.
Implicit Types (u d : dict (value A)).
Lemma components_spec (v : value A) s a : In (s, a) (components v) <-> component_of v s a.
Proof.
  split.
  - destruct v as [x|x y|x y z|xx xy xz yx yy yz zx zy zz|]; cbn [components In]; intros H; repeat (destruct H as [E|H]; [injection E as <- <-; constructor|]); destruct H.
  - intros []; cbn [components In]; auto 15.
Qed.
Lemma append_length_pos n s : String.length n < String.length (component_name n s).
Proof. unfold component_name. induction n as [|c n IH]; [change (0 < S (String.length s)); lia|]. change (S (String.length n) < S (String.length (n ++ "_" ++ s))). lia. Qed.
Lemma component_name_neq n s : component_name n s <> n.
Proof. intros E. pose proof (append_length_pos n s) as H. rewrite E in H. lia. Qed.
Definition named (n : string) (v : value A) : dict (value A) := map (fun c => (component_name n (fst c), Scalar (Some (snd c)))) (components v).
Lemma fold_named n v d : fold_left (fun d c => set d (component_name n (fst c)) (Scalar (Some (snd c)))) (components v) d = update d (named n v).
Proof. unfold update, named. generalize (components v). intros l. revert d. induction l as [|c l IH]; intros d; [reflexivity|]. cbn [fold_left map fst snd]. apply IH. Qed.
Lemma named_spec n v k w : In (k, w) (named n v) <-> exists s a, component_of v s a /\ k = component_name n s /\ w = Scalar (Some a).
Proof.
  unfold named. rewrite in_map_iff. split.
  - intros ([s a] & E & I). injection E as <- <-. exists s, a. apply components_spec in I. auto.
  - intros (s & a & C & -> & ->). exists (s, a). split; [reflexivity|]. now apply components_spec.
Qed.
Definition composite (v : value A) : Prop := match v with Scalar _ | Sequence => False | _ => True end.
Lemma expand_step n names d v : composite v -> lookup d n = Some v -> expand (n :: names) d = expand names (del (update d (named n v)) n).
Proof. intros C E. cbn [expand]. rewrite E, <- fold_named. destruct v; try contradiction; reflexivity. Qed.
(** the state of the loop after the names in P *)
Definition inv u (P : string -> Prop) d : Prop :=
  NoDup (keys d) /\ (forall n v, In (n, v) u -> ~ P n -> lookup d n = Some v) /\
  (forall k x, In (k, Scalar x) u -> lookup d k = Some (Scalar x)) /\
  (forall n v s a, In (n, v) u -> P n -> component_of v s a -> lookup d (component_name n s) = Some (Scalar (Some a))) /\
  (forall k v, lookup d k = Some v -> (In (k, v) u /\ (P k -> exists x, v = Scalar x)) \/ exists x, gives u k x /\ v = Scalar x).
Lemma inv_ext u P Q d : (forall n, P n <-> Q n) -> inv u P d -> inv u Q d.
Proof.
  intros E (N & A1 & A2 & A3 & A4). split; [exact N|]. split; [|split; [exact A2|split]].
  - intros n v I H. apply A1; [exact I|]. rewrite E. exact H.
  - intros n v s a I H. apply (A3 n v s a I). apply E. exact H.
  - intros k v L. destruct (A4 k v L) as [[I H]|H]; [left; split; [exact I|]; rewrite <- E; exact H|right; exact H].
Qed.
Lemma inv_composite u P d n v : proper u -> inv u P d -> ~ P n -> In (n, v) u -> composite v -> inv u (fun m => P m \/ m = n) (del (update d (named n v)) n).
Proof.
  intros (Nu & U1 & U2 & U3) (N & A1 & A2 & A3 & A4) Hp Iv C.
  assert (Nd : NoDup (keys (update d (named n v)))) by now apply nodup_update.
  assert (G : forall k w, In (k, w) (named n v) -> exists x, gives u k x /\ w = Scalar x).
  { intros k w H. apply named_spec in H. destruct H as (s & a & Cs & -> & ->). exists (Some a). split; [exact (GComponent u _ n v s a Iv Cs eq_refl)|reflexivity]. }
  assert (F : forall k a b, In (k, a) (named n v) -> In (k, b) (named n v) -> a = b).
  { intros k a b Ha Hb. destruct (G k a Ha) as (x & Gx & ->), (G k b Hb) as (y & Gy & ->). now rewrite (U1 k x y Gx Gy). }
  assert (Up : forall k w, (forall x, gives u k x -> w = Scalar x) -> lookup d k = Some w -> lookup (update d (named n v)) k = Some w).
  { intros k w H L. destruct (in_dec string_dec k (keys (named n v))) as [I|I]; [|rewrite update_other by exact I; exact L].
    apply in_map_iff in I. destruct I as ([k1 w1] & E1 & I). cbn [fst] in E1. subst k1. rewrite (update_in _ _ _ _ (F k) I). destruct (G k w1 I) as (x & Gx & ->). now rewrite (H x Gx). }
  assert (Nn : forall x, ~ gives u n x) by (intros x Gx; rewrite (U2 n x v Gx Iv) in C; destruct C).
  split; [now apply nodup_del|]. split; [|split; [|split]].
  - intros m w I H. rewrite lookup_del by exact Nd. destruct (String.eqb_spec m n) as [->|Nm]; [exfalso; apply H; now right|]. apply Up; [|apply A1; [exact I|tauto]]. intros x Gx. exact (U2 m x w Gx I).
  - intros k x I. rewrite lookup_del by exact Nd. destruct (String.eqb_spec k n) as [->|Nm]; [exfalso; exact (Nn x (GScalar u n x I))|]. apply Up; [|exact (A2 k x I)]. intros y Gy. exact (U2 k y _ Gy I).
  - intros m w s a I H Cs. rewrite lookup_del by exact Nd. destruct (String.eqb_spec (component_name m s) n) as [E|Nm]; [exfalso; apply (Nn (Some a)); exact (GComponent u n m w s a I Cs (eq_sym E))|].
    destruct H as [H| ->].
    + apply Up; [|exact (A3 m w s a I H Cs)]. intros x Gx. now rewrite (U1 _ x (Some a) Gx (GComponent u _ m w s a I Cs eq_refl)).
    + pose proof (in_lookup _ _ _ Nu I) as L1. rewrite (in_lookup _ _ _ Nu Iv) in L1. injection L1 as <-. apply update_in; [exact (F _)|]. apply named_spec. eauto.
  - intros k w L. rewrite lookup_del in L by exact Nd. destruct (String.eqb_spec k n) as [->|Nk]; [discriminate|].
    destruct (in_dec string_dec k (keys (named n v))) as [I|I].
    + apply in_map_iff in I. destruct I as ([k1 w1] & E1 & I). cbn [fst] in E1. subst k1. rewrite (update_in _ _ _ _ (F k) I) in L. injection L as ->. right. exact (G k w I).
    + rewrite update_other in L by exact I. destruct (A4 k w L) as [[I' H]|H]; [left; split; [exact I'|]|right; exact H]. intros [H'|H']; [exact (H H')|congruence].
Qed.
Lemma expand_inv u : proper u -> forall names d P, NoDup names -> (forall n, In n names -> In n (keys u)) -> (forall n, In n names -> ~ P n) -> inv u P d ->
  exists d', expand names d = (d', true) /\ inv u (fun n => P n \/ In n names) d'.
Proof.
  intros Pu. induction names as [|n names IH]; intros d P Nn Hk Hp I.
  - exists d. split; [reflexivity|]. apply (inv_ext u P); [|exact I]. intros n. split; [now left|intros [H|[]]; exact H].
  - inversion Nn as [|? ? Nn1 Nn2]; subst.
    assert (Hk' : forall m, In m names -> In m (keys u)) by (intros m Hm; apply Hk; now right).
    destruct (keys_lookup u n (Hk n (or_introl eq_refl))) as (v & Lv). pose proof (lookup_in _ _ _ Lv) as Iv.
    pose proof (proj1 (proj2 I) n v Iv (Hp n (or_introl eq_refl))) as Ld.
    assert (Hext : forall d', inv u (fun m => (P m \/ m = n) \/ In m names) d' -> inv u (fun m => P m \/ In m (n :: names)) d').
    { intros d'. apply inv_ext. intros m. cbn [In]. intuition congruence. }
    assert (Hp' : forall m, In m names -> ~ (P m \/ m = n)) by (intros m Hm [H| ->]; [exact (Hp m (or_intror Hm) H)|contradiction]).
    assert (Cc : composite v -> exists d', expand (n :: names) d = (d', true) /\ inv u (fun m => P m \/ In m (n :: names)) d').
    { intros C. rewrite (expand_step n names d v C Ld). pose proof (inv_composite u P d n v Pu I (Hp n (or_introl eq_refl)) Iv C) as I2.
      destruct (IH _ _ Nn2 Hk' Hp' I2) as (d' & E & I'). exists d'. split; [exact E|apply Hext; exact I']. }
    destruct v as [x|x y|x y z|xx xy xz yx yy yz zx zy zz|]; [|exact (Cc Logic.I)|exact (Cc Logic.I)|exact (Cc Logic.I)|exfalso; destruct Pu as (_ & _ & _ & U3); exact (U3 n Iv)].
    cbn [expand]. rewrite Ld. destruct (IH d (fun m => P m \/ m = n) Nn2 Hk' Hp') as (d' & E & I').
    { destruct I as (N & A1 & A2 & A3 & A4). destruct Pu as (Nu & _). split; [exact N|]. split; [|split; [exact A2|split]].
      - intros m v I H. apply A1; [exact I|tauto].
      - intros m v s a I [H| ->] C; [exact (A3 m v s a I H C)|]. rewrite (in_lookup _ _ _ Nu I) in Lv. injection Lv as ->. inversion C.
      - intros k v L. destruct (A4 k v L) as [[I H]|H]; [left; split; [exact I|]|right; exact H]. intros [H'| ->]; [exact (H H')|]. rewrite (in_lookup _ _ _ Nu I) in Lv. injection Lv as ->. eauto. }
    exists d'. split; [exact E|apply Hext; exact I'].
Qed.
Lemma expand_proper u : proper u -> exists d, expand (keys u) u = (d, true) /\ NoDup (keys d) /\
  forall k, (forall x, gives u k x -> lookup d k = Some (Scalar x)) /\ ((forall x, ~ gives u k x) -> lookup d k = None).
Proof.
  intros Pu. pose proof Pu as (Nu & U1 & U2 & U3).
  destruct (expand_inv u Pu (keys u) u (fun _ => False) Nu (fun n H => H) (fun n _ H => H)) as (d & E & (N & A1 & A2 & A3 & A4)).
  { split; [exact Nu|]. split; [intros n v I _; exact (in_lookup _ _ _ Nu I)|]. split; [intros k x I; exact (in_lookup _ _ _ Nu I)|]. split; [intros n v s a _ []|]. intros k v L. left. split; [exact (lookup_in _ _ _ L)|intros []]. }
  exists d. split; [exact E|]. split; [exact N|]. intros k. split.
  - intros x [y I|n v s a I C ->]; [exact (A2 k y I)|]. apply (A3 n v s a I); [right; exact (in_keys _ _ _ I)|exact C].
  - intros H. destruct (lookup d k) as [v|] eqn:L; [|reflexivity]. exfalso. destruct (A4 k v L) as [[I Hs]|(x & G & _)]; [|exact (H x G)].
    destruct (Hs (or_intror (in_keys _ _ _ I))) as (x & ->). exact (H x (GScalar u k x I)).
Qed.
(** a sequence is refused, unless a component of another argument has its name *)
Lemma expand_sequence u k : NoDup (keys u) -> In (k, Sequence) u -> (forall n v s a, In (n, v) u -> component_of v s a -> component_name n s <> k) ->
  forall names d, NoDup names -> In k names -> (forall n, In n names -> lookup d n <> None) -> NoDup (keys d) -> lookup d k = Some Sequence ->
    (forall n v, lookup d n = Some v -> In (n, v) u \/ exists x, v = Scalar x) -> snd (expand names d) = false.
Proof.
  intros Nu Ik Hc. induction names as [|n names IH]; intros d Nn Hn Hl Nd Lk Hd; [destruct Hn|].
  inversion Nn as [|? ? N1 N2]; subst. destruct (lookup d n) as [v|] eqn:L; [|exfalso; exact (Hl n (or_introl eq_refl) L)].
  assert (Cc : composite v -> snd (expand (n :: names) d) = false).
  { intros C. rewrite (expand_step n names d v C L). destruct (Hd n v L) as [Iv|(x & ->)]; [|destruct C].
    assert (Nk : n <> k) by (intros ->; rewrite Lk in L; injection L as <-; destruct C).
    assert (Nd2 : NoDup (keys (update d (named n v)))) by now apply nodup_update.
    assert (Kn : ~ In k (keys (named n v))).
    { intros I. apply in_map_iff in I. destruct I as ([k1 w] & E & I). cbn [fst] in E. subst k1. apply named_spec in I. destruct I as (s & a & Cs & E & _). exact (Hc n v s a Iv Cs (eq_sym E)). }
    apply IH; [exact N2|destruct Hn as [E|Hn]; [congruence|exact Hn]| |now apply nodup_del| |].
    - intros m Hm. rewrite lookup_del by exact Nd2. destruct (String.eqb_spec m n) as [->|Nm]; [contradiction|].
      destruct (in_dec string_dec m (keys (named n v))) as [I|I]; [|rewrite update_other by exact I; apply Hl; now right].
      intros E. apply lookup_none in E. apply E. clear -I. revert d. generalize dependent (named n v). intros l. unfold update. induction l as [|[q w] l IHl]; intros I d; [destruct I|]. cbn [fold_left fst snd].
      destruct (in_dec string_dec m (keys l)) as [I2|I2]; [exact (IHl I2 _)|]. destruct I as [E|I]; [|contradiction]. cbn [fst] in E. subst q.
      assert (Q : lookup (update (set d m w) l) m = Some w) by (rewrite update_other by exact I2; rewrite lookup_set, String.eqb_refl; reflexivity). exact (in_keys _ _ _ (lookup_in _ _ _ Q)).
    - rewrite lookup_del by exact Nd2. destruct (String.eqb_spec k n) as [->|_]; [congruence|]. rewrite update_other by exact Kn. exact Lk.
    - intros m w Lm. rewrite lookup_del in Lm by exact Nd2. destruct (String.eqb_spec m n) as [->|Nm]; [discriminate|].
      destruct (in_dec string_dec m (keys (named n v))) as [I|I]; [|rewrite update_other in Lm by exact I; exact (Hd m w Lm)].
      right. clear -I Lm. assert (H : forall k w, In (k, w) (named n v) -> exists x, w = Scalar x) by (intros k w' H; apply named_spec in H; destruct H as (s & a & _ & _ & ->); eauto).
      revert d Lm. generalize dependent (named n v). intros l. unfold update. induction l as [|[q y] l IHl]; intros I H d Lm; [destruct I|]. cbn [fold_left fst snd] in Lm.
      destruct (in_dec string_dec m (keys l)) as [I2|I2]; [exact (IHl I2 (fun a b c => H a b (or_intror c)) _ Lm)|]. fold (update (set d q y) l) in Lm. rewrite update_other in Lm by exact I2. destruct I as [E|I]; [|contradiction]. cbn [fst] in E. subst q.
      rewrite lookup_set, String.eqb_refl in Lm. injection Lm as <-. exact (H m y (or_introl eq_refl)). }
  destruct v as [x|x y|x y z|xx xy xz yx yy yz zx zy zz|]; [|exact (Cc Logic.I)|exact (Cc Logic.I)|exact (Cc Logic.I)|cbn [expand]; now rewrite L].
  cbn [expand]. rewrite L. apply IH; [exact N2| |intros m Hm; apply Hl; now right|exact Nd|exact Lk|exact Hd]. destruct Hn as [E|Hn]; [subst n; rewrite Lk in L; discriminate|exact Hn].
Qed.
Lemma keys_iff {V} (e : dict V) k : In k (keys e) <-> exists v, lookup e k = Some v.
Proof. split; [apply keys_lookup|intros (v & L); exact (in_keys _ _ _ (lookup_in _ _ _ L))]. Qed.
(** the number of rows before a call *)
Definition rows_before (s : plotvars A) : nat := if (negb (length (imgData s) =? 0)) && (num_rows (data s) =? 0) then Nat.max (num_rows (data s)) (num_rows (imgData s)) else num_rows (data s).
Lemma add_ok k0 arg kw (s : plotvars A) n : proper (update arg kw) -> table n (data s) -> (imgData s = [] /\ (data s = [] -> n = 0)) \/ (0 < n /\ data s <> []) ->
  exists (d' : dict (column A)), fst (addData k0 arg kw s) = Ok (mkPlot d' (imgData s) (plots s) (labels s)) /\ table (S n) d' /\ row_added (update arg kw) n (data s) d'.
Proof.
  intros Pu T Hn. pose proof T as [N Hl]. destruct (expand_proper _ Pu) as (d & E & Nd & Hd).
  assert (En : rows_before s = n).
  { unfold rows_before. destruct (table_rows n _ T) as [E0|E0]; destruct Hn as [[-> H0]|[Hp Hne]].
    - rewrite E0. cbn. symmetry. exact (H0 E0).
    - contradiction.
    - cbn. exact E0.
    - rewrite E0. destruct n as [|n]; [lia|]. rewrite andb_false_r. reflexivity. }
  unfold addData. change (if negb (length (imgData s) =? 0) && (num_rows (data s) =? 0) then Nat.max (num_rows (data s)) (num_rows (imgData s)) else num_rows (data s)) with (rows_before s).
  rewrite E, En. cbn [fst]. unfold with_data.
  destruct (add_missing_spec [] (keys d) (data s) N) as [Na La]. pose proof (nodup_first k0 _ Na) as Nf.
  assert (Lf : forall k, lookup (first k0 (add_missing [] (keys d) (data s))) k = match lookup (data s) k with Some w => Some w | None => if in_dec string_dec k (keys d) then Some [] else None end).
  { intros k. rewrite lookup_first by exact Na. apply La. }
  eexists. split; [reflexivity|]. split.
  - apply table_lookup. split; [rewrite keys_map_values; exact Nf|]. intros k c. rewrite lookup_map_values, Lf. pose proof (proj1 (table_lookup n _) T) as [_ Tl].
    destruct (lookup (data s) k) as [w|] eqn:L.
    + cbn [option_map]. intros [= <-]. rewrite !app_length, repeat_length, (Tl k w L). cbn [length]. lia.
    + destruct (in_dec string_dec k (keys d)); [|discriminate]. cbn [option_map]. intros [= <-]. rewrite !app_length, repeat_length. cbn [length]. lia.
  - intros k. pose proof (proj1 (table_lookup n _) T) as [_ Tl]. rewrite lookup_map_values, Lf. unfold before. split.
    + intros x G. pose proof (proj1 (Hd k) x G) as Lk. unfold given. rewrite Lk. destruct (lookup (data s) k) as [w|] eqn:L.
      * cbn [option_map]. rewrite (Tl k w L), Nat.sub_diag. reflexivity.
      * destruct (in_dec string_dec k (keys d)) as [|Hn']; [|exfalso; apply Hn', keys_iff; eauto]. cbn [option_map length]. rewrite Nat.sub_0_r. reflexivity.
    + intros H. pose proof (proj2 (Hd k) H) as Lk. unfold given. rewrite Lk. destruct (lookup (data s) k) as [w|] eqn:L.
      * cbn [option_map]. rewrite (Tl k w L), Nat.sub_diag. reflexivity.
      * destruct (in_dec string_dec k (keys d)) as [Hi|]; [|reflexivity]. exfalso. apply keys_iff in Hi. destruct Hi as (v & Hv). congruence.
Qed.
Lemma add_sequence k0 arg kw (s : plotvars A) k : NoDup (keys (update arg kw)) -> In (k, Sequence) (update arg kw) ->
  (forall n v x a, In (n, v) (update arg kw) -> component_of v x a -> (n ++ "_" ++ x)%string <> k) -> fst (addData k0 arg kw s) = ValueError s.
Proof.
  intros Nu Ik Hc. unfold addData. pose proof (expand_sequence _ k Nu Ik Hc (keys (update arg kw)) (update arg kw) Nu (in_keys _ _ _ Ik)) as H.
  destruct (expand (keys (update arg kw)) (update arg kw)) as [d ok]. cbn [snd] in H. rewrite H; [reflexivity| |exact Nu|exact (in_lookup _ _ _ Nu Ik)|intros n v L; left; exact (lookup_in _ _ _ L)].
  intros n Hn L. apply lookup_none in L. contradiction.
Qed.
(** a table is a table after every call *)
Lemma add_table k0 arg kw (s : plotvars A) n : table n (data s) -> exists m, table m (data (state_after (fst (addData k0 arg kw s)))).
Proof.
  intros T. pose proof (table_num _ _ T) as T0. pose proof (proj1 (table_lookup _ _) T0) as [N Tl]. unfold addData.
  change (if negb (length (imgData s) =? 0) && (num_rows (data s) =? 0) then Nat.max (num_rows (data s)) (num_rows (imgData s)) else num_rows (data s)) with (rows_before s).
  destruct (expand _ _) as [d ok]. destruct ok; [|cbn [fst state_after]; eauto]. cbn [fst state_after data with_data]. exists (S (rows_before s)).
  destruct (add_missing_spec [] (keys d) (data s) N) as [Na La]. pose proof (nodup_first k0 _ Na) as Nf.
  assert (Hr : num_rows (data s) <= rows_before s) by (unfold rows_before; destruct (_ && _); lia).
  assert (Lf : forall k, lookup (first k0 (add_missing [] (keys d) (data s))) k = match lookup (data s) k with Some w => Some w | None => if in_dec string_dec k (keys d) then Some [] else None end).
  { intros k. rewrite lookup_first by exact Na. apply La. }
  apply table_lookup. split; [rewrite keys_map_values; exact Nf|]. intros k c. rewrite lookup_map_values, Lf.
  destruct (lookup (data s) k) as [w|] eqn:L.
  + cbn [option_map]. intros [= <-]. rewrite !app_length, repeat_length, (Tl k w L). cbn [length]. lia.
  + destruct (in_dec string_dec k (keys d)); [|discriminate]. cbn [option_map]. intros [= <-]. rewrite !app_length, repeat_length. cbn [length]. lia.
Qed.
End A.
