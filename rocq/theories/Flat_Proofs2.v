From Coq Require Import Reals List ZArith Bool Arith Lra Lia.
From Verif Require Import Vec_Model Vec_Proofs Law_Model Law_Proofs Pred_Proofs Flat_Model Flat_Spec Flat_Proofs.
Import ListNotations.
Local Open Scope R_scope.

(** ** pairs *)
Definition same (a b : nat) (p : nat * nat) : bool := ((fst p =? a) && (snd p =? b) || (fst p =? b) && (snd p =? a))%nat.
Lemma same_spec a b p : same a b p = true <-> p = (a, b) \/ p = (b, a).
Proof. unfold same. destruct p as [x y]. cbn [fst snd]. rewrite orb_true_iff, !andb_true_iff, !Nat.eqb_eq. split; [intros [(-> & ->)|(-> & ->)]; auto|intros [E|E]; injection E as -> ->; auto]. Qed.
Lemma joins_spec a b i : joins a b i = true <-> (i1 i = a /\ i2 i = b) \/ (i1 i = b /\ i2 i = a).
Proof. unfold joins. rewrite orb_true_iff, !andb_true_iff, !Nat.eqb_eq. tauto. Qed.
Lemma of_pair_joins a b i : of_pair a b i = joins a b i. Proof. reflexivity. Qed.
Lemma known_spec l a b : known l a b <-> filter (joins a b) l <> [].
Proof.
  split.
  - intros (i & I & P) E. assert (F : In i (filter (joins a b) l)) by (apply filter_In; split; [exact I|apply joins_spec; exact P]). rewrite E in F. destruct F.
  - intros N. destruct (filter (joins a b) l) as [|i t] eqn:E; [contradiction|]. assert (F : In i (filter (joins a b) l)) by (rewrite E; left; reflexivity). apply filter_In in F as (I & P). exists i. split; [exact I|apply joins_spec; exact P].
Qed.
Lemma existsb_filter (A : Type) (f : A -> bool) l : existsb f l = match filter f l with [] => false | _ => true end.
Proof. induction l as [|x l IH]; [reflexivity|]. cbn [existsb filter]. destruct (f x); [reflexivity|exact IH]. Qed.
Lemma joins_sym a b i : joins a b i = joins b a i.
Proof. unfold joins. rewrite orb_comm. reflexivity. Qed.
(** what becomes of the interactions of one pair *)
Definition mark (iter : Z) (i : intr) : intr := mkI (i1 i) (i2 i) iter (real i).
Definition touch (may : nat -> nat -> bool) (iter : Z) (v : list intr) (p : nat * nat) : list intr :=
  match v with [] => if may (fst p) (snd p) then [mkI (fst p) (snd p) (-1) false] else [] | _ => map (mark iter) v end.
Lemma joins_mark a b iter i : joins a b (mark iter i) = joins a b i. Proof. reflexivity. Qed.
Lemma filter_map_other a b c d iter l : ~ (c = a /\ d = b) -> ~ (c = b /\ d = a) -> filter (joins a b) (map (fun i => if joins c d i then mkI (i1 i) (i2 i) iter (real i) else i) l) = filter (joins a b) l.
Proof.
  intros N1 N2. induction l as [|i l IH]; [reflexivity|]. cbn [map filter]. rewrite IH. destruct (joins c d i) eqn:J; [|reflexivity]. change (mkI (i1 i) (i2 i) iter (real i)) with (mark iter i). rewrite joins_mark. destruct (joins a b i) eqn:K; [|reflexivity].
  exfalso. apply joins_spec in J, K. destruct J as [(A & B)|(A & B)], K as [(C & D)|(C & D)]; [apply N1|apply N2|apply N2|apply N1]; split; congruence.
Qed.
Lemma filter_map_same a b iter l : filter (joins a b) (map (fun i => if joins a b i then mkI (i1 i) (i2 i) iter (real i) else i) l) = map (mark iter) (filter (joins a b) l).
Proof. induction l as [|i l IH]; [reflexivity|]. cbn [map filter]. destruct (joins a b i) eqn:J; [change (mkI (i1 i) (i2 i) iter (real i)) with (mark iter i); rewrite joins_mark, J; cbn [map]; rewrite IH; reflexivity|rewrite J; exact IH]. Qed.
Lemma collide_view may iter a b l p : a <> b -> filter (joins a b) (collide may iter l p) = if same a b p then touch may iter (filter (joins a b) l) p else filter (joins a b) l.
Proof.
  intros N. destruct p as [c d]. unfold collide. destruct (same a b (c, d)) eqn:S.
  - assert (CD : (c = a /\ d = b) \/ (c = b /\ d = a)) by (apply same_spec in S as [E|E]; injection E as -> ->; auto).
    assert (ND : (c =? d)%nat = false) by (apply Nat.eqb_neq; destruct CD as [(-> & ->)|(-> & ->)]; congruence). rewrite ND.
    assert (J : forall i, joins c d i = joins a b i) by (intros i; destruct CD as [(-> & ->)|(-> & ->)]; [reflexivity|apply joins_sym]).
    assert (F : forall l, filter (joins c d) l = filter (joins a b) l) by (intros m; apply filter_ext; exact J).
    rewrite existsb_filter, F. unfold touch. cbn [fst snd]. destruct (filter (joins a b) l) as [|i t] eqn:E.
    + destruct (may c d); [|exact E]. rewrite filter_app, E. cbn [app filter]. assert (JN : joins a b (mkI c d (-1) false) = true) by (apply joins_spec; cbn [i1 i2]; tauto). rewrite JN. reflexivity.
    + rewrite <- E, <- filter_map_same. f_equal. apply map_ext. intros j. rewrite J. reflexivity.
  - assert (N1 : ~ (c = a /\ d = b)) by (intros (-> & ->); assert (same a b (a, b) = true) by (apply same_spec; auto); congruence). assert (N2 : ~ (c = b /\ d = a)) by (intros (-> & ->); assert (same a b (b, a) = true) by (apply same_spec; auto); congruence).
    destruct (c =? d)%nat; [reflexivity|]. destruct (existsb _ l); [apply filter_map_other; assumption|]. destruct (may c d); [|reflexivity]. rewrite filter_app. cbn [filter]. assert (JN : joins a b (mkI c d (-1) false) = false). { destruct (joins a b (mkI c d (-1) false)) eqn:J; [|reflexivity]. apply joins_spec in J. cbn [i1 i2] in J. tauto. }
    rewrite JN. apply app_nil_r.
Qed.
Lemma fold_view may iter a b : a <> b -> forall L l, filter (joins a b) (fold_left (collide may iter) L l) = fold_left (touch may iter) (filter (same a b) L) (filter (joins a b) l).
Proof.
  intros N. induction L as [|p L IH]; intros l; [reflexivity|]. cbn [fold_left filter]. rewrite IH, (collide_view may iter a b l p N). destruct (same a b p); reflexivity.
Qed.
Lemma mark_mark iter v : map (mark iter) (map (mark iter) v) = map (mark iter) v.
Proof. rewrite map_map. reflexivity. Qed.
Lemma touch_known may iter L : forall v, v <> [] -> fold_left (touch may iter) L v = match L with [] => v | _ => map (mark iter) v end.
Proof.
  induction L as [|p L IH]; intros v N; [reflexivity|]. cbn [fold_left]. assert (T : touch may iter v p = map (mark iter) v) by (destruct v; [contradiction|reflexivity]). rewrite T, IH; [|destruct v; [contradiction|discriminate]]. destruct L; [reflexivity|apply mark_mark].
Qed.
(** the interactions of a pair that was not known *)
Lemma touch_new may iter a b L : allowed may a b -> Forall (fun p => same a b p = true) L ->
  exists x y, ((x = a /\ y = b) \/ (x = b /\ y = a)) /\ fold_left (touch may iter) L [] = match L with [] => [] | [_] => [mkI x y (-1) false] | _ => [mkI x y iter false] end.
Proof.
  intros (M1 & M2) F. destruct L as [|p L]; [exists a, b; split; [auto|reflexivity]|]. inversion F as [|? ? S F']; subst. apply same_spec in S.
  exists (fst p), (snd p). split; [destruct S as [-> | -> ]; cbn [fst snd]; auto|]. cbn [fold_left]. assert (T : touch may iter [] p = [mkI (fst p) (snd p) (-1) false]) by (unfold touch; destruct S as [-> | -> ]; cbn [fst snd]; [rewrite M1|rewrite M2]; reflexivity).
  rewrite T, touch_known by discriminate. destruct L; reflexivity.
Qed.
Lemma touch_forbidden may iter a b L : may a b = false -> may b a = false -> Forall (fun p => same a b p = true) L -> fold_left (touch may iter) L [] = [].
Proof.
  intros M1 M2 F. induction F as [|p L S F IH]; [reflexivity|]. cbn [fold_left]. assert (T : touch may iter [] p = []) by (unfold touch; apply same_spec in S as [-> | -> ]; cbn [fst snd]; [rewrite M1|rewrite M2]; reflexivity). rewrite T. exact IH.
Qed.
Lemma filter_all (A : Type) (f : A -> bool) l : Forall (fun x => f x = true) (filter f l).
Proof. apply Forall_forall. intros x I. apply filter_In in I. tauto. Qed.
Lemma filter_nil (A : Type) (f : A -> bool) l : filter f l = [] <-> forall x, In x l -> f x = false.
Proof.
  split.
  - intros E x I. destruct (f x) eqn:F; [|reflexivity]. assert (J : In x (filter f l)) by (apply filter_In; auto). rewrite E in J. destruct J.
  - intros H. induction l as [|x l IH]; [reflexivity|]. cbn [filter]. rewrite (H x (or_introl eq_refl)). apply IH. intros y I. apply H. right. exact I.
Qed.
(** ** pairs in a list *)
Lemma pairs_in l a b : In (a, b) (pairs l) -> In a l /\ In b l.
Proof.
  induction l as [|x l IH]; [intros []|]. cbn [pairs]. intros H. apply in_app_or in H as [H|H]; [apply in_map_iff in H as (y & E & I); injection E as <- <-; split; [left; reflexivity|right; exact I]|]. destruct (IH H). split; right; assumption.
Qed.
Lemma pairs_have l a b : a <> b -> In a l -> In b l -> exists p, In p (pairs l) /\ same a b p = true.
Proof.
  intros N. induction l as [|x l IH]; [intros []|]. intros [-> |A] [-> |B]; [contradiction| | |].
  - exists (a, b). split; [cbn [pairs]; apply in_or_app; left; apply in_map; exact B|apply same_spec; auto].
  - exists (b, a). split; [cbn [pairs]; apply in_or_app; left; apply in_map; exact A|apply same_spec; auto].
  - destruct (IH A B) as (p & I & S). exists p. split; [cbn [pairs]; apply in_or_app; right; exact I|exact S].
Qed.
Definition both (a b : nat) (l : list nat) : bool := (existsb (Nat.eqb a) l && existsb (Nat.eqb b) l)%bool.
Lemma existsb_eqb a l : existsb (Nat.eqb a) l = true <-> In a l.
Proof. rewrite existsb_exists. split; [intros (x & I & E); apply Nat.eqb_eq in E; subst; exact I|intros I; exists a; split; [exact I|apply Nat.eqb_refl]]. Qed.
Lemma both_spec a b l : both a b l = true <-> In a l /\ In b l.
Proof. unfold both. rewrite andb_true_iff, !existsb_eqb. tauto. Qed.
Lemma count_map a b x l : a <> b -> NoDup (x :: l) -> length (filter (same a b) (map (fun y => (x, y)) l)) = if ((x =? a) && existsb (Nat.eqb b) l || (x =? b) && existsb (Nat.eqb a) l)%nat%bool then 1%nat else 0%nat.
Proof.
  intros N. induction l as [|y l IH]; intros ND; [cbn [map filter existsb length]; rewrite !andb_false_r; reflexivity|].
  inversion ND as [|? ? N1 N2]; subst. inversion N2 as [|? ? N3 N4]; subst. assert (ND' : NoDup (x :: l)) by (constructor; [intros I; apply N1; right; exact I|exact N4]). specialize (IH ND').
  cbn [map filter existsb]. unfold same at 1. cbn [fst snd]. rewrite (Nat.eqb_sym y b), (Nat.eqb_sym y a).
  destruct (Nat.eqb_spec x a) as [XA|XA], (Nat.eqb_spec x b) as [XB|XB], (Nat.eqb_spec b y) as [BY|BY], (Nat.eqb_spec a y) as [AY|AY]; cbn [andb orb length] in *; subst; try congruence; try (rewrite IH; reflexivity).
  - rewrite IH. destruct (existsb (Nat.eqb y) l) eqn:E; [apply existsb_eqb in E; contradiction|reflexivity].
  - rewrite IH. destruct (existsb (Nat.eqb y) l) eqn:E; [apply existsb_eqb in E; contradiction|reflexivity].
Qed.
Lemma count_pairs a b l : a <> b -> NoDup l -> length (filter (same a b) (pairs l)) = if both a b l then 1%nat else 0%nat.
Proof.
  intros N. induction l as [|x l IH]; intros ND; [reflexivity|]. inversion ND as [|? ? N1 N2]; subst. cbn [pairs]. rewrite filter_app, app_length, (count_map a b x l N ND), (IH N2). unfold both. cbn [existsb]. rewrite (Nat.eqb_sym x a), (Nat.eqb_sym x b).
  assert (XA : a = x -> existsb (Nat.eqb a) l = false) by (intros ->; destruct (existsb (Nat.eqb x) l) eqn:E; [apply existsb_eqb in E; contradiction|reflexivity]).
  assert (XB : b = x -> existsb (Nat.eqb b) l = false) by (intros ->; destruct (existsb (Nat.eqb x) l) eqn:E; [apply existsb_eqb in E; contradiction|reflexivity]).
  destruct (Nat.eqb_spec a x) as [A|A], (Nat.eqb_spec b x) as [B|B]; cbn [andb orb]; [congruence|rewrite (XA A)|rewrite (XB B)|].
  - destruct (existsb (Nat.eqb b) l); reflexivity.
  - destruct (existsb (Nat.eqb a) l); reflexivity.
  - destruct (existsb (Nat.eqb a) l && existsb (Nat.eqb b) l)%bool; reflexivity.
Qed.
Lemma count_cells a b (d : data) ns : a <> b -> (forall n, NoDup (d n)) -> length (filter (same a b) (flat_map pairs (map d ns))) = length (filter (fun n => both a b (d n)) ns).
Proof.
  intros N ND. induction ns as [|n ns IH]; [reflexivity|]. cbn [map flat_map filter]. rewrite filter_app, app_length, IH, (count_pairs a b (d n) N (ND n)). destruct (both a b (d n)); reflexivity.
Qed.
(** ** each body once in a cell *)
Definition ready (id : nat) (l : list nat) : Prop := exists l0, NoDup l0 /\ Forall (fun x => (x < id)%nat) l0 /\ (l = l0 \/ l = l0 ++ [id]).
Lemma ready_nodup id l : ready id l -> NoDup l.
Proof.
  intros (l0 & N & F & [-> | -> ]); [exact N|]. rewrite Forall_forall in F. clear -N F. induction l0 as [|x l0 IH]; [constructor; [intros []|constructor]|]. inversion N as [|? ? N1 N2]; subst. cbn [app]. constructor.
  - intros I. apply in_app_or in I as [I|[<- |[]]]; [contradiction|]. specialize (F id (or_introl eq_refl)). lia.
  - apply IH; [exact N2|intros y I; apply F; right; exact I].
Qed.
Lemma ready_next id l : ready id l -> ready (Datatypes.S id) l.
Proof.
  intros H. exists l. split; [apply ready_nodup with id; exact H|]. split; [|auto]. destruct H as (l0 & _ & F & [-> | -> ]).
  - eapply Forall_impl; [|exact F]. intros x X. cbv beta in X |- *. lia.
  - apply Forall_app. split; [eapply Forall_impl; [|exact F]; intros x X; cbv beta in X |- *; lia|]. constructor; [lia|constructor].
Qed.
Lemma put_ready g d n id d' : (forall k, ready id (d k)) -> put g d n id = Some d' -> forall k, ready id (d' k).
Proof.
  intros H. unfold put. destruct (n <? len g)%nat; [|discriminate]. intros E. injection E as <-. intros k. destruct (H n) as (l0 & N & F & Q).
  assert (A : last (d n) (Datatypes.S id) <> id -> d n = l0 -> ready id (if (k =? n)%nat then d n ++ [id] else d k)) by (intros _ E; destruct (k =? n)%nat; [rewrite E; exists l0; auto|apply H]).
  destruct Q as [Q|Q].
  - destruct (rev (d n)) as [|y t] eqn:E; [destruct (k =? n)%nat; [rewrite Q; exists l0; auto|apply H]|]. destruct (y =? id)%nat; [apply H|]. destruct (k =? n)%nat; [rewrite Q; exists l0; auto|apply H].
  - rewrite Q, rev_app_distr. cbn [rev app]. rewrite Nat.eqb_refl. apply H.
Qed.
Lemma add_ready g id r C cs : forall d d', (forall k, ready id (d k)) -> fold_left (add_sphere g id r C) cs (Ok d) = Ok d' -> forall k, ready id (d' k).
Proof.
  induction cs as [|c cs IH]; intros d d' H E; [injection E as <-; exact H|]. cbn [fold_left] in E. unfold add_sphere at 2 in E. destruct (Rle_dec _ (r * r)); [|apply IH with d; assumption].
  destruct (put g d (lin g (fitGrid g c)) id) as [d1|] eqn:P; [apply IH with d1; [apply (put_ready g d _ id d1 H P)|exact E]|].
  exfalso. clear -E. induction cs as [|c' cs IH]; [discriminate|]. cbn [fold_left] in E. unfold add_sphere at 2 in E. auto.
Qed.
Lemma fill_ready g verlet : forall bodies n d d', (forall k, ready n (d k)) -> fold_left (updateBodyCells g verlet) (combine (seq n (length bodies)) bodies) (Ok d) = Ok d' -> forall k, NoDup (d' k).
Proof.
  induction bodies as [|b bodies IH]; intros n d d' H E; [injection E as <-; intros k; apply ready_nodup with n, H|]. cbn [length seq combine fold_left] in E.
  destruct (updateBodyCells g verlet (Ok d) (n, b)) as [d1| |] eqn:U; [|rewrite (fold_stuck g verlet _ Throws I) in E; discriminate|rewrite (fold_stuck g verlet _ OutOfBounds I) in E; discriminate].
  apply (IH (Datatypes.S n) d1 d'); [|exact E]. intros k. apply ready_next. revert k. unfold updateBodyCells in U. cbn [fst snd] in U. destruct b as [b|]; [|injection U as <-; exact H]. destruct (fshape_of b) as [[rad|]|]; [|discriminate|injection U as <-; exact H]. cbv zeta in U. apply (add_ready g n _ _ _ d d1 H U).
Qed.
Lemma fill_nodup g verlet bodies d : fill g verlet bodies = Ok d -> forall k, NoDup (d k).
Proof. intros E. apply (fill_ready g verlet bodies 0 (fun _ => []) d); [|exact E]. intros k. exists []. split; [constructor|]. split; [constructor|auto]. Qed.
