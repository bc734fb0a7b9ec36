(** Proofs about data kept for plots: histories, images, text. *)
From Coq Require Import String Ascii Arith Bool List Lia.
From Verif Require Import Plot_Model Plot_Spec Plot_Proofs.
Import ListNotations.
Local Open Scope string_scope.
Local Open Scope nat_scope.
Local Open Scope list_scope.

Section H.
Context {A : Type}.
(** ** all columns have the same length after any calls *)
Lemma first_missing_table {V} k0 ks (d : dict (list V)) n c : table n d -> length c = n -> table n (first k0 (add_missing c ks d)).
Proof.
  intros T E. pose proof (proj1 (table_lookup _ _) T) as [N Tl]. destruct (add_missing_spec c ks d N) as [Na La]. apply table_lookup. split; [now apply nodup_first|].
  intros k w. rewrite lookup_first by exact Na. rewrite La. destruct (lookup d k) as [x|] eqn:L; [intros [= <-]; exact (Tl k x L)|]. destruct (in_dec string_dec k ks); [intros [= <-]; exact E|discriminate].
Qed.
Lemma map_table {V W} n m (f : string -> list V -> list W) (d : dict (list V)) : table n d -> (forall k c, length c = n -> length (f k c) = m) -> table m (map_values f d).
Proof.
  intros T H. pose proof (proj1 (table_lookup _ _) T) as [N Tl]. apply table_lookup. split; [rewrite keys_map_values; exact N|]. intros k c. rewrite lookup_map_values. destruct (lookup d k) as [x|] eqn:L; [|discriminate]. cbn [option_map]. intros [= <-]. exact (H k x (Tl k x L)).
Qed.
Lemma call_table (c : call A) s n : table n (data s) -> exists m, table m (data (do_call c s)).
Proof.
  intros T. pose proof (table_num _ _ T) as T0. destruct c as [| |k0 dd| |k0 arg kw|k0|k0 kw|k0 k1 mi im]; cbn [do_call].
  - exists 0. apply table_nil.
  - exists 0. apply table_nil.
  - exists (num_rows (data s)). unfold addDataColumns, with_data. cbn [data]. apply first_missing_table; [exact T0|apply repeat_length].
  - exists n. unfold reverseData, with_data. cbn [data]. apply (map_table n); [exact T|]. intros k c <-. apply rev_length.
  - exact (add_table k0 arg kw s n T).
  - exact (add_table k0 [] [] s n T).
  - unfold addImgData. destruct (negb _ && negb _); [destruct (_ <? _); [|destruct (_ <? _) eqn:L]|].
    all: destruct (forallb _ _); [destruct (forallb _ _)|]; cbn [state_after data]; eauto.
    all: eexists; apply (map_table (num_rows (data s)) _ _ _ T0); intros k c Ec; rewrite app_length, repeat_length, Ec; reflexivity.
  - unfold createPlots. cbn [data]. destruct ((length (data s) =? 0) || (num_rows (data s) =? 0)) eqn:E.
    + exists 0. apply first_missing_table; [|reflexivity]. apply orb_prop in E. destruct E as [E|E]; apply Nat.eqb_eq in E; [destruct (data s); [apply table_nil|discriminate]|rewrite <- E; exact T0].
    + exists (num_rows (data s)). apply first_missing_table; [exact T0|apply repeat_length].
Qed.
Lemma run_table (l : list (call A)) : forall s n, table n (data s) -> exists m, table m (data (run l s)).
Proof.
  unfold run. induction l as [|c l IH]; intros s n T; cbn [fold_left]; [eauto|]. destruct (call_table c s n T) as (m & T'). exact (IH _ m T').
Qed.
(** ** histories of addData *)
Lemma gives_dec (u : dict (value A)) k : (exists x, gives u k x) \/ (forall x, ~ gives u k x).
Proof.
  induction u as [|[n v] u IH].
  - right. intros x [y I|m w s a I _ _]; destruct I.
  - destruct IH as [(x & G)|H].
    + left. exists x. destruct G as [y I|m w s a I C E]; [apply GScalar; right; exact I|apply (GComponent _ k m w s a); [right; exact I|exact C|exact E]].
    + assert (Hc : (exists s a, component_of v s a /\ k = component_name n s) \/ (forall s a, component_of v s a -> k <> component_name n s)).
      { destruct (in_dec string_dec k (map (fun c => component_name n (fst c)) (components v))) as [I|I].
        - left. apply in_map_iff in I. destruct I as ([s a] & E & I). exists s, a. split; [now apply components_spec|symmetry; exact E].
        - right. intros s a C E. apply I, in_map_iff. exists (s, a). split; [symmetry; exact E|now apply components_spec]. }
      destruct Hc as [(s & a & C & E)|Hc]; [left; exists (Some a); apply (GComponent _ k n v s a); [now left|exact C|exact E]|].
      destruct (string_dec k n) as [->|Nk].
      * destruct v as [x|x y|x y z|xx xy xz yx yy yz zx zy zz|]; [left; exists x; apply GScalar; now left| | | |];
        right; intros z' [y' [I|I]|m w s a [I|I] C E]; try discriminate I; try exact (H _ (GScalar _ _ _ I)); try exact (H _ (GComponent _ _ m w s a I C E)); injection I as <- <-; exact (Hc s a C E).
      * right. intros z [y [I|I]|m w s a [I|I] C E]; [congruence|exact (H _ (GScalar _ _ _ I))| |exact (H _ (GComponent _ _ m w s a I C E))]. injection I as <- <-. exact (Hc s a C E).
Qed.
Lemma transposed_snoc rows (u : dict (value A)) d d' : proper u -> transposed rows d -> table (S (length rows)) d' -> row_added u (length rows) d d' -> transposed (rows ++ [u]) d'.
Proof.
  intros Pu [T H] T' R. split; [rewrite app_length, Nat.add_1_r; exact T'|]. intros k. destruct (H k) as [Hk Hc]. destruct (R k) as [R1 R2]. pose proof (proj1 (table_lookup _ _) T) as [_ Tl].
  destruct (gives_dec u k) as [(x & G)|Ng].
  - pose proof (R1 x G) as L. split.
    + split; [intros _; apply keys_iff; eauto|intros _; exists u, x; split; [apply in_or_app; right; now left|exact G]].
    + intros c L'. rewrite L in L'. injection L' as <-. intros i w Hi.
      assert (Lb : length (before (length rows) d k) = length rows) by (unfold before; destruct (lookup d k) as [c|] eqn:E; [exact (Tl k c E)|apply repeat_length]).
      destruct (Nat.lt_ge_cases i (length rows)) as [Lt|Ge].
      * rewrite nth_error_app1 in Hi by exact Lt. rewrite nth_error_app1 by lia. unfold before. destruct (lookup d k) as [c|] eqn:E; [exact (Hc c eq_refl i w Hi)|].
        rewrite nth_error_repeat by exact Lt. split; [|reflexivity]. intros y Gy. exfalso. apply lookup_none in E. apply E, Hk. exists w, y. split; [exact (nth_error_In _ _ Hi)|exact Gy].
      * assert (i = length rows) as -> by (assert (i < length (rows ++ [u])) by (apply nth_error_Some; congruence); rewrite app_length in *; cbn [length] in *; lia).
        rewrite nth_error_app2, Nat.sub_diag in Hi by lia. injection Hi as <-. rewrite nth_error_app2 by lia. rewrite Lb, Nat.sub_diag. split; [|intros Ng; exfalso; exact (Ng x G)].
        intros y Gy. cbn [nth_error]. destruct Pu as (_ & U1 & _). now rewrite (U1 k x y G Gy).
  - pose proof (R2 Ng) as L. split.
    + rewrite keys_iff, L. split.
      * intros (w & x & I & G). apply in_app_or in I. destruct I as [I|[<-|[]]]; [|exfalso; exact (Ng x G)]. assert (K : In k (keys d)) by (apply Hk; eauto). apply keys_iff in K. destruct K as (c & ->). cbn [option_map]. eauto.
      * intros (c & E). destruct (lookup d k) as [c0|] eqn:E0; [|discriminate]. assert (K : In k (keys d)) by (apply keys_iff; eauto). apply Hk in K. destruct K as (w & x & I & G). exists w, x. split; [apply in_or_app; now left|exact G].
    + intros c L'. rewrite L in L'. destruct (lookup d k) as [c0|] eqn:E0; [|discriminate]. cbn [option_map] in L'. injection L' as <-. pose proof (Tl k c0 E0) as Lc. intros i w Hi.
      destruct (Nat.lt_ge_cases i (length rows)) as [Lt|Ge].
      * rewrite nth_error_app1 in Hi by exact Lt. rewrite nth_error_app1 by lia. exact (Hc c0 eq_refl i w Hi).
      * assert (i = length rows) as -> by (assert (i < length (rows ++ [u])) by (apply nth_error_Some; congruence); rewrite app_length in *; cbn [length] in *; lia).
        rewrite nth_error_app2, Nat.sub_diag in Hi by lia. injection Hi as <-. rewrite nth_error_app2 by lia. rewrite Lc, Nat.sub_diag. split; [intros y Gy; exfalso; exact (Ng y Gy)|reflexivity].
Qed.
Lemma history calls (s : plotvars A) : data s = [] -> imgData s = [] -> (forall x, In x calls -> proper (argument x)) ->
  (exists x rest k v, calls = x :: rest /\ gives (argument x) k v) ->
  transposed (map argument calls) (data (run (map add_call calls) s)) /\ imgData (run (map add_call calls) s) = [].
Proof.
  intros D0 I0 Hp (x0 & rest & k & v & -> & G0). induction rest as [|x rest IH] using rev_ind.
  - cbn [map run fold_left do_call add_call]. destruct (add_ok (fst (fst x0)) (snd (fst x0)) (snd x0) s 0) as (d' & E & T & R); [apply Hp; now left|rewrite D0; apply table_nil|left; auto|].
    unfold run. cbn [fold_left do_call]. rewrite E. cbn [state_after data imgData]. split; [|exact I0].
    change [argument x0] with ([] ++ [argument x0]). apply (transposed_snoc [] (argument x0) (data s) d'); [apply Hp; now left| |exact T|exact R].
    rewrite D0. split; [apply table_nil|]. intros q. split; [split; [intros (u & y & [] & _)|intros []]|discriminate].
  - destruct IH as [T I]; [intros y Hy; apply Hp; cbn [In]; rewrite in_app_iff; cbn [In] in Hy; tauto|].
    change (map add_call (x0 :: rest ++ [x])) with (map add_call ((x0 :: rest) ++ [x])). change (map argument (x0 :: rest ++ [x])) with (map argument ((x0 :: rest) ++ [x])).
    rewrite !map_app. unfold run in *. rewrite fold_left_app. set (s1 := fold_left (fun s c => do_call c s) (map add_call (x0 :: rest)) s) in *.
    assert (Ne : data s1 <> []).
    { intros E. destruct T as [_ T]. destruct (T k) as [Hk _]. rewrite E in Hk. assert (K : In k (keys (@nil (string * column A)))) by (apply Hk; exists (argument x0), v; split; [now left|exact G0]). destruct K. }
    pose proof (proj1 T) as T1. destruct (add_ok (fst (fst x)) (snd (fst x)) (snd x) s1 _ (Hp x ltac:(right; apply in_or_app; right; now left)) T1) as (d' & E & T' & R).
    { left. split; [exact I|intros E; contradiction]. }
    cbn [map fold_left do_call add_call]. rewrite E. cbn [state_after data imgData]. split; [|exact I].
    apply (transposed_snoc _ (argument x) (data s1) d'); [apply Hp; right; apply in_or_app; right; now left|exact T|exact T'|exact R].
Qed.
End H.
