(** Proofs about data kept for plots: saving as text. *)
From Coq Require Import String Ascii Arith ZArith Bool List Lia.
From Verif Require Import Plot_Model Plot_Spec Plot_Proofs.
Import ListNotations.
Local Open Scope string_scope.
Local Open Scope nat_scope.
Local Open Scope list_scope.

Lemma append_assoc (a b c : string) : ((a ++ b) ++ c = a ++ (b ++ c))%string.
Proof. induction a as [|x a IH]; [reflexivity|]. cbn [append]. now rewrite IH. Qed.
Lemma all_chars_app p (a b : string) : all_chars p (a ++ b) = all_chars p a && all_chars p b.
Proof. induction a as [|x a IH]; [reflexivity|]. cbn [append all_chars]. now rewrite IH, andb_assoc. Qed.
Lemma all_chars_imp (p q : ascii -> bool) s : (forall c, p c = true -> q c = true) -> all_chars p s = true -> all_chars q s = true.
Proof. intros H. induction s as [|x s IH]; [reflexivity|]. cbn [all_chars]. intros E. apply andb_prop in E. destruct E as [E1 E2]. now rewrite (H x E1), (IH E2). Qed.
Lemma split_ne p s : split p s <> [].
Proof. destruct s as [|c s]; cbn [split]; [discriminate|]. destruct (split p s); [discriminate|]. destruct (p c); discriminate. Qed.
Lemma split_app (p : ascii -> bool) a c b : all_chars (fun x => negb (p x)) a = true -> p c = true -> split p (a ++ String c b) = a :: split p b.
Proof.
  intros Ha Hc. induction a as [|x a IH]; cbn [append split].
  - pose proof (split_ne p b). destruct (split p b); [congruence|]. now rewrite Hc.
  - cbn [all_chars] in Ha. apply andb_prop in Ha. destruct Ha as [Hx Ha]. rewrite (IH Ha). apply negb_true_iff in Hx. now rewrite Hx.
Qed.
Lemma split_none (p : ascii -> bool) a : all_chars (fun x => negb (p x)) a = true -> split p a = [a].
Proof. induction a as [|x a IH]; [reflexivity|]. cbn [all_chars split]. intros Ha. apply andb_prop in Ha. destruct Ha as [Hx Ha]. rewrite (IH Ha). apply negb_true_iff in Hx. now rewrite Hx. Qed.
Lemma word_space w : word w -> all_chars (fun c => negb (is_space c)) w = true.
Proof. intros [_ H]. revert H. apply all_chars_imp. intros c H. now apply andb_prop in H. Qed.
Lemma word_newline w : word w -> all_chars (fun c => negb (is_newline c)) w = true.
Proof. intros [_ H]. revert H. apply all_chars_imp. intros c H. now apply andb_prop in H. Qed.
Lemma words_space s : words (String (ascii_of_nat 9) s) = words s.
Proof. unfold words. cbn [split]. pose proof (split_ne is_space s). destruct (split is_space s); [congruence|]. reflexivity. Qed.
Lemma words_blank s : words (String " " s) = words s.
Proof. unfold words. cbn [split]. pose proof (split_ne is_space s). destruct (split is_space s); [congruence|]. reflexivity. Qed.
Lemma words_cons w s : word w -> words (w ++ String (ascii_of_nat 9) s) = w :: words s.
Proof. intros Hw. unfold words. rewrite split_app by (exact (word_space w Hw) || reflexivity). cbn [filter]. destruct Hw as [Hne _]. destruct (String.eqb_spec w ""); [congruence|reflexivity]. Qed.
Lemma words_one w : word w -> words w = [w].
Proof. intros Hw. unfold words. rewrite split_none by exact (word_space w Hw). cbn [filter]. destruct Hw as [Hne _]. destruct (String.eqb_spec w ""); [congruence|reflexivity]. Qed.
Lemma words_tabs l : Forall word l -> words (join tab l) = l.
Proof.
  induction l as [|w l IH]; intros F; [reflexivity|]. inversion F as [|? ? Hw Hl]; subst. destruct l as [|w2 l]; [exact (words_one w Hw)|].
  change (join tab (w :: w2 :: l)) with (w ++ String (ascii_of_nat 9) (join tab (w2 :: l)))%string. rewrite words_cons by exact Hw. now rewrite (IH Hl).
Qed.
Lemma words_tabs2 l : Forall word l -> words (join (tab ++ tab) l) = l.
Proof.
  induction l as [|w l IH]; intros F; [reflexivity|]. inversion F as [|? ? Hw Hl]; subst. destruct l as [|w2 l]; [exact (words_one w Hw)|].
  change (join (tab ++ tab) (w :: w2 :: l)) with (w ++ String (ascii_of_nat 9) (String (ascii_of_nat 9) (join (tab ++ tab) (w2 :: l))))%string. rewrite words_cons, words_space by exact Hw. now rewrite (IH Hl).
Qed.
Lemma join_newline sep l : all_chars (fun c => negb (is_newline c)) sep = true -> Forall word l -> all_chars (fun c => negb (is_newline c)) (join sep l) = true.
Proof.
  intros Hs. induction l as [|w l IH]; intros F; [reflexivity|]. inversion F as [|? ? Hw Hl]; subst. destruct l as [|w2 l]; [exact (word_newline w Hw)|].
  change (join sep (w :: w2 :: l)) with (w ++ sep ++ join sep (w2 :: l))%string. rewrite !all_chars_app, (word_newline w Hw), Hs, (IH Hl). reflexivity.
Qed.
Lemma join_ne l : l <> [] -> Forall word l -> join tab l <> "".
Proof.
  intros Hne F. destruct l as [|w l]; [congruence|]. inversion F as [|? ? [Hw _] Hl]; subst. destruct l as [|w2 l]; [exact Hw|].
  change (join tab (w :: w2 :: l)) with (w ++ tab ++ join tab (w2 :: l))%string. destruct w; [congruence|discriminate].
Qed.
Lemma lines_rows rs : Forall (fun r => r <> [] /\ Forall word r) rs -> lines (join "" (map (fun r => join tab r ++ newline)%string rs)) = map (join tab) rs.
Proof.
  induction rs as [|r rs IH]; intros F; [reflexivity|]. inversion F as [|? ? [Hne Hw] Hrs]; subst.
  assert (E : join "" (map (fun r => join tab r ++ newline)%string (r :: rs)) = (join tab r ++ String (ascii_of_nat 10) (join "" (map (fun r => join tab r ++ newline)%string rs)))%string).
  { destruct rs as [|r2 rs]; [reflexivity|]. cbn [map]. cbn [join]. rewrite append_assoc. reflexivity. }
  rewrite E. unfold lines. rewrite split_app by (exact (join_newline tab r eq_refl Hw) || reflexivity). cbn [filter map].
  destruct (String.eqb_spec (join tab r) "") as [E0|_]; [exfalso; exact (join_ne r Hne Hw E0)|]. cbn [negb]. f_equal. exact (IH Hrs).
Qed.
Section T.
Context {A : Type} (str : option A -> string) (Hstr : forall x, word (str x)).
Lemma row_spec (d : dict (column A)) n i vars : table n d -> i < n -> (forall v, In v vars -> In v (keys d)) ->
  fold_right (fun v acc => match acc, lookup d v with
                           | Some l, Some c => match nth_error c i with Some x => Some (str x :: l) | None => None end
                           | _, _ => None end) (Some []) vars = Some (map str (cells d vars i)).
Proof.
  intros T Hi. pose proof (proj1 (table_lookup _ _) T) as [_ Tl]. induction vars as [|v vars IH]; intros Hv; [reflexivity|]. cbn [fold_right]. rewrite IH by (intros w Hw; apply Hv; now right).
  destruct (keys_lookup d v (Hv v (or_introl eq_refl))) as (c & L). unfold cells. cbn [map]. rewrite L. assert (Lc : i < length c) by (rewrite (Tl v c L); exact Hi).
  rewrite (nth_error_nth' c None Lc). reflexivity.
Qed.
Lemma rows_spec (f : nat -> option (list string)) g l : (forall i, In i l -> f i = Some (g i)) ->
  fold_right (fun i acc => match acc, f i with Some l, Some r => Some (r :: l) | _, _ => None end) (Some []) l = Some (map g l).
Proof. induction l as [|i l IH]; intros H; [reflexivity|]. cbn [fold_right]. rewrite IH by (intros j Hj; apply H; now right). rewrite (H i (or_introl eq_refl)). reflexivity. Qed.
Lemma save_text (s : plotvars A) n vars : table n (data s) -> vars <> [] -> (forall v, In v vars -> In v (keys (data s))) -> Forall word vars ->
  exists text, saveDataTxt str [] vars s = Some text /\ read_table text = Some (vars, map (fun i => map str (cells (data s) vars i)) (seq 0 n)).
Proof.
  intros T Hne Hv Hw. pose proof (proj1 (table_lookup _ _) T) as [_ Tl]. unfold saveDataTxt. destruct vars as [|v0 vs]; [congruence|]. set (vars := v0 :: vs) in *.
  destruct (keys_lookup (data s) v0 (Hv v0 (or_introl eq_refl))) as (c0 & L0). rewrite L0, (Tl v0 c0 L0). cbv zeta.
  rewrite (rows_spec _ (fun i => map str (cells (data s) vars i))) by (intros i Hi; apply (row_spec _ n); [exact T|apply in_seq in Hi; lia|exact Hv]).
  cbn [map join append]. eexists. split; [reflexivity|].
  set (rs := map (fun i => map str (cells (data s) vars i)) (seq 0 n)).
  assert (Fr : Forall (fun r => r <> [] /\ Forall word r) rs).
  { apply Forall_forall. intros r I. apply in_map_iff in I. destruct I as (i & <- & _). split; [discriminate|]. apply Forall_forall. intros x I. apply in_map_iff in I. destruct I as (y & <- & _). apply Hstr. }
  unfold read_table.
  assert (El : lines (String "#" (String " " (join (tab ++ tab) vars ++ newline ++ join "" (map (fun r => join tab r ++ newline)%string rs)))) = String "#" (String " " (join (tab ++ tab) vars)) :: map (join tab) rs).
  { unfold lines. change (String "#" (String " " (join (tab ++ tab) vars ++ newline ++ join "" (map (fun r => join tab r ++ newline)%string rs)))) with ((String "#" (String " " (join (tab ++ tab) vars))) ++ String (ascii_of_nat 10) (join "" (map (fun r => join tab r ++ newline)%string rs)))%string.
    rewrite split_app; [|cbn [all_chars]; rewrite (join_newline (tab ++ tab) vars eq_refl Hw); reflexivity|reflexivity]. cbn [filter String.eqb negb]. f_equal. exact (lines_rows rs Fr). }
  rewrite El, words_blank, words_tabs2 by exact Hw. rewrite map_map. do 2 f_equal. rewrite <- (map_id rs) at 2. apply map_ext_in. intros r I. rewrite Forall_forall in Fr. destruct (Fr r I) as [_ F]. exact (words_tabs r F).
Qed.
End T.
