From Coq Require Import List Arith Bool ZArith Lia.
From Verif Require Import Force_Model Force_Spec Force_Proofs Force_Proofs2 Fser_Model Fser_Spec.
Import ListNotations.

Section P.
Context {V : Type} (v0 : V) (vadd : V -> V -> V).
Hypothesis H00 : vadd v0 v0 = v0.
Notation cell0 := (cell0 v0).
Notation s_run := (s_run v0 vadd).
Notation s_step := (s_step v0 vadd).

(** ** An abstract container: functions of ids *)
Record ab := mkAb { a_cell : nat -> cell V; a_perm : nat -> V * V; a_used : bool }.
Definition ab0 : ab := mkAb (fun _ => cell0) (fun _ => (v0, v0)) false.
Definition ab_step (a : ab) (o : op V) : ab :=
  match o with
  | OAdd _ id c v => mkAb (fun i => if i =? id then cadd vadd c v (a_cell a i) else a_cell a i) (a_perm a) (a_used a)
  | OMaxId _ _ => a
  | OSetPerm _ _ _ _ => mkAb (a_cell a) (perm_ideal_step v0 (a_perm a) o) true
  | OSync => if a_used a then mkAb (fun i => mkCell (vadd (cF (a_cell a i)) (fst (a_perm a i))) (vadd (cT (a_cell a i)) (snd (a_perm a i))) (cM (a_cell a i)) (cR (a_cell a i))) (a_perm a) true else a
  | OReset _ all => mkAb (fun _ => cell0) (perm_ideal_step v0 (a_perm a) o) (if all then false else a_used a)
  end.
Definition ab_run (h : list (op V)) : ab := fold_left ab_step h ab0.
Lemma ab_run_snoc h o : ab_run (h ++ [o]) = ab_step (ab_run h) o.
Proof. unfold ab_run. rewrite fold_left_app. reflexivity. Qed.
Lemma ab_perm h : a_perm (ab_run h) = perm_ideal v0 h.
Proof.
  induction h as [|o h IH] using rev_ind; [reflexivity|]. rewrite ab_run_snoc, perm_ideal_snoc, <- IH. destruct o as [| | | |it all]; cbn [ab_step a_perm perm_ideal_step]; try reflexivity. destruct (a_used _); reflexivity.
Qed.
Lemma ab_used h : a_used (ab_run h) = perm_used h.
Proof.
  induction h as [|o h IH] using rev_ind; [reflexivity|]. rewrite ab_run_snoc, perm_used_snoc, <- IH. destruct o as [| | | |it [|]]; cbn [ab_step a_used]; try reflexivity. destruct (a_used _) eqn:E; cbn [a_used]; [reflexivity|assumption].
Qed.

(** ** Refinement *)
Record Ref (s : sc V) (a : ab) : Prop := {
  r_cells : length (s_cells s) = s_size s;
  r_perms : length (s_perm s) = s_size s;
  r_cell : forall i, nth i (s_cells s) cell0 = a_cell a i;
  r_perm : forall i, nth i (s_perm s) (v0, v0) = a_perm a i;
  r_pu : s_pu s = a_used a;
  r_mr : s_mr s = false -> forall i, cM (a_cell a i) = v0 /\ cR (a_cell a i) = v0 }.
Lemma ref_init : Ref s_init ab0.
Proof. constructor; try reflexivity. - intros [|i]; reflexivity. - intros [|i]; reflexivity. - intros _ i. split; reflexivity. Qed.
Lemma ensure_ref id s a : Ref s a -> Ref (s_ensure v0 id s) a /\ s_size s <= s_size (s_ensure v0 id s) /\ id < s_size (s_ensure v0 id s).
Proof.
  intros [A B C D E F]. unfold s_ensure. cbv zeta. cbn [s_size]. destruct (Nat.leb_spec (s_size s) (Nat.max id (s_max s))) as [L|L].
  - set (n := Nat.min _ _). assert (N : Nat.max id (s_max s) < n) by (unfold n; rewrite Nat.mul_1_l; apply Nat.min_glb_lt; lia). clearbody n.
    assert (S1 : s_size s <= n) by lia. unfold s_resize. cbn [s_cells s_perm s_size s_mr s_pu s_last s_max]. split; [|split; [assumption|lia]].
    constructor; cbn [s_cells s_perm s_size s_mr s_pu]; try assumption.
    + apply vresize_length.
    + apply vresize_length.
    + intros i. rewrite nth_vresize, C by lia. destruct (Nat.ltb_spec i n) as [|G]; [reflexivity|]. rewrite <- C. symmetry. apply nth_overflow. lia.
    + intros i. rewrite nth_vresize, D by lia. destruct (Nat.ltb_spec i n) as [|G]; [reflexivity|]. rewrite <- D. symmetry. apply nth_overflow. lia.
  - split; [constructor; assumption|]. cbn [s_size]. split; lia.
Qed.
Lemma add_ref id c v s a : Ref s a -> id < s_size s -> Ref (mkSc (s_max s) (upd id (cadd vadd c v) (s_cells s)) (s_perm s) (s_size s) (match c with ChM | ChR => true | _ => s_mr s end) (s_pu s) (s_last s)) (ab_step a (OAdd 0 id c v)).
Proof.
  intros [A B C D E F] I. constructor; cbn [s_cells s_perm s_size s_mr s_pu ab_step a_cell a_perm a_used]; try assumption.
  - rewrite upd_length. assumption.
  - intros i. rewrite nth_upd by lia. rewrite C. destruct (Nat.eqb_spec i id); reflexivity.
  - intros M i. destruct (i =? id); [|apply F; destruct c; first [assumption | discriminate]]. destruct c; try discriminate; cbn [cadd cM cR]; apply F; assumption.
Qed.
Lemma addPerm_spec cells : forall perm n, length cells = n -> length perm = n -> exists l, s_addPerm vadd cells perm n = Some l /\ length l = n /\
  forall i, nth i l cell0 = mkCell (vadd (cF (nth i cells cell0)) (fst (nth i perm (v0, v0)))) (vadd (cT (nth i cells cell0)) (snd (nth i perm (v0, v0)))) (cM (nth i cells cell0)) (cR (nth i cells cell0)).
Proof.
  induction cells as [|x cs IH]; intros [|p ps] [|n] A B; try discriminate.
  - exists []. split; [reflexivity|]. split; [reflexivity|]. intros [|i]; cbn [nth fst snd Force_Model.cell0 cF cT cM cR]; rewrite H00; reflexivity.
  - injection A as A. injection B as B. destruct (IH ps n A B) as (l & E & L & N). cbn [s_addPerm]. rewrite E. eexists. split; [reflexivity|]. split; [cbn [length]; lia|]. intros [|i]; [reflexivity|]. cbn [nth]. apply N.
Qed.
Lemma sync_ref s a : Ref s a -> exists s', s_sync v0 vadd s = Val s' /\ Ref s' (ab_step a OSync) /\ s_size s <= s_size s'.
Proof.
  intros R. unfold s_sync. cbv zeta. set (s1 := if 0 <? s_max s then _ else s).
  assert (R1 : Ref s1 a /\ s_size s <= s_size s1). { unfold s1. destruct (0 <? s_max s); [|auto]. destruct (ensure_ref (s_max s) s a R) as ([A B C D E F] & G & _). split; [constructor; assumption|exact G]. }
  clearbody s1. destruct R1 as ([A B C D E F] & G). rewrite E. cbn [ab_step]. destruct (a_used a) eqn:U.
  - destruct (addPerm_spec (s_cells s1) (s_perm s1) (s_size s1) A B) as (l & -> & L & N). eexists. split; [reflexivity|]. split; [|exact G]. constructor; cbn [s_cells s_perm s_size s_mr s_pu a_cell a_perm a_used]; try assumption.
    + intros i. rewrite N, C, D. reflexivity.
    + reflexivity.
  - exists s1. split; [reflexivity|]. split; [|exact G]. constructor; try assumption. congruence.
Qed.
Lemma reset_ref it all s a : Ref s a -> exists s', s_reset v0 it all s = Val s' /\ Ref s' (ab_step a (OReset it all)) /\ s_size s <= s_size s'.
Proof.
  intros [A B C D E F]. unfold s_reset. rewrite A, B, Nat.leb_refl. cbn [negb orb]. rewrite andb_false_r. eexists. split; [reflexivity|]. split; [|apply Nat.le_refl].
  constructor; cbn [s_cells s_perm s_size s_mr s_pu ab_step a_cell a_perm a_used].
  - rewrite map_length. assumption.
  - destruct all; [rewrite map_length|]; assumption.
  - intros i. change cell0 with (Force_Model.cell0 v0) at 1. replace (Force_Model.cell0 v0) with (zeroCell v0 (s_mr s) cell0) at 1 by (unfold zeroCell; destruct (s_mr s); reflexivity).
    rewrite map_nth. unfold zeroCell. destruct (s_mr s) eqn:M; [reflexivity|]. rewrite C. destruct (F eq_refl i) as (X & Y). unfold zeroFT. rewrite X, Y. reflexivity.
  - intros i. destruct all; cbn [perm_ideal_step]; [|apply D]. exact (map_nth (fun _ => (v0, v0)) (s_perm s) (v0, v0) i).
  - destruct all; [reflexivity|assumption].
  - intros _ i. split; reflexivity.
Qed.
Lemma get_ref c id s a : Ref s a -> s_get v0 c id s = Val (cget c (a_cell a id), s_ensure v0 id s).
Proof.
  intros R. destruct (ensure_ref id s a R) as ([A B C D E F] & _ & G). unfold s_get. cbv zeta. rewrite (nth_error_nth_lt _ _ cell0) by lia. rewrite C. reflexivity.
Qed.
Lemma getPerm_ref isF id s a : Ref s a -> s_getPerm v0 isF id s = Val ((if isF then fst (a_perm a id) else snd (a_perm a id)), s_ensure v0 id s).
Proof.
  intros R. destruct (ensure_ref id s a R) as ([A B C D E F] & _ & G). unfold s_getPerm. cbv zeta. rewrite (nth_error_nth_lt _ _ (v0, v0)) by lia. rewrite D. reflexivity.
Qed.
Lemma getSingle_ref c id s a : Ref s a -> s_getSingle v0 vadd c id s = Val (match c with
    | ChF => if a_used a then vadd (cF (a_cell a id)) (fst (a_perm a id)) else cF (a_cell a id)
    | ChT => if a_used a then vadd (cT (a_cell a id)) (snd (a_perm a id)) else cT (a_cell a id)
    | ChM => cM (a_cell a id) | ChR => cR (a_cell a id) end, s_ensure v0 id s).
Proof.
  intros R. destruct (ensure_ref id s a R) as ([A B C D E F] & _ & G). unfold s_getSingle. cbv zeta. rewrite (nth_error_nth_lt _ _ cell0), (nth_error_nth_lt (s_perm _) _ (v0, v0)) by lia. rewrite C, D, E. reflexivity.
Qed.
Lemma step_ref x s a : Ref s a -> match x with SAddUnsynced _ id _ => id < s_size s | _ => True end ->
  exists s', s_step s x = Val s' /\ Ref s' (fold_left ab_step (calls [x]) a) /\ s_size s <= s_size s' /\ reach x <= s_size s'.
Proof.
  intros R I. destruct x as [[t id c v|t id|g id isF v| |it all]|c id|isF id|c id|isF id|isF id v]; cbn [calls flat_map app fold_left reach Fser_Model.s_step].
  - destruct (ensure_ref id s a R) as (R' & G & H). unfold s_add. cbv zeta. set (s1 := s_ensure v0 id s) in *. clearbody s1. rewrite (r_cells _ _ R'). assert (id <? s_size s1 = true) as -> by (apply Nat.ltb_lt; assumption).
    eexists. split; [reflexivity|]. split; [exact (add_ref id c v s1 a R' H)|]. cbn [s_size]. split; [assumption|lia].
  - eexists. split; [reflexivity|]. split; [destruct R; constructor; assumption|]. cbn [s_addMaxId s_size]. split; lia.
  - destruct (ensure_ref id s a R) as ([A B C D E F] & G & H). unfold s_setPerm. cbv zeta. set (s1 := s_ensure v0 id s) in *. clearbody s1. rewrite B. assert (id <? s_size s1 = true) as -> by (apply Nat.ltb_lt; assumption).
    eexists. split; [reflexivity|]. split; [|cbn [s_size]; split; [assumption|lia]]. constructor; cbn [s_cells s_perm s_size s_mr s_pu ab_step a_cell a_perm a_used perm_ideal_step]; try assumption; try reflexivity.
    + rewrite upd_length. assumption.
    + intros i. rewrite nth_upd by lia. rewrite D. destruct (Nat.eqb_spec i id); reflexivity.
  - destruct (sync_ref s a R) as (s' & -> & R' & G). exists s'. split; [reflexivity|]. split; [assumption|]. split; [assumption|lia].
  - destruct (reset_ref it all s a R) as (s' & -> & R' & G). exists s'. split; [reflexivity|]. split; [assumption|]. split; [assumption|lia].
  - rewrite (get_ref c id s a R). destruct (ensure_ref id s a R) as (R' & G & H). eexists. split; [reflexivity|]. split; [assumption|]. split; [assumption|lia].
  - rewrite (getPerm_ref isF id s a R). destruct (ensure_ref id s a R) as (R' & G & H). eexists. split; [reflexivity|]. split; [assumption|]. split; [assumption|lia].
  - rewrite (getSingle_ref c id s a R). destruct (ensure_ref id s a R) as (R' & G & H). eexists. split; [reflexivity|]. split; [assumption|]. split; [assumption|lia].
  - unfold s_getUnsynced. assert ((if isF then s_get v0 ChF id s else s_get v0 ChF id s) = s_get v0 ChF id s) as -> by (destruct isF; reflexivity). rewrite (get_ref ChF id s a R). destruct (ensure_ref id s a R) as (R' & G & H). eexists. split; [reflexivity|]. split; [assumption|]. split; [assumption|lia].
  - unfold s_addUnsynced. rewrite (r_cells _ _ R). assert (id <? s_size s = true) as -> by (apply Nat.ltb_lt; assumption). eexists. split; [reflexivity|]. split; [|cbn [s_size]; split; lia].
    pose proof (add_ref id (if isF then ChF else ChT) v s a R I) as X. destruct isF; exact X.
Qed.
Lemma run_ref h : forall s a, Ref s a -> in_range (s_size s) h -> exists s', fold_left (fun r x => bindr r (fun s => s_step s x)) h (Val s) = Val s' /\ Ref s' (fold_left ab_step (calls h) a).
Proof.
  induction h as [|x h IH]; intros s a R I; cbn [fold_left]; [exists s; split; [reflexivity|assumption]|]. destruct I as (I1 & I2).
  destruct (step_ref x s a R I1) as (s1 & E & R1 & G1 & G2). cbn [bindr]. rewrite E. destruct (IH s1 _ R1) as (s' & E' & R').
  - assert (M : Nat.max (s_size s) (reach x) <= s_size s1) by lia. revert I2 M. generalize (Nat.max (s_size s) (reach x)) (s_size s1). clear. induction h as [|y h IH]; intros b b' H M; [exact I|]. cbn [in_range] in *. destruct H as (H1 & H2). split; [destruct y; auto; lia|]. eapply IH; [exact H2|]. lia.
  - exists s'. split; [exact E'|]. replace (calls (x :: h)) with (calls [x] ++ calls h); [rewrite fold_left_app; exact R'|]. unfold calls. cbn [flat_map]. rewrite app_nil_r. reflexivity.
Qed.
Lemma runs h : in_range 0 h -> exists s, s_run h = Val s /\ Ref s (ab_run (calls h)).
Proof. intros I. exact (run_ref h s_init ab0 ref_init I). Qed.

(** ** Sums *)
Lemma all_values_snoc id c h (o : op V) : all_values id c (h ++ [o]) = if is_reset o then [] else all_values id c h ++ match o with OAdd _ id' c' v => if (id' =? id) && chan_eqb c' c then [v] else [] | _ => [] end.
Proof. unfold all_values. rewrite since_reset_snoc. destruct o; cbn [is_reset]; try reflexivity; rewrite flat_map_app; cbn [flat_map]; rewrite ?app_nil_r; reflexivity. Qed.
Lemma step_sum h o id c : match o with OSync => perm_used h = false \/ c = ChM \/ c = ChR | _ => True end -> cget c (a_cell (ab_run h) id) = fold_left vadd (all_values id c h) v0 ->
  cget c (a_cell (ab_run (h ++ [o])) id) = fold_left vadd (all_values id c (h ++ [o])) v0.
Proof.
  intros Q E. rewrite ab_run_snoc, all_values_snoc. destruct o as [t id' c' v|t id'|g id' isF v| |it all]; cbn [ab_step is_reset a_cell]; rewrite ?app_nil_r; try assumption.
  - rewrite fold_left_app. destruct (Nat.eqb_spec id id') as [-> |N].
    + rewrite Nat.eqb_refl. cbn [andb]. destruct (chan_eqb c' c) eqn:X.
      * apply chan_eqb_eq in X. subst c'. cbn [fold_left]. rewrite <- E. destruct c; reflexivity.
      * cbn [fold_left]. rewrite <- E. destruct c, c'; try discriminate; reflexivity.
    + assert (id' =? id = false) as -> by (apply Nat.eqb_neq; congruence). cbn [andb fold_left]. assumption.
  - rewrite ab_used. destruct Q as [-> | [-> | -> ]]; [assumption|destruct (perm_used h); assumption|destruct (perm_used h); assumption].
  - destruct c; reflexivity.
Qed.
Lemma plain_sum h id c : perm_used h = false \/ c = ChM \/ c = ChR -> cget c (a_cell (ab_run h) id) = fold_left vadd (all_values id c h) v0.
Proof.
  induction h as [|o h IH] using rev_ind; intros Q; [destruct c; reflexivity|]. destruct Q as [Q|Q]; [|apply step_sum; [destruct o; auto|apply IH; auto]].
  rewrite perm_used_snoc in Q. destruct o as [| | | |it [|]]; try discriminate; try (apply step_sum; [auto|apply IH; left; exact Q]).
  rewrite ab_run_snoc, all_values_snoc. cbn [ab_step a_cell is_reset fold_left]. destruct c; reflexivity.
Qed.
Lemma unsummed_sum h id c : unsummed h -> cget c (a_cell (ab_run h) id) = fold_left vadd (all_values id c h) v0.
Proof.
  induction h as [|o h IH] using rev_ind; intros Q; [destruct c; reflexivity|]. unfold unsummed in Q. rewrite since_reset_snoc in Q. destruct (is_reset o) eqn:E.
  - destruct o; try discriminate. rewrite ab_run_snoc, all_values_snoc. cbn [ab_step a_cell is_reset fold_left]. destruct c; reflexivity.
  - apply step_sum; [|apply IH; intros o' I; apply Q, in_or_app; left; assumption]. destruct o; auto. exfalso. apply (Q OSync); [apply in_or_app; right; left|]; reflexivity.
Qed.
End P.
