From Coq Require Import List Arith Bool Lia.
From Verif Require Import Subd_Model Subd_Spec Subd_Proofs Merge_Model Merge_Spec.
Import ListNotations.

Section Proofs.
Context {D X Y : Type} (zero one : D).
Notation world := (bodies D X (rest Y)).
Notation body := (body D X (rest Y)).

(** ** the collective operation *)
Lemma gatherv_concat (bs : list (list D)) : forall pre junk, length junk = list_sum (map (@length D) bs) ->
  gatherv (pre ++ junk) bs (displacements (length pre) (map (@length D) bs)) = Some (pre ++ concat bs).
Proof.
  induction bs as [|b bs IH]; intros pre junk H; cbn [map list_sum fold_right displacements gatherv concat] in *.
  - destruct junk; [reflexivity|discriminate H].
  - unfold write. change (fold_right Nat.add 0 (map (@length D) bs)) with (list_sum (map (@length D) bs)) in H. assert (L : (length pre + length b <=? length (pre ++ junk)) = true) by (apply Nat.leb_le; rewrite app_length; lia). rewrite L.
    rewrite firstn_app, firstn_all, Nat.sub_diag. cbn [firstn]. rewrite app_nil_r, skipn_app. rewrite skipn_all2 by lia. replace (length pre + length b - length pre) with (length b) by lia. cbn [app].
    specialize (IH (pre ++ b) (skipn (length b) junk)). rewrite app_length in IH. rewrite <- !app_assoc in IH. apply IH. rewrite skipn_length. lia.
Qed.
Lemma displ_nth sizes : forall k a, k < length sizes -> nth k (displacements a sizes) 0 = a + list_sum (firstn k sizes).
Proof.
  induction sizes as [|s l IH]; intros k a H; cbn [length] in H; [lia|]. destruct k; cbn [displacements nth firstn list_sum fold_right]; [lia|]. rewrite IH by lia. change (fold_right Nat.add 0 (firstn k l)) with (list_sum (firstn k l)). lia.
Qed.
Lemma len_concat (bs : list (list D)) : length (concat bs) = list_sum (map (@length D) bs).
Proof. induction bs as [|b l IH]; [reflexivity|]. cbn. rewrite app_length, IH. reflexivity. Qed.
Lemma slice_nth (bs : list (list D)) : forall k, k < length bs -> slice (concat bs) (list_sum (firstn k (map (@length D) bs))) (list_sum (firstn (S k) (map (@length D) bs))) = nth k bs [].
Proof.
  unfold slice. induction bs as [|b bs IH]; intros k H; cbn [length] in H; [lia|]. destruct k.
  - cbn [firstn map list_sum fold_right concat skipn nth]. rewrite Nat.add_0_r, Nat.sub_0_r, firstn_app, firstn_all, Nat.sub_diag. cbn. apply app_nil_r.
  - cbn [map concat nth]. specialize (IH k ltac:(lia)). rewrite <- IH. change (list_sum (firstn (S k) (length b :: map (@length D) bs))) with (length b + list_sum (firstn k (map (@length D) bs))). change (list_sum (firstn (S (S k)) (length b :: map (@length D) bs))) with (length b + list_sum (firstn (S k) (map (@length D) bs))).
    rewrite skipn_app, skipn_all2 by lia. cbn [app]. f_equal; [lia|]. f_equal. lia.
Qed.
Lemma firstn_whole {A} (l : list A) k : length l <= k -> firstn k l = l. Proof. apply firstn_all2. Qed.
Lemma slice_of bs k : k < length bs ->
  slice (concat bs) (nth k (displacements 0 (map (@length D) bs)) 0) (if k =? length bs - 1 then length (concat bs) else nth (k + 1) (displacements 0 (map (@length D) bs)) 0) = nth k bs [].
Proof.
  intros H. rewrite <- (slice_nth bs k H). rewrite displ_nth by (rewrite map_length; exact H). cbn [Nat.add]. f_equal. destruct (Nat.eqb_spec k (length bs - 1)) as [E|E].
  - rewrite len_concat, firstn_whole; [reflexivity|rewrite map_length; lia].
  - rewrite displ_nth by (rewrite map_length; lia). replace (k + 1) with (S k) by lia. reflexivity.
Qed.

(** ** who has which body *)
Definition belongsb (w : world) (k i : nat) : bool := match body_at w i with Some b => subdomain (bRest b) =? k | None => false end.
Lemma belongsb_iff w k i : belongsb w k i = true <-> belongs w i k.
Proof.
  unfold belongsb, belongs, body_at. destruct (nth_error w i) as [[b|]|]; [|split; [discriminate|intros (b & H & _); discriminate]..]. rewrite Nat.eqb_eq. split; [intros E; exists b; auto|intros (b' & H & E); injection H as <-; exact E].
Qed.
Lemma belongs_lt (w : world) i k : belongs w i k -> i < length w.
Proof. intros (b & H & _). apply nth_error_Some. congruence. Qed.
Lemma ids_in (w : world) k i : In i (ids_of w k) <-> belongs w i k.
Proof.
  unfold ids_of. rewrite filter_In, in_seq. fold (belongsb w k i). rewrite belongsb_iff. split; [tauto|]. intros H. split; [apply belongs_lt in H; lia|exact H].
Qed.
Lemma filter_none (f : nat -> bool) l : (forall x, In x l -> f x = false) -> filter f l = [].
Proof. induction l as [|x l IH]; intros H; cbn [filter]; [reflexivity|]. rewrite (H x (or_introl eq_refl)). apply IH. intros y Hy. apply H. right. exact Hy. Qed.
Lemma ids_upto (w : world) k N : length w <= N -> ids_of w k = filter (belongsb w k) (seq 0 N).
Proof.
  intros H. replace N with (length w + (N - length w)) by lia. rewrite seq_app, filter_app. rewrite (filter_none (belongsb w k) (seq (0 + length w) _)); [rewrite app_nil_r; reflexivity|].
  intros i Hi. apply in_seq in Hi. destruct (belongsb w k i) eqn:E; [|reflexivity]. apply belongsb_iff, belongs_lt in E. lia.
Qed.
Lemma ids_same (w w' : world) k : (forall i, belongs w i k <-> belongs w' i k) -> ids_of w k = ids_of w' k.
Proof.
  intros H. rewrite (ids_upto w k (length w + length w')), (ids_upto w' k (length w + length w')) by lia. apply filter_ext. intros i. apply Bool.eq_iff_eq_true. rewrite !belongsb_iff. apply H.
Qed.
Lemma ids_exist (w : world) k : exist_all w (ids_of w k).
Proof. intros i H. apply ids_in in H. destruct H as (b & H & _). exists b. exact H. Qed.
Lemma ids_nodup (w : world) k : NoDup (ids_of w k). Proof. apply NoDup_filter, seq_NoDup. Qed.

(** ** what is sent *)
Lemma buffers_ok : forall (ws : list world) rank, exists bs, buffers zero rank ws = Some bs /\ length bs = length ws /\
  forall k (w : world), nth_error ws k = Some w -> 0 < rank + k -> getStateBoundsValuesFromIds zero w (ids_of w (rank + k)) = Some (nth k bs []).
Proof.
  induction ws as [|w ws IH]; intros rank; cbn [buffers].
  - exists []. split; [reflexivity|]. split; [reflexivity|]. intros k w H. destruct k; discriminate H.
  - destruct (IH (S rank)) as (bs & -> & Hl & Hk). assert (S1 : exists b, send_buff zero rank w = Some b /\ (0 < rank -> getStateBoundsValuesFromIds zero w (ids_of w rank) = Some b)).
    { unfold send_buff. destruct (Nat.eqb_spec rank 0) as [E|E]; [exists []; split; [reflexivity|lia]|]. destruct (getb_ok zero w (ids_of w rank) (ids_exist w rank)) as (m & Hm & _). exists m. auto. }
    destruct S1 as (b & -> & Hb). exists (b :: bs). split; [reflexivity|]. split; [cbn; lia|]. intros k w' H R. destruct k; cbn [nth_error nth] in *.
    + injection H as <-. rewrite Nat.add_0_r in *. exact (Hb R).
    + replace (rank + S k) with (S rank + k) in * by lia. apply Hk; [exact H|lia].
Qed.

(** ** marking *)
Lemma marked_refl_but (b : body) : gridNode (bRest b) = true -> marked b b.
Proof. intros H. unfold marked. rewrite H. auto 10. Qed.
Lemma rebound_ok ids : forall (w : world), NoDup ids -> exist_all w ids -> exists w', reboundRemoteBodies w ids = Some w' /\ length w' = length w /\
  (forall id, ~ In id ids -> nth_error w' id = nth_error w id) /\
  (forall id, In id ids -> exists b b', nth_error w id = Some (Some b) /\ nth_error w' id = Some (Some b') /\ bstate b' = bstate b /\ bound b' = bound b /\ marked b' b).
Proof.
  induction ids as [|i ids IH]; intros w N E; cbn [reboundRemoteBodies].
  - exists w. split; [reflexivity|]. split; [reflexivity|]. split; [reflexivity|intros id []].
  - inversion N as [|? ? Ni N']; subst. destruct (E i (or_introl eq_refl)) as (b & Hb). unfold rebound1. rewrite (body_at_nth _ _ _ Hb).
    set (b1 := mkBody (bstate b) (bound b) (mkRest (subdomain (bRest b)) (gridNode (bRest b)) true (others (bRest b)))). set (w1 := if gridNode (bRest b) then w else update w i b1).
    assert (W1 : length w1 = length w /\ (forall j, j <> i -> nth_error w1 j = nth_error w j) /\ exists b', nth_error w1 i = Some (Some b') /\ bstate b' = bstate b /\ bound b' = bound b /\ marked b' b).
    { unfold w1. destruct (gridNode (bRest b)) eqn:G.
      - split; [reflexivity|]. split; [reflexivity|]. exists b. split; [exact Hb|]. split; [reflexivity|]. split; [reflexivity|]. apply marked_refl_but, G.
      - split; [apply update_length|]. split; [intros j Hj; apply update_other, Hj|]. exists b1. split; [apply update_same; apply nth_error_Some; congruence|]. split; [reflexivity|]. split; [reflexivity|]. unfold marked, b1. cbn. rewrite G. auto 10. }
    destruct W1 as (L1 & O1 & b' & B1 & B2 & B3 & B4). destruct (IH w1 N') as (w' & -> & L2 & O2 & K2).
    { intros j Hj. rewrite O1 by (intros ->; contradiction). apply E. right. exact Hj. }
    exists w'. split; [reflexivity|]. split; [lia|]. split.
    + intros j Hj. rewrite O2 by (intros K; apply Hj; right; exact K). apply O1. intros ->. apply Hj. left. reflexivity.
    + intros j [<-|Hj]; [exists b, b'; rewrite O2 by exact Ni; auto|]. destruct (K2 j Hj) as (c & c' & C1 & C2 & C3). rewrite O1 in C1 by (intros ->; contradiction). exists c, c'. auto.
Qed.

(** ** one worker *)
Lemma one_ok n dspl dat k (w src : world) : ids_of src k = ids_of w k ->
  (forall id s, In id (ids_of w k) -> nth_error src id = Some (Some s) -> bound s <> None) ->
  getStateBoundsValuesFromIds zero src (ids_of w k) = Some (slice dat (nth k dspl 0) (if k =? n - 1 then length dat else nth (k + 1) dspl 0)) ->
  exists w', merge_one n dspl dat k w = Some w' /\ length w' = length w /\
  (forall id, ~ belongs w id k -> nth_error w' id = nth_error w id) /\
  (forall id, belongs w id k -> exists s b b', nth_error src id = Some (Some s) /\ nth_error w id = Some (Some b) /\ nth_error w' id = Some (Some b') /\ same_motion b' s /\ bound b' = bound s /\ marked b' b).
Proof.
  intros Ei Hb Hg. unfold merge_one. set (m := slice _ _ _) in *. destruct (setb_from_ok zero src (ids_of w k) 0 w [] m eq_refl (ids_exist w k) Hb Hg) as (w1 & H1 & L1 & O1 & K1). cbn [app] in H1. unfold setStateBoundsValuesFromIds. rewrite H1.
  destruct (rebound_ok (ids_of w k) w1 (ids_nodup w k)) as (w' & -> & L2 & O2 & K2).
  { intros j Hj. destruct (K1 j Hj) as (_ & _ & b' & _ & _ & H & _). exists b'. exact H. }
  exists w'. split; [reflexivity|]. split; [lia|]. split.
  - intros id H. rewrite <- (ids_in w k id) in H. rewrite O2, O1 by exact H. reflexivity.
  - intros id H. rewrite <- (ids_in w k id) in H. destruct (K1 id H) as (s & b & b1 & A1 & A2 & A3 & (M1 & M2 & M3 & M4) & (R1 & R2) & A6). destruct (K2 id H) as (c & b' & C1 & C2 & C3 & C4 & C5). rewrite A3 in C1. injection C1 as <-.
    exists s, b, b'. split; [exact A1|]. split; [exact A2|]. split; [exact C2|]. split; [unfold same_motion; rewrite C3; auto|]. split; [congruence|]. unfold marked in *. rewrite C3 in *. rewrite R2 in C5. destruct C5 as (_ & C5). split; [exact R1|exact C5].
Qed.

(** ** all workers *)
Section Loop.
Variables (ws : list world) (w0 : world).
Hypothesis first : nth_error ws 0 = Some w0.
Hypothesis agr : agreed ws.
Hypothesis box : boxed ws.
Definition upto (j : nat) (w : world) : Prop :=
  length w = length w0 /\
  (forall id k wk, 0 < k <= j -> nth_error ws k = Some wk -> belongs w0 id k ->
    exists s b b', nth_error wk id = Some (Some s) /\ nth_error w0 id = Some (Some b) /\ nth_error w id = Some (Some b') /\ same_motion b' s /\ bound b' = bound s /\ marked b' b) /\
  (forall id, (forall k, 0 < k <= j -> ~ belongs w0 id k) -> nth_error w id = nth_error w0 id).
Lemma belongs_fun (w : world) i k k' : belongs w i k -> belongs w i k' -> k = k'.
Proof. intros (b & H & E) (b' & H' & E'). congruence. Qed.
Lemma range_dec (w : world) i j : (exists k, 0 < k <= j /\ belongs w i k) \/ (forall k, 0 < k <= j -> ~ belongs w i k).
Proof.
  induction j as [|j [(k & R & H)|IH]]; [right; lia|left; exists k; split; [lia|exact H]|]. destruct (belongsb w (S j) i) eqn:E; [left; exists (S j); split; [lia|apply belongsb_iff, E]|]. right. intros k R H. destruct (Nat.eq_dec k (S j)) as [->|N]; [apply belongsb_iff in H; congruence|apply (IH k); [lia|exact H]].
Qed.
Lemma upto_belongs j w : upto j w -> j < length ws -> forall i k, belongs w i k <-> belongs w0 i k.
Proof.
  intros (L & K & O) J i k. destruct (range_dec w0 i j) as [(k' & R & H)|N].
  - destruct (nth_error ws k') as [wk|] eqn:Ew; [|apply nth_error_None in Ew; lia]. destruct (K i k' wk R Ew H) as (s & b & b' & _ & B & B' & _ & _ & M). destruct M as (_ & Ms & _). unfold belongs. rewrite B, B'. split; intros (c & Hc & E); injection Hc as <-; [exists b|exists b']; split; congruence.
  - specialize (O i N). unfold belongs. rewrite O. tauto.
Qed.
Lemma loop_ok bs : length bs = length ws -> (forall k w, nth_error ws k = Some w -> 0 < k -> getStateBoundsValuesFromIds zero w (ids_of w k) = Some (nth k bs [])) ->
  forall m j w, j + m < length ws -> upto j w -> exists w', merge_loop (length ws) (displacements 0 (map (@length D) bs)) (concat bs) (seq (S j) m) w = Some w' /\ upto (j + m) w'.
Proof.
  intros Lb G. induction m as [|m IH]; intros j w H U; cbn [seq merge_loop].
  - exists w. rewrite Nat.add_0_r. auto.
  - destruct (nth_error ws (S j)) as [src|] eqn:Es; [|apply nth_error_None in Es; lia].
    pose proof (upto_belongs j w U ltac:(lia)) as B. assert (Ei : ids_of src (S j) = ids_of w (S j)). { apply ids_same. intros i. rewrite (B i (S j)). symmetry. apply (agr w0 (S j) src i first Es). }
    destruct (one_ok (length ws) (displacements 0 (map (@length D) bs)) (concat bs) (S j) w src Ei) as (w1 & -> & L1 & O1 & K1).
    + intros id s Hi Hs. apply (box (S j) src id s Es Hs); [|lia]. apply ids_in in Hi. rewrite B in Hi. apply (agr w0 (S j) src id first Es) in Hi. destruct Hi as (s' & Hs' & E). congruence.
    + rewrite <- Ei, (G (S j) src Es ltac:(lia)). f_equal. rewrite <- Lb. symmetry. apply slice_of. lia.
    + replace (j + S m) with (S j + m) by lia. apply IH; [lia|]. destruct U as (L & K & O). split; [lia|]. split.
      * intros id k wk R Ew Hb. destruct (Nat.eq_dec k (S j)) as [->|N].
        -- rewrite Es in Ew. injection Ew as <-. destruct (K1 id (proj2 (B id (S j)) Hb)) as (s & b & b' & A1 & A2 & A3). rewrite (O id) in A2; [exists s, b, b'; auto|]. intros k' R' Hb'. pose proof (belongs_fun _ _ _ _ Hb Hb'). lia.
        -- destruct (K id k wk ltac:(lia) Ew Hb) as (s & b & b' & A1 & A2 & A3 & A4). rewrite <- (O1 id) in A3; [exists s, b, b'; auto|]. rewrite B. intros Hb'. pose proof (belongs_fun _ _ _ _ Hb Hb'). lia.
      * intros id Hn. rewrite O1; [apply O; intros k R; apply Hn; lia|]. rewrite B. apply Hn. lia.
Qed.
Lemma merge_ok : exists w', mergeScene zero one ws = Some w' /\ merged ws w0 w'.
Proof.
  unfold mergeScene. destruct ws as [|w0' ws'] eqn:Ews; [discriminate first|]. rewrite <- Ews in *. destruct (buffers_ok ws 0) as (bs & -> & Lb & G). cbn [Nat.add] in G.
  assert (Gv : gatherv (repeat one (list_sum (map (@length D) bs))) bs (displacements 0 (map (@length D) bs)) = Some (concat bs)) by (apply (gatherv_concat bs []); apply repeat_length). rewrite Gv.
  assert (L0 : 0 < length ws) by (rewrite Ews; cbn; lia). assert (w0' = w0) by (rewrite Ews in first; cbn in first; congruence). subst w0'. destruct (loop_ok bs Lb G (length ws - 1) 0 w0) as (w' & H & (U1 & U2 & U3)); [lia| |].
  - split; [reflexivity|]. split; [lia|reflexivity].
  - rewrite H. exists w'. split; [reflexivity|]. split; [exact U1|]. split.
    + intros id k w R Ew. apply U2; [|exact Ew]. assert (k < length ws) by (apply nth_error_Some; congruence). lia.
    + intros id Hn. apply U3. intros k R. apply Hn. lia.
Qed.
End Loop.
End Proofs.
