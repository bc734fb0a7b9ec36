(** Proofs about data kept for plots: images and text. *)
From Coq Require Import String Ascii Arith Bool List Lia.
From Verif Require Import Plot_Model Plot_Spec Plot_Proofs Plot_Proofs2.
Import ListNotations.
Local Open Scope string_scope.
Local Open Scope nat_scope.
Local Open Scope list_scope.

(** ** images *)
Lemma last_repeat {V} (x : V) n : last_or x (repeat x n) = x.
Proof. unfold last_or. destruct (rev (repeat x n)) as [|y l] eqn:E; [reflexivity|]. assert (I : In y (rev (repeat x n))) by (rewrite E; now left). apply in_rev in I. exact (repeat_spec _ _ _ I). Qed.
Lemma last_app {V} (v w : V) c d : d <> [] -> last_or v (c ++ d) = last_or w d.
Proof. unfold last_or. rewrite rev_app_distr. destruct (rev d) as [|y l] eqn:E; [intros H; exfalso; apply H; rewrite <- (rev_involutive d), E; reflexivity|reflexivity]. Qed.
Lemma last_fill {V} (v : V) c n : last_or v (c ++ repeat (last_or v c) n) = last_or v c.
Proof.
  destruct n as [|n]; [now rewrite app_nil_r|]. rewrite (last_app v (last_or v c)) by discriminate. apply last_repeat.
Qed.
Section I.
Context {A : Type}.
Lemma image_ok k0 kw (s : plotvars A) n m : table n (data s) -> table m (imgData s) -> (data s = [] -> n = 0) -> (imgData s = [] -> m = 0) ->
  (imgData s = [] \/ In k0 (keys (imgData s))) -> (0 < m \/ forall k, In k (keys (imgData s)) -> In k (keys kw)) ->
  exists img' data', addImgData k0 kw s = Ok (mkPlot data' img' (plots s) (labels s)) /\
    table (S (Nat.max m (n - 1))) img' /\ image_added kw (Nat.max m (n - 1)) (imgData s) img' /\
    data' = map_values (fun _ c => c ++ repeat (last_or None c) (m - n)) (data s).
Proof.
  intros Td Ti Hd Hi Hk0 Hm. pose proof (proj1 (table_lookup _ _) Td) as [Nd Ld]. pose proof (proj1 (table_lookup _ _) Ti) as [Ni Li].
  destruct (add_missing_spec (@nil (option string)) (keys kw) (imgData s) Ni) as [Na La].
  remember (first k0 (add_missing [] (keys kw) (imgData s))) as img0 eqn:Eimg.
  assert (N0 : NoDup (keys img0)) by (rewrite Eimg; now apply nodup_first).
  assert (L0 : forall k, lookup img0 k = match lookup (imgData s) k with Some w => Some w | None => if in_dec string_dec k (keys kw) then Some [] else None end) by (intros k; rewrite Eimg, lookup_first by exact Na; apply La).
  (* the length of the first column *)
  assert (R0 : img0 <> [] -> num_rows img0 = m).
  { intros Ne. destruct Hk0 as [E|K].
    - rewrite (Hi E). destruct img0 as [|[q c] r]; [now destruct Ne|]. cbn [num_rows]. assert (Q : lookup ((q, c) :: r) q = Some c) by (cbn [lookup]; now rewrite String.eqb_refl). rewrite L0, E in Q. cbn [lookup] in Q. destruct (in_dec _ _ _); [|discriminate]. injection Q as <-. reflexivity.
    - apply keys_iff in K. destruct K as (c & K). rewrite Eimg. unfold first. rewrite La, K. cbn [num_rows]. exact (Li k0 c K). }
  assert (Rd : data s = [] \/ num_rows (data s) = n) by (apply table_rows; exact Td).
  (* after alignment *)
  set (r := Nat.max m (n - 1)).
  assert (Al : exists img1, (if negb (length (data s) =? 0) && negb (length img0 =? 0) then
      let nData := num_rows (data s) in
      let nImgData := num_rows img0 in
      if nImgData <? nData - 1 then (map_values (fun _ c => c ++ repeat (last_or None c) (nData - length c - 1)) img0, data s)
      else if nData <? nImgData then (img0, map_values (fun _ c => c ++ repeat (last_or None c) (nImgData - nData)) (data s))
      else (img0, data s)
    else (img0, data s)) = (img1, map_values (fun _ c => c ++ repeat (last_or None c) (m - n)) (data s)) /\
    keys img1 = keys img0 /\ (img1 = [] \/ num_rows img1 = r) /\
    ((r = m /\ img1 = img0) \/ (m < r /\ img1 = map_values (fun _ c => c ++ repeat (last_or None c) (r - length c)) img0))).
  { assert (Same : n >= m -> map_values (fun _ c => c ++ repeat (last_or None c) (m - n)) (data s) = data s).
    { intros G. replace (m - n) with 0 by lia. unfold map_values. rewrite <- (map_id (data s)) at 2. apply map_ext. intros [q c]. cbn [fst snd repeat]. now rewrite app_nil_r. }
    destruct (length (data s) =? 0) eqn:E0.
    - apply Nat.eqb_eq in E0. assert (data s = []) as Ed by (destruct (data s); [reflexivity|discriminate]). cbn [negb andb]. exists img0. rewrite Ed. split; [reflexivity|]. split; [reflexivity|].
      assert (r = m) by (unfold r; rewrite (Hd Ed); lia). split; [|left; auto]. destruct img0 as [|p l]; [now left|right]. rewrite R0 by discriminate. congruence.
    - destruct Rd as [Ed|Ed]; [rewrite Ed in E0; discriminate|].
      destruct (length img0 =? 0) eqn:E1; cbn [negb andb].
      + apply Nat.eqb_eq in E1. assert (img0 = []) as Ei by (destruct img0; [reflexivity|discriminate]). exists img0.
        assert (Im : imgData s = []).
        { destruct (imgData s) as [|[q c] l] eqn:Eq; [reflexivity|]. specialize (L0 q). rewrite Ei in L0. cbn [lookup] in L0. rewrite String.eqb_refl in L0. discriminate. }
        rewrite Same by (rewrite (Hi Im); lia). split; [reflexivity|]. split; [reflexivity|]. split; [now left|]. rewrite Ei.
        destruct (Nat.eq_dec r m) as [Er|Er]; [left; auto|right]. split; [unfold r in *; lia|reflexivity].
      + assert (Ne : img0 <> []) by (intros E; rewrite E in E1; discriminate). rewrite (R0 Ne), Ed. destruct (Nat.ltb_spec m (n - 1)) as [Lt|Ge].
        * eexists. split; [rewrite Same by lia; reflexivity|]. split; [apply keys_map_values|].
          assert (Er : r = n - 1) by (unfold r; lia).
          assert (Em : map_values (fun _ c => c ++ repeat (last_or None c) (n - length c - 1)) img0 = map_values (fun _ c => c ++ repeat (last_or None c) (r - length c)) img0).
          { unfold map_values. apply map_ext. intros [q c]. cbn [fst snd]. do 3 f_equal. lia. }
          rewrite Em. split; [|right; split; [lia|reflexivity]]. right. pose proof (R0 Ne) as Rn. destruct img0 as [|[q c] l]; [now destruct Ne|]. cbn [num_rows] in Rn. cbn [map_values map num_rows fst snd]. rewrite app_length, repeat_length. lia.
        * assert (Er : r = m) by (unfold r; lia). exists img0. destruct (Nat.ltb_spec n m) as [Lt2|Ge2]; [|rewrite Same by lia]; (split; [reflexivity|]; split; [reflexivity|]; split; [right; rewrite (R0 Ne); now symmetry|left; auto]). }
  destruct Al as (img1 & Ea & Ek1 & Rn1 & H1). unfold addImgData. rewrite <- Eimg. cbv zeta in Ea. rewrite Ea. clear Ea.
  assert (EnewLen : img1 <> [] -> (if length img1 =? 0 then 0 else num_rows img1) + 1 = S r).
  { intros Ne. destruct Rn1 as [E|E]; [contradiction|]. rewrite E. destruct img1; [now destruct Ne|]. cbn [length Nat.eqb]. lia. }
  set (newLen := (if length img1 =? 0 then 0 else num_rows img1) + 1) in *. cbv zeta.
  (* columns after alignment *)
  assert (L1 : forall k, lookup img1 k = option_map (fun c => c ++ repeat (last_or None c) (if Nat.eqb r m then 0 else r - length c)) (lookup img0 k)).
  { intros k. destruct H1 as [[Er ->]|[Lt ->]].
    - rewrite Er, Nat.eqb_refl. destruct (lookup img0 k); cbn [option_map repeat]; [now rewrite app_nil_r|reflexivity].
    - destruct (Nat.eqb_spec r m); [lia|]. apply lookup_map_values. }
  assert (N1 : NoDup (keys img1)) by (rewrite Ek1; exact N0).
  set (img2 := map_values (fun k c => match lookup kw k with
      | None => c
      | Some v => if 0 <? length c then c ++ repeat (last_or None c) (newLen - length c - 1) ++ [Some v] else repeat None (newLen - 1) ++ [Some v]
      end) img1).
  (* lengths of columns in img0: m or, if new, 0 and in kw *)
  assert (Len0 : forall k c, lookup img0 k = Some c -> (length c = m /\ lookup (imgData s) k = Some c) \/ (c = [] /\ lookup (imgData s) k = None /\ In k (keys kw))).
  { intros k c. rewrite L0. destruct (lookup (imgData s) k) as [w|] eqn:E; [intros [= <-]; left; split; [exact (Li k w E)|reflexivity]|]. destruct (in_dec _ _ _); [|discriminate]. intros [= <-]. right. auto. }
  assert (L2 : forall k, lookup img2 k = match lookup img0 k with
      | None => None
      | Some c => Some (match lookup kw k with
                        | Some f => c ++ repeat (last_or None c) (r - length c) ++ [Some f]
                        | None => c ++ repeat (last_or None c) (if Nat.eqb r m then 0 else r - length c) end) end).
  { intros k. unfold img2. rewrite lookup_map_values, L1. destruct (lookup img0 k) as [c|] eqn:E; [|reflexivity]. cbn [option_map].
    assert (NL : newLen = S r) by (apply EnewLen; intros E'; specialize (L1 k); rewrite E', E in L1; discriminate L1).
    destruct (lookup kw k) as [f|] eqn:Ef; [|reflexivity]. rewrite NL. do 1 f_equal.
    destruct (Nat.ltb_spec 0 (length (c ++ repeat (last_or None c) (if r =? m then 0 else r - length c)))) as [P|Z].
    - rewrite last_fill, app_length, repeat_length, <- app_assoc. f_equal. rewrite app_assoc, <- repeat_app. do 2 f_equal. destruct (Nat.eqb_spec r m); lia.
    - rewrite app_length, repeat_length in Z. assert (length c = 0) by lia. destruct c; [|discriminate]. cbn [app length last_or rev]. rewrite Nat.sub_0_r. replace (S r - 1) with r by lia. reflexivity. }
  assert (K2 : keys img2 = keys img0) by (unfold img2; rewrite keys_map_values; exact Ek1).
  assert (N2 : NoDup (keys img2)) by (rewrite K2; exact N0).
  assert (F1 : forallb (fun x => (newLen <=? length (snd x)) || (0 <? length (snd x))) img2 = true).
  { apply forallb_forall. intros [k c] I. cbn [snd]. pose proof (in_lookup _ _ _ N2 I) as L. rewrite L2 in L. destruct (lookup img0 k) as [c0|] eqn:E; [|discriminate]. injection L as <-. apply orb_true_iff. right. apply Nat.ltb_lt.
    destruct (lookup kw k) as [f|] eqn:Ef; [rewrite !app_length; cbn [length]; lia|]. rewrite app_length.
    destruct (Len0 k c0 E) as [[Hl Hin]|(_ & _ & Hk)]; [|apply keys_iff in Hk; destruct Hk; congruence].
    destruct Hm as [Hm|Hm]; [lia|]. exfalso. assert (K : In k (keys kw)) by (apply Hm, keys_iff; eauto). apply keys_iff in K. destruct K. congruence. }
  rewrite F1. set (img3 := map_values _ img2).
  assert (L3 : forall k, lookup img3 k = match lookup img0 k with
      | None => None
      | Some c => Some (match lookup kw k with
                        | Some f => c ++ repeat (last_or None c) (r - length c) ++ [Some f]
                        | None => c ++ repeat (last_or None c) (S r - length c) end) end).
  { intros k. unfold img3. rewrite lookup_map_values, L2. destruct (lookup img0 k) as [c|] eqn:E; [|reflexivity]. cbn [option_map].
    assert (NL : newLen = S r) by (apply EnewLen; intros E'; specialize (L1 k); rewrite E', E in L1; discriminate L1).
    assert (Hcr : length c <= r) by (destruct (Len0 k c E) as [[Hl _]|(-> & _)]; [unfold r; lia|cbn [length]; lia]).
    rewrite NL. f_equal. destruct (lookup kw k) as [f|] eqn:Ef.
    - destruct (Nat.ltb_spec (length (c ++ repeat (last_or None c) (r - length c) ++ [Some f])) (S r)) as [H|H]; [|reflexivity]. rewrite !app_length, repeat_length in H. cbn [length] in H. lia.
    - destruct (Len0 k c E) as [[Hl _]|(_ & _ & Hk)]; [|apply keys_iff in Hk; destruct Hk; congruence].
      destruct (Nat.ltb_spec (length (c ++ repeat (last_or None c) (if r =? m then 0 else r - length c))) (S r)) as [H|H]; rewrite app_length, repeat_length in H.
      + rewrite last_fill, app_length, repeat_length, <- app_assoc. f_equal. rewrite <- repeat_app. f_equal. destruct (Nat.eqb_spec r m); lia.
      + exfalso. destruct (Nat.eqb_spec r m); lia. }
  assert (T3 : table (S r) img3).
  { apply table_lookup. split; [unfold img3; rewrite keys_map_values; exact N2|]. intros k c. rewrite L3. destruct (lookup img0 k) as [c0|] eqn:E; [|discriminate]. intros [= <-].
    assert (Hcr : length c0 <= r) by (destruct (Len0 k c0 E) as [[Hl _]|(-> & _)]; [unfold r; lia|cbn [length]; lia]).
    destruct (lookup kw k); [rewrite !app_length, repeat_length; cbn [length]|rewrite app_length, repeat_length]; try lia; destruct (length c0); lia. }
  assert (F2 : forallb (fun x => length (snd x) =? num_rows img3) img3 = true).
  { apply forallb_forall. intros [k c] I. cbn [snd]. destruct (table_rows _ _ T3) as [E|E]; [rewrite E in I; destruct I|]. rewrite E. apply Nat.eqb_eq. exact (proj2 T3 k c I). }
  rewrite F2. exists img3, (map_values (fun _ c => c ++ repeat (last_or None c) (m - n)) (data s)). split; [reflexivity|]. split; [exact T3|]. split; [|reflexivity].
  intros k. cbv zeta. rewrite L3, L0. destruct (lookup (imgData s) k) as [c|] eqn:E; cbn [option_map].
  - destruct (lookup kw k); reflexivity.
  - destruct (in_dec string_dec k (keys kw)) as [Hk|Hk].
    + apply keys_iff in Hk. destruct Hk as (f & ->). reflexivity.
    + destruct (lookup kw k) as [f|] eqn:Ef; [exfalso; apply Hk, keys_iff; eauto|reflexivity].
Qed.
End I.
