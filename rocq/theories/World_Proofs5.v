(** Interactions: purge, eraseNonReal, clear, save and reload; the invariant along histories. *)
From stdpp Require Import gmap list.
From Coq Require Import ZArith Lia.
From Verif Require Import World_Model World_Spec World_Proofs1 World_Proofs2 World_Proofs3 World_Proofs4.

Definition same_content (w w' : world) : Prop := forall q, content <$> iheap w' !! q = content <$> iheap w !! q.
Lemma same_content_trans w1 w2 w3 : same_content w1 w2 -> same_content w2 w3 -> same_content w1 w3.
Proof. intros H1 H2 q. rewrite H2. apply H1. Qed.
Lemma same_content_get w w' q x : same_content w w' -> iheap w !! q = Some x -> exists x', iheap w' !! q = Some x' /\ content x' = content x.
Proof. intros H E. specialize (H q). rewrite E in H. destruct (iheap w' !! q) as [x'|]; [|discriminate]. exists x'. split; [reflexivity|]. cbn in H. congruence. Qed.
Lemma same_content_get' w w' q x' : same_content w w' -> iheap w' !! q = Some x' -> exists x, iheap w !! q = Some x /\ content x' = content x.
Proof. intros H E. specialize (H q). rewrite E in H. destruct (iheap w !! q) as [x|]; [|discriminate]. exists x. split; [reflexivity|]. cbn in H. congruence. Qed.

(** predicates that only look at ids, geometry, physics *)
Definition on_content (U : intr -> bool) : Prop := forall x x', content x = content x' -> U x = U x'.
Lemma unwanted_content P : on_content (unwanted P).
Proof. intros x x' E. unfold unwanted, content in *. injection E as -> -> -> ->. reflexivity. Qed.
Lemma isReal_content : on_content isReal.
Proof. intros x x' E. unfold isReal, content in *. injection E as _ _ -> ->. reflexivity. Qed.

Definition kept (U : intr -> bool) (w w' : world) : Prop :=
  forall q, q ∈ lin w' <-> q ∈ lin w /\ forall x, iheap w !! q = Some x -> U x = false.
Definition purged (U : intr -> bool) (w w' : world) : Prop :=
  InvI w' /\ same_meta w w' /\ nexti w' = nexti w /\ same_content w w' /\ kept U w w'.

Lemma V_meta w w' : InvA w -> same_meta w w' -> forall k, view w' k = view w k.
Proof. intros HA H k. eapply V_same_meta; eassumption. Qed.

Lemma purged_exactly U w w' : InvI w -> purged U w w' -> removed_exactly U w w'.
Proof. intros H (I' & M & _ & C & K). split; [exact K|]. split; [exact C|]. split; [apply M|]. apply V_meta; [apply (I0 w H)|exact M]. Qed.

Lemma keep_step U w w1 q x : on_content U -> InvI w -> same_content w w1 -> q ∈ lin w -> iheap w !! q = Some x -> U x = true ->
  (forall q', q' ∈ lin w1 <-> q' ∈ lin w /\ q' <> q) ->
  forall w', kept U w1 w' -> kept U w w'.
Proof.
  intros HU HI C Hq Ex Eu Hl w' K q'. rewrite (K q'), Hl. split.
  - intros [[H1 H2] H3]. split; [exact H1|]. intros y Ey. destruct (same_content_get _ _ _ _ C Ey) as (y' & Ey' & Ec). rewrite <- (HU _ _ Ec). apply H3, Ey'.
  - intros [H1 H2]. split; [split; [exact H1|]|].
    + intros ->. rewrite (H2 x Ex) in Eu. discriminate.
    + intros y Ey. destruct (same_content_get' _ _ _ _ C Ey) as (y' & Ey' & Ec). rewrite (HU _ _ Ec). apply H2, Ey'.
Qed.

Lemma purge_seq_spec P fuel : forall w p, InvI w -> length (lin w) - p < fuel ->
  (forall k q x, k < p -> lin w !! k = Some q -> iheap w !! q = Some x -> unwanted P x = false) ->
  exists w', purge_seq fuel P w p = Ret tt w' /\ purged (unwanted P) w w'.
Proof.
  induction fuel as [|fuel IH]; intros w p H Hf Hk; [lia|]. cbn [purge_seq].
  destruct (lin w !! p) as [q|] eqn:Ep.
  - pose proof (lookup_lt_Some _ _ _ Ep) as Hlt. destruct (I1 w H p q Ep) as (x & Ex & _). rewrite Ex.
    change (negb (isReal x) && P (id1 x) (id2 x)) with (unwanted P x). destruct (unwanted P x) eqn:Eu.
    + destruct (ic_erase_spec w p q x H Ep Ex) as (w1 & E1 & H1 & M1 & N1 & L1 & K1 & Q1 & C1). rewrite E1. cbn [bind].
      destruct (IH w1 p H1) as (w' & E' & I' & M' & N' & C' & K'); [lia| |].
      { intros k q' x' Hkp Hq' Ex'. rewrite (K1 k Hkp) in Hq'. destruct (same_content_get' w w1 q' x' C1 Ex') as (x0 & Ex0 & Ec). rewrite (unwanted_content P _ _ Ec). eapply Hk; eassumption. }
      exists w'. split; [exact E'|]. split; [exact I'|]. split; [eapply same_meta_trans; eassumption|]. split; [congruence|].
      split; [eapply same_content_trans; eassumption|]. eapply (keep_step _ w w1 q x); [apply unwanted_content|exact H|exact C1|eapply elem_of_list_lookup_2; exact Ep|exact Ex|exact Eu|exact Q1|exact K'].
    + apply IH; [exact H|lia|]. intros k q' x' Hkp Hq' Ex'. destruct (decide (k = p)) as [->|]; [congruence|]. eapply Hk; [|exact Hq'|exact Ex']. lia.
  - exists w. split; [reflexivity|]. split; [exact H|]. split; [apply same_meta_refl|]. split; [reflexivity|]. split; [intros q; reflexivity|].
    intros q. split; [|tauto]. intros Hq. split; [exact Hq|]. intros x Ex. apply elem_of_list_lookup in Hq as [k Hq]. eapply Hk; [|exact Hq|exact Ex].
    pose proof (lookup_lt_Some _ _ _ Hq). apply lookup_ge_None_1 in Ep. lia.
Qed.

(** ** several threads *)
Lemma concat_reverse {A} (L : list (list A)) : concat (map (@reverse A) (reverse L)) = reverse (concat L).
Proof.
  induction L as [|a L IH]; [reflexivity|]. rewrite reverse_cons, map_app, concat_app, IH. cbn [concat map]. rewrite app_nil_r, <- reverse_app. reflexivity.
Qed.
Lemma foldl_erase_all (L : list (list (nat * nat * nat))) r :
  foldl (fun acc c => bind acc (fun _ w => erase_all w c)) r L =
  foldl (fun acc e => bind acc (fun _ w => bind (ic_erase w e.1.1 e.1.2 e.2) (fun _ w => Ret tt w))) r (concat L).
Proof.
  revert r. induction L as [|c L IH]; intros r; [reflexivity|]. cbn [foldl concat]. rewrite foldl_app, <- IH. f_equal.
  unfold erase_all. destruct r as [[] w|w| |]; cbn [bind]; [reflexivity| | |]; induction c as [|e c IHc]; cbn [foldl]; auto.
Qed.
Lemma purge_par_all P w chunks : purge_par P w chunks = erase_all w (reverse (concat (map (to_erase P w) chunks))).
Proof.
  unfold purge_par. rewrite <- concat_reverse. unfold erase_all at 2. rewrite <- foldl_erase_all.
  generalize (reverse (map (to_erase P w) chunks)) as L. intros L. generalize (Ret tt w) as r. induction L as [|c L IH]; intros r; [reflexivity|]. cbn [foldl map]. apply IH.
Qed.
Lemma concat_omap {A B} (f : A -> option B) (L : list (list A)) : concat (map (omap f) L) = omap f (concat L).
Proof. induction L as [|a L IH]; [reflexivity|]. cbn [concat map]. rewrite IH. symmetry. apply omap_app. Qed.

Lemma erase_all_app w l1 l2 : erase_all w (l1 ++ l2) = bind (erase_all w l1) (fun _ w => erase_all w l2).
Proof.
  unfold erase_all. rewrite foldl_app. destruct (foldl _ (Ret tt w) l1) as [[] w1|w1| |]; cbn [bind]; [reflexivity| | |]; induction l2 as [|e l2 IH]; cbn [foldl]; auto.
Qed.

Lemma erase_par_spec P w0 (H0 : InvI w0) n : n <= length (lin w0) -> forall w, InvI w ->
  (forall k, k < n -> lin w !! k = lin w0 !! k) -> same_content w0 w ->
  exists w', erase_all w (reverse (to_erase P w0 (seq 0 n))) = Ret tt w' /\ InvI w' /\ same_meta w w' /\ nexti w' = nexti w /\ same_content w w' /\
    forall q, q ∈ lin w' <-> q ∈ lin w /\ forall k x, k < n -> lin w0 !! k = Some q -> iheap w0 !! q = Some x -> unwanted P x = false.
Proof.
  induction n as [|n IH]; intros Hn w H Hk C.
  - exists w. split; [reflexivity|]. split; [exact H|]. split; [apply same_meta_refl|]. split; [reflexivity|]. split; [intros q; reflexivity|].
    intros q. split; [intros Hq; split; [exact Hq|intros; lia]|tauto].
  - rewrite seq_S. unfold to_erase. rewrite omap_app, reverse_app. fold (to_erase P w0 (seq 0 n)). cbn [Nat.add omap list_omap].
    destruct (lookup_lt_is_Some_2 (lin w0) n ltac:(lia)) as [q Eq]. rewrite Eq. destruct (I1 w0 H0 n q Eq) as (x & Ex & _). rewrite Ex.
    change (negb (isReal x) && P (id1 x) (id2 x)) with (unwanted P x). destruct (unwanted P x) eqn:Eu.
    + rewrite erase_all_app. assert (Eq' : lin w !! n = Some q) by (rewrite Hk by lia; exact Eq).
      destruct (same_content_get _ _ _ _ C Ex) as (x1 & Ex1 & Ec). pose proof Ec as Ec'. injection Ec' as Ei1 Ei2 _ _.
      destruct (ic_erase_spec w n q x1 H Eq' Ex1) as (w1 & E1 & H1 & M1 & N1 & L1 & K1 & Q1 & C1). rewrite Ei1, Ei2 in E1.
      assert (E1' : erase_all w (reverse [(id1 x, id2 x, n)]) = Ret tt w1) by (unfold erase_all; cbn; rewrite E1; reflexivity). rewrite E1'. cbn [bind].
      destruct (IH ltac:(lia) w1 H1) as (w' & E' & I' & M' & N' & C' & K').
      { intros k Hkn. rewrite K1 by lia. apply Hk. lia. }
      { eapply same_content_trans; [exact C|exact C1]. }
      exists w'. split; [exact E'|]. split; [exact I'|]. split; [eapply same_meta_trans; eassumption|]. split; [congruence|].
      split; [eapply same_content_trans; eassumption|]. intros q'. rewrite K', Q1. split.
      * intros [[Hq' Hne] Hu]. split; [exact Hq'|]. intros k x' Hkn Hk' Ex'. destruct (decide (k = n)) as [->|]; [congruence|]. eapply Hu; [|exact Hk'|exact Ex']. lia.
      * intros [Hq' Hu]. split; [split; [exact Hq'|]|].
        { intros ->. rewrite (Hu n x ltac:(lia) Eq Ex) in Eu. discriminate. }
        { intros k x' Hkn. apply Hu. lia. }
    + cbn [reverse rev_append]. change (reverse [] ++ ?l) with l. destruct (IH ltac:(lia) w H) as (w' & E' & I' & M' & N' & C' & K'); [intros k Hkn; apply Hk; lia|exact C|].
      exists w'. split; [exact E'|]. split; [exact I'|]. split; [exact M'|]. split; [exact N'|]. split; [exact C'|]. intros q'. rewrite K'. split.
      * intros [Hq' Hu]. split; [exact Hq'|]. intros k x' Hkn Hk' Ex'. destruct (decide (k = n)) as [->|]; [congruence|]. eapply Hu; [|exact Hk'|exact Ex']. lia.
      * intros [Hq' Hu]. split; [exact Hq'|]. intros k x' Hkn. apply Hu. lia.
Qed.

Lemma purge_par_spec P w chunks : InvI w -> concat chunks = seq 0 (length (lin w)) ->
  exists w', purge_par P w chunks = Ret tt w' /\ purged (unwanted P) w w'.
Proof.
  intros H Hc. rewrite purge_par_all. unfold to_erase. rewrite concat_omap, Hc. fold (to_erase P w (seq 0 (length (lin w)))).
  destruct (erase_par_spec P w H (length (lin w)) ltac:(lia) w H) as (w' & E & I' & M & N & C & K); [reflexivity|intros q; reflexivity|].
  exists w'. split; [exact E|]. split; [exact I'|]. split; [exact M|]. split; [exact N|]. split; [exact C|]. intros q. rewrite K. split.
  - intros [Hq Hu]. split; [exact Hq|]. intros x Ex. apply elem_of_list_lookup in Hq as [k Hk]. eapply Hu; [|exact Hk|exact Ex]. eapply lookup_lt_Some; exact Hk.
  - intros [Hq Hu]. split; [exact Hq|]. intros k x _ _ Ex. apply Hu, Ex.
Qed.

(** ** eraseNonReal *)
Lemma enr_ub n : forall w p, InvI w -> length (lin w) < n + p -> p <= length (lin w) -> eraseNonReal_loop n w p = UB.
Proof.
  induction n as [|n IH]; intros w p H Hl Hp; [lia|]. cbn [eraseNonReal_loop]. destruct (lin w !! p) as [q|] eqn:Ep; [|reflexivity].
  pose proof (lookup_lt_Some _ _ _ Ep). destruct (I1 w H p q Ep) as (x & Ex & Ei). rewrite Ex. destruct (isReal x); [apply IH; [exact H|lia|lia]|].
  assert (Z.to_nat (linIx x) = p) as -> by lia. destruct (ic_erase_spec w p q x H Ep Ex) as (w1 & E1 & H1 & M1 & N1 & L1 & _). rewrite E1. cbn [bind].
  destruct (decide (S p <= length (lin w1))) as [Hs|Hs]; [apply IH; [exact H1|lia|exact Hs]|].
  destruct n as [|n]; [lia|]. cbn [eraseNonReal_loop]. rewrite lookup_ge_None_2 by lia. reflexivity.
Qed.

Lemma enr_ub_at n : forall w p, InvI w -> n + p = length (lin w) ->
  (exists k q x, p <= k /\ S k < length (lin w) /\ lin w !! k = Some q /\ iheap w !! q = Some x /\ isReal x = false) ->
  eraseNonReal_loop n w p = UB.
Proof.
  induction n as [|n IH]; intros w p H Hl (k & q & x & Hk1 & Hk2 & Eq & Ex & Er); [lia|]. cbn [eraseNonReal_loop].
  destruct (decide (k = p)) as [->|Hne].
  - rewrite Eq, Ex, Er. destruct (I1 w H p q Eq) as (x' & Ex' & Ei). rewrite Ex in Ex'. injection Ex' as <-.
    assert (Z.to_nat (linIx x) = p) as -> by lia. destruct (ic_erase_spec w p q x H Eq Ex) as (w1 & E1 & H1 & M1 & N1 & L1 & _). rewrite E1. cbn [bind].
    apply enr_ub; [exact H1|lia|lia].
  - destruct (lookup_lt_is_Some_2 (lin w) p ltac:(lia)) as [q0 Eq0]. rewrite Eq0. destruct (I1 w H p q0 Eq0) as (x0 & Ex0 & Ei). rewrite Ex0.
    destruct (isReal x0) eqn:Er0.
    + apply IH; [exact H|lia|]. exists k, q, x. split; [lia|]. auto.
    + assert (Z.to_nat (linIx x0) = p) as -> by lia. destruct (ic_erase_spec w p q0 x0 H Eq0 Ex0) as (w1 & E1 & H1 & M1 & N1 & L1 & _). rewrite E1. cbn [bind].
      apply enr_ub; [exact H1|lia|lia].
Qed.

Lemma enr_ok n : forall w p, InvI w -> n + p = length (lin w) ->
  (forall k q x, S k < length (lin w) -> lin w !! k = Some q -> iheap w !! q = Some x -> isReal x = true) ->
  exists w', eraseNonReal_loop n w p = Ret tt w' /\ InvI w' /\ same_meta w w' /\ nexti w' = nexti w /\ same_content w w' /\
    (forall q, q ∈ lin w' <-> q ∈ lin w /\ forall x, p < length (lin w) -> iheap w !! q = Some x -> isReal x = true).
Proof.
  induction n as [|n IH]; intros w p H Hl Hr.
  - exists w. split; [reflexivity|]. split; [exact H|]. split; [apply same_meta_refl|]. split; [reflexivity|]. split; [intros q; reflexivity|].
    intros q. split; [intros Hq; split; [exact Hq|intros; lia]|tauto].
  - cbn [eraseNonReal_loop]. destruct (lookup_lt_is_Some_2 (lin w) p ltac:(lia)) as [q Eq]. rewrite Eq. destruct (I1 w H p q Eq) as (x & Ex & Ei). rewrite Ex.
    destruct (isReal x) eqn:Er.
    + destruct (IH w (S p) H ltac:(lia) Hr) as (w' & E' & I' & M' & N' & C' & K').
      exists w'. split; [exact E'|]. split; [exact I'|]. split; [exact M'|]. split; [exact N'|]. split; [exact C'|]. intros q'. rewrite K'. split.
      * intros [Hq' Hu]. split; [exact Hq'|]. intros y _ Ey. destruct (decide (S p < length (lin w))) as [Hs|Hs]; [apply Hu; assumption|].
        apply elem_of_list_lookup in Hq' as [k Hk']. pose proof (lookup_lt_Some _ _ _ Hk'). destruct (decide (S k < length (lin w))) as [Hs'|Hs']; [eapply Hr; eassumption|].
        assert (k = p) as -> by lia. congruence.
      * intros [Hq' Hu]. split; [exact Hq'|]. intros y _ Ey. apply Hu; [lia|exact Ey].
    + assert (Hp : p = length (lin w) - 1).
      { destruct (decide (S p < length (lin w))) as [Hs|Hs]; [|lia]. rewrite (Hr p q x Hs Eq Ex) in Er. discriminate. }
      assert (n = 0) as -> by lia. assert (Z.to_nat (linIx x) = p) as -> by lia.
      destruct (ic_erase_spec w p q x H Eq Ex) as (w1 & E1 & H1 & M1 & N1 & L1 & K1 & Q1 & C1). rewrite E1. cbn [bind eraseNonReal_loop].
      exists w1. split; [reflexivity|]. split; [exact H1|]. split; [exact M1|]. split; [exact N1|]. split; [exact C1|]. intros q'. rewrite Q1. split.
      * intros [Hq' Hne]. split; [exact Hq'|]. intros y _ Ey. apply elem_of_list_lookup in Hq' as [k Hk']. pose proof (lookup_lt_Some _ _ _ Hk').
        eapply Hr; [|exact Hk'|exact Ey]. assert (k <> p) by (intros ->; congruence). lia.
      * intros [Hq' Hu]. split; [exact Hq'|]. intros ->. rewrite (Hu x ltac:(lia) Ex) in Er. discriminate.
Qed.

Lemma eraseNonReal_spec w : InvI w ->
  (eraseNonReal w = UB /\ exists k q x, S k < length (lin w) /\ lin w !! k = Some q /\ iheap w !! q = Some x /\ isReal x = false) \/
  (exists w', eraseNonReal w = Ret tt w' /\ purged (fun x => negb (isReal x)) w w' /\
     forall k q x, S k < length (lin w) -> lin w !! k = Some q -> iheap w !! q = Some x -> isReal x = true).
Proof.
  intros H. unfold eraseNonReal.
  assert (D : (exists k q x, S k < length (lin w) /\ lin w !! k = Some q /\ iheap w !! q = Some x /\ isReal x = false) \/
     forall k q x, S k < length (lin w) -> lin w !! k = Some q -> iheap w !! q = Some x -> isReal x = true).
  { set (bad := fun k => match lin w !! k with Some q => match iheap w !! q with Some x => negb (isReal x) | None => false end | None => false end).
    destruct (List.existsb bad (seq 0 (length (lin w) - 1))) eqn:E.
    - left. apply List.existsb_exists in E as (k & Hk & Hb). apply List.in_seq in Hk. unfold bad in Hb.
      destruct (lin w !! k) as [q|] eqn:Eq; [|discriminate]. destruct (iheap w !! q) as [x|] eqn:Ex; [|discriminate].
      exists k, q, x. split; [lia|]. split; [exact Eq|]. split; [exact Ex|]. destruct (isReal x); [discriminate|reflexivity].
    - right. intros k q x Hk Eq Ex. destruct (isReal x) eqn:Er; [reflexivity|]. exfalso. apply not_true_iff_false in E. apply E.
      apply List.existsb_exists. exists k. split; [apply List.in_seq; lia|]. unfold bad. rewrite Eq, Ex, Er. reflexivity. }
  destruct D as [D|D].
  - left. split; [|exact D]. destruct D as (k & q & x & Hk & Eq & Ex & Er). apply enr_ub_at; [exact H|lia|]. exists k, q, x. split; [lia|auto].
  - right. destruct (enr_ok (length (lin w)) w 0 H ltac:(lia) D) as (w' & E & I' & M & N & C & K). exists w'. split; [exact E|]. split; [|exact D].
    split; [exact I'|]. split; [exact M|]. split; [exact N|]. split; [exact C|]. intros q. rewrite K. split.
    + intros [Hq Hu]. split; [exact Hq|]. intros x Ex. rewrite (Hu x); [reflexivity| |exact Ex]. apply elem_of_list_lookup in Hq as [k Hk]. pose proof (lookup_lt_Some _ _ _ Hk). lia.
    + intros [Hq Hu]. split; [exact Hq|]. intros x _ Ex. specialize (Hu x Ex). destruct (isReal x); [reflexivity|discriminate].
Qed.

(** ** clear *)
Lemma clear_at w k : InvA w -> at_id (clear_intrs w) k = match at_id w k with Some (r, b) => Some (r, with_intrs b ∅) | None => None end.
Proof.
  intros HA. unfold at_id, slot. cbn. destruct (slots w !! k) as [[r|]|] eqn:Ek; [|reflexivity|reflexivity].
  pose proof (clear_fold_spec (slots w) (bheap w) r) as E. unfold clear_fold in E. rewrite E. destruct (bheap w !! r) as [b|]; [|reflexivity]. cbn.
  rewrite bool_decide_eq_true_2; [reflexivity|]. eapply elem_of_list_lookup_2; exact Ek.
Qed.
Lemma clear_I w : InvI w -> InvI (clear_intrs w).
Proof.
  intros H. assert (HA : InvA (clear_intrs w)) by (eapply same_bids_InvA; [apply same_meta_bids, clear_intrs_meta|apply (I0 w H)]).
  assert (He : forall i r b, at_id (clear_intrs w) i = Some (r, b) -> intrs b = ∅).
  { intros i r b Hi. rewrite clear_at in Hi by apply (I0 w H). destruct (at_id w i) as [[r0 b0]|]; [|discriminate]. injection Hi as <- <-. reflexivity. }
  constructor.
  - exact HA.
  - intros k q Hk. cbn in Hk. rewrite lookup_nil in Hk. discriminate.
  - intros q i j x Hq. inversion Hq.
  - intros i r b j q Hi Hj. rewrite (He i r b Hi), lookup_empty in Hj. discriminate.
  - intros q q' x x' i j Hq. inversion Hq.
  - intros q x i j Hq. inversion Hq.
  - apply (I6 w H).
  - intros i r b Hi _. eapply He; exact Hi.
Qed.

(** ** reload *)
Lemma saved_in w q : q ∈ saved w <-> q ∈ lin w /\ exists x, iheap w !! q = Some x /\ geom x || phys x = true.
Proof.
  unfold saved. rewrite elem_of_list_In, List.filter_In, <- elem_of_list_In. split; intros [Hq H]; (split; [exact Hq|]).
  - destruct (iheap w !! q) as [x|]; [eauto|discriminate].
  - destruct H as (x & -> & H). exact H.
Qed.
Lemma saved_nodup w : NoDup (lin w) -> NoDup (saved w).
Proof. rewrite !NoDup_ListNoDup. apply List.NoDup_filter. Qed.

Record RL (w w1 : world) (done : list nat) : Prop := {
  RLi : InvI w1; RLl : lin w1 = done; RLc : same_content w w1; RLs : slots w1 = slots w; RLm : same_meta w w1;
  RLe : forall i r b j q, at_id w1 i = Some (r, b) -> intrs b !! j = Some q -> q ∈ done }.

Lemma meta_at w w' i r b' : same_meta w w' -> at_id w' i = Some (r, b') -> exists b, at_id w i = Some (r, b) /\ members b = members b' /\ clumpId b = clumpId b'.
Proof.
  intros (E1 & E2 & E3) Hi. apply at_id_Some in Hi as [Hi Hb]. specialize (E3 r). rewrite Hb in E3. destruct (bheap w !! r) as [b|] eqn:Eb; [|discriminate].
  exists b. cbn in E3. split; [apply at_id_Some; split; [congruence|exact Eb]|]. split; congruence.
Qed.
Lemma meta_at' w w' i r b : same_meta w w' -> at_id w i = Some (r, b) -> exists b', at_id w' i = Some (r, b') /\ members b = members b' /\ clumpId b = clumpId b'.
Proof.
  intros (E1 & E2 & E3) Hi. apply at_id_Some in Hi as [Hi Hb]. specialize (E3 r). rewrite Hb in E3. destruct (bheap w' !! r) as [b'|] eqn:Eb; [|discriminate].
  exists b'. cbn in E3. split; [apply at_id_Some; split; [congruence|exact Eb]|]. split; congruence.
Qed.

Lemma reload_spec w : InvI w -> forall l done w1, RL w w1 done -> NoDup (done ++ l) -> (forall q, q ∈ done ++ l -> q ∈ saved w) ->
  exists w', reload_loop w1 l = Ret tt w' /\ RL w w' (done ++ l).
Proof.
  intros H. induction l as [|q l IH]; intros done w1 R Hnd Hsub.
  - exists w1. rewrite app_nil_r. split; [reflexivity|exact R].
  - pose proof (Hsub q ltac:(apply elem_of_app; right; left)) as Hq. apply saved_in in Hq as [Hq (x & Ex & Hgp)].
    destruct (same_content_get _ _ _ _ (RLc _ _ _ R) Ex) as (x1 & Ex1 & Ec). pose proof Ec as Ec'. injection Ec' as Ei1 Ei2 _ _.
    assert (Hal : forall i j, joins x i j -> alive w i).
    { intros i j Hj. destruct (decide (alive w i)) as [|Hn]; [assumption|]. destruct (I5 w H q x i j Hq Ex Hj Hn) as [G P]. rewrite G, P in Hgp. discriminate. }
    assert (Hends : forall i j, joins x i j -> exists r b, at_id w1 i = Some (r, b) /\ hasMembers b = false).
    { intros i j Hj. destruct (Hal i j Hj) as (r & b & Hi). destruct (meta_at' _ _ _ _ _ (RLm _ _ _ R) Hi) as (b' & Hb' & Em & _).
      exists r, b'. split; [exact Hb'|]. unfold hasMembers. rewrite <- Em. destruct (members b) eqn:E; [|reflexivity].
      destruct (I2 w H q i j x Hq Ex Hj) as (_ & _ & C). specialize (C r b Hi). rewrite (I7 w H i r b Hi), lookup_empty in C; [discriminate|]. unfold hasMembers. rewrite E. reflexivity. }
    cbn [reload_loop]. rewrite Ex1. rewrite Ei1, Ei2.
    destruct (Hends _ _ (joins_ids x)) as (r1 & b1 & At1 & _). destruct (Hends _ _ (joins_sym _ _ _ (joins_ids x))) as (r2 & b2 & At2 & _).
    unfold slot. pose proof At1 as [Es1 _]%at_id_Some. pose proof At2 as [Es2 _]%at_id_Some. rewrite Es1, Es2.
    set (a := id1 x `min` id2 x). set (b := id1 x `max` id2 x). assert (Hab : joins x a b) by (unfold joins, a, b; lia).
    destruct (I2 w H q a b x Hq Ex Hab) as (Hne & _ & _). assert (Hlt : a < b) by (unfold a, b in *; lia).
    destruct (Hends a b Hab) as (ra & ba & Ata & Hma). destruct (Hends b a (joins_sym _ _ _ Hab)) as (rb & bb & Atb & Hmb).
    assert (Hdone : q ∉ done) by (apply NoDup_app in Hnd as (_ & Hd & _); intros Hd'; apply (Hd q Hd'); left).
    destruct (ic_insert_ok w1 q x1 a b ra ba rb bb (RLi _ _ _ R) Hlt Ata Atb Hma Hmb Ex1) with (i := id1 x) (j := id2 x) as (w2 & E2 & I2' & El & Eh & En & Es & At).
    + apply (content_joins _ _ _ _ Ec), Hab.
    + rewrite (RLl _ _ _ R). exact Hdone.
    + intros i r c j Hi Hj. apply Hdone. eapply (RLe _ _ _ R); eassumption.
    + destruct (intrs ba !! b) as [q'|] eqn:E; [|reflexivity]. exfalso. pose proof (RLe _ _ _ R _ _ _ _ _ Ata E) as Hq'.
      destruct (I3 w1 (RLi _ _ _ R) a ra ba b q' Ata E) as (_ & _ & [(_ & y & Ey & Hy)|[_ C]]); [|rewrite (RLl _ _ _ R) in C; contradiction].
      destruct (same_content_get' _ _ _ _ (RLc _ _ _ R) Ey) as (y0 & Ey0 & Ecy).
      assert (q' ∈ saved w) as [Hq'w _]%saved_in by (apply Hsub, elem_of_app; left; exact Hq').
      assert (q = q'); [|congruence]. eapply (I4 w H q q' x y0 a b); try assumption. apply (content_joins _ _ _ _ Ecy), Hy.
    + reflexivity.
    + reflexivity.
    + rewrite E2. cbn [bind].
      destruct (IH (done ++ [q]) w2) as (w' & E' & R'); [|rewrite <- app_assoc; exact Hnd|intros q'; rewrite <- app_assoc; apply Hsub|exists w'; rewrite <- app_assoc in R'; auto].
      constructor.
      * exact I2'.
      * rewrite El, (RLl _ _ _ R). reflexivity.
      * intros q'. rewrite Eh. destruct (decide (q' = q)) as [->|Hn]; [rewrite lookup_insert, Ex; cbn; f_equal; exact Ec|rewrite lookup_insert_ne by congruence; apply (RLc _ _ _ R)].
      * rewrite Es. apply (RLs _ _ _ R).
      * pose proof (ic_insert_meta w1 q (id1 x) (id2 x)) as M. rewrite E2 in M. eapply same_meta_trans; [apply (RLm _ _ _ R)|exact M].
      * intros i r c j q' Hi Hj. rewrite At in Hi. apply elem_of_app. destruct (decide (i = a)) as [->|].
        { injection Hi as <- <-. cbn in Hj. apply lookup_insert_Some in Hj as [[_ <-]|[_ Hj]]; [right; left|left; eapply (RLe _ _ _ R); [exact Ata|exact Hj]]. }
        destruct (decide (i = b)) as [->|].
        { injection Hi as <- <-. cbn in Hj. apply lookup_insert_Some in Hj as [[_ <-]|[_ Hj]]; [right; left|left; eapply (RLe _ _ _ R); [exact Atb|exact Hj]]. }
        left. eapply (RLe _ _ _ R); eassumption.
Qed.

Lemma reload_ok w l : InvI w -> Permutation l (saved w) -> exists w', reload w l = Ret tt w' /\ InvI w' /\ lin w' = l /\ same_content w w' /\ same_meta w w'.
Proof.
  intros H HP. destruct (reload_spec w H l [] (clear_intrs w)) as (w' & E & R).
  - constructor.
    + apply clear_I, H.
    + reflexivity.
    + intros q. reflexivity.
    + reflexivity.
    + apply clear_intrs_meta.
    + intros i r b j q Hi Hj. rewrite clear_at in Hi by apply (I0 w H). destruct (at_id w i) as [[r0 b0]|]; [|discriminate]. injection Hi as <- <-. cbn in Hj. rewrite lookup_empty in Hj. discriminate.
  - cbn [app]. rewrite HP. apply saved_nodup, InvI_nodup, H.
  - intros q Hq. cbn [app] in Hq. rewrite HP in Hq. exact Hq.
  - cbn [app] in *. exists w'. split; [exact E|]. split; [apply R|]. split; [apply R|]. split; [apply R|apply R].
Qed.

(** ** clumps and bodies *)
Lemma addToClump_ER w bids cid : InvA w -> res_all (ER w) (addToClump w bids cid).
Proof.
  intros HA. unfold addToClump. destruct (at_id w cid) as [[rc c]|]; [|exact I].
  destruct (negb (isClump c)); [apply ER_refl, HA|].
  eapply (res_all_bind (ER w)); [|auto|].
  - assert (G : forall w1 r, ER w w1 -> res_all (ER w) (clump_add w1 rc r)).
    { intros w1 r H1. eapply res_all_mono; [apply clump_add_core|]. intros w2 H2. eapply ER_trans; [exact HA|exact H1|]. apply ER_core; [apply H1|exact H2]. }
    apply (res_all_foldl (ER w) (fun b (st : option (list nat)) w =>
        match st with
        | None => Ret None w
        | Some er =>
          match at_id w b with
          | None => UB
          | Some (r, bp) =>
            if isClump bp then
              if bool_decide (r = rc) then Ret None w
              else bind (clump_add w rc r) (fun _ w => Ret (Some (er ++ [b])) w)
            else if isClumpMember bp then
              match clumpId bp with
              | None => UB
              | Some pc =>
                match at_id w pc with
                | None => UB
                | Some (rp, _) =>
                  if bool_decide (rp = rc) then Ret None w
                  else bind (clump_add w rc rp) (fun _ w => Ret (Some (er ++ [pc])) w)
                end
              end
            else bind (clump_add w rc r) (fun _ w => Ret (Some er) w)
          end
        end)); [apply ER_refl, HA|].
    intros b st w1 _ H1. destruct st as [er|]; [|exact H1]. destruct (at_id w1 b) as [[r bp]|]; [|exact I].
    destruct (isClump bp).
    { destruct (bool_decide _); [exact H1|]. eapply res_all_bind; [apply G, H1|auto|]. intros; assumption. }
    destruct (isClumpMember bp).
    { destruct (clumpId bp) as [pc|]; [|exact I]. destruct (at_id w1 pc) as [[rp bp']|]; [|exact I].
      destruct (bool_decide _); [exact H1|]. eapply res_all_bind; [apply G, H1|auto|]. intros; assumption. }
    eapply res_all_bind; [apply G, H1|auto|]. intros; assumption.
  - intros st w1 _ H1. destruct st as [er|]; [|exact H1]. eapply (res_all_bind (ER w)); [|auto|].
    + eapply res_all_mono; [apply updateProperties_same|]. intros w4 ->. exact H1.
    + intros _ w2 _ H2.
      apply (res_all_foldl (ER w) (fun b _ w => bind (erase w b false) (fun _ w => Ret tt w))); [exact H2|].
      intros b _ w3 _ H3. eapply (res_all_bind (ER w)); [|auto|intros; assumption].
      eapply res_all_mono; [apply bc_erase_ER, H3|]. intros w4 H4. eapply ER_trans; eassumption.
Qed.

Lemma clump_I w ids : InvI w -> res_all InvI (clump w ids).
Proof.
  intros H. unfold clump. set (w0 := mkWorld _ _ _ _ _ _).
  assert (H0 : InvI w0) by (apply alloc_I, H).
  assert (Hf : bheap w !! nextb w = None).
  { destruct (bheap w !! nextb w) eqn:E; [|reflexivity]. apply (I0 w H) in E. lia. }
  assert (QB : forall w1 w2, InvI w1 -> same_core w1 w2 -> InvI w2) by (intros w1 w2 A S; eapply InvI_core; eassumption).
  eapply (res_all_bind InvI); [|auto|].
  - eapply (bc_insert_I w0 (nextb w)); [exact H0| |cbn; apply lookup_insert|reflexivity].
    apply (not_in_slots_new w (nextb w)); [apply (I0 w H)|exact Hf].
  - intros cid w1 _ H1. eapply (res_all_bind InvI); [|auto|].
    + apply (res_all_foldl InvI (fun id _ w => match at_id w id with None => UB | Some (r, b) => if isClumpMember b then
                match clumpId b with Some c => match at_id w c with Some (rc', _) => clump_del w rc' r | None => UB end | None => UB end
              else Ret tt w end)); [exact H1|].
      intros id _ w2 _ H2. destruct (at_id w2 id) as [[r b]|]; [|exact I]. destruct (isClumpMember b); [|exact H2].
      destruct (clumpId b); [|exact I]. destruct (at_id w2 _) as [[rc' bc']|]; [|exact I].
      eapply res_all_mono; [apply clump_del_core|]. intros w3 H3. eapply QB; eassumption.
    + intros _ w2 _ H2. eapply (res_all_bind InvI); [|auto|].
      * apply (res_all_foldl InvI (fun id _ w3 => match at_id w3 id with None => UB | Some (r, _) => clump_add w3 (nextb w) r end)); [exact H2|].
        intros id _ w3 _ H3. destruct (at_id w3 id) as [[r b]|]; [|exact I].
        eapply res_all_mono; [apply clump_add_core|]. intros w4 H4. eapply QB; eassumption.
      * intros _ w3 _ H3. eapply (res_all_bind InvI); [|auto|].
        { eapply res_all_mono; [apply updateProperties_same|]. intros w4 ->. exact H3. }
        intros; assumption.
Qed.

Lemma insertAt_I w r pos : InvI w -> inter_safe w (OInsertAt r pos) -> res_all InvI (insertAtId w r pos).
Proof.
  intros H (Hn & Ht & Hi). pose proof (insertAt_A w r pos (I0 w H) Hn) as HA. unfold insertAtId, slot in *.
  destruct (slots w !! pos) as [[r0|]|] eqn:Es; [exact H| |exact I]. destruct (bheap w !! r) as [b|] eqn:Eb; [|exact I]. cbn [res_all] in *. destruct HA as (HA & HL & _).
  eapply (place_I w _ pos r (with_bid b (Some pos)) (with_bid b (Some pos))); [exact H|exact HA| |exact Ht|rewrite HL; lia| | |exact (Hi b eq_refl)|reflexivity|reflexivity|reflexivity|reflexivity].
  - intros (r1 & b1 & Ha). apply at_id_Some in Ha as [Ha _]. congruence.
  - rewrite HL. eapply lookup_lt_Some; exact Es.
  - intros k. unfold at_id, slot. cbn. destruct (decide (k = pos)) as [->|Hk].
    + rewrite list_lookup_insert by (eapply lookup_lt_Some; exact Es). rewrite lookup_insert. reflexivity.
    + rewrite list_lookup_insert_ne by congruence. destruct (slots w !! k) as [[r'|]|] eqn:Ek; [|reflexivity|reflexivity].
      rewrite lookup_insert_ne; [reflexivity|]. intros <-. apply Hn. exists k. exact Ek.
Qed.

Lemma step_I w o : InvI w -> inter_safe w o -> res_all InvI (step w o).
Proof.
  intros H HS. destruct o; cbn [step].
  - apply res_all_drop. apply alloc_I, H.
  - apply res_all_drop. unfold append. destruct (bheap w !! r) as [b|] eqn:Eb; [|exact I]. destruct (bid b) eqn:Ei; [exact H|].
    eapply bc_insert_I; [exact H|eapply not_in_slots_bid; [apply (I0 w H)|exact Eb|exact Ei]|exact Eb|apply HS, Eb].
  - apply res_all_drop. apply insertAt_I; assumption.
  - apply res_all_drop. eapply res_all_mono; [apply bc_erase_ER, (I0 w H)|]. intros w' R. eapply ER_I; eassumption.
  - apply res_all_drop, clump_I, H.
  - eapply res_all_mono; [apply addToClump_ER, (I0 w H)|]. intros w' R. eapply ER_I; eassumption.
  - eapply res_all_mono; [apply release_core|]. intros w' R. eapply InvI_core; eassumption.
  - apply res_all_drop, insert_new_I; assumption.
  - apply requestErase2_I, H.
  - apply makeReal_I, H.
  - apply swapOrder_I, H.
  - destruct (purge_seq_spec P (2 * length (lin w) + 1) w 0 H) as (w' & E & I' & _); [lia|intros; lia|]. rewrite E. exact I'.
  - destruct (purge_par_spec P w chunks H HS) as (w' & E & I' & _). rewrite E. exact I'.
  - apply clear_I, H.
Qed.

Lemma reach_I l w : along inter_safe init l -> run init l = Some w -> InvI w.
Proof. intros HA HR. eapply (run_inv inter_safe InvI); [|exact init_I|exact HA|exact HR]. intros w1 o. apply step_I. Qed.

Lemma InvI_agree w : InvI w -> containers_agree w.
Proof.
  intros H.
  assert (E4 : forall i j q r b, at_id w i = Some (r, b) -> alive w j -> i <> j -> (intrs b !! j = Some q <-> listed w q i j)).
  { intros i j q r b Hi Hj Hij. split.
    - intros E. destruct (I3 w H i r b j q Hi E) as (_ & _ & [C|[C _]]); [exact C|contradiction].
    - intros (Hq & x & Ex & Hjo). eapply (I2 w H); eassumption. }
  split; [apply (I1 w H)|]. split; [apply InvI_nodup, H|]. split; [|split; [exact E4|split]].
  - intros i j q Hi Hj Hij. unfold find. set (a := i `min` j). set (b := i `max` j).
    assert (Hb : alive w b) by (unfold b; destruct (Nat.max_spec i j) as [[_ ->]|[_ ->]]; assumption).
    assert (Ha : alive w a) by (unfold a; destruct (Nat.min_spec i j) as [[_ ->]|[_ ->]]; assumption).
    rewrite bool_decide_eq_false_2 by (apply alive_lt in Hb; lia). destruct Ha as (ra & ba & Ha). rewrite Ha.
    rewrite (E4 a b q ra ba Ha Hb) by (unfold a, b; lia). unfold listed, joins. split; intros (Hq & x & Ex & Hjo); (split; [exact Hq|exists x; split; [exact Ex|unfold a, b in *; lia]]).
  - intros i j q q' (Hq & x & Ex & Hj) (Hq' & x' & Ex' & Hj'). eapply (I4 w H); eassumption.
  - intros q i j x (Hq & x0 & Ex0 & Hj) Ex Hd. rewrite Ex in Ex0. injection Ex0 as <-. eapply (I5 w H); eassumption.
Qed.
