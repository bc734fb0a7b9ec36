(** Clumps: C02. *)
From stdpp Require Import gmap list.
From Coq Require Import ZArith Lia.
From Verif Require Import World_Model World_Spec World_Proofs1.

(** ** what clump membership looks like from O.bodies *)
Notation V := view.

Definition okV (V : nat -> option (option nat * option (gset nat))) : Prop :=
  forall i c m, V i = Some (Some c, m) ->
    (c = i -> exists ms, m = Some ms /\ forall k, k ∈ ms -> k <> i /\ exists m', V k = Some (Some i, m')) /\
    (c <> i -> exists ms, V c = Some (Some c, Some ms) /\ i ∈ ms).

Lemma V_Some w i cl m : V w i = Some (cl, m) <-> exists r b, at_id w i = Some (r, b) /\ clumpId b = cl /\ members b = m.
Proof.
  unfold view. destruct (at_id w i) as [[r b]|]; split.
  - intros H. injection H as <- <-. eauto 6.
  - intros (r' & b' & E & <- & <-). injection E as <- <-. reflexivity.
  - discriminate.
  - intros (r' & b' & E & _). discriminate.
Qed.

Lemma okV_clumps w : okV (V w) <-> clumps_ok w.
Proof.
  split.
  - intros H i r b Hi. destruct (clumpId b) as [c|] eqn:Ec; [|exact I].
    destruct (H i c (members b)) as [Ha Hb]. { apply V_Some. eauto 6. }
    destruct (bool_decide_reflect (c = i)) as [E|E].
    + destruct (Ha E) as (ms & Em & Hm). exists ms. split; [exact Em|]. intros m Hin. destruct (Hm m Hin) as (Hne & m' & Hv).
      split; [exact Hne|]. apply V_Some in Hv as (rm & bm & E1 & E2 & _). eauto.
    + destruct (Hb E) as (ms & Hv & Hin). apply V_Some in Hv as (rc & bc & E1 & E2 & E3). eauto 8.
  - intros H i c m Hv. apply V_Some in Hv as (r & b & Hi & Ec & Em). specialize (H i r b Hi). rewrite Ec in H.
    destruct (bool_decide_reflect (c = i)) as [E|E]; split; try congruence; intros _.
    + destruct H as (ms & E1 & H). exists ms. split; [congruence|]. intros k Hk. destruct (H k Hk) as (Hne & rm & bm & E2 & E3).
      split; [exact Hne|]. exists (members bm). apply V_Some. eauto 6.
    + destruct H as (rc & bc & ms & E1 & E2 & E3 & Hin). exists ms. split; [|exact Hin]. apply V_Some. eauto 6.
Qed.

(** ** effect of elementary changes on the view *)
Lemma V_set w i r b b' : InvA w -> slots w !! i = Some (Some r) -> bheap w !! r = Some b ->
  forall k, V (set_body w r b') k = if decide (k = i) then Some (clumpId b', members b') else V w k.
Proof.
  intros HA Hi Hb k. unfold view, at_id, slot. cbn. destruct (decide (k = i)) as [->|Hn].
  - rewrite Hi. rewrite lookup_insert. reflexivity.
  - destruct (slots w !! k) as [[r'|]|] eqn:Ek; [|reflexivity|reflexivity].
    rewrite lookup_insert_ne; [reflexivity|]. intros <-. apply Hn. eapply slot_inj; [apply HA|exact Ek|exact Hi].
Qed.

Lemma V_unslot w i : forall k, V (set_slots w (<[i := None]> (slots w))) k = if decide (k = i) then None else V w k.
Proof.
  intros k. unfold view, at_id, slot. cbn. destruct (decide (k = i)) as [->|Hn].
  - destruct (decide (i < length (slots w))) as [Hl|Hl].
    + rewrite list_lookup_insert by exact Hl. reflexivity.
    + rewrite list_insert_ge by lia. rewrite (lookup_ge_None_2 (slots w) i) by lia. reflexivity.
  - rewrite list_lookup_insert_ne by congruence. reflexivity.
Qed.

Lemma V_same_meta w w' : same_meta w w' -> forall k, V w' k = V w k.
Proof.
  intros (E1 & E2 & E3) k. unfold view, at_id, slot. rewrite E1. destruct (slots w !! k) as [[r|]|]; [|reflexivity|reflexivity].
  specialize (E3 r). destruct (bheap w' !! r), (bheap w !! r); cbn in E3; try discriminate; [|reflexivity]. congruence.
Qed.

Lemma okV_ext V1 V2 : (forall k, V2 k = V1 k) -> okV V1 -> okV V2.
Proof.
  intros E H i c m Hi. rewrite E in Hi. destruct (H i c m Hi) as [Ha Hb]. split.
  - intros Ec. destruct (Ha Ec) as (ms & Em & Hm). exists ms. split; [exact Em|]. intros k Hk. destruct (Hm k Hk) as (Hne & m' & Hv).
    split; [exact Hne|]. exists m'. rewrite E. exact Hv.
  - intros Ec. destruct (Hb Ec) as (ms & Em & Hm). exists ms. rewrite E. auto.
Qed.

(** ** abstract operations *)
Lemma okV_add V c s cc mc ms : okV V -> s <> c ->
  V c = Some (cc, Some mc) -> (cc = Some c \/ (cc = None /\ mc = ∅)) -> V s = Some (None, ms) ->
  okV (fun k => if decide (k = s) then Some (Some c, ms) else if decide (k = c) then Some (Some c, Some ({[s]} ∪ mc)) else V k).
Proof.
  intros H Hne Hc Hcc Hs i c' m Hi.
  destruct (decide (i = s)) as [->|His].
  { injection Hi as <- <-. split; [congruence|]. intros _. exists ({[s]} ∪ mc).
    destruct (decide (c = s)); [congruence|]. destruct (decide (c = c)); [|congruence]. split; [reflexivity|set_solver]. }
  destruct (decide (i = c)) as [->|Hic].
  { injection Hi as <- <-. split; [|congruence]. intros _. exists ({[s]} ∪ mc). split; [reflexivity|].
    intros k Hk. destruct (decide (k = s)) as [->|Hks]; [split; [congruence|eauto]|].
    assert (Hk' : k ∈ mc) by set_solver. destruct Hcc as [->|[-> ->]]; [|set_solver].
    destruct (H c c (Some mc) Hc) as [Ha _]. destruct (Ha eq_refl) as (ms0 & E0 & Hm). injection E0 as <-.
    destruct (Hm k Hk') as (Hkc & m' & Hv). split; [exact Hkc|]. destruct (decide (k = c)); [congruence|]. eauto. }
  destruct (H i c' m Hi) as [Ha Hb]. split.
  - intros ->. destruct (Ha eq_refl) as (ms0 & -> & Hm). exists ms0. split; [reflexivity|]. intros k Hk.
    destruct (Hm k Hk) as (Hki & m' & Hv). split; [exact Hki|].
    destruct (decide (k = s)) as [->|]; [congruence|]. destruct (decide (k = c)) as [->|]; [|eauto].
    rewrite Hc in Hv. injection Hv as Ecc _. destruct Hcc as [E|[E _]]; congruence.
  - intros Hcn. destruct (Hb Hcn) as (ms0 & Hv & Hin).
    destruct (decide (c' = s)) as [->|]; [congruence|]. destruct (decide (c' = c)) as [->|]; [|eauto].
    rewrite Hc in Hv. injection Hv as _ Emc. subst ms0. exists ({[s]} ∪ mc). split; [reflexivity|set_solver].
Qed.

Lemma okV_del V c s ms mc : okV V -> s <> c ->
  V c = Some (Some c, Some mc) -> V s = Some (Some c, ms) ->
  okV (fun k => if decide (k = s) then Some (None, ms) else if decide (k = c) then Some (Some c, Some (mc ∖ {[s]})) else V k).
Proof.
  intros H Hne Hc Hs i c' m Hi.
  destruct (decide (i = s)) as [->|His]; [congruence|].
  destruct (decide (i = c)) as [->|Hic].
  { injection Hi as <- <-. split; [|congruence]. intros _. eexists. split; [reflexivity|]. intros k Hk.
    assert (Hk' : k ∈ mc) by set_solver. assert (k <> s) by set_solver.
    destruct (H c c (Some mc) Hc) as [Ha _]. destruct (Ha eq_refl) as (ms0 & E0 & Hm). injection E0 as <-.
    destruct (Hm k Hk') as (Hkc & m' & Hv). split; [exact Hkc|]. destruct (decide (k = s)); [congruence|]. destruct (decide (k = c)); [congruence|]. eauto. }
  destruct (H i c' m Hi) as [Ha Hb]. split.
  - intros ->. destruct (Ha eq_refl) as (ms0 & -> & Hm). exists ms0. split; [reflexivity|]. intros k Hk.
    destruct (Hm k Hk) as (Hki & m' & Hv). split; [exact Hki|].
    destruct (decide (k = s)) as [->|]; [congruence|]. destruct (decide (k = c)) as [->|]; [congruence|]. eauto.
  - intros Hcn. destruct (Hb Hcn) as (ms0 & Hv & Hin).
    destruct (decide (c' = s)) as [->|]; [congruence|]. destruct (decide (c' = c)) as [->|]; [|eauto].
    rewrite Hc in Hv. injection Hv as Emc. subst ms0. exists (mc ∖ {[s]}). split; [reflexivity|set_solver].
Qed.

(** removing a body nobody refers to *)
Lemma okV_remove V i : okV V ->
  (forall k m, k <> i -> V k <> Some (Some i, m)) ->
  (forall k ms, k <> i -> V k = Some (Some k, Some ms) -> i ∉ ms) ->
  okV (fun k => if decide (k = i) then None else V k).
Proof.
  intros H Hn Hm k c m Hk. destruct (decide (k = i)) as [->|Hki]; [discriminate|].
  destruct (H k c m Hk) as [Ha Hb]. split.
  - intros ->. destruct (Ha eq_refl) as (ms & -> & Hms). exists ms. split; [reflexivity|]. intros x Hx.
    destruct (Hms x Hx) as (Hxk & m' & Hv). split; [exact Hxk|]. destruct (decide (x = i)) as [->|]; [|eauto].
    exfalso. eapply Hm; [exact Hki|exact Hk|exact Hx].
  - intros Hc. destruct (Hb Hc) as (ms & Hv & Hin). destruct (decide (c = i)) as [->|]; [|eauto].
    exfalso. eapply Hn; [exact Hki|exact Hk].
Qed.

(** a standalone body, or a clump without members, can be removed *)
Lemma okV_remove_free V i cl m : okV V -> V i = Some (cl, m) ->
  (cl = None \/ (cl = Some i /\ m = Some ∅)) ->
  okV (fun k => if decide (k = i) then None else V k).
Proof.
  intros H Hi Hcl. apply okV_remove; [exact H| |].
  - intros k m' Hk Hv. destruct (H k i m' Hv) as [_ Hb]. destruct (Hb (not_eq_sym Hk)) as (ms & Hv' & Hin).
    rewrite Hi in Hv'. injection Hv' as E1 E2. destruct Hcl as [?|[_ E]]; [congruence|]. assert (ms = ∅) by congruence. set_solver.
  - intros k ms Hk Hv Hin. destruct (H k k (Some ms) Hv) as [Ha _]. destruct (Ha eq_refl) as (ms' & E & Hm). injection E as <-.
    destruct (Hm i Hin) as (_ & m' & Hv'). rewrite Hi in Hv'. injection Hv' as E1 E2. destruct Hcl as [?|[E _]]; congruence.
Qed.

(** dissolving a clump: members become standalone, the clump disappears *)
Lemma okV_dissolve V c ms : okV V -> V c = Some (Some c, Some ms) ->
  okV (fun k => if decide (k = c) then None else if bool_decide (k ∈ ms) then match V k with Some (_, m) => Some (None, m) | None => None end else V k).
Proof.
  intros H Hc k c' m Hk. destruct (decide (k = c)) as [->|Hkc]; [discriminate|].
  destruct (bool_decide_reflect (k ∈ ms)) as [Hin|Hin]; [destruct (V k) as [[? ?]|]; discriminate|].
  destruct (H k c' m Hk) as [Ha Hb]. split.
  - intros ->. destruct (Ha eq_refl) as (ms' & -> & Hms). exists ms'. split; [reflexivity|]. intros x Hx.
    destruct (Hms x Hx) as (Hxk & m' & Hv). split; [exact Hxk|].
    destruct (decide (x = c)) as [->|]; [congruence|]. destruct (bool_decide_reflect (x ∈ ms)) as [Hxin|]; [|eauto].
    destruct (H c c (Some ms) Hc) as [Ha' _]. destruct (Ha' eq_refl) as (ms0 & E0 & Hm0). injection E0 as <-.
    destruct (Hm0 x Hxin) as (_ & m0 & Hv0). congruence.
  - intros Hne. destruct (Hb Hne) as (ms' & Hv & Hin'). destruct (decide (c' = c)) as [->|].
    { exfalso. apply Hin. congruence. }
    destruct (bool_decide_reflect (c' ∈ ms)) as [Hxin|]; [|eauto].
    destruct (H c c (Some ms) Hc) as [Ha' _]. destruct (Ha' eq_refl) as (ms0 & E0 & Hm0). injection E0 as <-.
    destruct (Hm0 c' Hxin) as (_ & m0 & Hv0). congruence.
Qed.

(** a new standalone body *)
Lemma okV_new V i m : okV V -> V i = None -> okV (fun k => if decide (k = i) then Some (None, m) else V k).
Proof.
  intros H Hi k c m' Hk. destruct (decide (k = i)) as [->|Hki]; [discriminate|].
  destruct (H k c m' Hk) as [Ha Hb]. split.
  - intros ->. destruct (Ha eq_refl) as (ms & -> & Hms). exists ms. split; [reflexivity|]. intros x Hx.
    destruct (Hms x Hx) as (Hxk & m0 & Hv). split; [exact Hxk|]. destruct (decide (x = i)) as [->|]; [congruence|eauto].
  - intros Hc. destruct (Hb Hc) as (ms & Hv & Hin). destruct (decide (c = i)) as [->|]; [congruence|eauto].
Qed.

(** ** the invariant *)
Definition loose (w : world) : Prop := forall r b, bheap w !! r = Some b -> bid b = None -> clumpId b = None.
Definition InvC (w : world) : Prop := InvA w /\ okV (V w) /\ loose w.

Lemma loose_set w r b b' : loose w -> bheap w !! r = Some b -> (bid b' = None -> clumpId b' = None) -> loose (set_body w r b').
Proof.
  intros H Hb Hc r' b0 Hb0 E. cbn in Hb0. destruct (decide (r' = r)) as [->|Hn].
  - rewrite lookup_insert in Hb0. injection Hb0 as <-. auto.
  - rewrite lookup_insert_ne in Hb0 by congruence. eauto.
Qed.

Lemma InvA_set w r b b' : InvA w -> bheap w !! r = Some b -> bid b' = bid b -> InvA (set_body w r b').
Proof. intros H Hb E. eapply same_bids_InvA; [eapply same_bids_set; eassumption|exact H]. Qed.

Lemma InvA_id w i r b : InvA w -> at_id w i = Some (r, b) -> bid b = Some i.
Proof. intros [_ H] Hi. apply at_id_Some in Hi as [Hs Hb]. destruct (H i r Hs) as (b' & Hb' & E). congruence. Qed.

Lemma isClump_at w i r b : InvA w -> at_id w i = Some (r, b) -> isClump b = true <-> clumpId b = Some i.
Proof.
  intros HA Hi. pose proof (InvA_id _ _ _ _ HA Hi) as E. unfold isClump. rewrite E. destruct (clumpId b) as [c|]; [|split; discriminate].
  rewrite bool_decide_eq_true. split; congruence.
Qed.
Lemma isMember_at w i r b : InvA w -> at_id w i = Some (r, b) -> isClumpMember b = true <-> exists c, clumpId b = Some c /\ c <> i.
Proof.
  intros HA Hi. pose proof (InvA_id _ _ _ _ HA Hi) as E. unfold isClumpMember. rewrite E. destruct (clumpId b) as [c|].
  - rewrite negb_true_iff, bool_decide_eq_false. split; [intros H; exists c; split; [reflexivity|congruence]|intros (c' & E' & H); congruence].
  - split; [discriminate|intros (c & E' & _); discriminate].
Qed.

Lemma at_V w i r b : at_id w i = Some (r, b) -> V w i = Some (clumpId b, members b).
Proof. unfold view. intros ->. reflexivity. Qed.

(** a change of one existing body, in terms of the view *)
Lemma at_id_set w i r b b' : InvA w -> at_id w i = Some (r, b) ->
  forall k, at_id (set_body w r b') k = if decide (k = i) then Some (r, b') else at_id w k.
Proof.
  intros HA Hi k. apply at_id_Some in Hi as [Hi Hb]. unfold at_id, slot. cbn. destruct (decide (k = i)) as [->|Hn].
  - rewrite Hi. rewrite lookup_insert. reflexivity.
  - destruct (slots w !! k) as [[r'|]|] eqn:Ek; [|reflexivity|reflexivity].
    rewrite lookup_insert_ne; [reflexivity|]. intros <-. apply Hn. eapply slot_inj; [apply HA|exact Ek|exact Hi].
Qed.

Lemma ref_ne w i j ri bi rj bj : at_id w i = Some (ri, bi) -> at_id w j = Some (rj, bj) -> InvA w -> i <> j -> ri <> rj.
Proof.
  intros Hi Hj HA Hn ->. apply at_id_Some in Hi as [Hi _]. apply at_id_Some in Hj as [Hj _]. apply Hn. eapply slot_inj; [apply HA|exact Hi|exact Hj].
Qed.

(** adding a standalone body to a clump *)
Lemma clump_add_spec w c rc bc s rs bs mc : InvC w -> at_id w c = Some (rc, bc) -> at_id w s = Some (rs, bs) -> s <> c ->
  members bc = Some mc -> (clumpId bc = Some c \/ (clumpId bc = None /\ mc = ∅)) -> clumpId bs = None ->
  exists w', clump_add w rc rs = Ret tt w' /\ InvC w' /\
    forall k, V w' k = if decide (k = s) then Some (Some c, members bs) else if decide (k = c) then Some (Some c, Some ({[s]} ∪ mc)) else V w k.
Proof.
  intros (HA & HV & HL) Hc Hs Hne Hm Hcc Hcs.
  pose proof (InvA_id _ _ _ _ HA Hc) as Ebc. pose proof (InvA_id _ _ _ _ HA Hs) as Ebs.
  pose proof (ref_ne _ _ _ _ _ _ _ Hs Hc HA Hne) as Hr.
  pose proof (proj1 (at_id_Some _ _ _ _) Hc) as [Hc1 Hc2]. pose proof (proj1 (at_id_Some _ _ _ _) Hs) as [Hs1 Hs2].
  assert (Hsm : s ∉ mc).
  { destruct Hcc as [Hcc|[_ ->]]; [|set_solver]. intros Hin.
    destruct (HV c c (Some mc)) as [Ha _]. { apply V_Some. eauto 6. }
    destruct (Ha eq_refl) as (ms & E & Hk). injection E as <-. destruct (Hk s Hin) as (_ & m' & Hv).
    rewrite (at_V _ _ _ _ Hs) in Hv. congruence. }
  unfold clump_add. rewrite Hc2, Hs2, Hm, Ebs, Ebc. rewrite bool_decide_eq_false_2 by exact Hsm.
  assert (E1 : isClumpMember bs = false) by (unfold isClumpMember; rewrite Hcs; reflexivity).
  assert (E2 : isClump bs = false) by (unfold isClump; rewrite Hcs; reflexivity).
  rewrite E1, E2. cbn [bheap set_body set_bheap]. rewrite lookup_insert_ne by congruence. rewrite Hs2. cbn [bind bheap set_body set_bheap].
  rewrite lookup_insert_ne by congruence. rewrite lookup_insert.
  eexists. split; [reflexivity|].
  set (w1 := set_body w rc (with_members bc ({[s]} ∪ mc))).
  assert (A1 : InvA w1) by (eapply InvA_set; [exact HA|exact Hc2|reflexivity]).
  assert (H1 : forall k, at_id w1 k = if decide (k = c) then Some (rc, with_members bc ({[s]} ∪ mc)) else at_id w k) by (intros k; eapply at_id_set; eassumption).
  assert (S1 : at_id w1 s = Some (rs, bs)). { rewrite H1. destruct (decide (s = c)); [congruence|exact Hs]. }
  set (w2 := set_body w1 rs (with_clumpId bs (Some c))).
  assert (A2 : InvA w2) by (eapply InvA_set; [exact A1|apply at_id_Some in S1 as [_ S1]; exact S1|reflexivity]).
  pose proof (at_id_set w1 s rs bs (with_clumpId bs (Some c)) A1 S1) as H2.
  assert (C2 : at_id w2 c = Some (rc, with_members bc ({[s]} ∪ mc))).
  { unfold w2. rewrite H2. destruct (decide (c = s)); [congruence|]. rewrite H1. destruct (decide (c = c)); [reflexivity|congruence]. }
  pose proof (at_id_set w2 c rc _ (with_clumpId (with_members bc ({[s]} ∪ mc)) (Some c)) A2 C2) as H3.
  match goal with |- InvC ?x /\ _ => set (w3 := x) in *; change (set_body w2 rc (with_clumpId (with_members bc ({[s]} ∪ mc)) (Some c))) with w3 in H3 end.
  assert (EV : forall k, V w3 k = if decide (k = s) then Some (Some c, members bs) else if decide (k = c) then Some (Some c, Some ({[s]} ∪ mc)) else V w k).
  { intros k. unfold view at 1. rewrite H3. unfold w2. rewrite H2, H1. destruct (decide (k = c)) as [->|].
    - destruct (decide (c = s)); [congruence|reflexivity].
    - destruct (decide (k = s)); [reflexivity|reflexivity]. }
  split; [split; [|split]|exact EV].
  - eapply (InvA_set w2); [exact A2|apply at_id_Some in C2 as [_ C2]; exact C2|reflexivity].
  - eapply okV_ext; [exact EV|]. eapply okV_add; [exact HV|exact Hne|erewrite at_V by exact Hc; rewrite Hm; reflexivity|exact Hcc|erewrite at_V by exact Hs; rewrite Hcs; reflexivity].
  - eapply (loose_set w2); [|apply at_id_Some in C2 as [_ C2]; exact C2|cbn; congruence].
    eapply (loose_set w1); [|apply at_id_Some in S1 as [_ S1]; exact S1|cbn; congruence].
    eapply loose_set; [exact HL|exact Hc2|cbn; congruence].
Qed.

(** removing a member from its clump *)
Lemma clump_del_spec w c s rs bs : InvC w -> at_id w s = Some (rs, bs) -> clumpId bs = Some c -> c <> s ->
  exists rc bc mc w', at_id w c = Some (rc, bc) /\ clumpId bc = Some c /\ members bc = Some mc /\ s ∈ mc /\
    clump_del w rc rs = Ret tt w' /\ InvC w' /\ bheap w' !! rc = Some (with_members bc (mc ∖ {[s]})) /\
    (exists bs', bheap w' !! rs = Some bs' /\ bid bs' = bid bs /\ clumpId bs' = None /\ intrs bs' = intrs bs) /\ slots w' = slots w /\
    forall k, V w' k = if decide (k = s) then Some (None, members bs) else if decide (k = c) then Some (Some c, Some (mc ∖ {[s]})) else V w k.
Proof.
  intros (HA & HV & HL) Hs Ecs Hne.
  pose proof (at_V _ _ _ _ Hs) as Vs. rewrite Ecs in Vs.
  destruct (HV s c (members bs) Vs) as [_ Hb]. destruct (Hb Hne) as (mc & Vc & Hin).
  pose proof Vc as Vc'. apply V_Some in Vc' as (rc & bc & Hc & Ecc & Emc).
  pose proof (InvA_id _ _ _ _ HA Hs) as Ebs. pose proof (InvA_id _ _ _ _ HA Hc) as Ebc.
  pose proof (ref_ne _ _ _ _ _ _ _ Hs Hc HA (not_eq_sym Hne)) as Hr.
  pose proof (proj1 (at_id_Some _ _ _ _) Hc) as [Hc1 Hc2]. pose proof (proj1 (at_id_Some _ _ _ _) Hs) as [Hs1 Hs2].
  set (w1 := set_body w rc (with_members bc (mc ∖ {[s]}))).
  assert (A1 : InvA w1) by (eapply InvA_set; [exact HA|exact Hc2|reflexivity]).
  pose proof (at_id_set w c rc bc (with_members bc (mc ∖ {[s]})) HA Hc) as H1.
  assert (S1 : at_id w1 s = Some (rs, bs)). { unfold w1. rewrite H1. destruct (decide (s = c)); [congruence|exact Hs]. }
  pose proof (at_id_set w1 s rs bs (with_clumpId bs None) A1 S1) as H2.
  set (w2 := set_body w1 rs (with_clumpId bs None)).
  assert (EV : forall k, V w2 k = if decide (k = s) then Some (None, members bs) else if decide (k = c) then Some (Some c, Some (mc ∖ {[s]})) else V w k).
  { intros k. unfold view at 1, w2. rewrite H2. unfold w1. rewrite H1. destruct (decide (k = s)); [reflexivity|].
    destruct (decide (k = c)) as [->|]; [|reflexivity]. cbn. rewrite Ecc. reflexivity. }
  exists rc, bc, mc, w2. split; [exact Hc|]. split; [exact Ecc|]. split; [exact Emc|]. split; [exact Hin|].
  split; [|split; [|split; [|split; [|split; [reflexivity|exact EV]]]]].
  - unfold clump_del. rewrite Hc2, Hs2, Emc, Ebs. rewrite bool_decide_eq_true_2 by exact Hin.
    fold w1. apply at_id_Some in S1 as [_ ->]. reflexivity.
  - split; [|split].
    + eapply (InvA_set w1); [exact A1|apply at_id_Some in S1 as [_ S1]; exact S1|reflexivity].
    + eapply okV_ext; [exact EV|]. eapply okV_del; [exact HV|congruence|exact Vc|exact Vs].
    + eapply (loose_set w1); [|apply at_id_Some in S1 as [_ S1]; exact S1|cbn; congruence].
      eapply loose_set; [exact HL|exact Hc2|cbn; congruence].
  - unfold w2, w1. cbn. rewrite lookup_insert_ne by congruence. rewrite lookup_insert. reflexivity.
  - exists (with_clumpId bs None). unfold w2. cbn. rewrite lookup_insert. auto.
Qed.

(** ** erase *)
Definition del1 (V : nat -> option (option nat * option (gset nat))) (i : nat) : nat -> option (option nat * option (gset nat)) :=
  fun k => if decide (k = i) then None else V k.

Lemma V_iheap w h : forall k, V (set_iheap w h) k = V w k.
Proof. reflexivity. Qed.

Lemma InvA_ret {A} w (r : res A) a w' : res_all (EA w) r -> r = Ret a w' -> InvA w'.
Proof. intros H ->. apply H. Qed.

Lemma unslot_A w id : InvA w -> InvA (set_slots w (<[id := None]> (slots w))).
Proof.
  intros HA. destruct (slots w !! id) eqn:E; [apply EA_unslot; eauto|].
  rewrite list_insert_ge by (apply lookup_ge_None_1; exact E). destruct w; exact HA.
Qed.

Lemma erase_tail_spec w id r b : InvC w -> at_id w id = Some (r, b) -> clumpId b = None ->
  exists w', erase_tail w id r = Ret true w' /\ InvC w' /\ forall k, V w' k = del1 (V w) id k.
Proof.
  intros (HA & HV & HL) Hi Hc. pose proof (proj1 (at_id_Some _ _ _ _) Hi) as [Hi1 Hi2].
  unfold erase_tail. rewrite Hi2. eexists. split; [reflexivity|].
  match goal with |- InvC ?x /\ _ => set (w' := x) end.
  assert (EV : forall k, V w' k = del1 (V w) id k).
  { intros k. unfold w', del1. rewrite V_unslot. destruct (decide (k = id)) as [->|Hn]; [reflexivity|].
    rewrite (V_set _ id r b) by assumption. destruct (decide (k = id)); [congruence|reflexivity]. }
  split; [|exact EV]. split; [|split].
  - eapply (InvA_ret w (erase_tail w id r)); [apply erase_tail_EA; [exact HA|exists (Some r); exact Hi1|intros i Hi'; eapply slot_inj; [apply HA|exact Hi'|exact Hi1]]|]. unfold erase_tail. rewrite Hi2. reflexivity.
  - eapply okV_ext; [exact EV|]. eapply okV_remove_free; [exact HV|eapply at_V; exact Hi|left; exact Hc].
  - intros r' b' Hb' Hn. apply (loose_set (set_iheap w (map_fold (fun _ q h => requestErase h q) (iheap w) (intrs b))) r b (with_bid b None) HL Hi2 (fun _ => Hc) r' b' Hb' Hn).
Qed.

Lemma erase_free w id r b f fl : InvC w -> at_id w id = Some (r, b) -> clumpId b = None ->
  exists w', bc_erase (S f) w id fl = Ret true w' /\ InvC w' /\ forall k, V w' k = del1 (V w) id k.
Proof.
  intros HC Hi Hc. destruct (erase_tail_spec w id r b HC Hi Hc) as (w' & E & R). exists w'. split; [|exact R].
  pose proof (proj1 (at_id_Some _ _ _ _) Hi) as [Hi1 Hi2]. cbn [bc_erase]. unfold slot. rewrite Hi1, Hi2.
  assert (E1 : isClumpMember b = false) by (unfold isClumpMember; rewrite Hc; reflexivity).
  assert (E2 : isClump b = false) by (unfold isClump; rewrite Hc; reflexivity).
  rewrite E1. cbn [bind]. rewrite Hi2, E2. exact E.
Qed.

Lemma erase_clump_head w id r b f fl : InvC w -> at_id w id = Some (r, b) -> clumpId b = Some id ->
  bc_erase (S f) w id fl = match members b with
              | None => UB
              | Some ms =>
                bind (foldl (fun acc m => bind acc (fun _ w =>
                        if fl then bind (bc_erase f w m false) (fun _ w => Ret tt w)
                        else match at_id w m with
                             | Some (rm, bm) => Ret tt (set_body w rm (with_clumpId bm None))
                             | None => UB
                             end)) (Ret tt w) (elements ms))
                     (fun _ w => Ret true (set_slots w (<[id := None]> (slots w))))
              end.
Proof.
  intros (HA & HV & HL) Hi Hc.
  pose proof (proj1 (at_id_Some _ _ _ _) Hi) as [Hi1 Hi2]. cbn [bc_erase]. unfold slot. rewrite Hi1, Hi2.
  pose proof (InvA_id _ _ _ _ HA Hi) as Eb.
  assert (E1 : isClumpMember b = false). { unfold isClumpMember. rewrite Hc, Eb. rewrite bool_decide_eq_true_2 by reflexivity. reflexivity. }
  assert (E2 : isClump b = true). { unfold isClump. rewrite Hc, Eb. apply bool_decide_eq_true_2. reflexivity. }
  rewrite E1. cbn [bind]. rewrite Hi2, E2. reflexivity.
Qed.

Lemma unslot_C w id cl m : InvC w -> V w id = Some (cl, m) -> okV (del1 (V w) id) -> InvC (set_slots w (<[id := None]> (slots w))).
Proof.
  intros (HA & HV & HL) Hi Ho. split; [|split].
  - apply unslot_A. exact HA.
  - eapply okV_ext; [|exact Ho]. apply V_unslot.
  - exact HL.
Qed.

(** an empty clump *)
Lemma erase_empty w id r b f fl : InvC w -> at_id w id = Some (r, b) -> clumpId b = Some id -> members b = Some ∅ ->
  let w' := set_slots w (<[id := None]> (slots w)) in
  bc_erase (S f) w id fl = Ret true w' /\ InvC w' /\ forall k, V w' k = del1 (V w) id k.
Proof.
  intros HC Hi Hc Hm w'. split; [|split].
  - rewrite (erase_clump_head w id r b) by assumption. rewrite Hm. rewrite elements_empty. reflexivity.
  - eapply unslot_C; [exact HC|eapply at_V; exact Hi|]. eapply okV_remove_free; [apply HC|eapply at_V; exact Hi|]. right. rewrite Hc, Hm. auto.
  - apply V_unslot.
Qed.

(** a member: it leaves its clump, and a clump left empty disappears too *)
Lemma erase_member w id r b c f fl : InvC w -> at_id w id = Some (r, b) -> clumpId b = Some c -> c <> id ->
  exists mc w', V w c = Some (Some c, Some mc) /\ id ∈ mc /\
    bc_erase (S (S f)) w id fl = Ret true w' /\ InvC w' /\
    forall k, V w' k = if decide (k = id) then None else if decide (k = c) then (if bool_decide (mc ∖ {[id]} = ∅) then None else Some (Some c, Some (mc ∖ {[id]}))) else V w k.
Proof.
  intros HC Hi Hc Hne. pose proof (proj1 (at_id_Some _ _ _ _) Hi) as [Hi1 Hi2].
  destruct (clump_del_spec w c id r b HC Hi Hc Hne) as (rc & bc & mc & w1 & Hcc & Ecc & Emc & Hin & E1 & C1 & Hb1 & (b1 & Hr1 & Ebid & Ecl & _) & Es1 & EV1).
  assert (Em : isClumpMember b = true). { eapply isMember_at; [apply HC|exact Hi|]. eauto. }
  exists mc. 
  assert (Hat1 : at_id w1 id = Some (r, b1)). { apply at_id_Some. rewrite Es1. auto. }
  assert (Hatc : at_id w1 c = Some (rc, with_members bc (mc ∖ {[id]}))). { apply at_id_Some. rewrite Es1. apply at_id_Some in Hcc as [Hcc _]. auto. }
  assert (Vc : V w c = Some (Some c, Some mc)). { rewrite (at_V _ _ _ _ Hcc). congruence. }
  assert (Enc : isClump b1 = false). { unfold isClump. rewrite Ecl. reflexivity. }
  destruct (bool_decide_reflect (mc ∖ {[id]} = ∅)) as [Ee|Ee].
  - destruct (erase_empty w1 c rc _ f false C1 Hatc Ecc) as (E2 & C2 & EV2). { cbn. rewrite Ee. reflexivity. }
    set (w2 := set_slots w1 (<[c := None]> (slots w1))) in *.
    assert (Hat2 : at_id w2 id = Some (r, b1)).
    { apply at_id_Some. split; [|exact Hr1]. cbn. rewrite list_lookup_insert_ne by congruence. apply at_id_Some in Hat1. apply Hat1. }
    destruct (erase_tail_spec w2 id r b1 C2 Hat2 Ecl) as (w3 & E3 & C3 & EV3).
    exists w3. split; [exact Vc|]. split; [exact Hin|]. split; [|split; [exact C3|]].
    + remember (S f) as sf. cbn [bc_erase]. unfold slot. rewrite Hi1, Hi2, Em, Hc, Hcc, E1. cbn [bind]. rewrite Hb1. cbn [members with_members].
      rewrite bool_decide_eq_true_2 by exact Ee. cbn [bid with_members].
      rewrite (InvA_id _ _ _ _ (proj1 HC) Hcc). subst sf. rewrite E2. cbn [bind]. apply at_id_Some in Hat2 as [_ ->]. rewrite Enc. exact E3.
    + intros k. rewrite EV3. unfold del1. destruct (decide (k = id)) as [->|]; [reflexivity|]. rewrite EV2. unfold del1. destruct (decide (k = c)); [reflexivity|].
      rewrite EV1. destruct (decide (k = id)); [congruence|]. destruct (decide (k = c)); [congruence|reflexivity].
  - destruct (erase_tail_spec w1 id r b1 C1 Hat1 Ecl) as (w3 & E3 & C3 & EV3).
    exists w3. split; [exact Vc|]. split; [exact Hin|]. split; [|split; [exact C3|]].
    + remember (S f) as sf. cbn [bc_erase]. unfold slot. rewrite Hi1, Hi2, Em, Hc, Hcc, E1. cbn [bind]. rewrite Hb1. cbn [members with_members].
      rewrite bool_decide_eq_false_2 by exact Ee. cbn [bind]. rewrite Hr1, Enc. exact E3.
    + intros k. rewrite EV3. unfold del1. destruct (decide (k = id)) as [->|]; [reflexivity|].
      rewrite EV1. destruct (decide (k = id)); [congruence|]. reflexivity.
Qed.

(** a clump, keeping its members *)
Lemma free_members l : forall w, InvA w -> loose w -> (forall m, m ∈ l -> alive w m) ->
  exists w', foldl (fun acc m => bind acc (fun _ w =>
                      match at_id w m with
                             | Some (rm, bm) => Ret tt (set_body w rm (with_clumpId bm None))
                             | None => UB
                             end)) (Ret tt w) l = Ret tt w' /\ InvA w' /\ loose w' /\ slots w' = slots w /\
    forall k, V w' k = if bool_decide (k ∈ l) then match V w k with Some (_, m) => Some (None, m) | None => None end else V w k.
Proof.
  induction l as [|m l IH]; intros w HA HL Hal.
  - exists w. cbn [foldl]. split; [reflexivity|]. split; [exact HA|]. split; [exact HL|]. split; [reflexivity|]. intros k. reflexivity.
  - cbn [foldl bind]. destruct (Hal m) as (rm & bm & Hm); [left|]. rewrite Hm.
    pose proof (proj1 (at_id_Some _ _ _ _) Hm) as [Hm1 Hm2].
    pose proof (at_id_set w m rm bm (with_clumpId bm None) HA Hm) as H1.
    destruct (IH (set_body w rm (with_clumpId bm None))) as (w' & E & A & L & S & EV).
    + eapply InvA_set; [exact HA|exact Hm2|reflexivity].
    + eapply loose_set; [exact HL|exact Hm2|reflexivity].
    + intros k Hk. destruct (Hal k) as (rk & bk & Hk'); [right; exact Hk|]. unfold alive. rewrite H1. destruct (decide (k = m)); eauto.
    + exists w'. split; [exact E|]. split; [exact A|]. split; [exact L|]. split; [exact S|]. intros k. rewrite EV.
      pose proof (V_set w m rm bm (with_clumpId bm None) HA Hm1 Hm2 k) as E1. rewrite E1.
      destruct (decide (k = m)) as [->|Hn].
      * rewrite (bool_decide_eq_true_2 (m ∈ m :: l)) by left. cbn. rewrite (at_V _ _ _ _ Hm). destruct (bool_decide (m ∈ l)); reflexivity.
      * assert (Eb : bool_decide (k ∈ m :: l) = bool_decide (k ∈ l)).
        { apply bool_decide_ext. rewrite elem_of_cons. split; [intros [?|?]; [congruence|assumption]|tauto]. }
        rewrite Eb. reflexivity.
Qed.

Definition dissolved (V : nat -> option (option nat * option (gset nat))) (c : nat) (ms : gset nat) :=
  fun k => if decide (k = c) then None else if bool_decide (k ∈ ms) then match V k with Some (_, m) => Some (None, m) | None => None end else V k.

Lemma erase_clump_keep w id r b ms f : InvC w -> at_id w id = Some (r, b) -> clumpId b = Some id -> members b = Some ms ->
  exists w', bc_erase (S f) w id false = Ret true w' /\ InvC w' /\ forall k, V w' k = dissolved (V w) id ms k.
Proof.
  intros HC Hi Hc Hm. pose proof HC as (HA & HV & HL). pose proof (at_V _ _ _ _ Hi) as Vi. rewrite Hc, Hm in Vi.
  destruct (free_members (elements ms) w HA HL) as (w1 & E & A & L & S & EV).
  { intros m Hin. apply elem_of_elements in Hin. destruct (HV id id (Some ms) Vi) as [Ha _]. destruct (Ha eq_refl) as (ms' & E & H). injection E as <-.
    destruct (H m Hin) as (_ & m' & Hv). apply V_Some in Hv as (rm & bm & Hat & _). exists rm, bm. exact Hat. }
  exists (set_slots w1 (<[id := None]> (slots w1))).
  assert (EV' : forall k, V (set_slots w1 (<[id := None]> (slots w1))) k = dissolved (V w) id ms k).
  { intros k. rewrite V_unslot. unfold dissolved. destruct (decide (k = id)); [reflexivity|]. rewrite EV.
    assert (Eb : bool_decide (k ∈ elements ms) = bool_decide (k ∈ ms)) by (apply bool_decide_ext, elem_of_elements).
    rewrite Eb. reflexivity. }
  split; [|split; [|exact EV']].
  - rewrite (erase_clump_head w id r b) by assumption. rewrite Hm. rewrite E. reflexivity.
  - split; [|split].
    + apply unslot_A. exact A.
    + eapply okV_ext; [exact EV'|]. apply okV_dissolve; assumption.
    + exact L.
Qed.

(** erasing the members one after the other *)
Lemma erase_members l : forall w c (cur : gset nat) f, InvC w -> NoDup l ->
  (forall m, m ∈ l <-> m ∈ cur) ->
  (V w c = Some (Some c, Some cur) \/ (V w c = None /\ l = [])) ->
  exists w', foldl (fun acc m => bind acc (fun _ w => bind (bc_erase (S (S f)) w m false) (fun _ w => Ret tt w))) (Ret tt w) l = Ret tt w' /\
    InvC w' /\ (l <> [] -> V w' c = None) /\ forall k, k <> c -> V w' k = if bool_decide (k ∈ l) then None else V w k.
Proof.
  induction l as [|m l IH]; intros w c cur f HC Hnd Hcur Hc.
  - exists w. cbn [foldl]. split; [reflexivity|]. split; [exact HC|]. split; [congruence|]. reflexivity.
  - destruct Hc as [Hc|[_ ?]]; [|discriminate]. pose proof HC as (HA & HV & HL).
    assert (Hm : m ∈ cur) by (apply Hcur; left).
    destruct (HV c c (Some cur) Hc) as [Ha _]. destruct (Ha eq_refl) as (ms' & E & H). injection E as <-.
    destruct (H m Hm) as (Hmc & m' & Hv). pose proof Hv as Hv'. apply V_Some in Hv' as (rm & bm & Hat & Ecl & _).
    destruct (erase_member w m rm bm c f false HC Hat Ecl (not_eq_sym Hmc)) as (mc & w1 & Hvc & Hin & E1 & C1 & EV1).
    rewrite Hc in Hvc. injection Hvc as <-.
    cbn [foldl]. unfold bind at 3. rewrite E1. cbn [bind].
    apply NoDup_cons in Hnd as [Hml Hnd].
    destruct (IH w1 c (cur ∖ {[m]}) f C1 Hnd) as (w2 & E2 & C2 & N2 & EV2).
    + intros k. rewrite elem_of_difference, elem_of_singleton, <- Hcur, elem_of_cons. split; [intros Hk; split; [auto|]; intros ->; auto|tauto].
    + rewrite EV1. destruct (decide (c = m)); [congruence|]. destruct (decide (c = c)); [|congruence].
      destruct (bool_decide_reflect (cur ∖ {[m]} = ∅)) as [Ee|Ee]; [right|left; reflexivity]. split; [reflexivity|].
      destruct l as [|k l]; [reflexivity|exfalso]. assert (k ∈ cur ∖ {[m]}); [|set_solver].
      rewrite elem_of_difference, elem_of_singleton, <- Hcur. split; [right; left|]. intros ->. apply Hml. left.
    + exists w2. split; [exact E2|]. split; [exact C2|]. split.
      * intros _. destruct l as [|k l]; [|apply N2; discriminate]. cbn [foldl] in E2. injection E2 as <-.
        rewrite EV1. destruct (decide (c = m)); [congruence|]. destruct (decide (c = c)); [|congruence].
        rewrite bool_decide_eq_true_2; [reflexivity|]. apply elem_of_equiv_empty_L. intros k Hk.
        rewrite elem_of_difference, elem_of_singleton, <- Hcur, elem_of_cons in Hk. destruct Hk as [[?|Hk] ?]; [congruence|]. inversion Hk.
      * intros k Hk. rewrite EV2 by exact Hk. rewrite EV1. destruct (decide (k = c)); [congruence|].
        destruct (decide (k = m)) as [->|Hn].
        { rewrite (bool_decide_eq_true_2 (m ∈ m :: l)) by left. destruct (bool_decide (m ∈ l)); reflexivity. }
        assert (Eb : bool_decide (k ∈ m :: l) = bool_decide (k ∈ l)).
        { apply bool_decide_ext. rewrite elem_of_cons. split; [intros [?|?]; [congruence|assumption]|tauto]. }
        rewrite Eb. reflexivity.
Qed.

Lemma erase_clump_all w id r b ms f : InvC w -> at_id w id = Some (r, b) -> clumpId b = Some id -> members b = Some ms ->
  exists w', bc_erase (S (S (S f))) w id true = Ret true w' /\ InvC w' /\
    forall k, V w' k = if decide (k = id) then None else if bool_decide (k ∈ ms) then None else V w k.
Proof.
  intros HC Hi Hc Hm. pose proof (at_V _ _ _ _ Hi) as Vi. rewrite Hc, Hm in Vi.
  destruct (decide (ms = ∅)) as [->|Hne].
  { destruct (erase_empty w id r b (S (S f)) true HC Hi Hc Hm) as (E & C & EV). eexists. split; [exact E|]. split; [exact C|].
    intros k. rewrite EV. unfold del1. destruct (decide (k = id)); [reflexivity|]. rewrite bool_decide_eq_false_2 by set_solver. reflexivity. }
  destruct (erase_members (elements ms) w id ms f HC (NoDup_elements ms)) as (w1 & E & C & N & EV).
  { intros m. apply elem_of_elements. }
  { left. exact Vi. }
  assert (N' : V w1 id = None). { apply N. intros Hn. apply Hne. apply elements_empty_inv, leibniz_equiv in Hn. exact Hn. }
  exists (set_slots w1 (<[id := None]> (slots w1))).
  assert (EV' : forall k, V (set_slots w1 (<[id := None]> (slots w1))) k = V w1 k).
  { intros k. rewrite V_unslot. destruct (decide (k = id)) as [->|]; [congruence|reflexivity]. }
  split; [|split].
  - rewrite (erase_clump_head w id r b) by assumption. rewrite Hm. cbn beta iota. rewrite E. reflexivity.
  - destruct C as (A & O & L). split; [apply unslot_A, A|]. split; [eapply okV_ext; [exact EV'|exact O]|exact L].
  - intros k. rewrite EV'. destruct (decide (k = id)) as [->|Hn]; [exact N'|]. rewrite EV by exact Hn.
    assert (Eb : bool_decide (k ∈ elements ms) = bool_decide (k ∈ ms)) by (apply bool_decide_ext, elem_of_elements).
    rewrite Eb. reflexivity.
Qed.

Lemma erase_C w id fl : InvC w -> alive w id ->
  exists w', erase w id fl = Ret true w' /\ InvC w' /\ forall k, V w' k = erase_view (V w) id fl k.
Proof.
  intros HC (r & b & Hi). unfold erase. pose proof (at_V _ _ _ _ Hi) as Vi.
  destruct (clumpId b) as [c|] eqn:Ec.
  - destruct (decide (c = id)) as [->|Hne].
    + destruct HC as (HA & HV & HL). destruct (HV id id _ Vi) as [Ha _]. destruct (Ha eq_refl) as (ms & Em & _).
      rewrite Em in Vi. destruct fl.
      * destruct (erase_clump_all w id r b ms 1 (conj HA (conj HV HL)) Hi Ec Em) as (w' & E & C & EV).
        exists w'. split; [exact E|]. split; [exact C|]. intros k. rewrite EV. unfold erase_view. rewrite Vi.
        destruct (decide (k = id)); [reflexivity|]. destruct (decide (id = id)); [|congruence]. reflexivity.
      * destruct (erase_clump_keep w id r b ms 3 (conj HA (conj HV HL)) Hi Ec Em) as (w' & E & C & EV).
        exists w'. split; [exact E|]. split; [exact C|]. intros k. rewrite EV. unfold erase_view, dissolved. rewrite Vi.
        destruct (decide (k = id)); [reflexivity|]. destruct (decide (id = id)); [|congruence]. reflexivity.
    + destruct (erase_member w id r b c 2 fl HC Hi Ec Hne) as (mc & w' & Vc & Hin & E & C & EV).
      exists w'. split; [exact E|]. split; [exact C|]. intros k. rewrite EV. unfold erase_view. rewrite Vi, Vc.
      destruct (decide (k = id)); [reflexivity|]. destruct (decide (c = id)); [congruence|]. reflexivity.
  - destruct (erase_free w id r b 3 fl HC Hi Ec) as (w' & E & C & EV).
    exists w'. split; [exact E|]. split; [exact C|]. intros k. rewrite EV. unfold erase_view. rewrite Vi. reflexivity.
Qed.

Lemma alive_V w i : alive w i <-> exists cl m, V w i = Some (cl, m).
Proof.
  split.
  - intros (r & b & H). exists (clumpId b), (members b). eapply at_V; exact H.
  - intros (cl & m & H). apply V_Some in H as (r & b & H & _). exists r, b. exact H.
Qed.

(** ** a new body in the container *)
Lemma insert_C w r b : InvC w -> (forall i, slots w !! i <> Some (Some r)) -> bheap w !! r = Some b -> clumpId b = None ->
  exists w', bc_insert w r = Ret (length (slots w)) w' /\ InvC w' /\
    at_id w' (length (slots w)) = Some (r, with_bid b (Some (length (slots w)))) /\
    forall k, V w' k = if decide (k = length (slots w)) then Some (None, members b) else V w k.
Proof.
  intros (HA & HV & HL) Hn Hb Hc. pose proof (bc_insert_A w r HA Hn) as HI. unfold bc_insert in *. rewrite Hb in *. eexists. split; [reflexivity|].
  cbn [res_all] in HI. match goal with |- InvC ?x /\ _ => set (w' := x) in * end.
  assert (EV : forall k, V w' k = if decide (k = length (slots w)) then Some (None, members b) else V w k).
  { intros k. unfold view, at_id, slot, w'. cbn. destruct (decide (k = length (slots w))) as [->|Hk].
    - rewrite lookup_app_r, Nat.sub_diag by lia. cbn. rewrite lookup_insert. cbn. rewrite Hc. reflexivity.
    - destruct (slots w !! k) as [o|] eqn:Ek.
      + rewrite (lookup_app_l_Some _ _ _ _ Ek). destruct o as [r'|]; [|reflexivity].
        rewrite lookup_insert_ne; [reflexivity|]. intros <-. eapply Hn; exact Ek.
      + rewrite lookup_ge_None_2; [reflexivity|]. rewrite app_length. cbn. apply lookup_ge_None_1 in Ek. lia. }
  split; [|split].
  - split; [apply HI|]. split.
    + eapply okV_ext; [exact EV|]. apply okV_new; [exact HV|]. unfold view, at_id, slot. rewrite lookup_ge_None_2 by lia. reflexivity.
    + intros r' b' Hb' E. unfold w' in Hb'. cbn in Hb'. destruct (decide (r' = r)) as [->|Hr].
      * rewrite lookup_insert in Hb'. injection Hb' as <-. exact Hc.
      * rewrite lookup_insert_ne in Hb' by congruence. eapply HL; eassumption.
  - apply at_id_Some. unfold w'. cbn. rewrite lookup_app_r, Nat.sub_diag by lia. rewrite lookup_insert. auto.
  - exact EV.
Qed.

(** ** clump *)
Lemma difference_notin (ms : gset nat) s : s ∉ ms -> ms ∖ {[s]} = ms.
Proof. intros H. apply leibniz_equiv. set_solver. Qed.

Definition leave1 (v : nat -> option (option nat * option (gset nat))) (s k : nat) : option (option nat * option (gset nat)) :=
  match v k with
  | None => None
  | Some (cl, m) => if decide (k = s) then Some (None, m)
      else if bool_decide (cl = Some k) then Some (cl, match m with Some ms => Some (ms ∖ {[s]}) | None => None end) else Some (cl, m)
  end.
Definition leaves (v : nat -> option (option nat * option (gset nat))) (ids : list nat) (k : nat) : option (option nat * option (gset nat)) :=
  match v k with
  | None => None
  | Some (cl, m) => if bool_decide (k ∈ ids) then Some (None, m)
      else if bool_decide (cl = Some k) then Some (cl, match m with Some ms => Some (ms ∖ list_to_set ids) | None => None end) else Some (cl, m)
  end.

Lemma clump_loop1 l : forall w, InvC w -> (forall i, i ∈ l -> exists cl m, V w i = Some (cl, m) /\ cl <> Some i) ->
  exists w', foldl (fun acc id => bind acc (fun _ w =>
          match at_id w id with
          | None => UB
          | Some (r, b) =>
              if isClumpMember b then
                match clumpId b with
                | Some c => match at_id w c with Some (rc', _) => clump_del w rc' r | None => UB end
                | None => UB end
              else Ret tt w
          end)) (Ret tt w) l = Ret tt w' /\ InvC w' /\ (forall k, V w' k = leaves (V w) l k) /\ slots w' = slots w.
Proof.
  induction l as [|s l IH]; intros w HC Hl.
  - exists w. cbn [foldl]. split; [reflexivity|]. split; [exact HC|]. split; [|reflexivity]. intros k. unfold leaves.
    destruct (V w k) as [[cl m]|]; [|reflexivity]. rewrite (bool_decide_eq_false_2 (k ∈ [])) by (intros Hk; inversion Hk).
    destruct (bool_decide (cl = Some k)); [|reflexivity]. destruct m as [ms|]; [|reflexivity].
    cbn [list_to_set]. rewrite difference_empty_L. reflexivity.
  - destruct (Hl s) as (cl & m & Vs & Hns); [left|]. pose proof Vs as Vs'. apply V_Some in Vs' as (r & b & Hs & Ecl & Em).
    assert (K : exists w1, match at_id w s with None => UB | Some (r, b) =>
              if isClumpMember b then match clumpId b with
                | Some c => match at_id w c with Some (rc', _) => clump_del w rc' r | None => UB end
                | None => UB end else Ret tt w end = Ret tt w1 /\ InvC w1 /\ (forall k, V w1 k = leave1 (V w) s k) /\ slots w1 = slots w).
    { rewrite Hs. destruct (isClumpMember b) eqn:Emb.
      - apply (isMember_at w s r b (proj1 HC) Hs) in Emb as (c & Ec & Hcs). rewrite Ec.
        destruct (clump_del_spec w c s r b HC Hs Ec Hcs) as (rc & bc & mc & w1 & Hcc & Ecc & Emc & Hin & E1 & C1 & _ & _ & S1 & EV1).
        rewrite Hcc, E1. exists w1. split; [reflexivity|]. split; [exact C1|]. split; [|exact S1]. intros k. rewrite EV1. unfold leave1.
        destruct (decide (k = s)) as [->|Hks]; [rewrite Vs, <- Em; reflexivity|].
        destruct (decide (k = c)) as [->|Hkc].
        { rewrite (at_V _ _ _ _ Hcc), Ecc, Emc. rewrite bool_decide_eq_true_2 by reflexivity. reflexivity. }
        destruct (V w k) as [[clk mk]|] eqn:Ek; [|reflexivity].
        destruct (bool_decide_reflect (clk = Some k)) as [->|]; [|reflexivity]. destruct mk as [msk|]; [|reflexivity].
        rewrite difference_notin; [reflexivity|]. intros Hsk. destruct HC as (HA & HV & HL).
        destruct (HV k k _ Ek) as [Ha _]. destruct (Ha eq_refl) as (ms0 & E0 & H0). injection E0 as <-.
        destruct (H0 s Hsk) as (_ & m0 & V0). rewrite Vs in V0. congruence.
      - exists w. split; [reflexivity|]. split; [exact HC|]. split; [|reflexivity]. intros k. unfold leave1.
        assert (cl = None) as Ecl0.
        { destruct cl as [c|]; [|reflexivity]. exfalso. assert (isClumpMember b = true); [|congruence].
          apply (isMember_at w s r b (proj1 HC) Hs). exists c. split; [exact Ecl|]. congruence. }
        destruct (decide (k = s)) as [->|Hks]; [rewrite Vs, Ecl0; reflexivity|].
        destruct (V w k) as [[clk mk]|] eqn:Ek; [|reflexivity].
        destruct (bool_decide_reflect (clk = Some k)) as [->|]; [|reflexivity]. destruct mk as [msk|]; [|reflexivity].
        rewrite difference_notin; [reflexivity|]. intros Hsk. destruct HC as (HA & HV & HL).
        destruct (HV k k _ Ek) as [Ha _]. destruct (Ha eq_refl) as (ms0 & E0 & H0). injection E0 as <-.
        destruct (H0 s Hsk) as (_ & m0 & V0). rewrite Vs in V0. congruence. }
    destruct K as (w1 & E1 & C1 & EV1 & S1).
    destruct (IH w1 C1) as (w2 & E2 & C2 & EV2 & S2).
    { intros i Hi. destruct (Hl i) as (cli & mi & Vi & Hni); [right; exact Hi|]. rewrite EV1. unfold leave1. rewrite Vi.
      destruct (decide (i = s)); [eexists _, _; split; [reflexivity|discriminate]|]. rewrite bool_decide_eq_false_2 by exact Hni. eauto. }
    exists w2. cbn [foldl]. unfold bind at 2. rewrite E1. split; [exact E2|]. split; [exact C2|]. split; [|congruence].
    intros k. rewrite EV2. unfold leaves. rewrite EV1. unfold leave1.
    destruct (V w k) as [[clk mk]|] eqn:Ek; [|reflexivity].
    destruct (decide (k = s)) as [->|Hks].
    + rewrite (bool_decide_eq_true_2 (s ∈ s :: l)) by left. destruct (bool_decide (s ∈ l)); [reflexivity|].
      rewrite bool_decide_eq_false_2 by discriminate. reflexivity.
    + assert (Eb : bool_decide (k ∈ s :: l) = bool_decide (k ∈ l)).
      { apply bool_decide_ext. rewrite elem_of_cons. split; [intros [?|?]; [congruence|assumption]|tauto]. }
      rewrite Eb. destruct (bool_decide_reflect (clk = Some k)) as [->|Hcl].
      * destruct (bool_decide_reflect (k ∈ l)) as [Hin|_].
        { destruct (Hl k) as (clk' & mk' & Vk' & Hk'); [right; exact Hin|]. congruence. }
        rewrite bool_decide_eq_true_2 by reflexivity. destruct mk as [ms|]; [|reflexivity].
        do 3 f_equal. cbn [list_to_set]. apply leibniz_equiv. set_solver.
      * destruct (bool_decide (k ∈ l)); [reflexivity|]. rewrite bool_decide_eq_false_2 by exact Hcl. reflexivity.
Qed.

(** the new clump's own state while members are added *)
Definition clump_state (w : world) (c rc : nat) (mc : gset nat) : Prop :=
  exists bc, at_id w c = Some (rc, bc) /\ members bc = Some mc /\ (clumpId bc = Some c \/ (clumpId bc = None /\ mc = ∅)).

Lemma clump_add_one w c rc mc s rs bs : InvC w -> clump_state w c rc mc -> s <> c -> at_id w s = Some (rs, bs) -> clumpId bs = None ->
  exists w', clump_add w rc rs = Ret tt w' /\ InvC w' /\ clump_state w' c rc ({[s]} ∪ mc) /\
    forall k, V w' k = if decide (k = s) then Some (Some c, members bs) else if decide (k = c) then Some (Some c, Some ({[s]} ∪ mc)) else V w k.
Proof.
  intros HC (bc & Hc & Hm & Hcc) Hne Hs Hcs.
  destruct (clump_add_spec w c rc bc s rs bs mc HC Hc Hs Hne Hm Hcc Hcs) as (w' & E & C & EV). exists w'. split; [exact E|]. split; [exact C|]. split; [|exact EV].
  pose proof (EV c) as Vc. destruct (decide (c = s)); [congruence|]. destruct (decide (c = c)); [|congruence].
  apply V_Some in Vc as (rc' & bc' & Hc' & Ecl & Em). exists bc'. split; [|auto].
  assert (S : slots w' = slots w). { pose proof (clump_add_core w rc rs) as S. rewrite E in S. apply S. }
  apply at_id_Some in Hc' as [Hc1 Hc2]. apply at_id_Some. rewrite S in Hc1. apply at_id_Some in Hc as [Hc0 _]. rewrite S. split; [exact Hc0|]. congruence.
Qed.

Definition joined (v : nat -> option (option nat * option (gset nat))) (c : nat) (mc : gset nat) (ids : list nat) (k : nat) : option (option nat * option (gset nat)) :=
  if decide (k = c) then (if decide (ids = []) then v c else Some (Some c, Some (list_to_set ids ∪ mc)))
  else match v k with
       | None => None
       | Some (cl, m) => if bool_decide (k ∈ ids) then Some (Some c, m) else Some (cl, m) end.

Definition add_loop (rc : nat) (w : world) (l : list nat) : res unit :=
  foldl (fun acc id => bind acc (fun _ w =>
          match at_id w id with
          | None => UB
          | Some (r, _) => clump_add w rc r
          end)) (Ret tt w) l.

Lemma add_loop_exact l : forall w c rc mc, InvC w -> clump_state w c rc mc -> NoDup l ->
  (forall i, i ∈ l -> i <> c /\ exists m, V w i = Some (None, m)) ->
  exists w', add_loop rc w l = Ret tt w' /\ InvC w' /\ clump_state w' c rc (list_to_set l ∪ mc) /\ forall k, V w' k = joined (V w) c mc l k.
Proof.
  induction l as [|s l IH]; intros w c rc mc HC Hst Hnd Hl.
  - exists w. split; [reflexivity|]. split; [exact HC|]. split.
    + cbn. rewrite union_empty_l_L. exact Hst.
    + intros k. unfold joined. destruct (decide (k = c)) as [->|]; [reflexivity|]. destruct (V w k) as [[? ?]|]; reflexivity.
  - apply NoDup_cons in Hnd as [Hsl Hnd]. destruct (Hl s) as (Hsc & m & Vs); [left|].
    pose proof Vs as Vs'. apply V_Some in Vs' as (rs & bs & Hs & Ecl & Em).
    destruct (clump_add_one w c rc mc s rs bs HC Hst Hsc Hs Ecl) as (w1 & E1 & C1 & St1 & EV1).
    destruct (IH w1 c rc ({[s]} ∪ mc) C1 St1 Hnd) as (w2 & E2 & C2 & St2 & EV2).
    { intros i Hi. destruct (Hl i) as (Hic & mi & Vi); [right; exact Hi|]. split; [exact Hic|]. exists mi. rewrite EV1.
      destruct (decide (i = s)) as [->|]; [contradiction|]. destruct (decide (i = c)); [congruence|exact Vi]. }
    exists w2. split; [|split; [exact C2|]; split].
    + unfold add_loop. cbn [foldl]. unfold bind at 2. rewrite Hs, E1. exact E2.
    + assert (Eu : list_to_set (s :: l) ∪ mc = list_to_set l ∪ ({[s]} ∪ mc)) by (apply leibniz_equiv; cbn; set_solver). rewrite Eu. exact St2.
    + intros k. rewrite EV2. unfold joined. destruct (decide (k = c)) as [->|Hkc].
      * destruct (decide (s :: l = [])); [discriminate|].
        assert (Eu : list_to_set (s :: l) ∪ mc = list_to_set l ∪ ({[s]} ∪ mc)) by (apply leibniz_equiv; cbn; set_solver). rewrite Eu.
        destruct (decide (l = [])) as [->|]; [|reflexivity]. rewrite EV1. destruct (decide (c = s)); [congruence|].
        destruct (decide (c = c)); [|congruence]. cbn. rewrite union_empty_l_L. reflexivity.
      * rewrite EV1. destruct (decide (k = c)); [congruence|]. destruct (decide (k = s)) as [->|Hks].
        { rewrite Vs. rewrite (bool_decide_eq_true_2 (s ∈ s :: l)) by left. rewrite <- Em. destruct (bool_decide (s ∈ l)); reflexivity. }
        assert (Eb : bool_decide (k ∈ s :: l) = bool_decide (k ∈ l)).
        { apply bool_decide_ext. rewrite elem_of_cons. split; [intros [?|?]; [congruence|assumption]|tauto]. }
        rewrite Eb. reflexivity.
Qed.

(** with repeated ids the second addition throws; the state stays consistent *)
Lemma add_loop_inv l : forall w c rc mc, InvC w -> clump_state w c rc mc -> 
  (forall i, i ∈ l -> i <> c /\ exists cl m, V w i = Some (cl, m) /\ (cl = None \/ (cl = Some c /\ i ∈ mc))) ->
  (exists w', (add_loop rc w l = Ret tt w' \/ add_loop rc w l = Exc w') /\ InvC w').
Proof.
  induction l as [|s l IH]; intros w c rc mc HC Hst Hl.
  - exists w. split; [left; reflexivity|exact HC].
  - destruct (Hl s) as (Hsc & cl & m & Vs & Hcl); [left|]. pose proof Vs as Vs'. apply V_Some in Vs' as (rs & bs & Hs & Ecl & Em).
    destruct Hcl as [->|[-> Hin]].
    + destruct (clump_add_one w c rc mc s rs bs HC Hst Hsc Hs Ecl) as (w1 & E1 & C1 & St1 & EV1).
      destruct (IH w1 c rc ({[s]} ∪ mc) C1 St1) as (w2 & E2 & C2).
      { intros i Hi. destruct (Hl i) as (Hic & cli & mi & Vi & Hcli); [right; exact Hi|]. split; [exact Hic|]. rewrite EV1.
        destruct (decide (i = s)) as [->|]; [eexists _, _; split; [reflexivity|right; split; [reflexivity|set_solver]]|].
        destruct (decide (i = c)); [congruence|]. exists cli, mi. split; [exact Vi|]. destruct Hcli as [?|[? ?]]; [auto|right; split; [assumption|set_solver]]. }
      exists w2. split; [|exact C2]. unfold add_loop. cbn [foldl]. unfold bind at 2 4. rewrite Hs, E1. exact E2.
    + exists w. split; [|exact HC]. right. unfold add_loop. cbn [foldl]. unfold bind at 2. rewrite Hs.
      destruct Hst as (bc & Hc & Hm & _). unfold clump_add. pose proof (proj1 (at_id_Some _ _ _ _) Hc) as [_ ->].
      pose proof (proj1 (at_id_Some _ _ _ _) Hs) as [_ ->]. rewrite Hm, (InvA_id _ _ _ _ (proj1 HC) Hs), (InvA_id _ _ _ _ (proj1 HC) Hc).
      rewrite bool_decide_eq_true_2 by exact Hin. clear. induction l as [|x l IH]; [reflexivity|exact IH].
Qed.

Lemma new_clump_C w : InvC w ->
  let rc := nextb w in
  InvC (mkWorld (<[rc := mkBody None None (Some ∅) ∅]> (bheap w)) (S (nextb w)) (slots w) (iheap w) (nexti w) (lin w)) /\
  forall k, V (mkWorld (<[rc := mkBody None None (Some ∅) ∅]> (bheap w)) (S (nextb w)) (slots w) (iheap w) (nexti w) (lin w)) k = V w k.
Proof.
  intros ((H1 & H2) & HV & HL) rc. set (w0 := mkWorld _ _ _ _ _ _).
  assert (EV : forall k, V w0 k = V w k).
  { intros k. unfold view, at_id, slot. cbn. destruct (slots w !! k) as [[r|]|] eqn:Ek; [|reflexivity|reflexivity].
    rewrite lookup_insert_ne; [reflexivity|]. intros Er. destruct (H2 k r Ek) as (b & Hb & _). apply H1 in Hb. unfold rc in Er. lia. }
  split; [|exact EV]. split; [split|split].
  - intros r b Hb. cbn in *. destruct (decide (r = rc)) as [->|Hn]; [unfold rc; lia|]. rewrite lookup_insert_ne in Hb by congruence. apply H1 in Hb. lia.
  - intros i r Hi. destruct (H2 i r Hi) as (b & Hb & E). exists b. cbn. rewrite lookup_insert_ne; [auto|]. intros Er. apply H1 in Hb. unfold rc in Er. lia.
  - eapply okV_ext; [exact EV|exact HV].
  - intros r b Hb E. cbn in Hb. destruct (decide (r = rc)) as [->|Hn]; [rewrite lookup_insert in Hb; injection Hb as <-; reflexivity|].
    rewrite lookup_insert_ne in Hb by congruence. eapply HL; eassumption.
Qed.

(** start of clump(): everything before the members are added *)
Lemma clump_start w ids : InvC w -> (forall i, i ∈ ids -> exists cl m, V w i = Some (cl, m) /\ cl <> Some i) ->
  exists w', InvC w' /\ clump_state w' (length (slots w)) (nextb w) ∅ /\
    clump w ids = bind (add_loop (nextb w) w' ids) (fun _ w1 => bind (updateProperties w1 (nextb w)) (fun _ w2 => Ret (length (slots w)) w2)) /\
    (forall k, V w' k = if decide (k = length (slots w)) then Some (None, Some ∅) else leaves (V w) ids k).
Proof.
  intros HC Hids. destruct (new_clump_C w HC) as [C0 EV0]. unfold clump.
  set (w0 := mkWorld _ _ _ _ _ _) in *.
  assert (Hn0 : forall i, slots w0 !! i <> Some (Some (nextb w))).
  { intros i Hi. destruct HC as ((H1 & H2) & _). destruct (H2 i _ Hi) as (b & Hb & _). apply H1 in Hb. lia. }
  destruct (insert_C w0 (nextb w) (mkBody None None (Some ∅) ∅) C0 Hn0) as (w1 & E1 & C1 & At1 & EV1).
  { cbn. apply lookup_insert. }
  { reflexivity. }
  cbn [slots w0] in E1, At1, EV1. change (slots w0) with (slots w) in E1, At1, EV1.
  assert (Hlt : forall i cl m, V w i = Some (cl, m) -> i <> length (slots w)).
  { intros i cl m Hv ->. unfold view, at_id, slot in Hv. rewrite lookup_ge_None_2 in Hv by lia. discriminate. }
  destruct (clump_loop1 ids w1 C1) as (w2 & E2 & C2 & EV2 & S2).
  { intros i Hi. destruct (Hids i Hi) as (cl & m & Hv & Hne). exists cl, m. split; [|exact Hne]. rewrite EV1.
    destruct (decide (i = length (slots w))) as [E|]; [exfalso; eapply Hlt; eassumption|]. rewrite EV0. exact Hv. }
  exists w2. split; [exact C2|].
  assert (EV : forall k, V w2 k = if decide (k = length (slots w)) then Some (None, Some ∅) else leaves (V w) ids k).
  { intros k. rewrite EV2. unfold leaves. rewrite EV1. destruct (decide (k = length (slots w))) as [->|Hk].
    - cbn [members]. rewrite bool_decide_eq_false_2; [rewrite bool_decide_eq_false_2 by discriminate; reflexivity|].
      intros Hin. destruct (Hids _ Hin) as (cl & m & Hv & _). eapply Hlt; [exact Hv|reflexivity].
    - rewrite EV0. reflexivity. }
  split; [|split; [|exact EV]].
  - pose proof (EV (length (slots w))) as Vc. destruct (decide _); [|congruence]. apply V_Some in Vc as (rc & bc & Hc & Ecl & Em).
    exists bc. split; [|auto]. apply at_id_Some in Hc as [Hc1 Hc2]. apply at_id_Some. rewrite S2 in Hc1 |- *.
    apply at_id_Some in At1 as [At1 _]. split; [exact At1|]. congruence.
  - rewrite E1. cbn [bind]. rewrite E2. reflexivity.
Qed.

Lemma clump_exact w ids : InvC w -> NoDup ids -> ids <> [] ->
  (forall i, i ∈ ids -> exists cl m, V w i = Some (cl, m) /\ cl <> Some i) ->
  exists w', clump w ids = Ret (length (slots w)) w' /\ InvC w' /\ forall k, V w' k = clump_view (V w) (length (slots w)) ids k.
Proof.
  intros HC Hnd Hne Hids. destruct (clump_start w ids HC Hids) as (w1 & C1 & St1 & E1 & EV1).
  assert (Hlt : forall i cl m, V w i = Some (cl, m) -> i <> length (slots w)).
  { intros i cl m Hv ->. unfold view, at_id, slot in Hv. rewrite lookup_ge_None_2 in Hv by lia. discriminate. }
  destruct (add_loop_exact ids w1 _ _ _ C1 St1 Hnd) as (w2 & E2 & C2 & St2 & EV2).
  { intros i Hi. destruct (Hids i Hi) as (cl & m & Hv & _). split; [eapply Hlt; exact Hv|]. exists m. rewrite EV1.
    destruct (decide (i = length (slots w))) as [E|]; [exfalso; eapply Hlt; eassumption|]. unfold leaves. rewrite Hv.
    rewrite bool_decide_eq_true_2 by exact Hi. reflexivity. }
  exists w2. split; [|split; [exact C2|]].
  - rewrite E1, E2. cbn [bind]. destruct St2 as (bc & Hc & Hm & _). unfold updateProperties.
    apply at_id_Some in Hc as [_ ->]. rewrite Hm. rewrite bool_decide_eq_false_2; [reflexivity|].
    destruct ids as [|i ids]; [congruence|]. cbn. set_solver.
  - intros k. rewrite EV2. unfold joined, clump_view. destruct (decide (k = length (slots w))) as [->|Hk].
    + destruct (decide (ids = [])); [congruence|]. rewrite union_empty_r_L. reflexivity.
    + rewrite EV1. destruct (decide (k = length (slots w))); [congruence|]. unfold leaves.
      destruct (V w k) as [[cl m]|]; [|reflexivity]. destruct (bool_decide (k ∈ ids)); [reflexivity|]. destruct (bool_decide (cl = Some k)); reflexivity.
Qed.

Lemma clump_C w ids : InvC w -> (forall i, i ∈ ids -> exists cl m, V w i = Some (cl, m) /\ cl <> Some i) ->
  (exists c w', clump w ids = Ret c w' /\ InvC w') \/ (exists w', clump w ids = Exc w' /\ InvC w').
Proof.
  intros HC Hids. destruct (clump_start w ids HC Hids) as (w1 & C1 & St1 & E1 & EV1).
  assert (Hlt : forall i cl m, V w i = Some (cl, m) -> i <> length (slots w)).
  { intros i cl m Hv ->. unfold view, at_id, slot in Hv. rewrite lookup_ge_None_2 in Hv by lia. discriminate. }
  destruct (add_loop_inv ids w1 _ _ _ C1 St1) as (w2 & E2 & C2).
  { intros i Hi. destruct (Hids i Hi) as (cl & m & Hv & _). split; [eapply Hlt; exact Hv|]. exists None, m. split; [|auto]. rewrite EV1.
    destruct (decide (i = length (slots w))) as [E|]; [exfalso; eapply Hlt; eassumption|]. unfold leaves. rewrite Hv.
    rewrite bool_decide_eq_true_2 by exact Hi. reflexivity. }
  rewrite E1. destruct E2 as [E2|E2]; rewrite E2; cbn [bind]; [|right; eauto].
  assert (Hb : exists bc mc, bheap w2 !! nextb w = Some bc /\ members bc = Some mc).
  { destruct St1 as (bc & Hc & Hm & _).
    assert (S : same_core w1 w2).
    { assert (R : res_all (same_core w1) (add_loop (nextb w) w1 ids)); [|rewrite E2 in R; exact R].
      apply (res_all_foldl (same_core w1) (fun id _ w0 => match at_id w0 id with None => UB | Some (r, _) => clump_add w0 (nextb w) r end)); [apply same_core_refl|].
      intros x _ w3 _ H3. destruct (at_id w3 x) as [[r b]|]; [|exact I]. eapply res_all_mono; [apply clump_add_core|]. intros w4 H4. eapply same_core_trans; eassumption. }
    clear - E2 Hc Hm. apply at_id_Some in Hc as [_ Hc]. 
    (* the clump body keeps a member list *)
    assert (R : res_all (fun w' => exists bc mc, bheap w' !! nextb w = Some bc /\ members bc = Some mc) (add_loop (nextb w) w1 ids)); [|rewrite E2 in R; exact R].
    apply (res_all_foldl (fun w' => exists bc mc, bheap w' !! nextb w = Some bc /\ members bc = Some mc) (fun id _ w0 => match at_id w0 id with None => UB | Some (r, _) => clump_add w0 (nextb w) r end)); [eauto|].
    intros x _ w3 _ (b3 & m3 & Hb3 & Hm3). destruct (at_id w3 x) as [[r b]|]; [|exact I]. unfold clump_add. rewrite Hb3.
    destruct (bheap w3 !! r) as [s|] eqn:Es; [|exact I]. rewrite Hm3. destruct (bid s); [|exact I]. destruct (bid b3); [|exact I].
    destruct (bool_decide _); [cbn; eauto|]. destruct (isClumpMember s); [cbn; eauto|].
    eapply (res_all_bind (fun w' => exists bc mc, bheap w' !! nextb w = Some bc /\ members bc = Some mc)); [|auto|].
    - destruct (isClump s).
      + destruct (members s) as [ms|]; [|exact I]. induction (elements ms) as [|m l IH]; [cbn; eauto|]. cbn [foldr].
        eapply res_all_bind; [exact IH|auto|]. intros _ w4 _ _. destruct (at_id w4 m) as [[rm bm]|]; [|exact I].
        set (w5 := set_body w4 rm _). destruct (bheap w5 !! nextb w) as [c1|]; [|exact I]. destruct (members c1); [|exact I]. cbn.
        rewrite lookup_insert. eexists _, _. split; reflexivity.
      + cbn [bheap set_body set_bheap]. destruct (decide (r = nextb w)) as [->|Hn].
        * rewrite lookup_insert. cbn. rewrite lookup_insert. eexists _, _. split; reflexivity.
        * rewrite lookup_insert_ne by congruence. rewrite Es. cbn. rewrite lookup_insert_ne by congruence. rewrite lookup_insert. eexists _, _. split; reflexivity.
    - intros _ w4 _ (b4 & m4 & Hb4 & Hm4). rewrite Hb4. cbn. rewrite lookup_insert. eexists _, _. split; [reflexivity|exact Hm4]. }
  destruct Hb as (bc & mc & Hbc & Hmc). unfold updateProperties. rewrite Hbc, Hmc. destruct (bool_decide (mc = ∅)); cbn [bind]; [right|left]; eauto.
Qed.

(** ** addToClump and releaseFromClump *)
Definition atc_step (rc : nat) (b : nat) (st : option (list nat)) (w : world) : res (option (list nat)) :=
  match st with
  | None => Ret None w
  | Some er =>
    match at_id w b with
    | None => UB
    | Some (r, bp) =>
      if isClump bp then
        if bool_decide (r = rc) then Ret None w
        else bind (clump_add w rc r) (fun _ w => Ret (Some (er ++ [b])) w)
      else if isClumpMember bp then
        match clumpId bp with
        | None => UB
        | Some pc =>
          match at_id w pc with
          | None => UB
          | Some (rp, _) =>
            if bool_decide (rp = rc) then Ret None w
            else bind (clump_add w rc rp) (fun _ w => Ret (Some (er ++ [pc])) w)
          end
        end
      else bind (clump_add w rc r) (fun _ w => Ret (Some er) w)
    end
  end.
Definition atc_loop rc w l st := foldl (fun acc b => bind acc (atc_step rc b)) (Ret st w) l.

Lemma atc_loop_None rc w l : atc_loop rc w l None = Ret None w.
Proof. unfold atc_loop. induction l; [reflexivity|exact IHl]. Qed.

(** a standalone body is added *)
Lemma atc_step_free w c rc mc s rs bs er : InvC w -> clump_state w c rc mc -> s <> c -> at_id w s = Some (rs, bs) -> clumpId bs = None ->
  exists w', atc_step rc s (Some er) w = Ret (Some er) w' /\ InvC w' /\ clump_state w' c rc ({[s]} ∪ mc) /\
    forall k, V w' k = if decide (k = s) then Some (Some c, members bs) else if decide (k = c) then Some (Some c, Some ({[s]} ∪ mc)) else V w k.
Proof.
  intros HC Hst Hne Hs Hcs. destruct (clump_add_one w c rc mc s rs bs HC Hst Hne Hs Hcs) as (w' & E & R). exists w'. split; [|exact R].
  unfold atc_step. rewrite Hs. unfold isClump, isClumpMember. rewrite Hcs, E. reflexivity.
Qed.

(** the clump itself or one of its members: warning and return *)
Lemma atc_step_own w c rc bc mc s rs bs er : InvC w -> at_id w c = Some (rc, bc) -> members bc = Some mc -> at_id w s = Some (rs, bs) -> clumpId bs = Some c ->
  atc_step rc s (Some er) w = Ret None w.
Proof.
  intros HC Hc Hm Hs Hcs. unfold atc_step. rewrite Hs. destruct (decide (s = c)) as [->|Hne].
  - rewrite Hc in Hs. injection Hs as <- <-. assert (E : isClump bc = true) by (apply (isClump_at w c rc bc); [apply HC|exact Hc|exact Hcs]).
    rewrite E. rewrite bool_decide_eq_true_2 by reflexivity. reflexivity.
  - assert (E : isClump bs = false). { destruct (isClump bs) eqn:E; [|reflexivity]. apply (isClump_at w s rs bs (proj1 HC) Hs) in E. congruence. }
    assert (E' : isClumpMember bs = true). { apply (isMember_at w s rs bs (proj1 HC) Hs). exists c. split; [exact Hcs|congruence]. }
    rewrite E, E', Hcs, Hc. rewrite bool_decide_eq_true_2 by reflexivity. reflexivity.
Qed.

Lemma atc_loop_inv l : forall w c rc mc, InvC w -> clump_state w c rc mc -> V w c = Some (Some c, Some mc) ->
  (forall i, i ∈ l -> exists cl m, V w i = Some (cl, m) /\ (cl = None \/ cl = Some c)) ->
  exists st w', atc_loop rc w l (Some []) = Ret st w' /\ (st = None \/ st = Some []) /\ InvC w' /\ exists mc', clump_state w' c rc mc'.
Proof.
  induction l as [|s l IH]; intros w c rc mc HC Hst Vc Hl.
  - exists (Some []), w. split; [reflexivity|]. split; [auto|]. split; [exact HC|]. eauto.
  - destruct (Hl s) as (cl & m & Vs & Hcl); [left|]. pose proof Vs as Vs'. apply V_Some in Vs' as (rs & bs & Hs & Ecl & Em).
    destruct Hcl as [->| ->].
    + assert (Hne : s <> c) by (intros ->; congruence).
      destruct (atc_step_free w c rc mc s rs bs [] HC Hst Hne Hs Ecl) as (w1 & E1 & C1 & St1 & EV1).
      destruct (IH w1 c rc ({[s]} ∪ mc) C1 St1) as (st & w2 & E2 & R).
      { rewrite EV1. destruct (decide (c = s)); [congruence|]. destruct (decide (c = c)); [reflexivity|congruence]. }
      { intros i Hi. destruct (Hl i) as (cli & mi & Vi & Hcli); [right; exact Hi|]. rewrite EV1. destruct (decide (i = s)); [eauto|].
        destruct (decide (i = c)); [eauto|]. eauto. }
      exists st, w2. split; [|exact R]. unfold atc_loop. cbn [foldl]. unfold bind at 2. rewrite E1. exact E2.
    + exists None, w. destruct Hst as (bc & Hc & Hm & Hcc). split; [|split; [auto|split; [exact HC|exists mc, bc; auto]]].
      unfold atc_loop. cbn [foldl]. unfold bind at 2. rewrite (atc_step_own w c rc bc mc s rs bs [] HC Hc Hm Hs Ecl). apply atc_loop_None.
Qed.

Lemma atc_loop_exact l : forall w c rc mc, InvC w -> clump_state w c rc mc -> NoDup l ->
  (forall i, i ∈ l -> i <> c /\ exists m, V w i = Some (None, m)) ->
  exists w', atc_loop rc w l (Some []) = Ret (Some []) w' /\ InvC w' /\ clump_state w' c rc (list_to_set l ∪ mc) /\ forall k, V w' k = joined (V w) c mc l k.
Proof.
  intros w c rc mc HC Hst Hnd Hl. destruct (add_loop_exact l w c rc mc HC Hst Hnd Hl) as (w' & E & R). exists w'. split; [|exact R].
  clear R. revert w mc HC Hst Hnd Hl w' E. induction l as [|s l IH]; intros w mc HC Hst Hnd Hl w' E.
  - cbn in E. injection E as <-. reflexivity.
  - destruct (Hl s) as (Hsc & m & Vs); [left|]. pose proof Vs as Vs'. apply V_Some in Vs' as (rs & bs & Hs & Ecl & Em).
    apply NoDup_cons in Hnd as [Hsl Hnd].
    destruct (clump_add_one w c rc mc s rs bs HC Hst Hsc Hs Ecl) as (w1 & E1 & C1 & St1 & EV1).
    unfold add_loop in E. cbn [foldl] in E. unfold bind at 2 in E. rewrite Hs, E1 in E.
    unfold atc_loop. cbn [foldl]. unfold bind at 2. unfold atc_step at 2. rewrite Hs. unfold isClump, isClumpMember. rewrite Ecl, E1.
    cbn [bind]. eapply (IH w1 ({[s]} ∪ mc)); [exact C1|exact St1|exact Hnd| |exact E].
    intros i Hi. destruct (Hl i) as (Hic & mi & Vi); [right; exact Hi|]. split; [exact Hic|]. exists mi. rewrite EV1.
    destruct (decide (i = s)) as [->|]; [contradiction|]. destruct (decide (i = c)); [congruence|exact Vi].
Qed.

Lemma addToClump_C w ids c : InvC w ->
  (forall i, i ∈ ids -> exists cl m, V w i = Some (cl, m) /\ (cl = None \/ cl = Some c)) -> alive w c ->
  exists w', (addToClump w ids c = Ret tt w' \/ addToClump w ids c = Exc w') /\ InvC w'.
Proof.
  intros HC Hids (rc & bc & Hc). unfold addToClump. rewrite Hc. destruct (isClump bc) eqn:Ec; cbn [negb]; [|eauto].
  apply (isClump_at w c rc bc (proj1 HC) Hc) in Ec. pose proof (at_V _ _ _ _ Hc) as Vc. rewrite Ec in Vc.
  destruct HC as (HA & HV & HL). destruct (HV c c _ Vc) as [Ha _]. destruct (Ha eq_refl) as (mc & Em & _). rewrite Em in Vc.
  destruct (atc_loop_inv ids w c rc mc (conj HA (conj HV HL))) as (st & w1 & E1 & Hst & C1 & mc' & (bc' & Hc' & Hm' & _)); [|exact Vc|exact Hids|].
  { exists bc. auto. }
  change (foldl _ (Ret (Some []) w) ids) with (atc_loop rc w ids (Some [])). rewrite E1. cbn [bind].
  destruct Hst as [->| ->]; [eauto|]. unfold updateProperties. apply at_id_Some in Hc' as [_ ->]. rewrite Hm'.
  destruct (bool_decide (mc' = ∅)); cbn; eauto.
Qed.

Lemma addToClump_exact w ids c mc : InvC w -> NoDup ids -> ids <> [] -> V w c = Some (Some c, Some mc) ->
  (forall i, i ∈ ids -> exists m, V w i = Some (None, m)) ->
  exists w', addToClump w ids c = Ret tt w' /\ InvC w' /\
    forall k, V w' k = if decide (k = c) then Some (Some c, Some (list_to_set ids ∪ mc))
                       else match V w k with Some (cl, m) => if bool_decide (k ∈ ids) then Some (Some c, m) else Some (cl, m) | None => None end.
Proof.
  intros HC Hnd Hne Vc Hids. pose proof Vc as Vc'. apply V_Some in Vc' as (rc & bc & Hc & Ec & Em). unfold addToClump. rewrite Hc.
  assert (E : isClump bc = true) by (apply (isClump_at w c rc bc (proj1 HC) Hc); exact Ec). rewrite E. cbn [negb].
  destruct (atc_loop_exact ids w c rc mc HC) as (w1 & E1 & C1 & (bc' & Hc' & Hm' & _) & EV1); [exists bc; auto|exact Hnd| |].
  { intros i Hi. destruct (Hids i Hi) as (m & Vi). split; [intros ->; congruence|eauto]. }
  change (foldl _ (Ret (Some []) w) ids) with (atc_loop rc w ids (Some [])). rewrite E1. cbn [bind].
  exists w1. split; [|split; [exact C1|]].
  - unfold updateProperties. apply at_id_Some in Hc' as [_ ->]. rewrite Hm'. rewrite bool_decide_eq_false_2; [reflexivity|].
    destruct ids as [|i ids]; [congruence|]. cbn. set_solver.
  - intros k. rewrite EV1. unfold joined. destruct (decide (k = c)); [|reflexivity]. destruct (decide (ids = [])); [congruence|reflexivity].
Qed.

Lemma release_C w b c : InvC w -> alive w b -> alive w c ->
  exists w', (releaseFromClump w b c = Ret tt w' \/ releaseFromClump w b c = Exc w') /\ InvC w'.
Proof.
  intros HC (r & bp & Hb) (rc & bc & Hc). unfold releaseFromClump. rewrite Hb, Hc.
  destruct (isClump bc) eqn:Ec; cbn [negb]; [|eauto]. destruct (isClumpMember bp) eqn:Em; [|eauto].
  destruct (bool_decide_reflect (clumpId bp = Some c)) as [Ecl|]; [|eauto].
  assert (Hne : c <> b). { apply (isMember_at w b r bp (proj1 HC) Hb) in Em as (c' & Ec' & Hc'). congruence. }
  destruct (clump_del_spec w c b r bp HC Hb Ecl Hne) as (rc' & bc' & mc & w1 & Hc' & Ecc & Emc & Hin & E1 & C1 & Hb1 & _).
  rewrite Hc in Hc'. injection Hc' as <- <-. rewrite Emc. destruct (bool_decide (size mc = 2)); [eauto|]. rewrite E1. cbn [bind].
  unfold updateProperties. rewrite Hb1. cbn. destruct (bool_decide _); eauto.
Qed.

(** the full effect of a release that is accepted *)
Lemma release_exact w b c mc m : InvC w -> V w c = Some (Some c, Some mc) -> V w b = Some (Some c, m) -> b <> c -> 2 < size mc ->
  exists w', releaseFromClump w b c = Ret tt w' /\ InvC w' /\
    forall k, V w' k = if decide (k = b) then Some (None, m) else if decide (k = c) then Some (Some c, Some (mc ∖ {[b]})) else V w k.
Proof.
  intros HC Vc Vb Hne Hsz. pose proof Vc as Vc'. apply V_Some in Vc' as (rc & bc & Hc & Ec & Em).
  pose proof Vb as Vb'. apply V_Some in Vb' as (r & bp & Hb & Ecl & Emb). unfold releaseFromClump. rewrite Hb, Hc.
  assert (E : isClump bc = true) by (apply (isClump_at w c rc bc (proj1 HC) Hc); exact Ec). rewrite E. cbn [negb].
  assert (E' : isClumpMember bp = true). { apply (isMember_at w b r bp (proj1 HC) Hb). exists c. split; [exact Ecl|congruence]. }
  rewrite E'. rewrite bool_decide_eq_true_2 by exact Ecl.
  destruct (clump_del_spec w c b r bp HC Hb Ecl (not_eq_sym Hne)) as (rc' & bc' & mc' & w1 & Hc' & Ecc & Emc & Hin & E1 & C1 & Hb1 & _ & _ & EV1).
  rewrite Hc in Hc'. injection Hc' as <- <-. rewrite Em in Emc. injection Emc as <-. rewrite Em. rewrite bool_decide_eq_false_2 by lia. rewrite E1. cbn [bind].
  exists w1. split; [|split; [exact C1|]].
  - unfold updateProperties. rewrite Hb1. cbn. rewrite bool_decide_eq_false_2; [reflexivity|]. intros Ee.
    assert (Hs : size (mc ∖ {[b]}) = 0) by (rewrite Ee; apply size_empty). rewrite size_difference in Hs by set_solver. rewrite size_singleton in Hs. lia.
  - intros k. rewrite EV1, Emb. reflexivity.
Qed.

(** ** C02 along every history *)
Lemma InvC_meta w w' : same_meta w w' -> InvC w -> InvC w'.
Proof.
  intros H (HA & HV & HL). split; [eapply same_bids_InvA; [apply same_meta_bids, H|exact HA]|]. split.
  - eapply okV_ext; [apply V_same_meta, H|exact HV].
  - destruct H as (_ & _ & E). intros r b Hb Ebid. specialize (E r). rewrite Hb in E. cbn in E.
    destruct (bheap w !! r) as [b0|] eqn:Eb0; [|discriminate]. cbn in E. specialize (HL r b0 Eb0). injection E as E1 E2 E3. rewrite E1 in Ebid. rewrite E2. auto.
Qed.

Lemma init_C : InvC init.
Proof.
  split; [apply init_A|]. split; [|intros r b Hb; cbn in Hb; rewrite lookup_empty in Hb; discriminate].
  intros i c m H. unfold view, at_id, slot in H. cbn in H. rewrite lookup_nil in H. discriminate.
Qed.

Lemma res_all_ret {A} (Q : world -> Prop) (r : res A) : (exists w', (exists a, r = Ret a w' \/ r = Exc w') /\ Q w') -> res_all Q r.
Proof. intros (w' & (a & [->| ->]) & H); exact H. Qed.

Lemma erase_dead w id fl : ~ alive w id -> InvA w -> erase w id fl = Ret false w \/ erase w id fl = UB.
Proof.
  intros Hn HA. unfold erase. cbn [bc_erase]. unfold slot. destruct (slots w !! id) as [[r|]|] eqn:Es; [|auto|auto].
  exfalso. apply Hn. destruct HA as [_ HA]. destruct (HA id r Es) as (b & Hb & _). exists r, b. apply at_id_Some. auto.
Qed.
Global Instance alive_dec w i : Decision (alive w i).
Proof. unfold alive. destruct (at_id w i) as [[r b]|] eqn:E; [left; eauto|right; intros (? & ? & ?); congruence]. Defined.

Lemma step_C w o : InvC w -> clump_safe w o -> res_all InvC (step w o).
Proof.
  intros HC HS. destruct (is_iop o) eqn:Eo.
  { eapply res_all_mono; [apply iop_meta, Eo|]. intros w' H. eapply InvC_meta; eassumption. }
  destruct o; try discriminate; cbn [step].
  - cbn. destruct HC as ((H1 & H2) & HV & HL).
    assert (EV : forall k, V (mkWorld (<[nextb w:=mkBody None None None ∅]> (bheap w)) (S (nextb w)) (slots w) (iheap w) (nexti w) (lin w)) k = V w k).
    { intros k. unfold view, at_id, slot. cbn. destruct (slots w !! k) as [[r|]|] eqn:Ek; [|reflexivity|reflexivity].
      rewrite lookup_insert_ne; [reflexivity|]. intros Er. destruct (H2 k r Ek) as (b & Hb & _). apply H1 in Hb. lia. }
    split; [|split].
    + pose proof (step_A w ONew (conj H1 H2) I) as HA. cbn in HA. apply HA.
    + eapply okV_ext; [exact EV|exact HV].
    + intros r b Hb E. cbn in Hb. destruct (decide (r = nextb w)) as [->|Hn]; [rewrite lookup_insert in Hb; injection Hb as <-; reflexivity|].
      rewrite lookup_insert_ne in Hb by congruence. eapply HL; eassumption.
  - apply res_all_drop. unfold append. destruct (bheap w !! r) as [b|] eqn:Eb; [|exact I]. destruct (bid b) eqn:Eid; [exact HC|].
    destruct (insert_C w r b HC) as (w' & E & C & _); [eapply not_in_slots_bid; [apply HC|exact Eb|exact Eid]|exact Eb|apply HC in Eb; auto|].
    rewrite E. exact C.
  - apply res_all_drop. destruct HS as [Hnc Hcl]. pose proof (insertAt_A w r pos (proj1 HC) Hnc) as HA.
    unfold insertAtId, slot in *. destruct (slots w !! pos) as [[r0|]|] eqn:Es; [exact HC| |exact I].
    destruct (bheap w !! r) as [b|] eqn:Eb; [|exact I]. cbn [res_all] in *.
    match goal with |- InvC ?x => set (w' := x) in * end. destruct HC as ((H1 & H2) & HV & HL).
    assert (EV : forall k, V w' k = if decide (k = pos) then Some (None, members b) else V w k).
    { intros k. unfold view, at_id, slot, w'. cbn. destruct (decide (k = pos)) as [->|Hk].
      - rewrite list_lookup_insert by (eapply lookup_lt_Some; exact Es). rewrite lookup_insert. cbn. rewrite (Hcl b eq_refl). reflexivity.
      - rewrite list_lookup_insert_ne by congruence. destruct (slots w !! k) as [[r'|]|] eqn:Ek; [|reflexivity|reflexivity].
        rewrite lookup_insert_ne; [reflexivity|]. intros <-. apply Hnc. exists k. exact Ek. }
    split; [apply HA|]. split.
    + eapply okV_ext; [exact EV|]. apply okV_new; [exact HV|]. unfold view, at_id, slot. rewrite Es. reflexivity.
    + intros r' b' Hb' E. unfold w' in Hb'. cbn in Hb'. destruct (decide (r' = r)) as [->|Hn].
      * rewrite lookup_insert in Hb'. injection Hb' as <-. exact (Hcl b eq_refl).
      * rewrite lookup_insert_ne in Hb' by congruence. eapply HL; eassumption.
  - apply res_all_drop. destruct (decide (alive w id)) as [Ha|Ha].
    + destruct (erase_C w id fl HC Ha) as (w' & E & C & _). rewrite E. exact C.
    + destruct (erase_dead w id fl Ha (proj1 HC)) as [E|E]; rewrite E; [exact HC|exact I].
  - apply res_all_drop. destruct (clump_C w ids HC) as [(c & w' & E & C)|(w' & E & C)]; [|rewrite E; exact C|rewrite E; exact C].
    intros i Hi. destruct (HS i Hi) as (r & b & Hat & Hnc). exists (clumpId b), (members b). split; [eapply at_V; exact Hat|].
    intros E. apply (isClump_at w i r b (proj1 HC) Hat) in E. congruence.
  - destruct (decide (alive w cid)) as [Ha|Ha].
    + destruct (addToClump_C w ids cid HC) as (w' & E & C); [|exact Ha|destruct E as [E|E]; rewrite E; exact C].
      intros i Hi. destruct (HS i Hi) as (r & b & Hat & Hcl). exists (clumpId b), (members b). split; [eapply at_V; exact Hat|exact Hcl].
    + unfold addToClump. destruct (at_id w cid) as [[rc bc]|] eqn:E; [exfalso; apply Ha; exists rc, bc; exact E|exact I].
  - destruct (decide (alive w b)) as [Hb|Hb]; [destruct (decide (alive w cid)) as [Hc|Hc]|].
    + destruct (release_C w b cid HC Hb Hc) as (w' & E & C). destruct E as [E|E]; rewrite E; exact C.
    + unfold releaseFromClump. destruct (at_id w b) as [[? ?]|]; [|exact I]. destruct (at_id w cid) as [[rc bc]|] eqn:E; [exfalso; apply Hc; exists rc, bc; exact E|exact I].
    + unfold releaseFromClump. destruct (at_id w b) as [[rc bc]|] eqn:E; [exfalso; apply Hb; exists rc, bc; exact E|exact I].
Qed.

Lemma reach_C l w : along clump_safe init l -> run init l = Some w -> InvC w.
Proof. intros HC HR. eapply (run_inv clump_safe InvC l init w); [apply step_C|apply init_C|exact HC|exact HR]. Qed.
