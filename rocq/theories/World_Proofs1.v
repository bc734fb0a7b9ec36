(** Bodies and clumps: C01, C02. *)
From stdpp Require Import gmap list.
From Coq Require Import ZArith Lia.
From Verif Require Import World_Model World_Spec.

(** ** result predicates *)
Definition res_all {A} (Q : world -> Prop) (r : res A) : Prop :=
  match r with Ret _ w => Q w | Exc w => Q w | _ => True end.

Lemma res_all_bind {A B} (Q Q' : world -> Prop) (r : res A) (f : A -> world -> res B) :
  res_all Q r -> (forall w, Q w -> Q' w) -> (forall a w, r = Ret a w -> Q w -> res_all Q' (f a w)) ->
  res_all Q' (bind r f).
Proof. destruct r; cbn; intros H1 H2 H3; auto. Qed.

Lemma res_all_mono {A} (Q Q' : world -> Prop) (r : res A) :
  res_all Q r -> (forall w, Q w -> Q' w) -> res_all Q' r.
Proof. destruct r; cbn; auto. Qed.

Lemma res_all_drop {A} (Q : world -> Prop) (r : res A) : res_all Q r -> res_all Q (drop r).
Proof. destruct r; cbn; auto. Qed.

Lemma res_all_foldl {A X} (Q : world -> Prop) (f : X -> A -> world -> res A) (l : list X) (a : A) (w : world) :
  Q w -> (forall x a w, x ∈ l -> Q w -> res_all Q (f x a w)) ->
  res_all Q (foldl (fun acc x => bind acc (f x)) (Ret a w) l).
Proof.
  intros H0 Hf.
  assert (G : forall r, res_all Q r -> res_all Q (foldl (fun acc x => bind acc (f x)) r l)).
  { clear H0. induction l as [|x l IH]; cbn; intros r Hr; [exact Hr|].
    apply IH; [intros; apply Hf; [right; assumption|assumption]|].
    eapply res_all_bind; [exact Hr|auto|]. intros a' w' _ Hw. apply Hf; [left|exact Hw]. }
  apply G. exact H0.
Qed.

(** a foldl whose steps all failed is a failure *)
Lemma foldl_bind_ret {A X} (f : X -> A -> world -> res A) (l : list X) r a w :
  foldl (fun acc x => bind acc (f x)) r l = Ret a w -> exists a0 w0, r = Ret a0 w0.
Proof.
  revert r. induction l as [|x l IH]; cbn; intros r H; [eauto|].
  apply IH in H as (a1 & w1 & H). destruct r; cbn in H; try discriminate. eauto.
Qed.

Lemma run_inv (C : world -> op -> Prop) (I : world -> Prop) l : forall w w',
  (forall w o, I w -> C w o -> res_all I (step w o)) -> I w -> along C w l -> run w l = Some w' -> I w'.
Proof.
  induction l as [|o l IH]; cbn; intros w w' Hs HI HC HR; [congruence|].
  destruct HC as [HC HC']. specialize (Hs w o HI HC) as Hso.
  destruct (step w o); cbn in *; try discriminate; eapply IH; eauto.
Qed.

(** ** at_id *)
Lemma at_id_Some w i r b : at_id w i = Some (r, b) <-> slots w !! i = Some (Some r) /\ bheap w !! r = Some b.
Proof.
  unfold at_id, slot. split.
  - intros H. destruct (slots w !! i) as [[r'|]|]; try discriminate. destruct (bheap w !! r') eqn:E; [|discriminate].
    injection H as -> ->. auto.
  - intros [-> ->]. reflexivity.
Qed.

(** ** invariant A: ids *)
Definition refs_ok (w : world) : Prop := forall r b, bheap w !! r = Some b -> r < nextb w.
Definition InvA (w : world) : Prop := refs_ok w /\ ids_ok w.

Lemma slot_inj w i j r : ids_ok w -> slots w !! i = Some (Some r) -> slots w !! j = Some (Some r) -> i = j.
Proof.
  intros H Hi Hj. destruct (H i r Hi) as (b & Hb & Ei). destruct (H j r Hj) as (b' & Hb' & Ej).
  rewrite Hb in Hb'. injection Hb' as <-. congruence.
Qed.

(** a change of bodies that keeps every id, and nothing else changes *)
Definition same_bids (w w' : world) : Prop :=
  slots w' = slots w /\ nextb w' = nextb w /\
  forall r, (fun b => bid b) <$> (bheap w' !! r) = (fun b => bid b) <$> (bheap w !! r).

Lemma same_bids_refl w : same_bids w w.
Proof. repeat split. Qed.
Lemma same_bids_trans w1 w2 w3 : same_bids w1 w2 -> same_bids w2 w3 -> same_bids w1 w3.
Proof. intros (A1&A2&A3) (B1&B2&B3). split; [congruence|]. split; [congruence|]. intros r. rewrite B3. apply A3. Qed.

Lemma same_bids_set w r b b' : bheap w !! r = Some b -> bid b' = bid b -> same_bids w (set_body w r b').
Proof.
  intros Hb E. split; [reflexivity|]. split; [reflexivity|]. intros r'. cbn.
  destruct (decide (r' = r)) as [->|Hn]; [rewrite lookup_insert, Hb; cbn; congruence|rewrite lookup_insert_ne by congruence; reflexivity].
Qed.

Lemma same_bids_iheap w h : same_bids w (set_iheap w h).
Proof. repeat split. Qed.
Lemma same_bids_lin w h : same_bids w (set_lin w h).
Proof. repeat split. Qed.

Lemma same_bids_InvA w w' : same_bids w w' -> InvA w -> InvA w'.
Proof.
  intros (E1 & E2 & E3) [H1 H2]. split.
  - intros r b Hb. rewrite E2. specialize (E3 r). rewrite Hb in E3. cbn in E3.
    destruct (bheap w !! r) eqn:E; [|discriminate]. eapply H1; eassumption.
  - intros i r Hi. rewrite E1 in Hi. destruct (H2 i r Hi) as (b & Hb & Eb). specialize (E3 r). rewrite Hb in E3. cbn in E3.
    destruct (bheap w' !! r) as [b'|] eqn:E; [|discriminate]. exists b'. split; [reflexivity|]. cbn in E3. congruence.
Qed.

(** clump operations: ids, maps of interactions and the interaction container stay *)
Definition core (b : body) : option nat * gmap nat nat * bool :=
  (bid b, intrs b, match members b with Some _ => true | None => false end).
Definition same_core (w w' : world) : Prop :=
  slots w' = slots w /\ nextb w' = nextb w /\ iheap w' = iheap w /\ nexti w' = nexti w /\ lin w' = lin w /\
  forall r, core <$> (bheap w' !! r) = core <$> (bheap w !! r).

Lemma same_core_refl w : same_core w w.
Proof. repeat split. Qed.
Lemma same_core_trans w1 w2 w3 : same_core w1 w2 -> same_core w2 w3 -> same_core w1 w3.
Proof.
  intros (A1&A2&A3&A4&A5&A6) (B1&B2&B3&B4&B5&B6). repeat (split; [congruence|]). intros r. rewrite B6. apply A6. Qed.

Lemma same_core_set w r b b' : bheap w !! r = Some b -> core b' = core b -> same_core w (set_body w r b').
Proof.
  intros Hb E1. repeat (split; [reflexivity|]). intros r'. cbn [set_body set_bheap bheap].
  destruct (decide (r' = r)) as [->|Hn]; [rewrite lookup_insert, Hb; cbn [fmap option_fmap option_map]; congruence|rewrite lookup_insert_ne by congruence; reflexivity].
Qed.

Lemma same_core_bids w w' : same_core w w' -> same_bids w w'.
Proof.
  intros (A1&A2&_&_&_&A6). split; [exact A1|]. split; [exact A2|]. intros r. specialize (A6 r).
  destruct (bheap w' !! r), (bheap w !! r); unfold core in *; cbn in *; congruence.
Qed.

Ltac sbt := eapply same_core_trans; [eassumption|].

Lemma clump_add_core w rc rs : res_all (same_core w) (clump_add w rc rs).
Proof.
  unfold clump_add. destruct (bheap w !! rc) as [c|] eqn:Ec; [|exact I].
  destruct (bheap w !! rs) as [s|] eqn:Es; [|exact I].
  destruct (members c) as [mc|] eqn:Em; [|exact I]. destruct (bid s) as [sid|] eqn:Eb; [|exact I].
  destruct (bid c) as [cid|] eqn:Ecid; [|exact I].
  destruct (bool_decide (sid ∈ mc)); [apply same_core_refl|]. destruct (isClumpMember s); [apply same_core_refl|].
  eapply (res_all_bind (same_core w)).
  - destruct (isClump s).
    + destruct (members s) as [ms|]; [|exact I].
      induction (elements ms) as [|m l IH]; [apply same_core_refl|]. cbn [foldr].
      eapply res_all_bind; [exact IH|auto|]. intros _ w1 _ H1.
      destruct (at_id w1 m) as [[rm bm]|] eqn:Ea; [|exact I]. apply at_id_Some in Ea as [_ Ea].
      set (w2 := set_body w1 rm _). assert (H2 : same_core w1 w2) by (eapply same_core_set; [exact Ea|unfold core; cbn; rewrite ?Em; try (match goal with H : members ?c = Some _ |- context [members ?c] => rewrite H end); reflexivity]).
      destruct (bheap w2 !! rc) as [c1|] eqn:Ec1; [|exact I]. destruct (members c1) eqn:Em1; [|exact I]. cbn.
      sbt. sbt. eapply same_core_set; [exact Ec1|unfold core; cbn; rewrite ?Em; try (match goal with H : members ?c = Some _ |- context [members ?c] => rewrite H end); reflexivity].
    + set (w1 := set_body w rc _). assert (H1 : same_core w w1) by (eapply same_core_set; [exact Ec|unfold core; cbn; rewrite ?Em; try (match goal with H : members ?c = Some _ |- context [members ?c] => rewrite H end); reflexivity]).
      destruct (bheap w1 !! rs) as [s1|] eqn:Es1; [|exact I]. cbn. sbt. eapply same_core_set; [exact Es1|unfold core; cbn; rewrite ?Em; try (match goal with H : members ?c = Some _ |- context [members ?c] => rewrite H end); reflexivity].
  - auto.
  - intros _ w1 _ H1. destruct (bheap w1 !! rc) as [c1|] eqn:Ec1; [|exact I]. cbn. sbt. eapply same_core_set; [exact Ec1|unfold core; cbn; rewrite ?Em; try (match goal with H : members ?c = Some _ |- context [members ?c] => rewrite H end); reflexivity].
Qed.

Lemma clump_del_core w rc rs : res_all (same_core w) (clump_del w rc rs).
Proof.
  unfold clump_del. destruct (bheap w !! rc) as [c|] eqn:Ec; [|exact I].
  destruct (bheap w !! rs) as [s|] eqn:Es; [|exact I].
  destruct (members c) as [mc|] eqn:Em; [|exact I]. destruct (bid s) as [sid|] eqn:Eb; [|apply same_core_refl].
  destruct (bool_decide (sid ∈ mc)); [|apply same_core_refl].
  set (w1 := set_body w rc _). assert (H1 : same_core w w1) by (eapply same_core_set; [exact Ec|unfold core; cbn; rewrite ?Em; try (match goal with H : members ?c = Some _ |- context [members ?c] => rewrite H end); reflexivity]).
  destruct (bheap w1 !! rs) as [s1|] eqn:Es1; [|exact I]. cbn. sbt. eapply same_core_set; [exact Es1|unfold core; cbn; rewrite ?Em; try (match goal with H : members ?c = Some _ |- context [members ?c] => rewrite H end); reflexivity].
Qed.

Lemma clump_add_bids w rc rs : res_all (same_bids w) (clump_add w rc rs).
Proof. eapply res_all_mono; [apply clump_add_core|apply same_core_bids]. Qed.
Lemma clump_del_bids w rc rs : res_all (same_bids w) (clump_del w rc rs).
Proof. eapply res_all_mono; [apply clump_del_core|apply same_core_bids]. Qed.

Lemma updateProperties_same w rc : res_all (fun w' => w' = w) (updateProperties w rc).
Proof.
  unfold updateProperties. destruct (bheap w !! rc) as [c|]; [|exact I]. destruct (members c); [|exact I].
  destruct (bool_decide _); reflexivity.
Qed.

Lemma bc_insert_A w r : InvA w -> (forall i, slots w !! i <> Some (Some r)) ->
  res_all (fun w' => InvA w' /\ length (slots w') = S (length (slots w)) /\
                     (forall i r', slots w !! i = Some (Some r') -> slots w' !! i = Some (Some r')) /\
                     slots w' !! length (slots w) = Some (Some r)) (bc_insert w r).
Proof.
  intros [H1 H2] Hn. unfold bc_insert. destruct (bheap w !! r) as [b|] eqn:Eb; [|exact I]. cbn. split; [split|split; [|split]].
  - intros r' b' Hb'. cbn in *. destruct (decide (r' = r)) as [->|Hne]; [eapply H1; exact Eb|].
    rewrite lookup_insert_ne in Hb' by congruence. eapply H1; exact Hb'.
  - intros i r' Hi. cbn in Hi. apply lookup_app_Some in Hi as [Hi|[Hl Hi]].
    + destruct (decide (r' = r)) as [->|Hne]; [exfalso; eapply Hn; exact Hi|].
      destruct (H2 i r' Hi) as (b' & Hb' & E). exists b'. cbn. rewrite lookup_insert_ne by congruence. auto.
    + assert (i = length (slots w) /\ r' = r) as [-> ->].
      { destruct (i - length (slots w)) as [|k] eqn:Ek; cbn in Hi; [|destruct k; discriminate]. injection Hi as <-. split; [lia|reflexivity]. }
      eexists. cbn. rewrite lookup_insert. split; [reflexivity|]. reflexivity.
  - rewrite app_length. cbn. lia.
  - intros i r' Hi. apply lookup_app_l_Some. exact Hi.
  - rewrite lookup_app_r, Nat.sub_diag by lia. reflexivity.
Qed.

Lemma not_in_slots_bid w r b : ids_ok w -> bheap w !! r = Some b -> bid b = None -> forall i, slots w !! i <> Some (Some r).
Proof. intros H Hb E i Hi. destruct (H i r Hi) as (b' & Hb' & E'). rewrite Hb in Hb'. injection Hb' as <-. congruence. Qed.
Lemma not_in_slots_new w r : ids_ok w -> bheap w !! r = None -> forall i, slots w !! i <> Some (Some r).
Proof. intros H Hb i Hi. destruct (H i r Hi) as (b' & Hb' & E'). congruence. Qed.

(** ** erase: what it does to ids and slots *)
Definition slots_shrink (w w' : world) : Prop :=
  length (slots w') = length (slots w) /\
  forall i, slots w' !! i = slots w !! i \/ (slots w' !! i = Some None /\ is_Some (slots w !! i)).

Lemma shrink_refl w : slots_shrink w w.
Proof. split; [reflexivity|]. intros i; left; reflexivity. Qed.
Lemma shrink_trans w1 w2 w3 : slots_shrink w1 w2 -> slots_shrink w2 w3 -> slots_shrink w1 w3.
Proof.
  intros [A1 A2] [B1 B2]. split; [congruence|]. intros i.
  destruct (B2 i) as [Eb|[Eb Fb]]; destruct (A2 i) as [Ea|[Ea Fa]].
  - left; congruence.
  - right. split; [congruence|exact Fa].
  - right. split; [exact Eb|]. rewrite <- Ea. exact Fb.
  - right. auto.
Qed.
Lemma shrink_eq w w' : slots w' = slots w -> slots_shrink w w'.
Proof. intros E. split; [congruence|]. intros i; left; congruence. Qed.

Lemma shrink_set w id : is_Some (slots w !! id) -> slots_shrink w (set_slots w (<[id := None]> (slots w))).
Proof.
  intros Hs. split; [cbn; apply insert_length|]. intros i. cbn. destruct (decide (i = id)) as [->|Hn].
  - right. rewrite list_lookup_insert; [auto|]. apply lookup_lt_is_Some. exact Hs.
  - left. rewrite list_lookup_insert_ne by congruence. reflexivity.
Qed.

Definition EA (w w' : world) : Prop := InvA w' /\ slots_shrink w w' /\ nextb w' = nextb w.
Lemma EA_refl w : InvA w -> EA w w.
Proof. intros H. split; [exact H|]. split; [apply shrink_refl|reflexivity]. Qed.
Lemma EA_trans w1 w2 w3 : EA w1 w2 -> EA w2 w3 -> EA w1 w3.
Proof. intros (A1&A2&A3) (B1&B2&B3). split; [auto|]. split; [eapply shrink_trans; eassumption|congruence]. Qed.
Lemma EA_bids w w' : InvA w -> same_bids w w' -> EA w w'.
Proof. intros HA H. split; [eapply same_bids_InvA; eassumption|]. split; [apply shrink_eq, H|apply H]. Qed.

Lemma EA_unslot w id : InvA w -> is_Some (slots w !! id) -> EA w (set_slots w (<[id := None]> (slots w))).
Proof.
  intros [H1 H2] Hs. split; [|split; [apply shrink_set, Hs|reflexivity]]. split; [exact H1|].
  intros i r Hi. cbn in Hi. destruct (decide (i = id)) as [->|Hn].
  - rewrite list_lookup_insert in Hi; [discriminate|]. apply lookup_lt_is_Some, Hs.
  - rewrite list_lookup_insert_ne in Hi by congruence. apply H2, Hi.
Qed.

(** slot [id] is emptied and r, in no other slot, gets id -1 *)
Lemma EA_unslot_bid w id r b : InvA w -> is_Some (slots w !! id) -> (forall i, slots w !! i = Some (Some r) -> i = id) ->
  bheap w !! r = Some b ->
  EA w (set_slots (set_body w r (with_bid b None)) (<[id := None]> (slots w))).
Proof.
  intros [H1 H2] Hs Hr Hb. split; [|split; [|reflexivity]].
  - split.
    + intros r' b' Hb'. cbn in *. destruct (decide (r' = r)) as [->|Hne]; [eapply H1; exact Hb|].
      rewrite lookup_insert_ne in Hb' by congruence. eapply H1; exact Hb'.
    + intros i r' Hi. cbn in Hi. destruct (decide (i = id)) as [->|Hn].
      * rewrite list_lookup_insert in Hi; [discriminate|]. apply lookup_lt_is_Some; eauto.
      * rewrite list_lookup_insert_ne in Hi by congruence. cbn.
        destruct (decide (r' = r)) as [->|Hne]; [exfalso; apply Hn, Hr, Hi|].
        rewrite lookup_insert_ne by congruence. apply H2, Hi.
  - split; [cbn; apply insert_length|]. intros i. cbn. destruct (decide (i = id)) as [->|Hn].
    + right. rewrite list_lookup_insert; [eauto|]. apply lookup_lt_is_Some; eauto.
    + left. rewrite list_lookup_insert_ne by congruence. reflexivity.
Qed.

Lemma erase_tail_EA w id r : InvA w -> is_Some (slots w !! id) -> (forall i, slots w !! i = Some (Some r) -> i = id) ->
  res_all (EA w) (erase_tail w id r).
Proof.
  intros HA Hs Hr. unfold erase_tail. destruct (bheap w !! r) as [b|] eqn:Eb; [|exact I]. cbn.
  set (w1 := set_iheap w _). assert (E1 : EA w w1) by (apply EA_bids, (same_bids_iheap w); exact HA).
  eapply EA_trans; [exact E1|]. apply (EA_unslot_bid w1 id r b); [apply E1|exact Hs|exact Hr|exact Eb].
Qed.

Lemma shrink_only w w' id r : InvA w -> slots_shrink w w' -> slots w !! id = Some (Some r) ->
  is_Some (slots w' !! id) /\ forall i, slots w' !! i = Some (Some r) -> i = id.
Proof.
  intros [_ HA] [_ H] Hs. split; [destruct (H id) as [E|[E _]]; rewrite E; eauto|].
  intros i Hi. destruct (H i) as [E|[E _]]; [|congruence]. rewrite E in Hi. eapply slot_inj; eassumption.
Qed.

Lemma bc_erase_EA fuel : forall w id fl, InvA w -> res_all (EA w) (bc_erase fuel w id fl).
Proof.
  induction fuel as [|fuel IH]; intros w id fl HA; [exact I|]. cbn [bc_erase]. unfold slot.
  destruct (slots w !! id) as [[r|]|] eqn:Es; [|apply EA_refl, HA|exact I].
  destruct (bheap w !! r) as [b|] eqn:Eb; [|exact I].
  eapply (res_all_bind (EA w)).
  - destruct (isClumpMember b); [|apply EA_refl, HA]. destruct (clumpId b) as [cid|]; [|exact I].
    destruct (at_id w cid) as [[rc bc]|] eqn:Ec; [|exact I].
    eapply (res_all_bind (EA w)); [|auto|].
    + eapply res_all_mono; [apply clump_del_bids|]. intros w' H. apply EA_bids; assumption.
    + intros _ w1 _ H1. destruct (bheap w1 !! rc) as [c|] eqn:Ec1; [|exact I]. destruct (members c) as [mc|]; [|exact I].
      destruct (bool_decide _); [|exact H1]. destruct (bid c) as [ci|]; [|exact I].
      eapply (res_all_bind (EA w1)); [apply IH, H1| |]; intros.
      * eapply EA_trans; eassumption.
      * cbn. eapply EA_trans; eassumption.
  - auto.
  - intros _ w1 _ H1. destruct (shrink_only w w1 id r HA ltac:(apply H1) Es) as [S1 S2].
    destruct (bheap w1 !! r) as [b1|] eqn:Eb1; [|exact I].
    destruct (isClump b1).
    + destruct (members b1) as [ms|]; [|exact I].
      eapply (res_all_bind (EA w)); [|auto|].
      * apply (res_all_foldl (EA w) (fun m _ w => if fl then bind (bc_erase fuel w m false) (fun _ w0 => Ret tt w0)
                        else match at_id w m with Some (rm, bm) => Ret tt (set_body w rm (with_clumpId bm None)) | None => UB end)); [exact H1|].
        intros m _ w2 _ H2. destruct fl.
        { eapply (res_all_bind (EA w2)); [apply IH, H2| |]; intros; [eapply EA_trans; eassumption|cbn; eapply EA_trans; eassumption]. }
        destruct (at_id w2 m) as [[rm bm]|] eqn:Ea; [|exact I]. apply at_id_Some in Ea as [_ Ea]. cbn.
        eapply EA_trans; [exact H2|]. apply EA_bids; [apply H2|]. eapply same_bids_set; [exact Ea|reflexivity].
      * intros _ w2 _ H2. cbn. eapply EA_trans; [exact H2|]. apply EA_unslot; [apply H2|].
        apply (shrink_only w w2 id r HA ltac:(apply H2) Es).
    + eapply res_all_mono; [apply erase_tail_EA; [apply H1|exact S1|exact S2]|]. intros w2 H2. eapply EA_trans; eassumption.
Qed.

(** ** interaction operations keep ids, clump ids and members *)
Definition same_meta (w w' : world) : Prop :=
  slots w' = slots w /\ nextb w' = nextb w /\
  forall r, (fun b => (bid b, clumpId b, members b)) <$> (bheap w' !! r) = (fun b => (bid b, clumpId b, members b)) <$> (bheap w !! r).

Lemma same_meta_refl w : same_meta w w.
Proof. repeat split. Qed.
Lemma same_meta_trans w1 w2 w3 : same_meta w1 w2 -> same_meta w2 w3 -> same_meta w1 w3.
Proof. intros (A1&A2&A3) (B1&B2&B3). split; [congruence|]. split; [congruence|]. intros r. rewrite B3. apply A3. Qed.
Lemma same_meta_set w r b m : bheap w !! r = Some b -> same_meta w (set_body w r (with_intrs b m)).
Proof.
  intros Hb. split; [reflexivity|]. split; [reflexivity|]. intros r'. cbn.
  destruct (decide (r' = r)) as [->|Hn]; [rewrite lookup_insert, Hb; reflexivity|rewrite lookup_insert_ne by congruence; reflexivity].
Qed.
Lemma same_meta_bids w w' : same_meta w w' -> same_bids w w'.
Proof.
  intros (A1&A2&A6). split; [exact A1|]. split; [exact A2|]. intros r. specialize (A6 r).
  destruct (bheap w' !! r), (bheap w !! r); cbn in *; congruence.
Qed.
Lemma same_meta_heaps w h n l : same_meta w (mkWorld (bheap w) (nextb w) (slots w) h n l).
Proof. repeat split. Qed.

Lemma ic_insert_meta w q i j : res_all (same_meta w) (ic_insert w q i j).
Proof.
  unfold ic_insert. destruct (at_id w (i `min` j)) as [[ra ba]|] eqn:Ea; [|exact I].
  destruct (at_id w (i `max` j)) as [[rb bb0]|] eqn:Eb; [|exact I].
  apply at_id_Some in Ea as [_ Ea].
  destruct (intrs ba !! (i `max` j)); [apply same_meta_refl|].
  set (w1 := set_body w ra _). assert (H1 : same_meta w w1) by (apply same_meta_set; exact Ea).
  destruct (bheap w1 !! rb) as [bb|] eqn:Ebb; [|exact I].
  destruct (intrs bb !! (i `min` j)); [exact H1|].
  set (w2 := set_body w1 rb _). assert (H2 : same_meta w w2) by (eapply same_meta_trans; [exact H1|]; apply same_meta_set; exact Ebb).
  destruct (iheap w2 !! q) as [x|]; [|exact I]. cbn. eapply same_meta_trans; [exact H2|]. repeat split.
Qed.

Lemma insert_new_meta w i j : res_all (same_meta w) (insert_new w i j).
Proof.
  unfold insert_new. eapply res_all_mono; [apply ic_insert_meta|]. intros w' H. eapply same_meta_trans; [|exact H]. repeat split.
Qed.

Lemma lin_remove_meta w p : res_all (same_meta w) (lin_remove w p).
Proof.
  unfold lin_remove. destruct (bool_decide _).
  - destruct (last (lin w)); [|exact I]. destruct (bool_decide _); [|repeat split].
    destruct (iheap w !! _); [repeat split|exact I].
  - destruct (lin w); [exact I|repeat split].
Qed.

Lemma ic_erase_meta w i j p : res_all (same_meta w) (ic_erase w i j p).
Proof.
  unfold ic_erase. destruct (bool_decide _); [apply same_meta_refl|].
  destruct (at_id w (i `min` j)) as [[ra ba]|] eqn:Ea; [|apply lin_remove_meta].
  apply at_id_Some in Ea as [_ Ea].
  destruct (intrs ba !! (i `max` j)) as [q|]; [|apply lin_remove_meta].
  destruct (iheap w !! q) as [x|]; [|exact I].
  set (w1 := set_body w ra _). assert (H1 : same_meta w w1) by (apply same_meta_set; exact Ea).
  set (w2 := match slot w1 _ with Some (Some rb) => _ | _ => _ end).
  assert (H2 : same_meta w w2).
  { unfold w2. destruct (slot w1 (i `max` j)) as [[rb|]|]; [|exact H1|exact H1].
    destruct (bheap w1 !! rb) as [bb|] eqn:Ebb; [|exact H1]. eapply same_meta_trans; [exact H1|]. apply same_meta_set; exact Ebb. }
  clearbody w2. destruct (bool_decide _); [exact H2|].
  eapply res_all_mono; [apply lin_remove_meta|]. intros w3 H3. eapply same_meta_trans; eassumption.
Qed.

Lemma purge_seq_meta fuel P : forall w p, res_all (same_meta w) (purge_seq fuel P w p).
Proof.
  induction fuel as [|fuel IH]; intros w p; [exact I|]. cbn [purge_seq].
  destruct (lin w !! p) as [q|]; [|apply same_meta_refl]. destruct (iheap w !! q) as [x|]; [|exact I].
  destruct (negb (isReal x) && P (id1 x) (id2 x)); [|apply IH].
  eapply res_all_bind; [apply ic_erase_meta|auto|]. intros b w1 _ H1.
  eapply res_all_mono; [apply IH|]. intros w2 H2. eapply same_meta_trans; eassumption.
Qed.

Lemma erase_all_meta w l : res_all (same_meta w) (erase_all w l).
Proof.
  apply (res_all_foldl (same_meta w) (fun e _ w => bind (ic_erase w e.1.1 e.1.2 e.2) (fun _ w => Ret tt w))); [apply same_meta_refl|].
  intros e _ w1 _ H1. eapply (res_all_bind (same_meta w)); [|auto|].
  - eapply res_all_mono; [apply ic_erase_meta|]. intros w2 H2. eapply same_meta_trans; eassumption.
  - intros; assumption.
Qed.

Lemma purge_par_meta P w chunks : res_all (same_meta w) (purge_par P w chunks).
Proof.
  unfold purge_par.
  apply (res_all_foldl (same_meta w) (fun c _ w => erase_all w (reverse c))); [apply same_meta_refl|].
  intros c _ w1 _ H1. eapply res_all_mono; [apply erase_all_meta|]. intros w2 H2. eapply same_meta_trans; eassumption.
Qed.

Definition clear_fold (s : option nat) (h : gmap nat body) : gmap nat body :=
  match s with Some r => match h !! r with Some b => <[r := with_intrs b ∅]> h | None => h end | None => h end.
Lemma clear_fold_spec (sl : list (option nat)) (h : gmap nat body) r :
  (foldr clear_fold h sl) !! r = (fun b => if bool_decide (Some r ∈ sl) then with_intrs b ∅ else b) <$> h !! r.
Proof.
  induction sl as [|s sl IH]; cbn [foldr].
  - destruct (h !! r); reflexivity.
  - unfold clear_fold at 1. destruct s as [r0|].
    + destruct (foldr clear_fold h sl !! r0) as [b0|] eqn:E0.
      * destruct (decide (r = r0)) as [->|Hn].
        { rewrite lookup_insert. rewrite IH in E0. destruct (h !! r0) as [b|]; [|discriminate]. cbn in *.
          injection E0 as <-. rewrite (bool_decide_eq_true_2 (Some r0 ∈ Some r0 :: sl)) by left.
          destruct (bool_decide _); reflexivity. }
        { rewrite lookup_insert_ne by congruence. rewrite IH. destruct (h !! r); [|reflexivity]. cbn. f_equal.
          assert (E : bool_decide (Some r ∈ Some r0 :: sl) = bool_decide (Some r ∈ sl)).
          { apply bool_decide_ext. rewrite elem_of_cons. split; [intros [H|H]; [congruence|exact H]|tauto]. }
          rewrite E. reflexivity. }
      * rewrite IH. destruct (h !! r) as [b|] eqn:Eh; [|reflexivity]. cbn. f_equal.
        assert (E : bool_decide (Some r ∈ Some r0 :: sl) = bool_decide (Some r ∈ sl)).
        { apply bool_decide_ext. rewrite elem_of_cons. split; [intros [H|H]; [|exact H]|tauto].
          assert (r0 = r) as -> by congruence. rewrite IH in E0. discriminate E0. }
        rewrite E. reflexivity.
    + rewrite IH. destruct (h !! r) as [b|]; [|reflexivity]. cbn. f_equal.
      assert (E : bool_decide (Some r ∈ None :: sl) = bool_decide (Some r ∈ sl)).
      { apply bool_decide_ext. rewrite elem_of_cons. split; [intros [H|H]; [discriminate|exact H]|tauto]. }
      rewrite E. reflexivity.
Qed.

Lemma clear_intrs_meta w : same_meta w (clear_intrs w).
Proof.
  split; [reflexivity|]. split; [reflexivity|]. intros r. unfold clear_intrs. cbn.
  pose proof (clear_fold_spec (slots w) (bheap w) r) as E. unfold clear_fold in E. rewrite E.
  destruct (bheap w !! r); [|reflexivity]. cbn. destruct (bool_decide _); reflexivity.
Qed.

Lemma swapOrder_meta w p : res_all (same_meta w) (swapOrder w p).
Proof.
  unfold swapOrder. destruct (lin w !! p); [|apply same_meta_refl]. destruct (iheap w !! _) as [x|]; [|exact I].
  destruct (geom x || phys x); [apply same_meta_refl|repeat split].
Qed.
Lemma makeReal_meta w p g ph : same_meta w (makeReal w p g ph).
Proof.
  unfold makeReal. destruct (lin w !! p); [|apply same_meta_refl]. destruct (iheap w !! _) as [x|]; [|apply same_meta_refl].
  destruct (at_id w (id1 x)); [destruct (at_id w (id2 x))|]; repeat split.
Qed.
Lemma requestErase2_meta w i j : same_meta w (requestErase2 w i j).
Proof. unfold requestErase2. destruct (find w i j); repeat split. Qed.

(** ** which operations are interaction operations *)
Definition is_iop (o : op) : bool :=
  match o with OInsertI _ _ | OReqErase _ _ | OMakeReal _ _ _ | OSwap _ | OPurge _ | OPurgePar _ _ | OClearI => true | _ => false end.
Lemma iop_meta w o : is_iop o = true -> res_all (same_meta w) (step w o).
Proof.
  destruct o; try discriminate; intros _; cbn [step].
  - apply res_all_drop, insert_new_meta.
  - apply requestErase2_meta.
  - apply makeReal_meta.
  - apply swapOrder_meta.
  - apply purge_seq_meta.
  - apply purge_par_meta.
  - apply clear_intrs_meta.
Qed.

(** ** C01: the invariant under every operation *)
(** lengths never shrink; existing bodies keep their place unless erased *)
Definition keeps (w w' : world) : Prop :=
  forall i r, slots w !! i = Some (Some r) -> slots w' !! i = Some (Some r).

Lemma clump_A w ids : InvA w -> res_all (fun w' => InvA w' /\ length (slots w') = S (length (slots w)) /\ keeps w w') (clump w ids).
Proof.
  intros HA. unfold clump.
  set (w0 := mkWorld _ _ _ _ _ _).
  assert (Hf : bheap w !! nextb w = None).
  { destruct (bheap w !! nextb w) eqn:E; [|reflexivity]. apply HA in E. lia. }
  assert (HA0 : InvA w0).
  { destruct HA as [H1 H2]. split.
    - intros r b Hb. cbn in *. destruct (decide (r = nextb w)) as [->|Hn]; [lia|]. rewrite lookup_insert_ne in Hb by congruence. apply H1 in Hb. lia.
    - intros i r Hi. destruct (H2 i r Hi) as (b & Hb & E). exists b. cbn. rewrite lookup_insert_ne; [auto|]. intros Er. rewrite <- Er in Hb. congruence. }
  set (Q := fun w' => InvA w' /\ length (slots w') = S (length (slots w)) /\ keeps w w').
  assert (QB : forall w1 w2, Q w1 -> same_bids w1 w2 -> Q w2).
  { intros w1 w2 (A & L & K) S. split; [eapply same_bids_InvA; eassumption|]. destruct S as (E & _ & _).
    split; [congruence|]. intros i r Hi. rewrite E. apply K, Hi. }
  eapply (res_all_bind Q); [|auto|].
  - eapply res_all_mono; [apply bc_insert_A; [exact HA0|]|].
    + apply (not_in_slots_new w (nextb w)); [apply HA|exact Hf].
    + intros w' (A & L & K & _). split; [exact A|]. split; [exact L|exact K].
  - intros cid w1 _ H1. eapply (res_all_bind Q); [|auto|].
    + apply (res_all_foldl Q (fun id _ w => match at_id w id with None => UB | Some (r, b) => if isClumpMember b then
                match clumpId b with Some c => match at_id w c with Some (rc', _) => clump_del w rc' r | None => UB end | None => UB end
              else Ret tt w end)); [exact H1|].
      intros id _ w2 _ H2. destruct (at_id w2 id) as [[r b]|]; [|exact I]. destruct (isClumpMember b); [|exact H2].
      destruct (clumpId b); [|exact I]. destruct (at_id w2 _) as [[rc' bc']|]; [|exact I].
      eapply res_all_mono; [apply clump_del_bids|]. intros w3 H3. eapply QB; eassumption.
    + intros _ w2 _ H2. eapply (res_all_bind Q); [|auto|].
      * apply (res_all_foldl Q (fun id _ w3 => match at_id w3 id with None => UB | Some (r, _) => clump_add w3 (nextb w) r end)); [exact H2|].
        intros id _ w3 _ H3. destruct (at_id w3 id) as [[r b]|]; [|exact I].
        eapply res_all_mono; [apply clump_add_bids|]. intros w4 H4. eapply QB; eassumption.
      * intros _ w3 _ H3. eapply (res_all_bind Q); [|auto|].
        { eapply res_all_mono; [apply updateProperties_same|]. intros w4 ->. exact H3. }
        intros; assumption.
Qed.

Lemma addToClump_A w bids cid : InvA w -> res_all (EA w) (addToClump w bids cid).
Proof.
  intros HA. unfold addToClump. destruct (at_id w cid) as [[rc c]|]; [|exact I].
  destruct (negb (isClump c)); [apply EA_refl, HA|].
  eapply (res_all_bind (EA w)); [|auto|].
  - assert (G : forall w1 r, EA w w1 -> res_all (EA w) (clump_add w1 rc r)).
    { intros w1 r H1. eapply res_all_mono; [apply clump_add_bids|]. intros w2 H2. eapply EA_trans; [exact H1|]. apply EA_bids; [apply H1|exact H2]. }
    apply (res_all_foldl (EA w) (fun b (st : option (list nat)) w =>
        match st with
        | None => Ret None w
        | Some er =>
          match at_id w b with
          | None => UB
          | Some (r, bp) =>
            if isClump bp then
              if bool_decide (r = rc) then Ret None w
              else bind (clump_add w rc r) (fun _ w => Ret (Some (er ++ [b])) w)
            else if isClumpMember bp then
              match clumpId bp with
              | None => UB
              | Some pc =>
                match at_id w pc with
                | None => UB
                | Some (rp, _) =>
                  if bool_decide (rp = rc) then Ret None w
                  else bind (clump_add w rc rp) (fun _ w => Ret (Some (er ++ [pc])) w)
                end
              end
            else bind (clump_add w rc r) (fun _ w => Ret (Some er) w)
          end
        end)); [apply EA_refl, HA|].
    intros b st w1 _ H1. destruct st as [er|]; [|exact H1]. destruct (at_id w1 b) as [[r bp]|]; [|exact I].
    destruct (isClump bp).
    { destruct (bool_decide _); [exact H1|]. eapply res_all_bind; [apply G, H1|auto|]. intros; assumption. }
    destruct (isClumpMember bp).
    { destruct (clumpId bp) as [pc|]; [|exact I]. destruct (at_id w1 pc) as [[rp bp']|]; [|exact I].
      destruct (bool_decide _); [exact H1|]. eapply res_all_bind; [apply G, H1|auto|]. intros; assumption. }
    eapply res_all_bind; [apply G, H1|auto|]. intros; assumption.
  - intros st w1 _ H1. destruct st as [er|]; [|exact H1]. eapply (res_all_bind (EA w)); [|auto|].
    + eapply res_all_mono; [apply updateProperties_same|]. intros w4 ->. exact H1.
    + intros _ w2 _ H2.
      apply (res_all_foldl (EA w) (fun b _ w => bind (erase w b false) (fun _ w => Ret tt w))); [exact H2|].
      intros b _ w3 _ H3. eapply (res_all_bind (EA w)); [|auto|intros; assumption].
      eapply res_all_mono; [apply bc_erase_EA, H3|]. intros w4 H4. eapply EA_trans; eassumption.
Qed.

Lemma release_core w b cid : res_all (same_core w) (releaseFromClump w b cid).
Proof.
  unfold releaseFromClump. destruct (at_id w b) as [[r bp]|]; [|exact I]. destruct (at_id w cid) as [[rc c]|]; [|exact I].
  destruct (negb (isClump c)); [apply same_core_refl|]. destruct (isClumpMember bp); [|apply same_core_refl].
  destruct (bool_decide _); [|apply same_core_refl]. destruct (members c) as [mc|]; [|exact I].
  destruct (bool_decide _); [apply same_core_refl|].
  eapply res_all_bind; [apply clump_del_core|auto|]. intros _ w1 _ H1.
  eapply res_all_mono; [apply updateProperties_same|]. intros w2 ->. exact H1.
Qed.

Lemma insertAt_A w r pos : InvA w -> ~ in_container w r ->
  res_all (fun w' => InvA w' /\ length (slots w') = length (slots w) /\ keeps w w') (insertAtId w r pos).
Proof.
  intros [H1 H2] Hn. unfold insertAtId, slot. destruct (slots w !! pos) as [[r0|]|] eqn:Es; [|destruct (bheap w !! r) as [b|] eqn:Eb; [|exact I]|exact I].
  - cbn. split; [split; assumption|]. split; [reflexivity|]. intros i r' H. exact H.
  - cbn. split; [split|split].
    + intros r' b' Hb'. cbn in *. destruct (decide (r' = r)) as [->|Hne]; [eapply H1; exact Eb|].
      rewrite lookup_insert_ne in Hb' by congruence. eapply H1; exact Hb'.
    + intros i r' Hi. cbn in *. destruct (decide (i = pos)) as [->|Hne].
      * rewrite list_lookup_insert in Hi by (apply lookup_lt_is_Some; eauto). injection Hi as <-.
        rewrite lookup_insert. eexists. split; [reflexivity|]. reflexivity.
      * rewrite list_lookup_insert_ne in Hi by congruence.
        destruct (decide (r' = r)) as [->|Hner]; [exfalso; apply Hn; exists i; exact Hi|].
        rewrite lookup_insert_ne by congruence. apply H2, Hi.
    + apply insert_length.
    + intros i r' Hi. cbn. rewrite list_lookup_insert_ne; [exact Hi|]. intros ->. congruence.
Qed.

Definition may_erase (o : op) : bool := match o with OErase _ _ | OAddToClump _ _ => true | _ => false end.

Lemma step_A w o : InvA w -> fresh_insert w o ->
  res_all (fun w' => InvA w' /\ length (slots w) <= length (slots w') /\ (may_erase o = false -> keeps w w')) (step w o).
Proof.
  intros HA HF. destruct (is_iop o) eqn:Eo.
  { eapply res_all_mono; [apply iop_meta, Eo|]. intros w' H. split; [eapply same_bids_InvA; [apply same_meta_bids, H|exact HA]|].
    destruct H as (E & _). split; [rewrite E; lia|]. intros _ i r Hi. rewrite E. exact Hi. }
  destruct o; try discriminate; cbn [step]; cbn [may_erase].
  - cbn. split; [|split; [lia|intros _ i r Hi; exact Hi]]. destruct HA as [H1 H2]. split.
    + intros r b Hb. cbn in *. destruct (decide (r = nextb w)) as [->|Hn]; [lia|]. rewrite lookup_insert_ne in Hb by congruence. apply H1 in Hb. lia.
    + intros i r Hi. cbn in Hi. destruct (H2 i r Hi) as (b & Hb & E). exists b. cbn. rewrite lookup_insert_ne; [auto|].
      intros <-. apply H1 in Hb. lia.
  - apply res_all_drop. unfold append. destruct (bheap w !! r) as [b|] eqn:Eb; [|exact I].
    destruct (bid b) eqn:Eid; [cbn; split; [exact HA|split; [lia|intros _ i r' Hi; exact Hi]]|].
    eapply res_all_mono; [apply bc_insert_A; [exact HA|eapply not_in_slots_bid; [apply HA|exact Eb|exact Eid]]|].
    intros w' (A & L & K & _). split; [exact A|]. split; [lia|]. intros _. exact K.
  - apply res_all_drop. eapply res_all_mono; [apply insertAt_A; [exact HA|exact HF]|].
    intros w' (A & L & K). split; [exact A|]. split; [lia|]. intros _; exact K.
  - apply res_all_drop. eapply res_all_mono; [apply bc_erase_EA, HA|]. intros w' (A & [L _] & _). split; [exact A|]. split; [lia|discriminate].
  - apply res_all_drop. eapply res_all_mono; [apply clump_A, HA|]. intros w' (A & L & K). split; [exact A|]. split; [lia|]. intros _; exact K.
  - eapply res_all_mono; [apply addToClump_A, HA|]. intros w' (A & [L _] & _). split; [exact A|]. split; [lia|discriminate].
  - eapply res_all_mono; [apply release_core|]. intros w' H. split; [eapply same_bids_InvA; [apply same_core_bids, H|exact HA]|].
    destruct H as (E & _). split; [rewrite E; lia|]. intros _ i r Hi. rewrite E. exact Hi.
Qed.

Lemma init_A : InvA init.
Proof. split; [intros r b Hb; cbn in Hb; rewrite lookup_empty in Hb; discriminate|intros i r Hi; cbn in Hi; rewrite lookup_nil in Hi; discriminate]. Qed.

Lemma reach_A l w : along fresh_insert init l -> run init l = Some w -> InvA w.
Proof.
  intros HC HR. eapply (run_inv fresh_insert InvA l init w); [|apply init_A|exact HC|exact HR].
  intros w0 o H HF. eapply res_all_mono; [apply step_A; eassumption|]. intros w' (A & _). exact A.
Qed.
