(** Interactions: the invariant of the interaction container. *)
From stdpp Require Import gmap list.
From Coq Require Import ZArith Lia.
From Verif Require Import World_Model World_Spec World_Proofs1.

Definition hasMembers (b : body) : bool := match members b with Some _ => true | None => false end.

Record InvI (w : world) : Prop := {
  I0 : InvA w;
  I1 : forall k q, lin w !! k = Some q -> exists x, iheap w !! q = Some x /\ linIx x = Z.of_nat k;
  I2 : forall q i j x, q ∈ lin w -> iheap w !! q = Some x -> joins x i j ->
         i <> j /\ i < length (slots w) /\ forall r b, at_id w i = Some (r, b) -> intrs b !! j = Some q;
  I3 : forall i r b j q, at_id w i = Some (r, b) -> intrs b !! j = Some q ->
         q < nexti w /\ j < length (slots w) /\
         ((q ∈ lin w /\ exists x, iheap w !! q = Some x /\ joins x i j) \/ (~ alive w j /\ q ∉ lin w));
  I4 : forall q q' x x' i j, q ∈ lin w -> q' ∈ lin w -> iheap w !! q = Some x -> iheap w !! q' = Some x' ->
         joins x i j -> joins x' i j -> q = q';
  I5 : forall q x i j, q ∈ lin w -> iheap w !! q = Some x -> joins x i j -> ~ alive w i -> geom x = false /\ phys x = false;
  I6 : forall q x, iheap w !! q = Some x -> q < nexti w;
  I7 : forall i r b, at_id w i = Some (r, b) -> hasMembers b = true -> intrs b = ∅ }.

Lemma joins_sym x i j : joins x i j -> joins x j i.
Proof. unfold joins. tauto. Qed.
Lemma joins_ids x : joins x (id1 x) (id2 x).
Proof. unfold joins. tauto. Qed.

Lemma lin_lookup w q : q ∈ lin w -> exists k, lin w !! k = Some q.
Proof. apply elem_of_list_lookup. Qed.
Lemma InvI_heap w q : InvI w -> q ∈ lin w -> exists x, iheap w !! q = Some x.
Proof. intros H Hq. apply lin_lookup in Hq as [k Hk]. destruct (I1 w H k q Hk) as (x & E & _). eauto. Qed.
Lemma InvI_nodup w : InvI w -> NoDup (lin w).
Proof.
  intros H. apply NoDup_alt. intros i j q Hi Hj. destruct (I1 w H i q Hi) as (x & E & Ei). destruct (I1 w H j q Hj) as (x' & E' & Ej).
  rewrite E in E'. injection E' as <-. lia.
Qed.
Lemma alive_slot w i : InvA w -> alive w i <-> exists r, slots w !! i = Some (Some r).
Proof.
  intros [_ HA]. split.
  - intros (r & b & H). apply at_id_Some in H as [H _]. eauto.
  - intros (r & H). destruct (HA i r H) as (b & Hb & _). exists r, b. apply at_id_Some. auto.
Qed.
Lemma alive_lt w i : alive w i -> i < length (slots w).
Proof. intros (r & b & H). apply at_id_Some in H as [H _]. eapply lookup_lt_Some; exact H. Qed.

Lemma init_I : InvI init.
Proof.
  assert (Hl : forall k q, (lin init) !! k = Some q -> False) by (intros k q H; cbn in H; rewrite lookup_nil in H; discriminate).
  assert (Hl' : forall q, q ∈ lin init -> False) by (intros q H; inversion H).
  assert (Ha : forall i r b, at_id init i = Some (r, b) -> False) by (intros i r b H; unfold at_id, slot in H; cbn in H; rewrite lookup_nil in H; discriminate).
  constructor; intros; try (exfalso; eauto; fail).
  - apply init_A.
  - cbn in H. rewrite lookup_empty in H. discriminate.
Qed.

(** ** the invariant depends on a few things only *)
(** same slots, same maps; interactions keep ids and position, the list is the same; geometry can only disappear *)
Lemma InvI_iheap w w' : InvI w -> same_core w (set_iheap (set_lin (mkWorld (bheap w') (nextb w') (slots w') (iheap w') (nexti w) (lin w')) (lin w)) (iheap w)) ->
  lin w' = lin w -> nexti w <= nexti w' ->
  (forall q x', iheap w' !! q = Some x' -> q < nexti w') ->
  (forall q x, q ∈ lin w -> iheap w !! q = Some x -> exists x', iheap w' !! q = Some x' /\ linIx x' = linIx x /\ (forall i j, joins x' i j <-> joins x i j) /\
      ((alive w (id1 x) /\ alive w (id2 x)) \/ (geom x' = geom x /\ phys x' = phys x) \/ (geom x' = false /\ phys x' = false))) ->
  InvI w'.
Proof.
  intros H (E1 & E2 & _ & _ & _ & E6) El En Hk Hx. cbn in E1, E2, E6.
  assert (Hat : forall i r b', at_id w' i = Some (r, b') -> exists b, at_id w i = Some (r, b) /\ core b' = core b).
  { intros i r b' Hi. apply at_id_Some in Hi as [Hi Hb]. rewrite E1 in Hi. specialize (E6 r). rewrite Hb in E6. cbn in E6.
    destruct (bheap w !! r) as [b|] eqn:Eb; [|discriminate]. cbn in E6. exists b. split; [apply at_id_Some; auto|congruence]. }
  assert (HA : InvA w').
  { eapply same_bids_InvA; [|apply (I0 w H)]. split; [exact E1|]. split; [exact E2|]. intros r. specialize (E6 r).
    destruct (bheap w' !! r), (bheap w !! r); unfold core in *; cbn in *; congruence. }
  assert (Hal : forall i, alive w' i <-> alive w i).
  { intros i. rewrite (alive_slot w' i HA), (alive_slot w i (I0 w H)), E1. reflexivity. }
  assert (Hx' : forall q x', q ∈ lin w -> iheap w' !! q = Some x' -> exists x, iheap w !! q = Some x /\ linIx x' = linIx x /\ (forall i j, joins x' i j <-> joins x i j) /\
      ((alive w (id1 x) /\ alive w (id2 x)) \/ (geom x' = geom x /\ phys x' = phys x) \/ (geom x' = false /\ phys x' = false))).
  { intros q x' Hq Hq'. destruct (InvI_heap w q H Hq) as (x & Ex). destruct (Hx q x Hq Ex) as (x'' & Ex'' & R). exists x. split; [exact Ex|]. rewrite Hq' in Ex''. injection Ex'' as <-. exact R. }
  constructor.
  - exact HA.
  - rewrite El. intros k q Hq. destruct (I1 w H k q Hq) as (x & Ex & Ek). destruct (Hx q x) as (x' & Ex' & El' & _); [eapply elem_of_list_lookup_2; exact Hq|exact Ex|].
    exists x'. split; [exact Ex'|congruence].
  - rewrite El, E1. intros q i j x' Hq Ex' Hj. destruct (Hx' q x' Hq Ex') as (x & Ex & _ & Hjo & _). apply Hjo in Hj.
    destruct (I2 w H q i j x Hq Ex Hj) as (A & B & C). split; [exact A|]. split; [exact B|]. intros r b' Hi.
    destruct (Hat i r b' Hi) as (b & Hb & Ec). injection Ec as _ Ei _. rewrite Ei. eapply C; exact Hb.
  - rewrite El, E1. intros i r b' j q Hi Hj. destruct (Hat i r b' Hi) as (b & Hb & Ec). injection Ec as _ Ei _. rewrite Ei in Hj.
    destruct (I3 w H i r b j q Hb Hj) as (A & B & C). split; [lia|]. split; [exact B|]. rewrite Hal. destruct C as [(C & x & Ex & Hjo)|C]; [left|right; exact C].
    split; [exact C|]. destruct (Hx q x C Ex) as (x' & Ex' & _ & Hjo' & _). exists x'. split; [exact Ex'|]. apply Hjo', Hjo.
  - rewrite El. intros q q' x x' i j Hq Hq' Ex Ex' Hj Hj'. destruct (Hx' q x Hq Ex) as (y & Ey & _ & Hy & _). destruct (Hx' q' x' Hq' Ex') as (y' & Ey' & _ & Hy' & _).
    eapply (I4 w H q q' y y' i j); try assumption; [apply Hy, Hj|apply Hy', Hj'].
  - rewrite El. intros q x' i j Hq Ex' Hj Hd. destruct (Hx' q x' Hq Ex') as (x & Ex & _ & Hjo & Hc). rewrite Hal in Hd. apply Hjo in Hj.
    destruct Hc as [[Ha1 Ha2]|[[-> ->]|Hc]]; [|eapply (I5 w H); eassumption|exact Hc].
    exfalso. destruct Hj as [[<- _]|[_ <-]]; tauto.
  - exact Hk.
  - intros i r b' Hi Hm. destruct (Hat i r b' Hi) as (b & Hb & Ec). injection Ec as _ Ei Em. rewrite Ei. eapply (I7 w H); [exact Hb|]. unfold hasMembers in *. congruence.
Qed.

(** clump operations *)
Lemma InvI_core w w' : same_core w w' -> InvI w -> InvI w'.
Proof.
  intros S H. pose proof S as (E1 & E2 & E3 & E4 & E5 & E6). apply (InvI_iheap w w' H).
  - repeat (split; [assumption || reflexivity|]). exact E6.
  - exact E5.
  - lia.
  - rewrite E3, E4. intros q x. apply (I6 w H).
  - rewrite E3. intros q x Hq Ex. exists x. split; [exact Ex|]. split; [reflexivity|]. split; [reflexivity|]. right; left; auto.
Qed.

Lemma InvI_set_iheap w h : InvI w -> (forall q x', h !! q = Some x' -> q < nexti w) ->
  (forall q x, q ∈ lin w -> iheap w !! q = Some x -> exists x', h !! q = Some x' /\ linIx x' = linIx x /\ (forall i j, joins x' i j <-> joins x i j) /\
      ((alive w (id1 x) /\ alive w (id2 x)) \/ (geom x' = geom x /\ phys x' = phys x) \/ (geom x' = false /\ phys x' = false))) ->
  InvI (set_iheap w h).
Proof.
  intros H Hk Hx. apply (InvI_iheap w _ H); [repeat split|reflexivity|cbn; lia|exact Hk|exact Hx].
Qed.

Lemma InvI_reset w q : InvI w -> InvI (set_iheap w (requestErase (iheap w) q)).
Proof.
  intros H. unfold requestErase. destruct (iheap w !! q) as [y|] eqn:Ey; [|destruct w; exact H].
  apply InvI_set_iheap; [exact H| |].
  - intros q' x' Hq'. destruct (decide (q' = q)) as [->|Hn]; [eapply (I6 w H); exact Ey|]. rewrite lookup_insert_ne in Hq' by congruence. eapply (I6 w H); exact Hq'.
  - intros q' x _ Hx. destruct (decide (q' = q)) as [->|Hn].
    + rewrite lookup_insert. rewrite Ey in Hx. injection Hx as <-. eexists. split; [reflexivity|]. split; [reflexivity|]. split; [reflexivity|]. right; right; auto.
    + rewrite lookup_insert_ne by congruence. exists x. split; [exact Hx|]. split; [reflexivity|]. split; [reflexivity|]. right; left; auto.
Qed.

(** replacing a listed interaction *)
Lemma InvI_set w q y y' : InvI w -> iheap w !! q = Some y -> linIx y' = linIx y -> (forall i j, joins y' i j <-> joins y i j) ->
  ((alive w (id1 y) /\ alive w (id2 y)) \/ (geom y' = geom y /\ phys y' = phys y) \/ (geom y' = false /\ phys y' = false)) ->
  InvI (set_iheap w (<[q := y']> (iheap w))).
Proof.
  intros H Ey E1 E2 E3. apply InvI_set_iheap; [exact H| |].
  - intros q' x' Hq'. destruct (decide (q' = q)) as [->|Hn]; [eapply (I6 w H); exact Ey|]. rewrite lookup_insert_ne in Hq' by congruence. eapply (I6 w H); exact Hq'.
  - intros q' x _ Hx. destruct (decide (q' = q)) as [->|Hn].
    + rewrite lookup_insert. rewrite Ey in Hx. injection Hx as <-. eexists. split; [reflexivity|]. auto.
    + rewrite lookup_insert_ne by congruence. exists x. split; [exact Hx|]. split; [reflexivity|]. split; [reflexivity|]. right; left; auto.
Qed.

Lemma makeReal_I w p g ph : InvI w -> InvI (makeReal w p g ph).
Proof.
  intros H. unfold makeReal. destruct (lin w !! p) as [q|]; [|exact H]. destruct (iheap w !! q) as [x|] eqn:Ex; [|exact H].
  destruct (at_id w (id1 x)) as [[r1 b1]|] eqn:E1; [|apply InvI_reset, H]. destruct (at_id w (id2 x)) as [[r2 b2]|] eqn:E2; [|apply InvI_reset, H].
  eapply InvI_set; [exact H|exact Ex|reflexivity|reflexivity|]. left. split; eexists _, _; eassumption.
Qed.

Lemma swapOrder_I w p : InvI w -> res_all InvI (swapOrder w p).
Proof.
  intros H. unfold swapOrder. destruct (lin w !! p) as [q|]; [|exact H]. destruct (iheap w !! q) as [x|] eqn:Ex; [|exact I].
  destruct (geom x || phys x); [exact H|]. cbn. eapply InvI_set; [exact H|exact Ex|reflexivity| |right; left; auto].
  intros i j. unfold joins. cbn. tauto.
Qed.

Lemma requestErase2_I w i j : InvI w -> InvI (requestErase2 w i j).
Proof. intros H. unfold requestErase2. destruct (find w i j); [apply InvI_reset, H|exact H]. Qed.

(** ** a body enters the container at an id nothing remembers *)
Lemma place_I w w' pos r b b' : InvI w -> InvA w' -> ~ alive w pos -> no_trace w pos ->
  length (slots w) <= length (slots w') -> pos < length (slots w') ->
  (forall k, at_id w' k = if decide (k = pos) then Some (r, b') else at_id w k) ->
  intrs b' = ∅ -> b = b' -> iheap w' = iheap w -> lin w' = lin w -> nexti w' = nexti w -> InvI w'.
Proof.
  intros H HA Hd [T1 T2] Hl Hp Hat Hb' _ Ei El En.
  assert (Hal : forall i, alive w' i -> i = pos \/ alive w i).
  { intros i (r0 & b0 & H0). rewrite Hat in H0. destruct (decide (i = pos)); [auto|]. right. exists r0, b0. exact H0. }
  constructor; rewrite ?Ei, ?El, ?En.
  - exact HA.
  - apply (I1 w H).
  - intros q i j x Hq Ex Hj. destruct (I2 w H q i j x Hq Ex Hj) as (A & B & C). split; [exact A|]. split; [lia|]. intros r0 b0 Hi. rewrite Hat in Hi.
    destruct (decide (i = pos)) as [->|]; [|eapply C; exact Hi]. exfalso. destruct (T2 q x Hq Ex) as [N1 N2]. destruct Hj as [[? ?]|[? ?]]; congruence.
  - intros i r0 b0 j q Hi Hj. rewrite Hat in Hi. destruct (decide (i = pos)) as [->|Hn].
    { injection Hi as <- <-. rewrite Hb', lookup_empty in Hj. discriminate. }
    destruct (I3 w H i r0 b0 j q Hi Hj) as (A & B & C). split; [exact A|]. split; [lia|]. destruct C as [C|[C1 C2]]; [left; exact C|right].
    split; [|exact C2]. intros Ha. apply Hal in Ha as [->|Ha]; [|auto]. pose proof (T1 i r0 b0 Hi). congruence.
  - apply (I4 w H).
  - intros q x i j Hq Ex Hj Hnd. eapply (I5 w H); [exact Hq|exact Ex|exact Hj|]. intros (r0 & b0 & H0). apply Hnd. unfold alive. rewrite Hat. destruct (decide (i = pos)); eauto.
  - apply (I6 w H).
  - intros i r0 b0 Hi Hm. rewrite Hat in Hi. destruct (decide (i = pos)) as [->|Hn]; [injection Hi as <- <-; exact Hb'|]. eapply (I7 w H); eassumption.
Qed.

Lemma no_trace_end w : InvI w -> no_trace w (length (slots w)).
Proof.
  intros H. split.
  - intros i r b Hi. destruct (intrs b !! length (slots w)) as [q|] eqn:E; [|reflexivity]. destruct (I3 w H i r b _ q Hi E) as (_ & B & _). lia.
  - intros q x Hq Ex. destruct (I2 w H q _ _ x Hq Ex (joins_ids x)) as (_ & B & _). destruct (I2 w H q _ _ x Hq Ex (joins_sym _ _ _ (joins_ids x))) as (_ & B' & _). lia.
Qed.

Lemma bc_insert_at w r b : InvA w -> (forall i, slots w !! i <> Some (Some r)) -> bheap w !! r = Some b ->
  exists w', bc_insert w r = Ret (length (slots w)) w' /\
  (forall k, at_id w' k = if decide (k = length (slots w)) then Some (r, with_bid b (Some (length (slots w)))) else at_id w k).
Proof.
  intros HA Hn Hb. unfold bc_insert. rewrite Hb. eexists. split; [reflexivity|]. intros k. unfold at_id, slot. cbn.
  destruct (decide (k = length (slots w))) as [->|Hk].
  - rewrite lookup_app_r, Nat.sub_diag by lia. cbn. rewrite lookup_insert. reflexivity.
  - destruct (slots w !! k) as [o|] eqn:Ek.
    + rewrite (lookup_app_l_Some _ _ _ _ Ek). destruct o as [r'|]; [|reflexivity].
      rewrite lookup_insert_ne; [reflexivity|]. intros <-. eapply Hn; exact Ek.
    + rewrite lookup_ge_None_2; [reflexivity|]. rewrite app_length. cbn. apply lookup_ge_None_1 in Ek. lia.
Qed.

Lemma bc_insert_I w r b : InvI w -> (forall i, slots w !! i <> Some (Some r)) -> bheap w !! r = Some b -> intrs b = ∅ ->
  res_all InvI (bc_insert w r).
Proof.
  intros H Hn Hb Hi. destruct (bc_insert_at w r b (I0 w H) Hn Hb) as (w' & E & Hat). pose proof (bc_insert_A w r (I0 w H) Hn) as HA.
  rewrite E in *. cbn in *. destruct HA as (HA & HL & _). eapply (place_I w w' (length (slots w)) r); [exact H|exact HA| |apply no_trace_end, H|lia|lia|exact Hat|exact Hi|reflexivity| | |].
  - intros Ha. apply alive_lt in Ha. lia.
  - unfold bc_insert in E. rewrite Hb in E. injection E as <-. reflexivity.
  - unfold bc_insert in E. rewrite Hb in E. injection E as <-. reflexivity.
  - unfold bc_insert in E. rewrite Hb in E. injection E as <-. reflexivity.
Qed.

(** a new body that is not in the container yet *)
Lemma alloc_I w b : InvI w -> InvI (mkWorld (<[nextb w := b]> (bheap w)) (S (nextb w)) (slots w) (iheap w) (nexti w) (lin w)).
Proof.
  intros H. set (w' := mkWorld _ _ _ _ _ _). destruct (I0 w H) as [H1 H2].
  assert (Hat : forall k, at_id w' k = at_id w k).
  { intros k. unfold at_id, slot. cbn. destruct (slots w !! k) as [[r|]|] eqn:Ek; [|reflexivity|reflexivity].
    rewrite lookup_insert_ne; [reflexivity|]. intros Er. destruct (H2 k r Ek) as (b0 & Hb & _). apply H1 in Hb. lia. }
  assert (Hal : forall i, alive w' i <-> alive w i) by (intros i; unfold alive; rewrite Hat; reflexivity).
  constructor.
  - split.
    + intros r b0 Hb. cbn in *. destruct (decide (r = nextb w)) as [->|Hn]; [lia|]. rewrite lookup_insert_ne in Hb by congruence. apply H1 in Hb. lia.
    + intros i r Hi. destruct (H2 i r Hi) as (b0 & Hb & E). exists b0. cbn. rewrite lookup_insert_ne; [auto|]. intros Er. apply H1 in Hb. lia.
  - apply (I1 w H).
  - intros q i j x Hq Ex Hj. destruct (I2 w H q i j x Hq Ex Hj) as (A & B & C). split; [exact A|]. split; [exact B|]. intros r b0. rewrite Hat. apply C.
  - intros i r b0 j q. rewrite Hat, Hal. apply (I3 w H).
  - apply (I4 w H).
  - intros q x i j. rewrite Hal. apply (I5 w H).
  - apply (I6 w H).
  - intros i r b0. rewrite Hat. apply (I7 w H).
Qed.

(** ** erase of bodies *)
Definition gone (w w' : world) (i : nat) : Prop := alive w i /\ ~ alive w' i.
Record ER (w w' : world) : Prop := {
  R0 : InvA w';
  R1 : slots_shrink w w';
  R2 : forall r, (fun b => (intrs b, hasMembers b)) <$> (bheap w' !! r) = (fun b => (intrs b, hasMembers b)) <$> (bheap w !! r);
  R3 : lin w' = lin w /\ nexti w' = nexti w;
  R4 : forall q, iheap w' !! q = iheap w !! q \/
         (exists x, iheap w !! q = Some x /\ iheap w' !! q = Some (reset_intr x) /\
          exists i r b j, at_id w i = Some (r, b) /\ ~ alive w' i /\ intrs b !! j = Some q);
  R5 : forall i r b j q x', at_id w i = Some (r, b) -> ~ alive w' i -> hasMembers b = false -> intrs b !! j = Some q ->
         iheap w' !! q = Some x' -> geom x' = false /\ phys x' = false }.

Lemma ER_at w w' i r b' : ER w w' -> at_id w' i = Some (r, b') -> exists b, at_id w i = Some (r, b) /\ intrs b' = intrs b /\ hasMembers b' = hasMembers b.
Proof.
  intros H Hi. apply at_id_Some in Hi as [Hi Hb]. destruct (R1 _ _ H) as [_ Hs]. destruct (Hs i) as [E|[E _]]; [|congruence].
  pose proof (R2 _ _ H r) as E2. rewrite Hb in E2. destruct (bheap w !! r) as [b|] eqn:Eb; [|discriminate]. cbn in E2. injection E2 as E2 E3.
  exists b. split; [apply at_id_Some; split; [congruence|exact Eb]|auto].
Qed.
Lemma ER_alive w w' i : ER w w' -> alive w' i -> alive w i.
Proof. intros H (r & b & Hi). destruct (ER_at _ _ _ _ _ H Hi) as (b0 & Hb & _). exists r, b0. exact Hb. Qed.

Lemma ER_refl w : InvA w -> ER w w.
Proof.
  intros HA. constructor; auto using shrink_refl.
  intros i r b j q x' Hi Hd. exfalso. apply Hd. exists r, b. exact Hi.
Qed.

Lemma ER_trans w1 w2 w3 : InvA w1 -> ER w1 w2 -> ER w2 w3 -> ER w1 w3.
Proof.
  intros HA H1 H2. constructor.
  - apply (R0 _ _ H2).
  - eapply shrink_trans; [apply H1|apply H2].
  - intros r. rewrite (R2 _ _ H2). apply (R2 _ _ H1).
  - destruct (R3 _ _ H1), (R3 _ _ H2). split; congruence.
  - intros q. destruct (R4 _ _ H1 q) as [E1|(x & Ex & Ex' & i & r & b & j & Hi & Hd & Hj)].
    + destruct (R4 _ _ H2 q) as [E2|(x & Ex & Ex' & i & r & b & j & Hi & Hd & Hj)]; [left; congruence|right].
      exists x. split; [congruence|]. split; [exact Ex'|]. destruct (ER_at _ _ _ _ _ H1 Hi) as (b0 & Hb0 & Ei & _). exists i, r, b0, j. split; [exact Hb0|]. split; [exact Hd|congruence].
    + right. exists x. split; [exact Ex|]. split.
      * destruct (R4 _ _ H2 q) as [E2|(y & Ey & Ey' & _)]; [congruence|]. rewrite Ex' in Ey. injection Ey as <-. exact Ey'.
      * exists i, r, b, j. split; [exact Hi|]. split; [|exact Hj]. intros Ha. apply Hd. eapply ER_alive; eassumption.
  - intros i r b j q x' Hi Hd Hm Hj Hx'.
    assert (Dec : alive w2 i \/ ~ alive w2 i).
    { unfold alive. destruct (at_id w2 i) as [[r0 b0]|] eqn:E; [left; eauto|right; intros (? & ? & ?); congruence]. }
    destruct Dec as [(r2 & b2 & Hi2)|Hd2].
    + destruct (ER_at _ _ _ _ _ H1 Hi2) as (b0 & Hb0 & Ei & Em). rewrite Hi in Hb0. injection Hb0 as <- <-.
      eapply (R5 _ _ H2); [exact Hi2|exact Hd|congruence|rewrite Ei; exact Hj|exact Hx'].
    + destruct (R4 _ _ H2 q) as [E2|(y & Ey & Ey' & _)].
      * rewrite E2 in Hx'. eapply (R5 _ _ H1); eassumption.
      * rewrite Ey' in Hx'. injection Hx' as <-. cbn. auto.
Qed.

Lemma ER_core w w' : InvA w -> same_core w w' -> ER w w'.
Proof.
  intros HA S. pose proof S as (E1 & E2 & E3 & E4 & E5 & E6). pose proof (same_bids_InvA _ _ (same_core_bids _ _ S) HA) as HA'. constructor.
  - exact HA'.
  - apply shrink_eq, E1.
  - intros r. specialize (E6 r). unfold core, hasMembers in *. destruct (bheap w' !! r), (bheap w !! r); cbn in *; congruence.
  - auto.
  - intros q. left. congruence.
  - intros i r b j q x' Hi Hd. exfalso. apply Hd. apply alive_slot; [exact HA'|]. rewrite E1. apply at_id_Some in Hi as [Hi _]. eauto.
Qed.

(** all interactions of a body are reset *)
Definition values (m : gmap nat nat) (q : nat) : Prop := map_Exists (fun _ q' => q' = q) m.
Global Instance values_dec m q : Decision (values m q).
Proof. unfold values. apply _. Defined.
Lemma values_spec m q : values m q <-> exists j, m !! j = Some q.
Proof. unfold values, map_Exists. split; [intros (j & q' & H & ->); eauto|intros (j & H); eauto]. Qed.

Lemma reset_all (m : gmap nat nat) (h : gmap nat intr) q :
  map_fold (fun _ q h => requestErase h q) h m !! q =
  (fun x => if decide (values m q) then reset_intr x else x) <$> h !! q.
Proof.
  pose (P := fun (res : gmap nat intr) (m : gmap nat nat) => res !! q = (fun x => if decide (values m q) then reset_intr x else x) <$> h !! q).
  enough (G : P (map_fold (fun _ q h => requestErase h q) h m) m) by exact G. revert m. apply (map_fold_ind P); unfold P; clear P.
  - destruct (h !! q) as [x|]; [|reflexivity]. cbn. destruct (decide _) as [Hv|]; [|reflexivity].
    apply values_spec in Hv as (j & Hj). rewrite lookup_empty in Hj; discriminate.
  - intros k q' m' res Hk IH. unfold requestErase. destruct (decide (q' = q)) as [->|Hn].
    + rewrite IH. destruct (h !! q) as [x|]; cbn; [|exact IH]. rewrite lookup_insert.
      destruct (decide (values (<[k:=q]> m') q)) as [_|N]; [|exfalso; apply N, values_spec; exists k; apply lookup_insert].
      destruct (decide (values m' q)); reflexivity.
    + assert (E : (match res !! q' with Some x => <[q':=reset_intr x]> res | None => res end) !! q = res !! q).
      { destruct (res !! q'); [rewrite lookup_insert_ne by congruence; reflexivity|reflexivity]. }
      rewrite E, IH. destruct (h !! q) as [x|]; [|reflexivity]. cbn. f_equal.
      destruct (decide (values m' q)) as [Hv|N].
      * destruct (decide (values (<[k:=q']> m') q)) as [_|N']; [reflexivity|]. exfalso. apply N'. apply values_spec in Hv as (j & Hj). apply values_spec.
        exists j. rewrite lookup_insert_ne by congruence. exact Hj.
      * destruct (decide (values (<[k:=q']> m') q)) as [Hv|N']; [|reflexivity]. exfalso. apply N. apply values_spec in Hv as (j & Hj). apply values_spec.
        destruct (decide (j = k)) as [->|Hjk].
        { rewrite lookup_insert in Hj. congruence. } rewrite lookup_insert_ne in Hj by congruence. eauto.
Qed.

Lemma erase_tail_ER w0 w id r : InvA w0 -> ER w0 w -> slots w0 !! id = Some (Some r) -> res_all (ER w0) (erase_tail w id r).
Proof.
  intros HA0 H0 Hi. pose proof (R0 _ _ H0) as HA. destruct (shrink_only w0 w id r HA0 (R1 _ _ H0) Hi) as [S1 S2].
  assert (HE : res_all (EA w) (erase_tail w id r)) by (apply erase_tail_EA; assumption).
  unfold erase_tail in *. destruct (bheap w !! r) as [b|] eqn:Eb; [|exact I]. cbn [res_all] in *. match goal with |- ER w0 ?x => set (w' := x) in * end.
  destruct HE as (HA' & Hs & _).
  assert (Hb0 : exists b0, at_id w0 id = Some (r, b0) /\ intrs b0 = intrs b /\ hasMembers b0 = hasMembers b).
  { pose proof (R2 _ _ H0 r) as E2. rewrite Eb in E2. destruct (bheap w0 !! r) as [b0|] eqn:Eb0; [|discriminate]. cbn in E2. injection E2 as E2 E3.
    exists b0. split; [apply at_id_Some; auto|auto]. }
  destruct Hb0 as (b0 & Hat0 & Ei0 & Em0).
  assert (Hd : ~ alive w' id).
  { rewrite alive_slot by exact HA'. intros (r' & Hr). unfold w' in Hr. cbn in Hr. rewrite list_lookup_insert in Hr by (apply lookup_lt_is_Some; exact S1). discriminate. }
  assert (Hal : forall i, alive w' i -> alive w i).
  { intros i. rewrite (alive_slot w' i HA'), (alive_slot w i HA). intros (r' & Hr). destruct Hs as [_ Hs]. destruct (Hs i) as [E|[E _]]; [|congruence]. exists r'. congruence. }
  constructor.
  - exact HA'.
  - eapply shrink_trans; [apply H0|exact Hs].
  - intros r'. rewrite <- (R2 _ _ H0 r'). unfold w'. cbn. destruct (decide (r' = r)) as [->|Hn]; [rewrite lookup_insert, Eb; reflexivity|rewrite lookup_insert_ne by congruence; reflexivity].
  - exact (R3 _ _ H0).
  - intros q. unfold w' at 1 2. cbn [set_slots set_body set_bheap set_iheap iheap]. rewrite reset_all.
    destruct (R4 _ _ H0 q) as [E4|(x & Ex & Ex' & i & r' & b' & j & Hi' & Hd' & Hj')].
    + rewrite E4. destruct (iheap w0 !! q) as [x|] eqn:Ex; [|left; reflexivity].
      cbn. destruct (decide (values (intrs b) q)) as [Hv|]; [right|left; reflexivity]. apply values_spec in Hv as (j & Hj).
      exists x. split; [reflexivity|]. split; [reflexivity|]. exists id, r, b0, j. split; [exact Hat0|]. split; [exact Hd|congruence].
    + right. exists x. split; [exact Ex|]. split.
      * rewrite Ex'. cbn. destruct (decide _); reflexivity.
      * exists i, r', b', j. split; [exact Hi'|]. split; [|exact Hj']. intros Ha. apply Hd', Hal, Ha.
  - intros i r' b' j q x' Hi' Hd' Hm Hj Hx'.
    unfold w' in Hx'. cbn [set_slots set_body set_bheap set_iheap iheap] in Hx'. rewrite reset_all in Hx'. destruct (iheap w !! q) as [x|] eqn:Ex; [|discriminate]. cbn in Hx'.
    destruct (decide (i = id)) as [->|Hn].
    + rewrite Hat0 in Hi'. injection Hi' as <- <-. rewrite Ei0 in Hj.
      destruct (decide _) as [_|N]; [|exfalso; apply N, values_spec; eauto]. injection Hx' as <-. cbn. auto.
    + assert (Hdw : ~ alive w i).
      { intros Ha. apply Hd'. apply (alive_slot w' i HA'). apply (alive_slot w i HA) in Ha as (r2 & Hr2). exists r2. unfold w'. cbn. rewrite list_lookup_insert_ne by congruence. exact Hr2. }
      destruct (R5 _ _ H0 i r' b' j q x Hi' Hdw Hm Hj Ex) as [G P]. destruct (decide (values (intrs b) q)); injection Hx' as <-; cbn; auto.
Qed.

(** a clump leaves the container *)
Lemma unslot_ER w id r b : InvA w -> is_Some (slots w !! id) -> bheap w !! r = Some b -> members b <> None ->
  (forall r', slots w !! id = Some (Some r') -> r' = r) ->
  ER w (set_slots w (<[id := None]> (slots w))).
Proof.
  intros HA Hs Hb Hm Hr. destruct (EA_unslot w id HA Hs) as (HA' & Hsh & _). constructor; auto.
  - intros i r' b' j q x' Hi' Hd' Hm' _ _. destruct (decide (i = id)) as [->|Hn].
    + apply at_id_Some in Hi' as [Hi1 Hi2]. apply Hr in Hi1. subst r'. assert (b' = b) as -> by congruence.
      unfold hasMembers in Hm'. destruct (members b); [discriminate|congruence].
    + exfalso. apply Hd'. apply alive_slot; [exact HA'|]. exists r'. cbn. rewrite list_lookup_insert_ne by congruence. apply at_id_Some in Hi'. apply Hi'.
Qed.

Lemma bc_erase_ER fuel : forall w id fl, InvA w -> res_all (ER w) (bc_erase fuel w id fl).
Proof.
  induction fuel as [|fuel IH]; intros w id fl HA; [exact I|]. cbn [bc_erase]. unfold slot.
  destruct (slots w !! id) as [[r|]|] eqn:Es; [|apply ER_refl, HA|exact I].
  destruct (bheap w !! r) as [b|] eqn:Eb; [|exact I].
  eapply (res_all_bind (ER w)).
  - destruct (isClumpMember b); [|apply ER_refl, HA]. destruct (clumpId b) as [cid|]; [|exact I].
    destruct (at_id w cid) as [[rc bc]|] eqn:Ec; [|exact I].
    eapply (res_all_bind (ER w)); [|auto|].
    + eapply res_all_mono; [apply clump_del_core|]. intros w' H. apply ER_core; assumption.
    + intros _ w1 _ H1. destruct (bheap w1 !! rc) as [c|] eqn:Ec1; [|exact I]. destruct (members c) as [mc|]; [|exact I].
      destruct (bool_decide _); [|exact H1]. destruct (bid c) as [ci|]; [|exact I].
      eapply (res_all_bind (ER w1)); [apply IH, H1| |]; intros.
      * eapply ER_trans; eassumption.
      * cbn. eapply ER_trans; eassumption.
  - auto.
  - intros _ w1 _ H1. destruct (shrink_only w w1 id r HA (R1 _ _ H1) Es) as [S1 S2].
    destruct (bheap w1 !! r) as [b1|] eqn:Eb1; [|exact I].
    destruct (isClump b1).
    + destruct (members b1) as [ms|] eqn:Ems; [|exact I].
      eapply (res_all_bind (ER w)); [|auto|].
      * apply (res_all_foldl (ER w) (fun m _ w => if fl then bind (bc_erase fuel w m false) (fun _ w0 => Ret tt w0)
                        else match at_id w m with Some (rm, bm) => Ret tt (set_body w rm (with_clumpId bm None)) | None => UB end)); [exact H1|].
        intros m _ w2 _ H2. destruct fl.
        { eapply (res_all_bind (ER w2)); [apply IH, H2| |]; intros; cbn; eapply ER_trans; eassumption. }
        destruct (at_id w2 m) as [[rm bm]|] eqn:Em; [|exact I]. cbn. eapply ER_trans; [exact HA|exact H2|].
        apply ER_core; [apply H2|]. apply at_id_Some in Em as [_ Em]. eapply same_core_set; [exact Em|reflexivity].
      * intros _ w2 _ H2. cbn. eapply ER_trans; [exact HA|exact H2|].
        destruct (shrink_only w w2 id r HA (R1 _ _ H2) Es) as [T1 T2].
        pose proof (R2 _ _ H2 r) as E2. pose proof (R2 _ _ H1 r) as E1'. rewrite Eb1 in E1'. rewrite <- E1' in E2.
        destruct (bheap w2 !! r) as [b2|] eqn:Eb2; [|discriminate]. cbn in E2. injection E2 as _ E2.
        eapply (unslot_ER w2 id r b2); [apply H2|exact T1|exact Eb2| |].
        { unfold hasMembers in E2. rewrite Ems in E2. destruct (members b2); [discriminate|discriminate]. }
        intros r' Hr'. destruct (R1 _ _ H2) as [_ Hsh]. destruct (Hsh id) as [E|[E _]]; congruence.
    + apply erase_tail_ER; assumption.
Qed.
