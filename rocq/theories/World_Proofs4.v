(** Interactions: every operation keeps the invariant; purge. *)
From stdpp Require Import gmap list.
From Coq Require Import ZArith Lia.
From Verif Require Import World_Model World_Spec World_Proofs1 World_Proofs2 World_Proofs3.

Lemma ER_I w w' : InvI w -> ER w w' -> InvI w'.
Proof.
  intros H R. destruct (R3 _ _ R) as [El En]. destruct (R1 _ _ R) as [Elen _].
  assert (Hx : forall q x', iheap w' !! q = Some x' -> exists x, iheap w !! q = Some x /\ linIx x' = linIx x /\ (forall i j, joins x' i j <-> joins x i j) /\
     (x' = x \/ x' = reset_intr x)).
  { intros q x' Hq. destruct (R4 _ _ R q) as [E|(x & Ex & Ex' & _)].
    - exists x'. rewrite <- E. split; [exact Hq|]. split; [reflexivity|]. split; [reflexivity|auto].
    - rewrite Ex' in Hq. injection Hq as <-. exists x. split; [exact Ex|]. split; [reflexivity|]. split; [reflexivity|auto]. }
  assert (Hx2 : forall q x, iheap w !! q = Some x -> exists x', iheap w' !! q = Some x' /\ linIx x' = linIx x /\ (forall i j, joins x' i j <-> joins x i j)).
  { intros q x Hq. destruct (R4 _ _ R q) as [E|(y & Ey & Ey' & _)].
    - exists x. rewrite E. split; [exact Hq|]. split; reflexivity.
    - rewrite Hq in Ey. injection Ey as <-. exists (reset_intr x). split; [exact Ey'|]. split; reflexivity. }
  constructor.
  - apply (R0 _ _ R).
  - rewrite El. intros k q Hk. destruct (I1 w H k q Hk) as (x & Ex & Ek). destruct (Hx2 q x Ex) as (x' & Ex' & E & _). exists x'. split; [exact Ex'|congruence].
  - rewrite El, Elen. intros q i j x' Hq Ex' Hj. destruct (Hx q x' Ex') as (x & Ex & _ & Hjo & _). apply Hjo in Hj.
    destruct (I2 w H q i j x Hq Ex Hj) as (A & B & C). split; [exact A|]. split; [exact B|]. intros r b' Hi.
    destruct (ER_at _ _ _ _ _ R Hi) as (b & Hb & Ei & _). rewrite Ei. eapply C; exact Hb.
  - rewrite El, En, Elen. intros i r b' j q Hi Hj. destruct (ER_at _ _ _ _ _ R Hi) as (b & Hb & Ei & _). rewrite Ei in Hj.
    destruct (I3 w H i r b j q Hb Hj) as (A & B & C). split; [exact A|]. split; [exact B|]. destruct C as [(C & x & Ex & Hjo)|[C1 C2]].
    + left. split; [exact C|]. destruct (Hx2 q x Ex) as (x' & Ex' & _ & Hjo'). exists x'. split; [exact Ex'|apply Hjo', Hjo].
    + right. split; [|exact C2]. intros Ha. apply C1. eapply ER_alive; eassumption.
  - rewrite El. intros q q' x x' i j Hq Hq' Ex Ex' Hj Hj'. destruct (Hx q x Ex) as (y & Ey & _ & Hy & _). destruct (Hx q' x' Ex') as (y' & Ey' & _ & Hy' & _).
    eapply (I4 w H q q' y y' i j); try assumption; [apply Hy, Hj|apply Hy', Hj'].
  - rewrite El. intros q x' i j Hq Ex' Hj Hd. destruct (Hx q x' Ex') as (x & Ex & _ & Hjo & Hc). apply Hjo in Hj.
    destruct (decide (alive w i)) as [(r & b & Hi)|Hn].
    + destruct (I2 w H q i j x Hq Ex Hj) as (_ & _ & C). specialize (C r b Hi).
      eapply (R5 _ _ R); [exact Hi|exact Hd| |exact C|exact Ex'].
      destruct (hasMembers b) eqn:Em; [|reflexivity]. rewrite (I7 w H i r b Hi Em), lookup_empty in C. discriminate.
    + destruct (I5 w H q x i j Hq Ex Hj Hn) as [G P]. destruct Hc as [->| ->]; cbn; auto.
  - rewrite En. intros q x' Hq. destruct (Hx q x' Hq) as (x & Ex & _). eapply (I6 w H); exact Ex.
  - intros i r b' Hi Hm. destruct (ER_at _ _ _ _ _ R Hi) as (b & Hb & Ei & Em). rewrite Ei. eapply (I7 w H); [exact Hb|congruence].
Qed.

(** ** insertion *)
Definition moved (x : intr) (k : nat) : intr := mkIntr (id1 x) (id2 x) (geom x) (phys x) (Z.of_nat k).
Lemma joins_moved x k i j : joins (moved x k) i j <-> joins x i j.
Proof. reflexivity. Qed.

Lemma at_id_lt w i r b : at_id w i = Some (r, b) -> i < length (slots w).
Proof. intros H. apply alive_lt. exists r, b. exact H. Qed.

Lemma joins_minmax x i j : joins x i j <-> joins x (i `min` j) (i `max` j).
Proof. unfold joins. lia. Qed.

Lemma ic_insert_ok w q x a b ra ba rb bb : InvI w -> a < b -> at_id w a = Some (ra, ba) -> at_id w b = Some (rb, bb) ->
  hasMembers ba = false -> hasMembers bb = false ->
  iheap w !! q = Some x -> joins x a b -> q ∉ lin w -> (forall i r c j, at_id w i = Some (r, c) -> intrs c !! j <> Some q) ->
  intrs ba !! b = None ->
  forall i j, i `min` j = a -> i `max` j = b ->
  exists w', ic_insert w q i j = Ret true w' /\ InvI w' /\ lin w' = lin w ++ [q] /\ iheap w' = <[q := moved x (length (lin w))]> (iheap w) /\ nexti w' = nexti w /\ slots w' = slots w /\
    forall k, at_id w' k = if decide (k = a) then Some (ra, with_intrs ba (<[b := q]> (intrs ba)))
                           else if decide (k = b) then Some (rb, with_intrs bb (<[a := q]> (intrs bb))) else at_id w k.
Proof.
  intros H Hab Ha Hb Hma Hmb Hx Hj Hq Hnq Hn i j Ei Ej.
  assert (Hn2 : intrs bb !! a = None).
  { destruct (intrs bb !! a) as [q'|] eqn:E; [|reflexivity]. destruct (I3 w H b rb bb a q' Hb E) as (_ & _ & [(Hq' & x' & Hx' & Hj')|[Hd _]]).
    - destruct (I2 w H q' a b x' Hq' Hx' (joins_sym _ _ _ Hj')) as (_ & _ & C). specialize (C ra ba Ha). congruence.
    - exfalso. apply Hd. exists ra, ba. exact Ha. }
  set (w1 := set_body w ra (with_intrs ba (<[b := q]> (intrs ba)))).
  pose proof (proj1 (at_id_Some _ _ _ _) Ha) as [Ha1 Ha2].
  assert (A1 : InvA w1) by (eapply InvA_set; [apply (I0 w H)|exact Ha2|reflexivity]).
  pose proof (at_id_set w a ra ba (with_intrs ba (<[b := q]> (intrs ba))) (I0 w H) Ha) as At1.
  assert (Hb1 : at_id w1 b = Some (rb, bb)). { unfold w1. rewrite At1. destruct (decide (b = a)); [lia|exact Hb]. }
  pose proof (proj1 (at_id_Some _ _ _ _) Hb1) as [Hb11 Hb12].
  set (w2 := set_body w1 rb (with_intrs bb (<[a := q]> (intrs bb)))).
  assert (A2 : InvA w2) by (eapply (InvA_set w1); [exact A1|exact Hb12|reflexivity]).
  pose proof (at_id_set w1 b rb bb (with_intrs bb (<[a := q]> (intrs bb))) A1 Hb1) as At2.
  set (w' := set_lin (set_iheap w2 (<[q := moved x (length (lin w))]> (iheap w2))) (lin w2 ++ [q])).
  assert (At : forall k, at_id w' k = if decide (k = a) then Some (ra, with_intrs ba (<[b := q]> (intrs ba)))
                           else if decide (k = b) then Some (rb, with_intrs bb (<[a := q]> (intrs bb))) else at_id w k).
  { intros k. change (at_id w' k) with (at_id w2 k). unfold w2. rewrite At2. destruct (decide (k = b)) as [->|].
    - destruct (decide (b = a)); [lia|reflexivity].
    - unfold w1. rewrite At1. reflexivity. }
  assert (Hal : forall k, alive w' k <-> alive w k).
  { intros k. unfold alive. rewrite At. destruct (decide (k = a)) as [->|]; [rewrite Ha; split; eauto|]. destruct (decide (k = b)) as [->|]; [rewrite Hb; split; eauto|]. reflexivity. }
  assert (Hlin : forall q', q' ∈ lin w' <-> q' ∈ lin w \/ q' = q).
  { intros q'. change (lin w') with (lin w ++ [q]). rewrite elem_of_app, elem_of_list_singleton. reflexivity. }
  assert (Hih : forall q' x', iheap w' !! q' = Some x' -> exists x0, iheap w !! q' = Some x0 /\ content x' = content x0 /\ (q' <> q -> x' = x0)).
  { intros q' x' E. unfold w' in E. cbn in E. destruct (decide (q' = q)) as [->|Hne].
    - rewrite lookup_insert in E. injection E as <-. exists x. split; [exact Hx|]. split; [reflexivity|congruence].
    - rewrite lookup_insert_ne in E by congruence. exists x'. auto. }
  assert (Hjc : forall x1 x2 k l, content x1 = content x2 -> joins x1 k l -> joins x2 k l).
  { intros x1 x2 k l E. unfold joins, content in *. injection E as -> ->. auto. }
  exists w'. split; [|split; [|split; [reflexivity|split; [reflexivity|split; [reflexivity|split; [reflexivity|exact At]]]]]].
  - unfold ic_insert. rewrite Ei, Ej, Ha, Hb, Hn. fold w1. rewrite Hb12, Hn2. fold w2. change (iheap w2) with (iheap w). rewrite Hx. reflexivity.
  - constructor.
    + exact A2.
    + intros k q' Hk. change (lin w') with (lin w ++ [q]) in Hk. apply lookup_app_Some in Hk as [Hk|[Hk1 Hk2]].
      * destruct (I1 w H k q' Hk) as (x' & Ex' & Ek). assert (q' <> q) by (intros ->; apply Hq; eapply elem_of_list_lookup_2; exact Hk).
        exists x'. split; [|exact Ek]. unfold w'. cbn. rewrite lookup_insert_ne by congruence. exact Ex'.
      * destruct (k - length (lin w)) as [|d] eqn:Ed; [|cbn in Hk2; destruct d; discriminate]. cbn in Hk2. injection Hk2 as <-.
        eexists. unfold w'. cbn. rewrite lookup_insert. split; [reflexivity|]. cbn. lia.
    + intros q' k l x' Hq' Ex' Hkl. apply Hlin in Hq'. destruct (Hih q' x' Ex') as (x0 & Ex0 & Ec & Hne). pose proof (Hjc _ _ _ _ Ec Hkl) as Hkl0.
      destruct (decide (q' = q)) as [->|Hqq].
      * assert (Hk : (k = a /\ l = b) \/ (k = b /\ l = a)).
        { rewrite Hx in Ex0. injection Ex0 as <-. unfold joins in *. lia. }
        split; [lia|]. split; [destruct Hk as [[-> _]|[-> _]]; [exact (at_id_lt _ _ _ _ Ha)|exact (at_id_lt _ _ _ _ Hb)]|].
        intros r c Hc. rewrite At in Hc. destruct Hk as [[-> ->]|[-> ->]].
        { destruct (decide (a = a)); [|congruence]. injection Hc as <- <-. cbn. apply lookup_insert. }
        { destruct (decide (b = a)); [lia|]. destruct (decide (b = b)); [|congruence]. injection Hc as <- <-. cbn. apply lookup_insert. }
      * destruct Hq' as [Hq'|]; [|contradiction]. destruct (I2 w H q' k l x0 Hq' Ex0 Hkl0) as (A & B & C). split; [exact A|]. split; [exact B|].
        intros r c Hc. rewrite At in Hc. destruct (decide (k = a)) as [->|].
        { injection Hc as <- <-. cbn. specialize (C ra ba Ha). rewrite lookup_insert_ne; [exact C|]. intros <-. congruence. }
        destruct (decide (k = b)) as [->|].
        { injection Hc as <- <-. cbn. specialize (C rb bb Hb). rewrite lookup_insert_ne; [exact C|]. intros <-. congruence. }
        eapply C; exact Hc.
    + intros k r c l q' Hk Hl. rewrite At in Hk. change (slots w') with (slots w). change (nexti w') with (nexti w). rewrite Hlin, Hal.
      assert (Hold : forall r0 c0, at_id w k = Some (r0, c0) -> intrs c0 !! l = Some q' ->
        q' < nexti w /\ l < length (slots w) /\ (((q' ∈ lin w \/ q' = q) /\ exists x0, iheap w' !! q' = Some x0 /\ joins x0 k l) \/ (~ alive w l /\ ~ (q' ∈ lin w \/ q' = q)))).
      { intros r0 c0 Hk0 Hl0. destruct (I3 w H k r0 c0 l q' Hk0 Hl0) as (A & B & C). split; [exact A|]. split; [exact B|].
        assert (Hqq : q' <> q) by (intros ->; eapply Hnq; eassumption).
        destruct C as [(C & x0 & Ex0 & Hj0)|[C1 C2]]; [left|right; tauto]. split; [auto|]. exists x0. split; [|exact Hj0].
        unfold w'. cbn. rewrite lookup_insert_ne by congruence. exact Ex0. }
      destruct (decide (k = a)) as [->|Hka].
      { injection Hk as <- <-. cbn in Hl. destruct (decide (l = b)) as [->|Hlb].
        - rewrite lookup_insert in Hl. injection Hl as <-. split; [eapply (I6 w H); exact Hx|]. split; [exact (at_id_lt _ _ _ _ Hb)|].
          left. split; [auto|]. eexists. unfold w'. cbn. rewrite lookup_insert. split; [reflexivity|]. exact Hj.
        - rewrite lookup_insert_ne in Hl by congruence. eapply Hold; eassumption. }
      destruct (decide (k = b)) as [->|Hkb].
      { injection Hk as <- <-. cbn in Hl. destruct (decide (l = a)) as [->|Hla].
        - rewrite lookup_insert in Hl. injection Hl as <-. split; [eapply (I6 w H); exact Hx|]. split; [exact (at_id_lt _ _ _ _ Ha)|].
          left. split; [auto|]. eexists. unfold w'. cbn. rewrite lookup_insert. split; [reflexivity|]. apply joins_sym. exact Hj.
        - rewrite lookup_insert_ne in Hl by congruence. eapply Hold; eassumption. }
      eapply Hold; eassumption.
    + assert (Hself : forall q' x' k l, q' ∈ lin w -> iheap w !! q' = Some x' -> joins x' k l -> joins x k l -> False).
      { intros q' x' k l Hq' Ex' Hkl Hkl'. assert (Hab' : joins x' a b). { unfold joins in *. lia. }
        destruct (I2 w H q' a b x' Hq' Ex' Hab') as (_ & _ & C). specialize (C ra ba Ha). congruence. }
      intros q1 q2 x1 x2 k l H1 H2 E1 E2 J1 J2. apply Hlin in H1. apply Hlin in H2.
      destruct (Hih q1 x1 E1) as (y1 & Ey1 & Ec1 & N1). destruct (Hih q2 x2 E2) as (y2 & Ey2 & Ec2 & N2).
      apply (Hjc _ _ _ _ Ec1) in J1. apply (Hjc _ _ _ _ Ec2) in J2.
      destruct (decide (q1 = q)) as [->|Q1]; destruct (decide (q2 = q)) as [->|Q2]; [reflexivity| | |].
      * exfalso. rewrite Hx in Ey1. injection Ey1 as <-. destruct H2 as [H2|]; [|contradiction]. eapply Hself; eassumption.
      * exfalso. rewrite Hx in Ey2. injection Ey2 as <-. destruct H1 as [H1|]; [|contradiction]. eapply Hself; eassumption.
      * destruct H1 as [H1|]; [|contradiction]. destruct H2 as [H2|]; [|contradiction]. eapply (I4 w H q1 q2 y1 y2 k l); eassumption.
    + intros q' x' k l Hq' Ex' Hkl Hd. rewrite Hal in Hd. apply Hlin in Hq'. destruct (Hih q' x' Ex') as (x0 & Ex0 & Ec & Hne).
      apply (Hjc _ _ _ _ Ec) in Hkl. destruct (decide (q' = q)) as [->|Hqq].
      * exfalso. rewrite Hx in Ex0. injection Ex0 as <-. assert (k = a \/ k = b) as [->| ->]; [unfold joins in *; lia| |]; apply Hd; eexists _, _; eassumption.
      * destruct Hq' as [Hq'|]; [|contradiction]. rewrite (Hne Hqq). eapply (I5 w H); eassumption.
    + intros q' x' Ex'. destruct (Hih q' x' Ex') as (x0 & Ex0 & _). eapply (I6 w H); exact Ex0.
    + intros k r c Hk Hm. rewrite At in Hk. destruct (decide (k = a)); [injection Hk as <- <-; unfold hasMembers in *; cbn in Hm; congruence|].
      destruct (decide (k = b)); [injection Hk as <- <-; unfold hasMembers in *; cbn in Hm; congruence|]. eapply (I7 w H); eassumption.
Qed.

(** an interaction object nobody refers to *)
Lemma fresh_I w x : InvI w -> InvI (mkWorld (bheap w) (nextb w) (slots w) (<[nexti w := x]> (iheap w)) (S (nexti w)) (lin w)).
Proof.
  intros H. assert (Hf : iheap w !! nexti w = None). { destruct (iheap w !! nexti w) eqn:E; [|reflexivity]. apply (I6 w H) in E. lia. }
  apply (InvI_iheap w); [exact H|repeat split|reflexivity|cbn; lia| |].
  - cbn. intros q x' Hq. destruct (decide (q = nexti w)) as [->|]; [lia|]. rewrite lookup_insert_ne in Hq by congruence. apply (I6 w H) in Hq. lia.
  - cbn. intros q y _ Hy. exists y. rewrite lookup_insert_ne by congruence. split; [exact Hy|]. split; [reflexivity|]. split; [reflexivity|]. right; left; auto.
Qed.

Lemma hasMembers_None b : hasMembers b = false <-> members b = None.
Proof. unfold hasMembers. destruct (members b); split; congruence. Qed.

(** an insertion: refused iff the pair is listed *)
Lemma insert_new_spec w i j : InvI w -> i <> j -> alive w i -> alive w j ->
  (forall k r b, k = i \/ k = j -> at_id w k = Some (r, b) -> members b = None) ->
  (exists w', insert_new w i j = Ret false w' /\ InvI w' /\ lin w' = lin w /\ is_Some (find w i j)) \/
  (exists w' , insert_new w i j = Ret true w' /\ InvI w' /\ lin w' = lin w ++ [nexti w] /\ find w i j = None /\
      iheap w' = <[nexti w := mkIntr i j false false (Z.of_nat (length (lin w)))]> (iheap w) /\ find w' i j = Some (nexti w)).
Proof.
  intros H Hij Hi Hj Hm. set (w0 := mkWorld (bheap w) (nextb w) (slots w) (<[nexti w := mkIntr i j false false (-1)]> (iheap w)) (S (nexti w)) (lin w)).
  assert (H0 : InvI w0) by (apply fresh_I, H).
  set (a := i `min` j). set (b := i `max` j). assert (Hab : a < b) by (unfold a, b; lia).
  assert (Ha : alive w a) by (unfold a; destruct (Nat.min_spec i j) as [[_ ->]|[_ ->]]; assumption).
  assert (Hb : alive w b) by (unfold b; destruct (Nat.max_spec i j) as [[_ ->]|[_ ->]]; assumption).
  assert (Hma : a = i \/ a = j) by (unfold a; lia). assert (Hmb : b = i \/ b = j) by (unfold b; lia).
  destruct Ha as (ra & ba & Ha). destruct Hb as (rb & bb & Hb).
  assert (Ef : find w i j = intrs ba !! b).
  { unfold find. fold a b. rewrite bool_decide_eq_false_2; [rewrite Ha; reflexivity|]. pose proof (at_id_lt _ _ _ _ Hb). lia. }
  destruct (intrs ba !! b) as [q'|] eqn:E.
  - left. exists w0. split; [|split; [exact H0|split; [reflexivity|rewrite Ef; eauto]]].
    unfold insert_new. fold w0. unfold ic_insert. fold a b. change (at_id w0 a) with (at_id w a). change (at_id w0 b) with (at_id w b). rewrite Ha, Hb, E. reflexivity.
  - right. destruct (ic_insert_ok w0 (nexti w) (mkIntr i j false false (-1)) a b ra ba rb bb H0 Hab Ha Hb) with (i := i) (j := j) as (w' & E1 & I' & El & Eh & En & Es & At).
    + apply hasMembers_None. eapply Hm; [exact Hma|exact Ha].
    + apply hasMembers_None. eapply Hm; [exact Hmb|exact Hb].
    + cbn. apply lookup_insert.
    + unfold joins. cbn. unfold a, b. lia.
    + intros Hq. cbn in Hq. destruct (InvI_heap w _ H Hq) as (x & Ex). apply (I6 w H) in Ex. lia.
    + intros k r c l Hk Hl. destruct (I3 w H k r c l (nexti w) Hk Hl) as (A & _). lia.
    + exact E.
    + reflexivity.
    + reflexivity.
    + exists w'. split; [exact E1|]. split; [exact I'|]. split; [exact El|]. split; [exact Ef|]. split.
      * rewrite Eh. cbn. rewrite insert_insert. reflexivity.
      * unfold find. fold a b. rewrite Es. rewrite bool_decide_eq_false_2 by (change (slots w0) with (slots w); pose proof (at_id_lt _ _ _ _ Hb); lia).
        rewrite At. destruct (decide (a = a)); [|congruence]. cbn. apply lookup_insert.
Qed.

Lemma insert_new_I w i j : InvI w -> inter_safe w (OInsertI i j) -> res_all InvI (insert_new w i j).
Proof.
  intros H [Hij Hm]. destruct (decide (alive w i)) as [Hi|Hi]; [destruct (decide (alive w j)) as [Hj|Hj]|].
  - destruct (insert_new_spec w i j H Hij Hi Hj Hm) as [(w' & E & I' & _)|(w' & E & I' & _)]; rewrite E; exact I'.
  - unfold insert_new, ic_insert. destruct (at_id _ (i `min` j)) as [[? ?]|] eqn:E1; [|exact I]. destruct (at_id _ (i `max` j)) as [[? ?]|] eqn:E2; [|exact I].
    exfalso. apply Hj. destruct (Nat.max_spec i j) as [[_ Em]|[L Em]]; rewrite Em in E2; [eexists _, _; exact E2|].
    rewrite Nat.min_r in E1 by lia. eexists _, _; exact E1.
  - unfold insert_new, ic_insert. destruct (at_id _ (i `min` j)) as [[? ?]|] eqn:E1; [|exact I]. destruct (at_id _ (i `max` j)) as [[? ?]|] eqn:E2; [|exact I].
    exfalso. apply Hi. destruct (Nat.min_spec i j) as [[_ Em]|[L Em]]; rewrite Em in E1; [eexists _, _; exact E1|].
    rewrite Nat.max_l in E2 by lia. eexists _, _; exact E2.
Qed.

(** ** removal from the array *)
Definition positions (w : world) : Prop := forall k q, lin w !! k = Some q -> exists x, iheap w !! q = Some x /\ linIx x = Z.of_nat k.
Lemma positions_nodup w : positions w -> NoDup (lin w).
Proof.
  intros H. apply NoDup_alt. intros i j q Hi Hj. destruct (H i q Hi) as (x & E & Ei). destruct (H j q Hj) as (x' & E' & Ej).
  rewrite E in E'. injection E' as <-. lia.
Qed.

Lemma last_at (l : list nat) z : last l = Some z -> l !! (length l - 1) = Some z.
Proof. intros H. rewrite <- Nat.sub_1_r in * || idtac. rewrite last_lookup in H. rewrite Nat.sub_1_r. exact H. Qed.

Lemma lin_remove_spec w p q : positions w -> lin w !! p = Some q ->
  exists w', lin_remove w p = Ret true w' /\ bheap w' = bheap w /\ slots w' = slots w /\ nextb w' = nextb w /\ nexti w' = nexti w /\
    positions w' /\ length (lin w') = length (lin w) - 1 /\
    (forall k, k < p -> lin w' !! k = lin w !! k) /\
    (forall q', q' ∈ lin w' <-> q' ∈ lin w /\ q' <> q) /\
    (forall q', content <$> iheap w' !! q' = content <$> iheap w !! q').
Proof.
  intros HP Hp. pose proof (lookup_lt_Some _ _ _ Hp) as Hlt. unfold lin_remove. rewrite bool_decide_eq_true_2 by exact Hlt.
  destruct (last (lin w)) as [z|] eqn:Ez; [|apply last_None in Ez; rewrite Ez in Hp; rewrite lookup_nil in Hp; discriminate].
  apply last_at in Ez. pose proof (positions_nodup w HP) as Hnd.
  assert (Inj : forall i j x, lin w !! i = Some x -> lin w !! j = Some x -> i = j) by (intros i j x Hi Hj; eapply NoDup_lookup; eassumption).
  destruct (bool_decide_reflect (p < length (lin w) - 1)) as [Hpl|Hpl].
  - destruct (HP _ z Ez) as (xz & Exz & Eiz). rewrite Exz. eexists. split; [reflexivity|]. cbn [set_lin set_iheap bheap slots nextb nexti lin iheap].
    split; [reflexivity|]. split; [reflexivity|]. split; [reflexivity|]. split; [reflexivity|].
    assert (L : forall k, take (length (lin w) - 1) (<[p:=z]> (lin w)) !! k = if decide (k < length (lin w) - 1) then (if decide (k = p) then Some z else lin w !! k) else None).
    { intros k. destruct (decide (k < length (lin w) - 1)) as [Hk|Hk].
      - rewrite lookup_take by exact Hk. destruct (decide (k = p)) as [->|]; [apply list_lookup_insert; exact Hlt|apply list_lookup_insert_ne; congruence].
      - apply lookup_take_ge. lia. }
    split; [|split; [|split; [|split]]].
    + intros k q' Hk. cbn in Hk. rewrite L in Hk. destruct (decide (k < length (lin w) - 1)) as [Hkl|]; [|discriminate]. destruct (decide (k = p)) as [->|Hkp].
      * injection Hk as <-. eexists. cbn. rewrite lookup_insert. split; reflexivity.
      * destruct (HP k q' Hk) as (x & Ex & Ek). exists x. cbn. rewrite lookup_insert_ne; [auto|]. intros <-. pose proof (Inj _ _ _ Hk Ez). lia.
    + rewrite take_length, insert_length. lia.
    + intros k Hk. rewrite L. destruct (decide _); [|lia]. destruct (decide _); [lia|reflexivity].
    + intros q'. split.
      * intros Hq'. apply elem_of_list_lookup in Hq' as [k Hk]. rewrite L in Hk. destruct (decide (k < length (lin w) - 1)) as [Hkl|]; [|discriminate]. destruct (decide (k = p)) as [->|Hkp].
        { injection Hk as <-. split; [eapply elem_of_list_lookup_2; exact Ez|]. intros ->. pose proof (Inj _ _ _ Hp Ez). lia. }
        { split; [eapply elem_of_list_lookup_2; exact Hk|]. intros ->. apply Hkp. eapply Inj; eassumption. }
      * intros [Hq' Hne]. apply elem_of_list_lookup in Hq' as [k Hk]. pose proof (lookup_lt_Some _ _ _ Hk). apply elem_of_list_lookup.
        destruct (decide (k < length (lin w) - 1)) as [Hkl|Hkl].
        { exists k. rewrite L. destruct (decide _); [|contradiction]. destruct (decide (k = p)) as [->|]; [congruence|exact Hk]. }
        { assert (k = length (lin w) - 1) as -> by lia. rewrite Ez in Hk. injection Hk as <-. exists p. rewrite L. destruct (decide _); [|lia]. destruct (decide (p = p)); congruence. }
    + intros q'. destruct (decide (q' = z)) as [->|]; [rewrite lookup_insert, Exz; reflexivity|rewrite lookup_insert_ne by congruence; reflexivity].
  - assert (p = length (lin w) - 1) as Ep by lia. eexists. split; [reflexivity|]. cbn [set_lin set_iheap bheap slots nextb nexti lin iheap].
    split; [reflexivity|]. split; [reflexivity|]. split; [reflexivity|]. split; [reflexivity|].
    assert (L : forall k, take (length (lin w) - 1) (lin w) !! k = if decide (k < length (lin w) - 1) then lin w !! k else None).
    { intros k. destruct (decide (k < length (lin w) - 1)) as [Hk|Hk]; [apply lookup_take; exact Hk|apply lookup_take_ge; lia]. }
    split; [|split; [|split; [|split]]].
    + intros k q' Hk. cbn in Hk. rewrite L in Hk. destruct (decide (k < length (lin w) - 1)) as [Hkl|]; [|discriminate]. apply HP, Hk.
    + rewrite take_length. lia.
    + intros k Hk. rewrite L. destruct (decide _); [reflexivity|lia].
    + intros q'. split.
      * intros Hq'. apply elem_of_list_lookup in Hq' as [k Hk]. rewrite L in Hk. destruct (decide (k < length (lin w) - 1)) as [Hkl|]; [|discriminate].
        split; [eapply elem_of_list_lookup_2; exact Hk|]. intros ->. pose proof (Inj _ _ _ Hp Hk). lia.
      * intros [Hq' Hne]. apply elem_of_list_lookup in Hq' as [k Hk]. pose proof (lookup_lt_Some _ _ _ Hk). apply elem_of_list_lookup. exists k. rewrite L.
        destruct (decide _); [exact Hk|]. assert (k = p) as -> by lia. congruence.
    + reflexivity.
Qed.

Lemma content_joins x x' i j : content x = content x' -> joins x i j <-> joins x' i j.
Proof. unfold content, joins. intros E. injection E as -> -> _ _. reflexivity. Qed.

Lemma remove_I w w' q : InvI w -> InvA w' -> slots w' = slots w -> nexti w' = nexti w -> positions w' ->
  (forall q', q' ∈ lin w' <-> q' ∈ lin w /\ q' <> q) ->
  (forall q', content <$> iheap w' !! q' = content <$> iheap w !! q') ->
  (forall i r b', at_id w' i = Some (r, b') -> exists b, at_id w i = Some (r, b) /\ hasMembers b' = hasMembers b /\
     (forall j q', intrs b' !! j = Some q' -> intrs b !! j = Some q') /\
     (forall j q', intrs b !! j = Some q' -> q' <> q -> intrs b' !! j = Some q') /\
     (forall j, intrs b' !! j = Some q -> ~ alive w j)) ->
  InvI w'.
Proof.
  intros H HA Es En HP Hl Hc Hat.
  assert (Hal : forall i, alive w' i <-> alive w i) by (intros i; rewrite (alive_slot w' i HA), (alive_slot w i (I0 w H)), Es; reflexivity).
  assert (Hx : forall q' x', iheap w' !! q' = Some x' -> exists x, iheap w !! q' = Some x /\ content x' = content x).
  { intros q' x' E. specialize (Hc q'). rewrite E in Hc. destruct (iheap w !! q') as [x|] eqn:Ex; [|discriminate]. exists x. split; [reflexivity|]. cbn in Hc. congruence. }
  assert (Hx2 : forall q' x, iheap w !! q' = Some x -> exists x', iheap w' !! q' = Some x' /\ content x' = content x).
  { intros q' x E. specialize (Hc q'). rewrite E in Hc. destruct (iheap w' !! q') as [x'|] eqn:Ex; [|discriminate]. exists x'. split; [reflexivity|]. cbn in Hc. congruence. }
  constructor.
  - exact HA.
  - exact HP.
  - intros q' i j x' Hq' Ex' Hj. apply Hl in Hq' as [Hq' Hne]. destruct (Hx q' x' Ex') as (x & Ex & Ec). rewrite (content_joins _ _ _ _ Ec) in Hj.
    destruct (I2 w H q' i j x Hq' Ex Hj) as (A & B & C). split; [exact A|]. split; [congruence|]. intros r b' Hi.
    destruct (Hat i r b' Hi) as (b & Hb & _ & _ & K & _). apply K; [eapply C; exact Hb|exact Hne].
  - intros i r b' j q' Hi Hj. destruct (Hat i r b' Hi) as (b & Hb & _ & S & _ & D). pose proof (S _ _ Hj) as Hj0.
    destruct (I3 w H i r b j q' Hb Hj0) as (A & B & C). split; [congruence|]. split; [congruence|]. rewrite Hal, Hl.
    destruct (decide (q' = q)) as [->|Hne].
    + right. split; [eapply D; exact Hj|]. intros [_ ?]; congruence.
    + destruct C as [(C & x & Ex & Hjo)|[C1 C2]]; [left|right; split; [exact C1|tauto]]. split; [auto|].
      destruct (Hx2 q' x Ex) as (x' & Ex' & Ec). exists x'. split; [exact Ex'|]. apply (content_joins _ _ _ _ Ec), Hjo.
  - intros q1 q2 x1 x2 i j H1 H2 E1 E2 J1 J2. apply Hl in H1 as [H1 _]. apply Hl in H2 as [H2 _].
    destruct (Hx q1 x1 E1) as (y1 & Ey1 & Ec1). destruct (Hx q2 x2 E2) as (y2 & Ey2 & Ec2).
    eapply (I4 w H q1 q2 y1 y2 i j); try assumption; [apply (content_joins _ _ _ _ Ec1), J1|apply (content_joins _ _ _ _ Ec2), J2].
  - intros q' x' i j Hq' Ex' Hj Hd. apply Hl in Hq' as [Hq' _]. rewrite Hal in Hd. destruct (Hx q' x' Ex') as (x & Ex & Ec).
    pose proof Ec as Ec'. injection Ec' as _ _ -> ->. eapply (I5 w H); [exact Hq'|exact Ex|apply (content_joins _ _ _ _ Ec), Hj|exact Hd].
  - intros q' x' Ex'. rewrite En. destruct (Hx q' x' Ex') as (x & Ex & _). eapply (I6 w H); exact Ex.
  - intros i r b' Hi Hm. destruct (Hat i r b' Hi) as (b & Hb & Em & S & _). rewrite Em in Hm. pose proof (I7 w H i r b Hb Hm) as E.
    apply map_eq. intros j. rewrite lookup_empty. destruct (intrs b' !! j) as [q'|] eqn:Ej; [|reflexivity]. apply S in Ej. rewrite E, lookup_empty in Ej. discriminate.
Qed.

Lemma ic_erase_spec w p q x : InvI w -> lin w !! p = Some q -> iheap w !! q = Some x ->
  exists w', ic_erase w (id1 x) (id2 x) p = Ret true w' /\ InvI w' /\ same_meta w w' /\ nexti w' = nexti w /\
    length (lin w') = length (lin w) - 1 /\ (forall k, k < p -> lin w' !! k = lin w !! k) /\
    (forall q', q' ∈ lin w' <-> q' ∈ lin w /\ q' <> q) /\
    (forall q', content <$> iheap w' !! q' = content <$> iheap w !! q').
Proof.
  intros H Hp Hx. assert (Hq : q ∈ lin w) by (eapply elem_of_list_lookup_2; exact Hp).
  assert (M : res_all (same_meta w) (ic_erase w (id1 x) (id2 x) p)) by apply ic_erase_meta.
  unfold ic_erase in *. set (a := id1 x `min` id2 x) in *. set (b := id1 x `max` id2 x) in *.
  assert (Hj : joins x a b) by (unfold joins, a, b; lia).
  destruct (I2 w H q a b x Hq Hx Hj) as (Hab & Hal & HMa). destruct (I2 w H q b a x Hq Hx (joins_sym _ _ _ Hj)) as (_ & Hbl & HMb).
  assert (Hpair : forall i j, joins x i j -> (i = a /\ j = b) \/ (i = b /\ j = a)) by (intros i j; unfold joins in *; lia).
  rewrite bool_decide_eq_false_2 in * by lia.
  destruct (at_id w a) as [[ra ba]|] eqn:Ea.
  - pose proof (HMa ra ba eq_refl) as Eqb. rewrite Eqb in *. rewrite Hx in *. destruct (I1 w H p q Hp) as (x0 & Ex0 & Ei). rewrite Hx in Ex0. injection Ex0 as <-.
    pose proof (proj1 (at_id_Some _ _ _ _) Ea) as [Ea1 Ea2]. pose proof (at_id_set w a ra ba (with_intrs ba (delete b (intrs ba))) (I0 w H) Ea) as At1.
    set (w1 := set_body w ra (with_intrs ba (delete b (intrs ba)))) in *.
    assert (A1 : InvA w1) by (eapply InvA_set; [apply (I0 w H)|exact Ea2|reflexivity]).
    set (w2 := match slot w1 b with Some (Some rb) => match bheap w1 !! rb with Some bb => set_body w1 rb (with_intrs bb (delete a (intrs bb))) | None => w1 end | _ => w1 end) in *.
    assert (At2 : forall k, at_id w2 k = if decide (k = b) then match at_id w b with Some (rb, bb) => Some (rb, with_intrs bb (delete a (intrs bb))) | None => None end else at_id w1 k).
    { assert (Eb1 : at_id w1 b = at_id w b) by (rewrite At1; destruct (decide (b = a)); [congruence|reflexivity]).
      intros k. unfold w2. unfold slot. destruct (slots w1 !! b) as [[rb|]|] eqn:Esb.
      - destruct (bheap w1 !! rb) as [bb|] eqn:Ebb.
        + assert (Hb : at_id w1 b = Some (rb, bb)) by (apply at_id_Some; auto). rewrite (at_id_set w1 b rb bb _ A1 Hb). rewrite <- Eb1, Hb. reflexivity.
        + assert (Hb : at_id w1 b = None) by (unfold at_id, slot; rewrite Esb, Ebb; reflexivity). rewrite <- Eb1, Hb. destruct (decide (k = b)) as [->|]; [exact Hb|reflexivity].
      - assert (Hb : at_id w1 b = None) by (unfold at_id, slot; rewrite Esb; reflexivity). rewrite <- Eb1, Hb. destruct (decide (k = b)) as [->|]; [exact Hb|reflexivity].
      - assert (Hb : at_id w1 b = None) by (unfold at_id, slot; rewrite Esb; reflexivity). rewrite <- Eb1, Hb. destruct (decide (k = b)) as [->|]; [exact Hb|reflexivity]. }
    assert (B2 : same_core w (set_iheap w (iheap w)) -> InvA w2 /\ slots w2 = slots w /\ iheap w2 = iheap w /\ lin w2 = lin w /\ nexti w2 = nexti w).
    { intros _. unfold w2. destruct (slot w1 b) as [[rb|]|]; [|auto 10|auto 10]. destruct (bheap w1 !! rb) as [bb|] eqn:Ebb; [|auto 10].
      split; [|auto]. eapply (InvA_set w1); [exact A1|exact Ebb|reflexivity]. }
    destruct B2 as (A2 & Es2 & Ei2 & El2 & En2); [repeat split|].
    rewrite bool_decide_eq_false_2 in * by lia.
    assert (P2 : positions w2) by (intros k q'; rewrite El2, Ei2; apply (I1 w H)).
    assert (Hp2 : lin w2 !! p = Some q) by (rewrite El2; exact Hp).
    destruct (lin_remove_spec w2 p q P2 Hp2) as (w' & E & Eb' & Es' & Enb' & En' & HP' & HL' & HK' & HQ' & HC').
    assert (Z.to_nat (linIx x) = p) as Ezp by lia. rewrite Ezp in *. rewrite E in *. exists w'. split; [reflexivity|].
    rewrite El2, Ei2 in *.
    assert (At' : forall k, at_id w' k = at_id w2 k) by (intros k; unfold at_id, slot; rewrite Eb', Es'; reflexivity).
    split; [|split; [exact M|split; [congruence|auto 10]]].
    apply (remove_I w w' q H); [| congruence|congruence|exact HP'|exact HQ'|exact HC'|].
    { eapply same_bids_InvA; [apply same_meta_bids, M|apply (I0 w H)]. }
    intros i r b' Hi. rewrite At', At2 in Hi. 
    assert (Hother : forall r0 c0 j, at_id w i = Some (r0, c0) -> intrs c0 !! j = Some q -> (i = a /\ j = b) \/ (i = b /\ j = a)).
    { intros r0 c0 j Hi0 Hj0. destruct (I3 w H i r0 c0 j q Hi0 Hj0) as (_ & _ & [(_ & x1 & Ex1 & Hj1)|[_ C]]); [|contradiction].
      rewrite Hx in Ex1. injection Ex1 as <-. apply Hpair. exact Hj1. }
    destruct (decide (i = b)) as [->|Hib].
    + destruct (at_id w b) as [[rb bb]|] eqn:Ebb; [|discriminate]. injection Hi as <- <-. exists bb. split; [reflexivity|]. split; [reflexivity|]. cbn.
      split; [|split].
      * intros j q' Hq'. apply lookup_delete_Some in Hq'. apply Hq'.
      * intros j q' Hq' Hne. rewrite lookup_delete_ne; [exact Hq'|]. intros <-. specialize (HMb rb bb eq_refl). congruence.
      * intros j Hq'. apply lookup_delete_Some in Hq' as [Hja Hq']. destruct (Hother rb bb j eq_refl Hq') as [[? ?]|[_ ?]]; congruence.
    + rewrite At1 in Hi. destruct (decide (i = a)) as [->|Hia].
      * injection Hi as <- <-. exists ba. split; [exact Ea|]. split; [reflexivity|]. cbn. split; [|split].
        -- intros j q' Hq'. apply lookup_delete_Some in Hq'. apply Hq'.
        -- intros j q' Hq' Hne. rewrite lookup_delete_ne; [exact Hq'|]. intros <-. congruence.
        -- intros j Hq'. apply lookup_delete_Some in Hq' as [Hja Hq']. destruct (Hother ra ba j Ea Hq') as [[_ ?]|[? _]]; congruence.
      * exists b'. split; [exact Hi|]. split; [reflexivity|]. split; [auto|]. split; [auto|].
        intros j Hq'. destruct (Hother r b' j Hi Hq') as [[? _]|[? _]]; congruence.
  - destruct (lin_remove_spec w p q (I1 w H) Hp) as (w' & E & Eb' & Es' & Enb' & En' & HP' & HL' & HK' & HQ' & HC').
    rewrite E in *. exists w'. split; [reflexivity|].
    assert (At' : forall k, at_id w' k = at_id w k) by (intros k; unfold at_id, slot; rewrite Eb', Es'; reflexivity).
    split; [|split; [exact M|auto 10]].
    apply (remove_I w w' q H); [|exact Es'|exact En'|exact HP'|exact HQ'|exact HC'|].
    { eapply same_bids_InvA; [apply same_meta_bids, M|apply (I0 w H)]. }
    intros i r b' Hi. rewrite At' in Hi. exists b'. split; [exact Hi|]. split; [reflexivity|]. split; [auto|]. split; [auto|].
    intros j Hq'. destruct (I3 w H i r b' j q Hi Hq') as (_ & _ & [(_ & x1 & Ex1 & Hj1)|[_ C]]); [|contradiction].
    rewrite Hx in Ex1. injection Ex1 as <-. apply Hpair in Hj1 as [[-> ->]|[-> ->]]; [congruence|]. intros (r0 & b0 & Ha). congruence.
Qed.
