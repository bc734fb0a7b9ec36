(** Proofs about the exchanges of mpy.py, part 3: steps, merging, sessions. *)
From Coq Require Import List Arith Bool Lia.
From Verif Require Import Subd_Model Subd_Spec Subd_Proofs Comm_Model Comm_Spec Comm_Proofs Mpi_Model Mpi_Spec Mpi_Proofs1 Mpi_Proofs2.
Import ListNotations.

Section Congr.
Context {S M : Type} (n : nat).
Definition eqn (s s' : nat -> S) : Prop := forall p, p < n -> s p = s' p.
Lemma matched_congr (ph : phase S M) s s' : eqn s s' -> matched n ph s -> matched n ph s'.
Proof.
  intros E H p Hp. specialize (H p Hp). rewrite (E p Hp) in H. destruct H as (A & B & C & F & H). sp; auto.
  intros q Hq. rewrite <- (E q Hq). apply H. exact Hq.
Qed.
Lemma fold_left_ext_in {A B} (f g : A -> B -> A) l : forall a, (forall x b, In b l -> f x b = g x b) -> fold_left f l a = fold_left g l a.
Proof.
  induction l as [|b l IH]; intros a H; cbn; [reflexivity|]. rewrite (H a b (or_introl eq_refl)). apply IH. intros x c Hc. apply H. right; exact Hc.
Qed.
Lemma round_congr (ph : phase S M) s s' : eqn s s' -> matched n ph s -> eqn (round ph s) (round ph s').
Proof.
  intros E H p Hp. unfold round. rewrite (E p Hp). f_equal. apply fold_left_ext_in. intros x a Ha.
  rewrite (E a); [reflexivity|]. apply (proj1 (proj2 (proj2 (H p Hp)))). rewrite (E p Hp). exact Ha.
Qed.
Lemma all_matched_congr (prog : list (phase S M)) : forall s s', eqn s s' -> all_matched n prog s ->
  all_matched n prog s' /\ eqn (rounds prog s) (rounds prog s').
Proof.
  induction prog as [|ph prog IH]; intros s s' E H; cbn [all_matched rounds] in *; [split; auto|].
  destruct H as [H1 H2]. pose proof (round_congr ph s s' E H1) as E1.
  destruct (IH _ _ E1 H2) as [A B]. split; [split; [eapply matched_congr; eauto|exact A]|exact B].
Qed.
End Congr.

Section Steps.
Context {D X Bx F : Type} (Fadd : F -> F -> F).
Notation bodies := (bodies D X attrs).
Notation lstate := (@lstate D X Bx F).
Notation message := (@message D X Bx F).
Notation phase := (phase lstate message).
Context (L : @locals D X Bx F) (ovl : Bx -> Bx -> bool) (G : good L ovl).
Context (n : nat) (sh : list (option (nat * bool))) (HR : sd_ranks sh = workers n).
Context (Hfull : forall id, id < length sh -> at_ sh id <> None).
Context (Hn : 0 < n).
Notation J := (@J D X Bx F n sh).

(** *** guarded phases *)
Definition keeps_stop (ph : phase) : Prop := forall p s k m, stop (recv ph p s k m) = stop s.
Lemma fold_stop ph q (s : nat -> lstate) l : keeps_stop ph -> forall x, stop (fold_left (fun sq a => recv ph q sq a (msg ph a (s a) q)) l x) = stop x.
Proof. intros H. induction l as [|a l IH]; intros x; cbn; [reflexivity|]. rewrite IH. apply H. Qed.
Lemma guard_on b (ph : phase) s : keeps_stop ph -> (forall p, p < n -> stop (s p) = b) -> matched n ph s ->
  matched n (guard b ph) s /\ eqn n (round ph s) (round (guard b ph) s).
Proof.
  intros Hk Hs Hm. split.
  - intros p Hp. cbn. rewrite (Hs p Hp), eqb_reflx. destruct (Hm p Hp) as (A & B & C & E & H). sp; auto.
    intros q Hq. rewrite (Hs q Hq), eqb_reflx. apply H. exact Hq.
  - intros p Hp. unfold round. cbn. rewrite (Hs p Hp), eqb_reflx. rewrite (fold_stop ph p s _ Hk), (Hs p Hp), eqb_reflx. reflexivity.
Qed.
Lemma guard_off b (ph : phase) s : (forall p, p < n -> stop (s p) = negb b) -> matched n (guard b ph) s /\ eqn n s (round (guard b ph) s).
Proof.
  intros Hs. assert (E : Bool.eqb (negb b) b = false) by (destruct b; reflexivity). split.
  - intros p Hp. cbn. rewrite (Hs p Hp), E. sp; [constructor|constructor|intros q []|intros q []|].
    intros q Hq. rewrite (Hs q Hq), E. split; intros [].
  - intros p Hp. unfold round. cbn. rewrite (Hs p Hp), E. cbn. rewrite (Hs p Hp), E. reflexivity.
Qed.
Definition fin_stop (ph : phase) : Prop := forall p s, stop (fin ph p s) = stop s.
Lemma guards_on b (prog : list phase) : Forall (fun ph => keeps_stop ph /\ fin_stop ph) prog -> forall s,
  (forall p, p < n -> stop (s p) = b) -> all_matched n prog s ->
  all_matched n (map (guard b) prog) s /\ eqn n (rounds prog s) (rounds (map (guard b) prog) s) /\
  (forall p, p < n -> stop (rounds prog s p) = b).
Proof.
  induction prog as [|ph prog IH]; intros Hf s Hs Hm; cbn [map all_matched rounds] in *.
  - sp; auto. intros p Hp; reflexivity.
  - inversion Hf as [|? ? [Hk Hfs] Hf']; subst. destruct Hm as [Hm1 Hm2].
    destruct (guard_on b ph s Hk Hs Hm1) as [A E].
    assert (Hs1 : forall p, p < n -> stop (round ph s p) = b).
    { intros p Hp. unfold round. rewrite Hfs, (fold_stop ph p s _ Hk). apply Hs. exact Hp. }
    destruct (IH Hf' (round ph s) Hs1 Hm2) as (B & E2 & Hs2).
    destruct (all_matched_congr n (map (guard b) prog) _ _ E B) as [C E3].
    sp; auto. intros p Hp. rewrite (E2 p Hp). apply E3. exact Hp.
Qed.
Lemma guards_off b (prog : list phase) : forall s, (forall p, p < n -> stop (s p) = negb b) ->
  all_matched n (map (guard b) prog) s /\ eqn n s (rounds (map (guard b) prog) s).
Proof.
  induction prog as [|ph prog IH]; intros s Hs; cbn [map all_matched rounds].
  - split; [exact I|]. intros p Hp; reflexivity.
  - destruct (guard_off b ph s Hs) as [A E].
    destruct (IH (round (guard b ph) s)) as [B E2].
    { intros p Hp. rewrite <- (E p Hp). apply Hs. exact Hp. }
    sp; auto. intros p Hp. rewrite (E p Hp). apply E2. exact Hp.
Qed.

(** *** one step *)
Lemma ats_own_bounded (w w' : bodies) : ats w' = ats w -> own_bounded w -> own_bounded w'.
Proof.
  intros E H id b Hb H1 H2. destruct (ats_nth _ _ _ _ E Hb) as (c & Hc & Er). rewrite Er in *. eapply H; eauto.
Qed.

Lemma J_scene s p : J s -> p < n -> exists w, sc (s p) = Some w /\ shp (s p) = Some (shape w).
Proof.
  intros (H1 & _ & _ & H4) Hp. destruct (Nat.eq_dec p 0) as [->|].
  - unfold shp in *. destruct (sc (s 0)); [eauto|discriminate].
  - destruct (H4 p ltac:(lia)) as (h & Hh & _). unfold shp in *. destruct (sc (s p)); [eauto|discriminate].
Qed.
(** bodies of process k are in its scene, mirrored ones too *)
Lemma J_own s k id : J s -> k < n -> at_ sh id = Some (k, false) -> forall w, sc (s k) = Some w -> exists b, nth_error w id = Some (Some b) /\ subdomain (bRest b) = k.
Proof.
  intros (H1 & _ & _ & H4) Hk Ha w Ew.
  assert (Hw : at_ (shape w) id = Some (k, false)).
  { destruct (Nat.eq_dec k 0) as [->|].
    - unfold shp in H1. rewrite Ew in H1. cbn in H1. injection H1 as ->. exact Ha.
    - destruct (H4 k ltac:(lia)) as (h & Hh & _ & _ & Ho & _). unfold shp in Hh. rewrite Ew in Hh. cbn in Hh. injection Hh as ->. apply Ho. exact Ha. }
  destruct (at_some w id k false Hw) as (b & Hb & Hs & _). eauto.
Qed.
Lemma J_mirrored s p k id : J s -> 1 <= p < n -> In k (inter (s p) p) -> In id (inter (s k) p) ->
  at_ sh id = Some (k, false) /\ forall w, sc (s p) = Some w -> exists b, nth_error w id = Some (Some b) /\ subdomain (bRest b) = k.
Proof.
  intros (H1 & HL & _ & H4) Hp Hk Hid. destruct (proj2 (lo1 _ _ _ HL p Hp) k Hk) as [Hkn Hkp].
  assert (Ha : at_ sh id = Some (k, false)) by (apply (proj2 (lo4 _ _ _ HL k p Hkn Hp ltac:(congruence)) id Hid)).
  split; [exact Ha|]. intros w Ew. destruct (H4 p Hp) as (h & Hh & _ & _ & _ & Hm).
  unfold shp in Hh. rewrite Ew in Hh. cbn in Hh. injection Hh as <-. pose proof (Hm id k Hk Hid) as E. rewrite Ha in E.
  destruct (at_some w id k false E) as (b & Hb & Hs & _). eauto.
Qed.

Lemma compute_tri s : J s -> matched n (compute_forces L) s /\
  forall p, p < n -> exists w, sc (s p) = Some w /\ round (compute_forces L) s p = set_frc (s p) (forces L p w).
Proof.
  intros H. split; [apply matched_local|]. intros p Hp. destruct (J_scene s p H Hp) as (w & Ew & _). exists w. split; [exact Ew|].
  unfold compute_forces. rewrite round_local, Ew. reflexivity.
Qed.

Definition addmsg (f : nat -> F) (ids : list nat) (g : nat -> F) : nat -> F :=
  fold_left (fun f ix => upd f (fst ix) (Fadd (f (fst ix)) (snd ix))) (map (fun id => (id, g id)) ids) f.
Lemma addmsg_at ids g : NoDup ids -> forall f id, addmsg f ids g id = if inb id ids then Fadd (f id) (g id) else f id.
Proof.
  unfold addmsg. induction 1 as [|i ids Hi Hnd IH]; intros f id; cbn [map fold_left]; [reflexivity|]. rewrite IH. cbn [fst snd]. unfold upd.
  destruct (Nat.eqb_spec id i) as [->|Hne].
  - assert (X1 : inb i (i :: ids) = true) by (apply inb_In; left; reflexivity).
    assert (X2 : inb i ids = false) by (apply inb_nIn; exact Hi). rewrite X1, X2. reflexivity.
  - assert (X1 : inb id (i :: ids) = inb id ids).
    { apply Bool.eq_iff_eq_true. rewrite !inb_In. cbn. split; [intros [?|?]; [congruence|assumption]|auto]. }
    rewrite X1. reflexivity.
Qed.
Lemma force_rounds ws : NoDup ws -> forall s : nat -> lstate, (forall w, In w ws -> 1 <= w < n) -> (forall w, In w ws -> In w (inter (s 0) 0)) ->
  all_matched n (map (force_phase Fadd) ws) s /\
  forall q, rounds (map (force_phase Fadd) ws) s q =
    if q =? 0 then set_frc (s 0) (fold_left (fun f w => addmsg f (mirror (s w) 0) (frc (s w))) ws (frc (s 0))) else s q.
Proof.
  induction 1 as [|w ws Hnin Hnd IH]; intros s Hw Hin; cbn [map all_matched rounds fold_left].
  - split; [exact I|]. intros q. destruct (Nat.eqb_spec q 0) as [->|]; [destruct (s 0); reflexivity|reflexivity].
  - assert (Hw1 : 1 <= w < n) by (apply Hw; left; reflexivity).
    assert (Hi : In w (inter (s 0) 0)) by (apply Hin; left; reflexivity).
    assert (E : forall q, round (force_phase Fadd w) s q = if q =? 0 then set_frc (s 0) (addmsg (frc (s 0)) (mirror (s w) 0) (frc (s w))) else s q).
    { intros q. unfold round. cbn. destruct (Nat.eqb_spec q 0) as [->|]; cbn; [|reflexivity].
      destruct (in_dec Nat.eq_dec w (inter (s 0) 0)); [reflexivity|contradiction]. }
    destruct (IH (round (force_phase Fadd w) s)) as [A B].
    { intros v Hv. apply Hw. right; exact Hv. }
    { intros v Hv. rewrite E. cbn. apply Hin. right; exact Hv. }
    split; [split; [|exact A]|].
    + intros p Hp. cbn. destruct (in_dec Nat.eq_dec w (inter (s p) 0)) as [Hi'|Hi']; destruct (Nat.eqb_spec p 0) as [Hp0|Hp0]; cbn [andb]; try (subst p; contradiction);
        destruct (Nat.eqb_spec p w) as [Hpw|Hpw]; try lia;
        (sp; [repeat constructor; auto|repeat constructor; auto|intros q [<-|[]]; lia || (intros q []) |intros q [<-|[]]; lia || (intros q [])|]) ||
        (sp; [repeat constructor; auto|repeat constructor; auto|intros q []|intros q [<-|[]]; lia|]) ||
        (sp; [repeat constructor; auto|repeat constructor; auto|intros q [<-|[]]; lia|intros q []|]) ||
        (sp; [repeat constructor; auto|repeat constructor; auto|intros q []|intros q []|]); idtac.
      all: intros q Hq; destruct (Nat.eqb_spec q 0) as [->|Hq0]; cbn [andb]; try (destruct (in_dec Nat.eq_dec w (inter (s 0) 0)); [|contradiction]); split; cbn; intros H; repeat destruct H as [H|H]; try contradiction; auto; try lia.
    + intros q. rewrite B, !E. cbn [Nat.eqb]. destruct (Nat.eqb_spec q 0) as [->|Hq]; [|reflexivity].
      unfold set_frc. cbn [frc sc boxes inter mirror stop]. f_equal. apply fold_left_ext_in. intros x v Hv. rewrite E.
      assert (Hv0 : v <> 0) by (specialize (Hw v (or_intror Hv)); lia). apply Nat.eqb_neq in Hv0. rewrite Hv0. reflexivity.
Qed.

Lemma engines_tri s : J s -> matched n (run_engines L) s /\
  forall p, p < n -> exists w, sc (s p) = Some w /\ round (run_engines L) s p = set_sc (s p) (Some (engines L p w (frc (s p)))).
Proof.
  intros H. split; [apply matched_local|]. intros p Hp. destruct (J_scene s p H Hp) as (w & Ew & _). exists w. split; [exact Ew|].
  unfold run_engines. rewrite round_local, Ew. reflexivity.
Qed.

(** what the exchange of states does to process p *)
Definition updated (s s' : nat -> lstate) (p : nat) : Prop :=
  exists w w', sc (s p) = Some w /\ sc (s' p) = Some w' /\ length w' = length w /\
    (forall id, (forall k, In k (inter (s p) p) -> ~ In id (inter (s k) p)) -> nth_error w' id = nth_error w id) /\
    (forall k id, In k (inter (s p) p) -> In id (inter (s k) p) -> exists wk bk b b',
       sc (s k) = Some wk /\ nth_error wk id = Some (Some bk) /\ nth_error w id = Some (Some b) /\ nth_error w' id = Some (Some b') /\
       same_motion b' bk /\ same_rest b' b /\ bound b' = bound b).

Lemma fold_states (src : nat -> bodies) (ids mir : nat -> list nat) l : NoDup l -> forall (x : lstate) w, sc x = Some w ->
  (forall k, In k l -> mir k = ids k /\ exist_all (src k) (ids k) /\ exist_all w (ids k)) ->
  (forall k k' id, In k l -> In k' l -> In id (ids k) -> In id (ids k') -> k = k') ->
  mirror x = mir ->
  let x' := fold_left (fun sq k => match (match getStateValuesFromIds (src k) (ids k) with Some l => MVals l | None => MBad end : message), sc sq with
                    | MVals l, Some w => set_sc sq (setStateValuesFromIds w (mirror sq k) l)
                    | _, _ => bad sq end) l x in
  (exists w', x' = set_sc x (Some w') /\ length w' = length w /\
     (forall id, (forall k, In k l -> ~ In id (ids k)) -> nth_error w' id = nth_error w id) /\
     (forall k id, In k l -> In id (ids k) -> exists bk b b',
        nth_error (src k) id = Some (Some bk) /\ nth_error w id = Some (Some b) /\ nth_error w' id = Some (Some b') /\
        same_motion b' bk /\ same_rest b' b /\ bound b' = bound b)).
Proof.
  induction 1 as [|k l Hnin Hnd IH]; intros x w Hw Hex Hdis Hmir; cbn [fold_left].
  - exists w. split; [destruct x; cbn in *; subst; reflexivity|]. split; [reflexivity|]. split; [auto|]. intros k id [].
  - destruct (Hex k (or_introl eq_refl)) as (Em & E1 & E2).
    destruct (round_trip (src k) w (ids k) E1 E2) as (m & w1 & Eg & _ & Es & Hl1 & Hu1 & Hc1).
    rewrite Eg, Hw. rewrite Hmir, Em, Es.
    set (x1 := set_sc x (Some w1)).
    destruct (IH x1 w1 eq_refl) as (w' & E' & Hl' & Hu' & Hc').
    { intros j Hj. destruct (Hex j (or_intror Hj)) as (A & B & C). sp; auto.
      intros id Hid. destruct (in_dec Nat.eq_dec id (ids k)) as [Hi|Hi].
      - destruct (Hc1 id Hi) as (? & ? & b' & _ & _ & Hb' & _). eauto.
      - rewrite (Hu1 id Hi). apply C. exact Hid. }
    { intros j j' id Hj Hj'. apply Hdis; right; assumption. }
    { exact Hmir. }
    exists w'. split; [exact E'|]. split; [congruence|]. split.
    + intros id Hid. rewrite Hu', Hu1; auto. { apply Hid. left; reflexivity. } intros j Hj. apply Hid. right; exact Hj.
    + intros j id [<-|Hj] Hid.
      * assert (Ho : forall j, In j l -> ~ In id (ids j)).
        { intros j Hj Hij. assert (k = j) by (apply (Hdis k j id); auto; [left; reflexivity|right; exact Hj]). subst j. contradiction. }
        destruct (Hc1 id Hid) as (bk & b & b' & A1 & A2 & A3 & A4). exists bk, b, b'. rewrite (Hu' id Ho). auto.
      * destruct (Hc' j id Hj Hid) as (bk & b & b' & A1 & A2 & A3 & A4). exists bk, b, b'.
        rewrite Hu1 in A2; auto. intros Hik. assert (k = j) by (apply (Hdis k j id); auto; [left; reflexivity|right; exact Hj]). subst j. contradiction.
Qed.

Lemma state_tri s : J s -> matched n state_phase s /\
  round state_phase s 0 = s 0 /\
  forall p, 1 <= p < n -> updated s (round state_phase s) p /\ exists w', round state_phase s p = set_sc (s p) (Some w').
Proof.
  intros HJ. pose proof HJ as (H1 & HL & H3 & H4). split; [|split].
  - intros p Hp. cbn. destruct (Nat.eqb_spec p 0) as [->|Hp0].
    + sp; [constructor| |intros q []| |].
      * rewrite (lo5 _ _ _ HL). apply NoDup_filter', NoDup_filter', seq_NoDup.
      * intros q Hq. apply filter_In in Hq. destruct Hq as [Hq _]. rewrite (lo5 _ _ _ HL) in Hq. apply filter_In in Hq. destruct Hq as [Hq _].
        apply workers_In in Hq. lia.
      * intros q Hq. rewrite filter_In, (lo5 _ _ _ HL), filter_In, workers_In. destruct (Nat.eqb_spec q 0) as [->|Hq0].
        { split; [intros [[? _] _]; lia|intros []]. }
        { rewrite (lo2 _ _ _ HL q ltac:(lia)). split.
          - intros [[_ Hi] _]. apply negb_true_iff, is_nil_false in Hi. exact Hi.
          - intros Hi. apply is_nil_false in Hi. rewrite Hi. split; [split; [lia|reflexivity]|]. reflexivity. }
    + destruct (lo1 _ _ _ HL p ltac:(lia)) as [Hnd Hk].
      sp; [exact Hnd|apply NoDup_filter', Hnd|intros q Hq; apply Hk; exact Hq| |].
      * intros q Hq. apply filter_In in Hq. apply Hk, Hq.
      * intros q Hq. rewrite filter_In. destruct (Nat.eqb_spec q 0) as [->|Hq0].
        { split; [|intros []]. intros [_ Hc]. rewrite andb_false_r in Hc. discriminate. }
        { rewrite (lo3 _ _ _ HL p q ltac:(lia) ltac:(lia)). split; [tauto|]. intros Hi. split; [exact Hi|].
          apply (lo1 _ _ _ HL q ltac:(lia)) in Hi. destruct (Nat.eqb_spec q p); [lia|reflexivity]. }
  - reflexivity.
  - intros p Hp. destruct (J_scene s p HJ ltac:(lia)) as (w & Ew & _).
    set (src := fun k => match sc (s k) with Some wk => wk | None => [] end).
    assert (Hsrc : forall k, k < n -> sc (s k) = Some (src k)).
    { intros k Hk. destruct (J_scene s k HJ Hk) as (wk & Ek & _). unfold src. rewrite Ek. reflexivity. }
    destruct (fold_states src (fun k => inter (s k) p) (mirror (s p)) (inter (s p) p) (proj1 (lo1 _ _ _ HL p Hp)) (s p) w Ew) as (w' & E' & Hl & Hu & Hc).
    { intros k Hk. destruct (proj2 (lo1 _ _ _ HL p Hp) k Hk) as [Hkn Hkp]. sp.
      - rewrite (H3 p k Hp). apply inb_In in Hk. rewrite Hk, orb_true_r. reflexivity.
      - intros id Hid. destruct (J_mirrored s p k id HJ Hp Hk Hid) as [Ha _].
        destruct (J_own s k id HJ Hkn Ha (src k) (Hsrc k Hkn)) as (b & Hb & _). eauto.
      - intros id Hid. destruct (J_mirrored s p k id HJ Hp Hk Hid) as [_ Ha]. destruct (Ha w Ew) as (b & Hb & _). eauto. }
    { intros k k' id Hk Hk' Hid Hid'. destruct (J_mirrored s p k id HJ Hp Hk Hid) as [Ha _]. destruct (J_mirrored s p k' id HJ Hp Hk' Hid') as [Ha' _]. congruence. }
    { reflexivity. }
    assert (Er : round state_phase s p = set_sc (s p) (Some w')).
    { rewrite <- E'. unfold round. cbn [fin state_phase srcs]. replace (p =? 0) with false by (symmetry; apply Nat.eqb_neq; lia).
      apply fold_left_ext_in. intros x k Hk. cbn [recv msg state_phase].
      rewrite (Hsrc k ltac:(apply (lo1 _ _ _ HL p Hp); exact Hk)). reflexivity. }
    split; [|exists w'; exact Er]. exists w, w'. rewrite Er. sp; auto.
    intros k id Hk Hid. destruct (Hc k id Hk Hid) as (bk & b & b' & A1 & A2 & A3 & A4 & A5 & A6).
    exists (src k), bk, b, b'. sp; auto; try apply A4; try apply A5. apply Hsrc. apply (lo1 _ _ _ HL p Hp); exact Hk.
Qed.
Lemma updated_ats s s' p w w' : updated s s' p -> sc (s p) = Some w -> sc (s' p) = Some w' -> ats w' = ats w.
Proof.
  intros (w0 & w1 & E0 & E1 & Hl & Hu & Hc) Ew Ew'. assert (w0 = w) by congruence. assert (w1 = w') by congruence. subst w0 w1.
  unfold ats. apply map_nth_ext; [exact Hl|]. intros id a b Ha Hb.
  destruct (existsb (fun k => inb id (inter (s k) p)) (inter (s p) p)) eqn:Ex.
  - apply existsb_exists in Ex. destruct Ex as (k & Hk & Hid). apply inb_In in Hid.
    destruct (Hc k id Hk Hid) as (? & ? & c & c' & _ & _ & A1 & A2 & _ & [_ A3] & _).
    rewrite A2 in Ha. rewrite A1 in Hb. injection Ha as <-. injection Hb as <-. cbn. rewrite A3. reflexivity.
  - assert (Hno : forall k, In k (inter (s p) p) -> ~ In id (inter (s k) p)).
    { intros k Hk Hid. rewrite <- not_true_iff_false in Ex. apply Ex. apply existsb_exists. exists k. split; [exact Hk|]. apply inb_In. exact Hid. }
    rewrite (Hu id Hno) in Ha. congruence.
Qed.

(** the states after the forces have been computed and exchanged *)
Definition JA (acc : bool) (s : nat -> lstate) : Prop :=
  J s /\ (acc = true -> exists w, sc (s 0) = Some w /\ own_bounded w) /\ (acc = true -> inter (s 0) 0 = workers n).

Definition keep (s s' : nat -> lstate) : Prop :=
  forall p, p < n -> inter (s' p) = inter (s p) /\ mirror (s' p) = mirror (s p) /\ stop (s' p) = stop (s p) /\
    exists w w', sc (s p) = Some w /\ sc (s' p) = Some w' /\ ats w' = ats w.
Lemma keep_JA acc s s' : keep s s' -> JA acc s -> JA acc s'.
Proof.
  intros Hk (HJ & Ho & Hi). split; [|split].
  - apply (J_ext n sh Hn s s'); [|exact HJ]. intros p Hp. destruct (Hk p Hp) as (A & B & _ & v & v' & E1 & E2 & Ea). sp; auto.
    unfold shp. rewrite E1, E2. cbn. f_equal. apply ats_shape. exact Ea.
  - intros Hacc. destruct (Ho Hacc) as (w & Ew & Hw). destruct (Hk 0 Hn) as (_ & _ & _ & v & v' & E1 & E2 & Ea). exists v'. split; [exact E2|]. eapply ats_own_bounded; [exact Ea|]. assert (v = w) by congruence. subst v. exact Hw.
  - intros Hacc. destruct (Hk 0 Hn) as (-> & _). auto.
Qed.
Lemma keep_trans s1 s2 s3 : keep s1 s2 -> keep s2 s3 -> keep s1 s3.
Proof.
  intros H1 H2 p Hp. destruct (H1 p Hp) as (A & B & C & w & w' & E1 & E2 & E3). destruct (H2 p Hp) as (A' & B' & C' & v & v' & F1 & F2 & F3).
  sp; try congruence. exists w, v'. sp; auto. congruence.
Qed.

Lemma force_part_tri acc s : JA acc s ->
  all_matched n (force_part Fadd L acc n) s /\ keep s (rounds (force_part Fadd L acc n) s) /\
  (forall p, p < n -> sc (rounds (force_part Fadd L acc n) s p) = sc (s p)) /\
  (acc = true -> forces_summed Fadd L n (rounds (force_part Fadd L acc n) s)).
Proof.
  intros (HJ & _ & Hi). unfold force_part. rewrite all_matched_app, rounds_app'. cbn [all_matched rounds].
  destruct (compute_tri s HJ) as [Hm Hc]. set (s1 := round (compute_forces L) s) in *.
  assert (K1 : keep s s1).
  { intros p Hp. destruct (Hc p Hp) as (w & Ew & ->). cbn. sp; auto. exists w, w. auto. }
  assert (Hsc1 : forall p, p < n -> sc (s1 p) = sc (s p)).
  { intros p Hp. destruct (Hc p Hp) as (w & Ew & ->). reflexivity. }
  destruct acc.
  - specialize (Hi eq_refl).
    destruct (force_rounds (workers n) (seq_NoDup _ _) s1) as [A B].
    { intros w Hw. apply workers_In. exact Hw. }
    { intros w Hw. destruct (Hc 0 Hn) as (? & _ & ->). cbn. rewrite Hi. exact Hw. }
    set (s2 := rounds (map (force_phase Fadd) (workers n)) s1) in *.
    assert (K2 : keep s1 s2).
    { intros p Hp. rewrite B. destruct (K1 p Hp) as (_ & _ & _ & v & v' & _ & E & _).
      destruct (Nat.eqb_spec p 0) as [->|]; cbn; sp; auto; exists v', v'; auto. }
    split; [split; [split; [exact Hm|exact I]|exact A]|]. split; [eapply keep_trans; eauto|]. split.
    + intros p Hp. rewrite B. destruct (Nat.eqb_spec p 0) as [->|]; cbn; apply Hsc1; auto.
    + intros _ w0 Ew0 id. rewrite B in *. cbn [Nat.eqb frc set_frc sc] in *.
      assert (E0 : frc (s1 0) = forces L 0 w0).
      { destruct (Hc 0 Hn) as (w & Ew & E). rewrite E in Ew0 |- *. cbn in *. congruence. }
      rewrite E0.
      assert (Hall : forall w, In w (workers n) -> exists wp, sc (s1 w) = Some wp /\ frc (s1 w) = forces L w wp /\ mirror (s1 w) = mirror (s w) /\ NoDup (mirror (s w) 0)).
      { intros w Hw. apply workers_In in Hw. destruct (Hc w ltac:(lia)) as (wp & Ewp & E). exists wp. rewrite E. cbn. sp; auto.
        destruct HJ as (_ & HL & H3 & _). rewrite (H3 w 0 Hw). cbn [Nat.eqb orb]. apply (lo4 _ _ _ HL 0 w); lia. }
      assert (Hgen : forall ws, (forall w, In w ws -> In w (workers n)) -> forall f,
        fold_left (fun f w => addmsg f (mirror (s1 w) 0) (frc (s1 w))) ws f id =
        fold_left (fun f p => if in_dec Nat.eq_dec id (mirror (s2 p) 0) then match sc (s2 p) with Some wp => Fadd f (forces L p wp id) | None => f end else f) ws (f id)).
      { induction ws as [|w ws IH]; intros Hws f; cbn [fold_left]; [reflexivity|].
        rewrite IH by (intros v Hv; apply Hws; right; exact Hv). f_equal.
        destruct (Hall w (Hws w (or_introl eq_refl))) as (wp & E1 & E2 & E3 & Hnd).
        assert (Hw0 : w =? 0 = false). { apply Nat.eqb_neq. specialize (Hws w (or_introl eq_refl)). apply workers_In in Hws. lia. }
        rewrite B, Hw0, E1, E2, E3. rewrite addmsg_at by exact Hnd. unfold inb. destruct (in_dec Nat.eq_dec id (mirror (s w) 0)); reflexivity. }
      apply Hgen. auto.
  - cbn. split; [auto|]. split; [exact K1|]. split; [exact Hsc1|discriminate].
Qed.

Lemma step_tri acc s : JA acc s ->
  all_matched n (step_prog Fadd L acc n) s /\ keep s (rounds (step_prog Fadd L acc n) s).
Proof.
  intros HJA. destruct (force_part_tri acc s HJA) as (A & K1 & _ & _).
  unfold step_prog. rewrite all_matched_app, rounds_app'. set (s1 := rounds (force_part Fadd L acc n) s) in *.
  pose proof (keep_JA acc s s1 K1 HJA) as HJ1. cbn [all_matched rounds].
  destruct (engines_tri s1 (proj1 HJ1)) as [Hm Hc]. set (s2 := round (run_engines L) s1) in *.
  assert (K2 : keep s1 s2).
  { intros p Hp. destruct (Hc p Hp) as (w & Ew & ->). cbn. sp; auto. exists w, (engines L p w (frc (s1 p))). sp; auto. apply (g_engines _ _ G). }
  pose proof (keep_JA acc s1 s2 K2 HJ1) as HJ2.
  destruct (state_tri s2 (proj1 HJ2)) as (Hm2 & E0 & Hp2).
  assert (K3 : keep s2 (round state_phase s2)).
  { intros p Hp. destruct (Nat.eq_dec p 0) as [->|Hp0].
    - rewrite E0. sp; auto. destruct (J_scene s2 0 (proj1 HJ2) Hn) as (w & Ew & _). exists w, w. auto.
    - destruct (Hp2 p ltac:(lia)) as (Hu & w' & Er). rewrite Er. cbn. sp; auto.
      destruct (J_scene s2 p (proj1 HJ2) Hp) as (w & Ew & _). exists w, w'. sp; auto.
      eapply updated_ats; eauto. rewrite Er. reflexivity. }
  split; [auto|]. eapply keep_trans; [exact K1|]. eapply keep_trans; eauto.
Qed.
Lemma step_stops acc : Forall (fun ph => keeps_stop ph /\ fin_stop ph) (step_prog Fadd L acc n).
Proof.
  unfold step_prog, force_part. rewrite !Forall_app. sp.
  - constructor; [split|constructor].
    + intros p s k m. reflexivity.
    + intros p s. cbn. destruct (sc s); reflexivity.
  - destruct acc; [|constructor]. apply Forall_forall. intros ph Hph. apply in_map_iff in Hph. destruct Hph as (w & <- & _). split.
    + intros p s k m. cbn. destruct m; reflexivity.
    + intros p s. reflexivity.
  - constructor; [split|constructor; [split|constructor]].
    + intros p s k m. reflexivity.
    + intros p s. cbn. destruct (sc s); reflexivity.
    + intros p s k m. cbn. destruct m, (sc s); reflexivity.
    + intros p s. reflexivity.
Qed.
End Steps.
