(** The periodic insertion sort terminates, whatever the coordinates. *)
From Coq Require Import List ZArith Arith Bool Lia Wf_nat.
From Verif Require Import Coll_Model Peri_Model Peri_Sort Peri_Refine.
Import ListNotations.
Local Open Scope Z_scope.

Fixpoint total (m : nat) (f : Z -> Z) : Z := match m with O => 0 | S k => total k f + f (Z.of_nat k) end.
Lemma total_ext m f g : (forall k, 0 <= k < Z.of_nat m -> f k = g k) -> total m f = total m g.
Proof. induction m as [|m IH]; intros H; [reflexivity|]. cbn [total]. rewrite IH, H by (intros; try apply H; lia). reflexivity. Qed.
Lemma total_one m f g i : 0 <= i < Z.of_nat m -> (forall k, 0 <= k < Z.of_nat m -> k <> i -> f k = g k) -> total m f = total m g - g i + f i.
Proof.
  induction m as [|m IH]; intros Hi H; [lia|]. cbn [total]. destruct (Z.eq_dec i (Z.of_nat m)) as [->|N].
  - rewrite (total_ext m f g) by (intros k Hk; apply H; lia). lia.
  - rewrite IH by (try (intros k Hk; apply H); lia). rewrite (H (Z.of_nat m)) by lia. lia.
Qed.
Lemma total_pos m f : (forall k, 0 <= f k) -> 0 <= total m f.
Proof. intros H. induction m as [|m IH]; cbn [total]; [lia|]. pose proof (H (Z.of_nat m)). lia. Qed.

Section T.
Variable m : nat.
Variable d : Z.
Let n := Z.of_nat m.
Hypothesis Hn : 1 < n.
Hypothesis Hd : 0 < d.
Variable X : ident -> Z.
Variable H : ident -> bool.

(** distance to the straight line with the same slope: each swap reduces it *)
Definition dev (A : seqz) (k : Z) : Z := n * cov d X A k - d * k.
Definition energy (A : seqz) : Z := total m (fun k => dev A k * dev A k).
Lemma energy_pos A : 0 <= energy A.
Proof. apply total_pos. intros k. nia. Qed.
Lemma dev_mod A k : periodicA n A -> dev A (k mod n) = dev A k.
Proof.
  intros HP. unfold dev. pose proof (Z.div_mod k n ltac:(lia)) as DM. set (q := k / n) in *. set (r := k mod n) in *.
  replace k with (r + q * n) by lia. rewrite (cov_per n d X A r q HP). lia.
Qed.
Lemma energy_swap A p A1 : periodicA n A -> cov d X A (p + 1) < cov d X A p -> (forall i, A1 i = A (sig n p i)) -> energy A1 < energy A.
Proof.
  intros HP L E. pose proof (sig_periodic n Hn A p A1 HP E) as HP1.
  pose proof (Z.mod_pos_bound p n ltac:(lia)) as B0. pose proof (Z.mod_pos_bound (p + 1) n ltac:(lia)) as B1.
  assert (NE : p mod n <> (p + 1) mod n).
  { intros K. pose proof (Z.div_mod p n ltac:(lia)). pose proof (Z.div_mod (p + 1) n ltac:(lia)). rewrite <- K in *.
    assert (((p + 1) / n - p / n) * n = 1) by lia. destruct (Z.le_gt_cases ((p + 1) / n - p / n) 0); nia. }
  set (g := fun k => if k =? p mod n then dev A1 k * dev A1 k else dev A k * dev A k).
  assert (D0 : dev A1 p = dev A (p + 1) + d). { unfold dev, cov. rewrite E. replace (sig n p p) with (p + 1) by (pose proof (sig_at n Hn p 0) as K; rewrite !Z.mul_0_l, !Z.add_0_r in K; symmetry; exact K). lia. }
  assert (D1 : dev A1 (p + 1) = dev A p - d). { unfold dev, cov. rewrite E. replace (sig n p (p + 1)) with p by (pose proof (sig_at1 n Hn p 0) as K; rewrite !Z.mul_0_l, !Z.add_0_r in K; symmetry; exact K). lia. }
  assert (S1 : energy A1 = total m g - g ((p + 1) mod n) + dev A1 ((p + 1) mod n) * dev A1 ((p + 1) mod n)).
  { unfold energy. apply total_one with (f := fun k => dev A1 k * dev A1 k); [exact B1|]. intros k Hk N. unfold g. destruct (Z.eqb_spec k (p mod n)) as [|N']; [reflexivity|].
    unfold dev, cov. rewrite E, (sig_off n Hn p k).
    - reflexivity.
    - intros c ->. apply N'. fold n in Hk. rewrite <- (Z.mod_small (p + c * n) n) at 1 by exact Hk. apply Z.mod_add. lia.
    - intros c ->. apply N. fold n in Hk. rewrite <- (Z.mod_small (p + 1 + c * n) n) at 1 by exact Hk. apply Z.mod_add. lia. }
  assert (S0 : total m g = energy A - dev A (p mod n) * dev A (p mod n) + g (p mod n)).
  { unfold energy. apply total_one with (f := g) (g := fun k => dev A k * dev A k); [exact B0|]. intros k Hk N. unfold g. rewrite (proj2 (Z.eqb_neq k (p mod n)) N). reflexivity. }
  assert (G0 : g (p mod n) = dev A1 (p mod n) * dev A1 (p mod n)) by (unfold g; rewrite Z.eqb_refl; reflexivity).
  assert (G1 : g ((p + 1) mod n) = dev A ((p + 1) mod n) * dev A ((p + 1) mod n)) by (unfold g; rewrite (proj2 (Z.eqb_neq _ _)) by congruence; reflexivity).
  rewrite S1, S0, G0, G1, !(dev_mod A), !(dev_mod A1), D0, D1 by assumption.
  assert (dev A (p + 1) - dev A p + d < 0) by (unfold dev; nia). nia.
Qed.
Lemma swaps_energy A ev A' : swaps n d X H A ev A' -> periodicA n A -> energy A' <= energy A /\ (ev <> [] -> energy A' < energy A).
Proof.
  induction 1 as [A A' E|A p A1 x y ev A' L Wx Wy Px Py E SW IH]; intros HP.
  - split; [|congruence]. apply Z.eq_le_incl. unfold energy, dev, cov. apply total_ext. intros k _. rewrite E. reflexivity.
  - pose proof (energy_swap A p A1 HP L E). destruct (IH (sig_periodic n Hn A p A1 HP E)) as [IH1 _]. split; [lia|intros _; lia].
Qed.

(** more fuel, same result *)
Lemma travel_more f : forall i0 j s r, travel f n d i0 j s = Ok r -> forall f', (f <= f')%nat -> travel f' n d i0 j s = Ok r.
Proof.
  induction f as [|f IH]; intros i0 j s r E f' Hf; [discriminate|]. destruct f' as [|f']; [lia|]. rewrite travel_S in *.
  destruct (_ && _); [|exact E]. apply bind_ok in E. destruct E as ([r1 ev1] & E1 & E). rewrite (IH _ _ _ _ E1 f') by lia. exact E.
Qed.
Lemma visit_more f i0 s r f' : visit f n d i0 s = Ok r -> (f <= f')%nat -> visit f' n d i0 s = Ok r.
Proof. unfold visit. destruct (_ <=? _); [auto|]. intros E L. exact (travel_more f _ _ _ _ E f' L). Qed.

Lemma travel_total f : forall i0 p s A, rep n d s A X H -> energy A < Z.of_nat f ->
  exists s' ev A', travel f n d i0 (p mod n) s = Ok (s', ev) /\ rep n d s' A' X H /\ swaps n d X H A ev A' /\
    (n <= i0 -> cov d X A (p + 1) < cov d X A p -> ev <> []).
Proof.
  induction f as [|f IH]; intros i0 p s A R Hf; [pose proof (energy_pos A); lia|].
  rewrite travel_S, (mod_add1 n), (rep_test n d Hn s A X H p R), (mod_sub1 n).
  destruct ((p mod n <? i0) && (cov d X A (p + 1) <? cov d X A p)) eqn:T.
  - apply andb_prop in T. destruct T as [_ T]. apply Z.ltb_lt in T.
    pose proof (rep_step n d Hn s A X H p R) as R1.
    pose proof (energy_swap A p (fun i => A (sig n p i)) (rep_periodic n d Hn s A X H R) T (fun i => eq_refl)) as EN.
    destruct (IH i0 (p - 1) (step n d (p mod n) s) (fun i => A (sig n p i)) R1 ltac:(lia)) as (s' & ev & A' & E1 & R' & SW & _).
    rewrite E1. cbn [bind]. exists s', ((vec s ((p + 1) mod n), vec s (p mod n)) :: ev), A'. split; [reflexivity|]. split; [exact R'|]. split; [|intros; discriminate].
    destruct R as (L & EL & EA & EX & EH). apply (sw_cons n d X H A p (fun i => A (sig n p i))); auto; rewrite EA; reflexivity.
  - exists s, [], A. split; [reflexivity|]. split; [exact R|]. split; [apply sw_nil; reflexivity|]. intros Hi L. exfalso.
    rewrite (proj2 (Z.ltb_lt _ _) L), andb_true_r in T. apply Z.ltb_ge in T. pose proof (Z.mod_pos_bound p n ltac:(lia)). lia.
Qed.
Lemma visit_total f i0 s A : rep n d s A X H -> energy A < Z.of_nat f ->
  exists s' ev A', visit f n d i0 s = Ok (s', ev) /\ rep n d s' A' X H /\ swaps n d X H A ev A' /\
    (n <= i0 -> ev <> [] \/ s' = relabel n d (i0 mod n) s /\ cov d X A (i0 - 1) <= cov d X A i0).
Proof.
  intros R Hf. unfold visit. rewrite (mod_sub1 n).
  pose proof (rep_relabel n d Hn s A X H i0 R) as R1. set (s1 := relabel n d (i0 mod n) s) in *.
  rewrite Z.leb_antisym. replace (i0 mod n) with ((i0 - 1 + 1) mod n) by (f_equal; lia).
  rewrite (rep_test n d Hn s1 A X H (i0 - 1) R1). replace (i0 - 1 + 1) with i0 by lia.
  destruct (cov d X A i0 <? cov d X A (i0 - 1)) eqn:T; cbn [negb].
  - apply Z.ltb_lt in T. destruct (travel_total f i0 (i0 - 1) s1 A R1 Hf) as (s' & ev & A' & E & R' & SW & NE).
    exists s', ev, A'. split; [exact E|]. split; [exact R'|]. split; [exact SW|]. intros Hi. left. apply NE; [exact Hi|]. replace (i0 - 1 + 1) with i0 by lia. exact T.
  - apply Z.ltb_ge in T. exists s1, [], A. split; [reflexivity|]. split; [exact R1|]. split; [apply sw_nil; reflexivity|]. intros _. right. auto.
Qed.

(** what is below 0 *)
Definition deficit (s : vb) : Z := total m (fun k => Z.max 0 (- pco (vec s k))).
Lemma deficit_pos s : 0 <= deficit s.
Proof. apply total_pos. intros k. lia. Qed.
Lemma relabel_deficit i s : 0 <= i < n -> relabel n d i s = s \/ deficit (relabel n d i s) < deficit s.
Proof.
  intros Hi. unfold relabel. destruct ((i =? loIdx s) && (pco (vec s i) <? 0)) eqn:T; [right|left; reflexivity].
  apply andb_prop in T. destruct T as [_ T]. apply Z.ltb_lt in T. unfold deficit.
  rewrite (total_one m (fun k => Z.max 0 (- pco (vec (mkVb (upd (vec s) i (lower d (vec s i))) ((loIdx s + 1) mod n)) k))) (fun k => Z.max 0 (- pco (vec s k))) i).
  - cbn [vec]. rewrite upd_same. unfold lower. cbn [pco]. lia.
  - exact Hi.
  - intros k Hk N. cbn [vec]. rewrite upd_other by exact N. reflexivity.
Qed.

Lemma passes_S f i0 s : passes (S f) n d i0 s =
  if (i0 <? n) || (pco (vec s (i0 mod n)) <? pco (vec s ((i0 - 1) mod n))) then
    do (s1, ev1) <- visit f n d i0 s; do (s2, ev2) <- passes f n d (i0 + 1) s1; Ok (s2, ev1 ++ ev2)
  else Ok (s, []).
Proof. reflexivity. Qed.
Definition enough (i0 : Z) (s : vb) : Prop := exists F, forall f, (F <= f)%nat -> exists r, passes f n d i0 s = Ok r.
Lemma enough_step i0 s A : rep n d s A X H -> 
  (forall s' ev A' f, visit f n d i0 s = Ok (s', ev) -> rep n d s' A' X H -> swaps n d X H A ev A' ->
     (n <= i0 -> ev <> [] \/ s' = relabel n d (i0 mod n) s /\ cov d X A (i0 - 1) <= cov d X A i0) -> enough (i0 + 1) s') ->
  enough i0 s.
Proof.
  intros R K. set (F0 := S (Z.to_nat (energy A))).
  destruct (visit_total F0 i0 s A R) as (s' & ev & A' & E & R' & SW & C); [unfold F0; pose proof (energy_pos A); lia|].
  destruct (K s' ev A' F0 E R' SW C) as [F1 HF1]. exists (S (Nat.max F0 F1)). intros f Hf. destruct f as [|f]; [lia|]. rewrite passes_S.
  destruct (_ || _); [|eauto]. rewrite (visit_more F0 i0 s _ f E) by lia. cbn [bind]. destruct (HF1 f ltac:(lia)) as [[s2 ev2] E2]. rewrite E2. cbn [bind]. eauto.
Qed.
Lemma enough_stop i0 s : n <= i0 -> pco (vec s ((i0 - 1) mod n)) <= pco (vec s (i0 mod n)) -> enough i0 s.
Proof.
  intros Hi L. exists 1%nat. intros f Hf. destruct f as [|f]; [lia|]. rewrite passes_S. rewrite (proj2 (Z.ltb_ge i0 n) Hi), (proj2 (Z.ltb_ge _ _) L). cbn [orb]. eauto.
Qed.
(** a decrease that is not at the split is an inversion *)
Lemma descent s A i0 : rep n d s A X H -> pco (vec s (i0 mod n)) < pco (vec s ((i0 - 1) mod n)) -> i0 mod n <> loIdx s -> cov d X A i0 < cov d X A (i0 - 1).
Proof.
  intros R L N. pose proof (rep_test n d Hn s A X H (i0 - 1) R) as T. replace (i0 - 1 + 1) with i0 in T by lia.
  rewrite (proj2 (Z.eqb_neq _ _) N), Z.add_0_r, (proj2 (Z.ltb_lt _ _) L) in T. symmetry in T. apply Z.ltb_lt in T. exact T.
Qed.
Lemma second_pass : forall (e b : nat) i0 s A, rep n d s A X H -> n <= i0 -> energy A <= Z.of_nat e -> deficit s <= Z.of_nat b -> enough i0 s.
Proof.
  induction e as [e IHe] using lt_wf_ind. induction b as [b IHb] using lt_wf_ind. intros i0 s A R Hi HE HB.
  pose proof (rep_periodic n d Hn s A X H R) as HP.
  assert (Next : forall s' ev A' j, n <= j -> rep n d s' A' X H -> swaps n d X H A ev A' -> ev <> [] -> enough j s').
  { intros s' ev A' j Hj R' SW NE. destruct (swaps_energy A ev A' SW HP) as [_ L]. specialize (L NE). pose proof (energy_pos A').
    apply (IHe (Z.to_nat (energy A')) ltac:(lia) (Z.to_nat (deficit s')) j s' A' R'); [exact Hj|lia|pose proof (deficit_pos s'); lia]. }
  destruct (Z.le_gt_cases (pco (vec s ((i0 - 1) mod n))) (pco (vec s (i0 mod n)))) as [L|L]; [apply enough_stop; assumption|].
  apply (enough_step i0 s A R). intros s' ev A' f E R' SW C. destruct (C Hi) as [NE|[-> LE]]; [apply (Next s' ev A'); [lia|exact R'|exact SW|exact NE]|].
  assert (Lo : i0 mod n = loIdx s).
  { destruct (Z.eq_dec (i0 mod n) (loIdx s)) as [e0|N]; [exact e0|]. pose proof (descent s A i0 R L N). lia. }
  destruct (relabel_deficit (i0 mod n) s (Z.mod_pos_bound i0 n ltac:(lia))) as [-> | DL].
  - (* no relabelling: the next decrease is an inversion *)
    destruct (Z.le_gt_cases (pco (vec s ((i0 + 1 - 1) mod n))) (pco (vec s ((i0 + 1) mod n)))) as [L1|L1]; [apply enough_stop; [lia|exact L1]|].
    apply (enough_step (i0 + 1) s A R). intros s2 ev2 A2 f2 E2 R2 SW2 C2. destruct (C2 ltac:(lia)) as [NE|[_ LE2]]; [apply (Next s2 ev2 A2); [lia|exact R2|exact SW2|exact NE]|].
    exfalso. assert (N : (i0 + 1) mod n <> loIdx s).
    { rewrite <- Lo. intros K. pose proof (Z.div_mod i0 n ltac:(lia)). pose proof (Z.div_mod (i0 + 1) n ltac:(lia)). rewrite K in *.
      assert (((i0 + 1) / n - i0 / n) * n = 1) by lia. destruct (Z.le_gt_cases ((i0 + 1) / n - i0 / n) 0); nia. }
    pose proof (descent s A (i0 + 1) R L1 N). lia.
  - pose proof (rep_relabel n d Hn s A X H i0 R) as R1. pose proof (deficit_pos (relabel n d (i0 mod n) s)).
    apply (IHb (Z.to_nat (deficit (relabel n d (i0 mod n) s))) ltac:(lia) (i0 + 1) _ A R1); lia.
Qed.
Lemma first_pass : forall (k : nat) i0 s A, rep n d s A X H -> n - i0 <= Z.of_nat k -> enough i0 s.
Proof.
  induction k as [|k IH]; intros i0 s A R Hk.
  - pose proof (energy_pos A). pose proof (deficit_pos s). apply (second_pass (Z.to_nat (energy A)) (Z.to_nat (deficit s)) i0 s A R); lia.
  - apply (enough_step i0 s A R). intros s' ev A' f _ R' _ _. apply (IH (i0 + 1) s' A' R'). lia.
Qed.

Definition excess (s : vb) : Z := total m (fun k => Z.max 0 (pco (vec s k))).
Lemma excess_pos s : 0 <= excess s.
Proof. apply total_pos. intros k. lia. Qed.
Lemma clamp_total : forall (e : nat) i s, 0 <= i < n -> excess s <= Z.of_nat e -> exists F, forall f, (F <= f)%nat -> exists r, clamp f n d i s = Ok r.
Proof.
  induction e as [e IH] using lt_wf_ind. intros i s Hi He. destruct (d <? pco (vec s i)) eqn:T.
  - apply Z.ltb_lt in T. set (s' := mkVb (upd (vec s) i (raise d (vec s i))) i).
    assert (L : excess s' < excess s).
    { unfold excess. rewrite (total_one m (fun k => Z.max 0 (pco (vec s' k))) (fun k => Z.max 0 (pco (vec s k))) i).
      - unfold s'. cbn [vec]. rewrite upd_same. unfold raise. cbn [pco]. lia.
      - exact Hi.
      - intros k Hk N. unfold s'. cbn [vec]. rewrite upd_other by exact N. reflexivity. }
    pose proof (excess_pos s'). destruct (IH (Z.to_nat (excess s')) ltac:(lia) ((i - 1) mod n) s' (Z.mod_pos_bound _ n ltac:(lia)) ltac:(lia)) as [F HF].
    exists (S F). intros f Hf. destruct f as [|f]; [lia|]. cbn [clamp]. rewrite (proj2 (Z.ltb_lt _ _) T). apply HF. lia.
  - exists 1%nat. intros f Hf. destruct f as [|f]; [lia|]. cbn [clamp]. rewrite T. eauto.
Qed.

Lemma sort_terminates s A : rep n d s A X H -> exists F, forall f, (F <= f)%nat -> exists r, insertionSortPeri f n d s = Ok r.
Proof.
  intros R. destruct (first_pass (Z.to_nat n) 0 s A R ltac:(lia)) as [F1 H1].
  (* the result of the passes does not depend on the fuel *)
  assert (PM : forall f i0 s r, passes f n d i0 s = Ok r -> forall f', (f <= f')%nat -> passes f' n d i0 s = Ok r).
  { induction f as [|f IH]; intros i0 s0 r E f' Hf; [discriminate|]. destruct f' as [|f']; [lia|]. rewrite passes_S in *. destruct (_ || _); [|exact E].
    apply bind_ok in E. destruct E as ([s1 ev1] & E1 & E). apply bind_ok in E. destruct E as ([s2 ev2] & E2 & E).
    rewrite (visit_more f i0 s0 _ f' E1) by lia. cbn [bind]. rewrite (IH _ _ _ E2 f') by lia. exact E. }
  destruct (H1 F1 (le_n _)) as [[s1 ev] E1].
  destruct (clamp_total (Z.to_nat (excess s1)) ((loIdx s1 - 1) mod n) s1 (Z.mod_pos_bound _ n ltac:(lia)) ltac:(pose proof (excess_pos s1); lia)) as [F2 H2].
  exists (Nat.max F1 F2). intros f Hf. unfold insertionSortPeri. rewrite (proj2 (Z.eqb_neq n 0)) by lia. rewrite (PM F1 0 s _ E1 f) by lia. cbn [bind].
  destruct (H2 f ltac:(lia)) as [s2 E2]. rewrite E2. cbn [bind]. eauto.
Qed.
End T.
