(** Recursive bisection: what the user sees, number of levels, bounds. *)
From Coq Require Import List ZArith Arith Bool Lia Permutation Reals Lra.
From Verif Require Import Comm_Model Comm_Spec Comm_Proofs Mpi_Spec Mpi_Proofs2 Tree_Model Tree_Spec Tree_Proofs1 Tree_Proofs2.
Import ListNotations.

Lemma enough_many n L N : n <= N -> enough n L N. Proof. intros H l _ Hl. lia. Qed.
Lemma done_outcome ndim n L sph f s p : 0 < n -> enough n L (length sph) -> split_done ndim n L sph f s -> p <= n -> s p = outcome ndim n L sph f p.
Proof.
  intros Hn En (sched & c & R & E & F & Hs) Hp. rewrite (Hs p Hp). apply (proj1 (outcome_ends ndim n L sph f Hn En) sched c R E F). lia.
Qed.
Lemma done_data ndim n L sph f s m : 0 < n -> enough n L (length sph) -> split_done ndim n L sph f s -> m < n -> data (s (m + 1)) = spread ndim n sph L m.
Proof. intros Hn En D Hm. rewrite (done_outcome _ _ _ _ _ _ (m + 1) Hn En D) by lia. apply outcome_data; assumption. Qed.
Lemma done_rank ndim n L sph f s p : 0 < n -> enough n L (length sph) -> split_done ndim n L sph f s -> 1 <= p <= n -> data (s p) = spread ndim n sph L (p - 1).
Proof. intros Hn En D Hp. pose proof (done_data _ _ _ _ _ _ (p - 1) Hn En D ltac:(lia)) as H. replace (p - 1 + 1) with p in H by lia. exact H. Qed.

(** ** C92 *)
Lemma done_assigned ndim n L sph f s : 0 < n -> enough n L (length sph) -> NoDup (map bid sph) -> split_done ndim n L sph f s ->
  Permutation (shared n s) sph /\
  (forall x, In x sph -> 1 <= subd (s 0) (bid x) <= n /\ In x (data (s (subd (s 0) (bid x))))) /\
  (forall p x, 1 <= p <= n -> In x (data (s p)) -> subd (s 0) (bid x) = p) /\
  (forall i, (forall x, In x sph -> bid x <> i) -> subd (s 0) i = f i).
Proof.
  intros Hn En Nd D. pose proof (fun p Hp => done_outcome _ _ _ _ _ _ p Hn En D Hp) as O.
  assert (Sh : Permutation (shared n s) sph).
  { eapply Permutation_trans; [|exact (outcome_shared ndim n L sph f Hn En)]. unfold shared. rewrite (flat_ext _ (fun m => data (outcome ndim n L sph f (m + 1)))); [apply Permutation_refl|].
    intros m Hm. apply in_seq in Hm. rewrite O by lia. reflexivity. }
  destruct (outcome_subd ndim n L sph f Hn En Nd) as [A B].
  assert (A' : forall p x, 1 <= p <= n -> In x (data (s p)) -> subd (s 0) (bid x) = p) by (intros p x Hp Hx; rewrite O in Hx by lia; rewrite O by lia; apply A; assumption).
  split; [exact Sh|]. split.
  - intros x Hx. apply (Permutation_in _ (Permutation_sym Sh)) in Hx. apply in_shared in Hx. destruct Hx as (p & Hp & Hx). rewrite (A' p x Hp Hx). auto.
  - split; [exact A'|]. intros i Hi. rewrite O by lia. apply B. exact Hi.
Qed.

(** ** C93 *)
Lemma spread_stable ndim n sph k : forall l m, n <= 2 ^ l -> m < n -> spread ndim n sph (l + k) m = spread ndim n sph l m.
Proof.
  induction k as [|k IH]; intros l m Hn Hm; [rewrite Nat.add_0_r; reflexivity|]. rewrite <- Nat.add_succ_comm. rewrite IH; [|cbn [Nat.pow]; lia|exact Hm].
  cbn [spread]. unfold spread_step. rewrite (proj2 (Nat.ltb_lt m (2 ^ l))) by lia. rewrite (proj2 (Nat.ltb_ge (m + 2 ^ l) n)) by (pose proof (pow_pos l); lia). reflexivity.
Qed.
Lemma done_sizes ndim n L sph f s j : 0 < n -> enough n L (length sph) -> split_done ndim n L sph f s -> j < L -> 2 ^ j <= n <= 2 ^ (j + 1) ->
  forall p, 1 <= p <= n -> length sph / 2 ^ (j + 1) <= length (data (s p)) <= ceil_div (length sph) (2 ^ j).
Proof.
  intros Hn En D Hj [H1 H2] p Hp. rewrite (done_rank _ _ _ _ _ _ _ Hn En D Hp). split.
  - replace L with ((j + 1) + (L - j - 1)) by lia. rewrite spread_stable by lia. apply spread_least; [intros l Hl Hl2; apply En; [lia|exact Hl2]|lia|lia].
  - apply spread_most; [exact En|lia|exact H1].
Qed.
Lemma done_equal ndim n L sph f s j : enough n L (length sph) -> split_done ndim n L sph f s -> j <= L -> n = 2 ^ j ->
  forall p, 1 <= p <= n -> length sph / n <= length (data (s p)) <= ceil_div (length sph) n.
Proof.
  intros En D Hj Hn p Hp. pose proof (pow_pos j). assert (Hn0 : 0 < n) by lia. rewrite (done_rank _ _ _ _ _ _ _ Hn0 En D Hp). split.
  - replace L with (j + (L - j)) by lia. rewrite spread_stable by lia. rewrite Hn at 1. apply spread_least; [intros l Hl Hl2; apply En; [lia|exact Hl2]|lia|lia].
  - rewrite Hn at 2. apply spread_most; [exact En|exact Hj|lia].
Qed.
Lemma done_idle ndim n L sph f s p : 0 < n -> enough n L (length sph) -> split_done ndim n L sph f s -> 2 ^ L < p <= n -> data (s p) = [].
Proof. intros Hn En D Hp. rewrite (done_rank _ _ _ _ _ _ p Hn En D ltac:(lia)). apply spread_empty. lia. Qed.

(** *** the number of levels *)
Section Exp.
Local Open Scope R_scope.
Lemma exp_mult x k : exp (INR k * x) = exp x ^ k.
Proof. induction k as [|k IH]; [cbn [INR pow]; rewrite Rmult_0_l, exp_0; reflexivity|]. rewrite S_INR. replace ((INR k + 1) * x) with (x + INR k * x) by ring. rewrite exp_plus, IH. reflexivity. Qed.
Lemma exp_INR k : exp (INR k) = exp 1 ^ k. Proof. rewrite <- exp_mult. rewrite Rmult_1_r. reflexivity. Qed.
Lemma e_low : 264 / 100 < exp 1.
Proof.
  replace 1 with (INR 32 * (1 / 32)) by (cbn [INR]; field). rewrite exp_mult. apply Rlt_le_trans with ((33 / 32) ^ 32).
  - cbn [pow]. lra.
  - apply pow_incr. pose proof (exp_ineq1 (1 / 32) ltac:(lra)). lra.
Qed.
Lemma e_high : exp 1 < 2828 / 1000.
Proof.
  assert (H : (31 / 32) ^ 32 <= exp (-1)).
  { replace (-1) with (INR 32 * (- (1 / 32))) by (cbn [INR]; field). rewrite exp_mult. apply pow_incr. pose proof (exp_ineq1 (- (1 / 32)) ltac:(lra)). lra. }
  assert (E : exp 1 * exp (-1) = 1) by (rewrite <- exp_plus; replace (1 + -1) with 0 by ring; apply exp_0).
  pose proof (exp_pos 1). assert (K : 1000 / 2828 < (31 / 32) ^ 32) by (cbn [pow]; lra). assert (K2 : 1000 / 2828 < exp (-1)) by lra.
  apply Rnot_le_lt. intros C. assert (2828 / 1000 * (1000 / 2828) < exp 1 * exp (-1)); [|lra]. apply Rle_lt_trans with (exp 1 * (1000 / 2828)); [apply Rmult_le_compat_r; lra|apply Rmult_lt_compat_l; lra].
Qed.
Lemma levels_bounds n L : (0 < n)%nat -> levels_of n L -> (0 < L)%nat /\ INR n <= exp 1 ^ (L - 1) /\ ((2 <= L)%nat -> exp 1 ^ (L - 2) < INR n).
Proof.
  intros Hn (c & [H1 H2] & ->). assert (Hp : 0 < INR n) by (apply lt_0_INR; exact Hn). split; [lia|]. replace (c + 1 - 1)%nat with c by lia. split.
  - rewrite <- exp_INR. rewrite <- (exp_ln (INR n) Hp). destruct H2 as [H2|H2]; [left; apply exp_increasing; exact H2|right; f_equal; exact H2].
  - intros Hc. replace (c + 1 - 2)%nat with (c - 1)%nat by lia. rewrite <- exp_INR. rewrite <- (exp_ln (INR n) Hp). apply exp_increasing. rewrite minus_INR by lia. exact H1.
Qed.
Lemma pow_e_low k : (5 <= k)%nat -> INR (2 ^ (k + 2)) <= exp 1 ^ k.
Proof.
  intros Hk. replace k with (5 + (k - 5))%nat by lia. generalize (k - 5)%nat as j. intros j. rewrite pow_INR. replace (5 + j + 2)%nat with (7 + j)%nat by lia. rewrite !pow_add. apply Rmult_le_compat.
  - apply pow_le. cbn [INR]. lra.
  - apply pow_le. cbn [INR]. lra.
  - apply Rle_trans with ((264 / 100) ^ 5); [cbn [INR pow]; lra|]. apply pow_incr. pose proof e_low. lra.
  - apply pow_incr. pose proof e_low. cbn [INR]. lra.
Qed.
End Exp.
Lemma levels_exist n : 0 < n -> exists L, levels_of n L.
Proof.
  intros Hn. assert (Hl : (0 <= ln (INR n))%R). { rewrite <- ln_1. assert (1 <= INR n)%R by (apply (le_INR 1); lia). destruct (Rle_lt_or_eq_dec _ _ H) as [C|C]; [left; apply ln_increasing; lra|right; rewrite <- C; reflexivity]. }
  destruct (archimed (ln (INR n))) as [A B]. set (z := Rdefinitions.up (ln (INR n))) in *.
  assert (Hz : (0 < z)%Z) by (apply lt_IZR; lra).
  destruct (Rle_lt_dec (IZR z - 1) (ln (INR n))) as [C|C]; [|lra].
  destruct (Req_dec (ln (INR n)) (IZR z - 1)) as [E|E].
  - exists (Z.to_nat (z - 1) + 1), (Z.to_nat (z - 1)). split; [|reflexivity]. rewrite INR_IZR_INZ, Z2Nat.id by lia. rewrite minus_IZR. lra.
  - exists (Z.to_nat z + 1), (Z.to_nat z). split; [|reflexivity]. rewrite INR_IZR_INZ, Z2Nat.id by lia. lra.
Qed.
Lemma levels_deep n L : 0 < n <= 16 -> levels_of n L -> deep n L.
Proof.
  intros Hn HL. destruct (levels_bounds n L ltac:(lia) HL) as (L0 & U & _). unfold deep. destruct (Nat.le_gt_cases 4 L) as [C|C].
  - pose proof (Nat.pow_le_mono_r 2 4 L ltac:(lia) C) as P. change (2 ^ 4) with 16 in P. lia.
  - assert (E : forall k b, (exp 1 ^ k < INR b)%R -> (INR n <= exp 1 ^ k)%R -> n <= b) by (intros k b H1 H2; apply Nat.lt_le_incl, INR_lt; lra).
    pose proof e_high as EH. pose proof e_low as EL.
    destruct L as [|[|[|[|L]]]]; try lia; cbn [Nat.sub] in U.
    + change (2 ^ 1) with 2. apply (E 0 2); [|exact U]. cbn [pow INR]. lra.
    + change (2 ^ 2) with 4. apply (E 1 4); [|exact U]. cbn [pow INR]. lra.
    + change (2 ^ 3) with 8. apply (E 2 8); [|exact U]. apply Rlt_trans with ((2828 / 1000) ^ 2)%R; [|cbn [pow INR]; lra]. cbn [pow]. rewrite !Rmult_1_r. apply Rmult_gt_0_lt_compat; lra.
Qed.
Lemma levels_few n L : 65 <= n -> levels_of n L -> 2 ^ L < n.
Proof.
  intros Hn HL. destruct (levels_bounds n L ltac:(lia) HL) as (L0 & _ & U). destruct (Nat.le_gt_cases L 6) as [C|C].
  - pose proof (Nat.pow_le_mono_r 2 L 6 ltac:(lia) C) as P. change (2 ^ 6) with 64 in P. lia.
  - specialize (U ltac:(lia)). apply INR_lt. pose proof (pow_e_low (L - 2) ltac:(lia)) as P. replace (L - 2 + 2) with L in P by lia. lra.
Qed.
Lemma levels_17 n L : 17 <= n <= 18 -> levels_of n L -> 2 ^ L < n.
Proof.
  intros Hn HL. destruct (levels_bounds n L ltac:(lia) HL) as (L0 & _ & U). destruct (Nat.le_gt_cases L 4) as [C|C].
  - pose proof (Nat.pow_le_mono_r 2 L 4 ltac:(lia) C) as P. change (2 ^ 4) with 16 in P. lia.
  - exfalso. specialize (U ltac:(lia)). assert (P : (exp 1 ^ 3 <= exp 1 ^ (L - 2))%R) by (apply Rle_pow; [pose proof e_low; lra|lia]).
    assert (Q : ((264 / 100) ^ 3 <= exp 1 ^ 3)%R) by (apply pow_incr; pose proof e_low; lra). assert (V : (INR n <= 18)%R) by (replace 18%R with (INR 18) by (cbn [INR]; lra); apply le_INR; lia).
    cbn [pow] in Q. lra.
Qed.

(** ** C94 *)
Lemma first_bit : forall L m m', m <> m' -> m < 2 ^ L -> m' < 2 ^ L -> exists j, j < L /\ m mod 2 ^ j = m' mod 2 ^ j /\ Nat.testbit m j <> Nat.testbit m' j.
Proof.
  induction L as [|L IH]; intros m m' Hne H1 H2; [cbn in H1, H2; lia|]. destruct (Bool.bool_dec (Nat.odd m) (Nat.odd m')) as [E|E].
  - pose proof (Nat.div2_odd m) as D1. pose proof (Nat.div2_odd m') as D2. rewrite E in D1. change (2 ^ S L) with (2 * 2 ^ L) in *.
    destruct (IH (Nat.div2 m) (Nat.div2 m')) as (j & Hj & Hm & Hb); [intros C; apply Hne; lia|destruct (Nat.odd m'); cbn [Nat.b2n] in *; lia|destruct (Nat.odd m'); cbn [Nat.b2n] in *; lia|].
    exists (S j). split; [lia|]. split.
    + set (b := Nat.b2n (Nat.odd m')) in *. assert (Hb2 : b < 2) by (unfold b; destruct (Nat.odd m'); cbn; lia). clearbody b.
      assert (K : forall q, (2 * q + b) mod 2 ^ S j = 2 * (q mod 2 ^ j) + b).
      { intros q. pose proof (pow_pos j) as Pj. symmetry. apply (Nat.mod_unique _ _ (q / 2 ^ j)); [pose proof (Nat.mod_upper_bound q (2 ^ j) ltac:(lia)); cbn [Nat.pow]; lia|].
        pose proof (Nat.div_mod_eq q (2 ^ j)). cbn [Nat.pow]. nia. }
      rewrite D1, D2, !K, Hm. reflexivity.
    + exact Hb.
  - exists 0. split; [lia|]. split; [cbn [Nat.pow]; rewrite !Nat.mod_1_r; reflexivity|]. rewrite !Nat.bit0_odd. exact E.
Qed.
Lemma done_parted ndim n L sph f s level p q : 0 < n -> enough n L (length sph) -> split_done ndim n L sph f s -> level < L -> 1 <= p <= n -> 1 <= q <= n -> parted level p q ->
  forall x y, In x (data (s p)) -> In y (data (s q)) -> (coord x (level mod ndim) <= coord y (level mod ndim))%Z.
Proof.
  intros Hn En D Hl Hp Hq (P1 & P2 & P3) x y Hx Hy. rewrite (done_rank _ _ _ _ _ _ _ Hn En D Hp) in Hx. rewrite (done_rank _ _ _ _ _ _ _ Hn En D Hq) in Hy.
  exact (spread_parted ndim n sph L En level (p - 1) (q - 1) Hl ltac:(lia) ltac:(lia) P1 P2 P3 x y Hx Hy).
Qed.
Lemma done_separated ndim n L sph f s p q : 0 < ndim -> 0 < n -> enough n L (length sph) -> split_done ndim n L sph f s -> 1 <= p <= n -> 1 <= q <= n -> p <> q ->
  exists a, a < ndim /\ ((forall x y, In x (data (s p)) -> In y (data (s q)) -> (coord x a <= coord y a)%Z) \/ (forall x y, In x (data (s p)) -> In y (data (s q)) -> (coord y a <= coord x a)%Z)).
Proof.
  intros Hd Hn En D Hp Hq Hne. destruct (Nat.le_gt_cases p (2 ^ L)) as [C1|C1]; [destruct (Nat.le_gt_cases q (2 ^ L)) as [C2|C2]|].
  - destruct (first_bit L (p - 1) (q - 1)) as (j & Hj & Hm & Hb); [lia|lia|lia|]. exists (j mod ndim). split; [apply Nat.mod_upper_bound; lia|].
    destruct (Nat.testbit (p - 1) j) eqn:E1, (Nat.testbit (q - 1) j) eqn:E2; try congruence.
    + right. intros x y Hx Hy. apply (done_parted ndim n L sph f s j q p); try assumption. split; [symmetry; exact Hm|]. auto.
    + left. intros x y Hx Hy. apply (done_parted ndim n L sph f s j p q); try assumption. split; [exact Hm|]. auto.
  - exists 0. split; [exact Hd|]. left. intros x y _ Hy. rewrite (done_idle _ _ _ _ _ _ q Hn En D) in Hy by lia. destruct Hy.
  - exists 0. split; [exact Hd|]. left. intros x y Hx _. rewrite (done_idle _ _ _ _ _ _ p Hn En D) in Hx by lia. destruct Hx.
Qed.

(** ** C95 *)
Lemma done_pair ndim n L x y f s : 2 <= n <= 4 -> 1 <= L -> bid x <> bid y -> split_done ndim n L [x; y] f s -> subd (s 0) (bid x) <> subd (s 0) (bid y).
Proof.
  intros Hn HL Hne D E. assert (En : enough n L (length [x; y])).
  { intros l _ Hl. cbn [length]. destruct l as [|[|l]]; cbn [Nat.pow] in *; [lia|lia|pose proof (pow_pos l); lia]. }
  assert (Nd : NoDup (map bid [x; y])) by (cbn [map]; repeat constructor; [intros [H|[]]; congruence|intros []]).
  destruct (done_assigned ndim n L [x; y] f s ltac:(lia) En Nd D) as (_ & A & _). destruct (A x ltac:(left; reflexivity)) as [Hr Hx]. destruct (A y ltac:(right; left; reflexivity)) as [_ Hy]. rewrite <- E in Hy.
  set (p := subd (s 0) (bid x)) in *. pose proof (spread_most ndim n [x; y] L 1 En HL ltac:(cbn [Nat.pow]; lia) (p - 1)) as M.
  assert (Hn0 : 0 < n) by lia. rewrite (done_rank _ _ _ _ _ _ _ Hn0 En D Hr) in Hx, Hy. change (ceil_div (length [x; y]) (2 ^ 1)) with 1 in M.
  destruct (spread ndim n [x; y] L (p - 1)) as [|z [|z' l]]; cbn [length] in M; try lia; [destruct Hx|]. destruct Hx as [<- |[]]. destruct Hy as [<- |[]]. apply Hne. reflexivity.
Qed.

(** ** C96 *)
Section Bounds.
Local Open Scope Z_scope.
Variable bound : nat -> option (Z * Z).
Lemma fold_join ids : forall r,
  let res := fold_left (fun r i => match bound i with Some b => join r b | None => r end) ids r in
  match res with
  | None => r = None /\ forall i, In i ids -> bound i = None
  | Some (l, h) =>
      (forall l0 h0, r = Some (l0, h0) -> l <= l0 /\ h0 <= h) /\ (forall i b, In i ids -> bound i = Some b -> l <= fst b /\ snd b <= h) /\
      ((exists h0, r = Some (l, h0)) \/ exists i b, In i ids /\ bound i = Some b /\ fst b = l) /\
      ((exists l0, r = Some (l0, h)) \/ exists i b, In i ids /\ bound i = Some b /\ snd b = h)
  end.
Proof.
  induction ids as [|i ids IH]; intros r; cbn [fold_left].
  - cbv zeta. destruct r as [[l h]|].
    + split; [intros l0 h0 H; injection H as <- <-; lia|]. split; [intros i b []|]. split; left; eexists; reflexivity.
    + split; [reflexivity|intros i []].
  - specialize (IH (match bound i with Some b => join r b | None => r end)). cbv zeta in *. destruct (fold_left _ ids _) as [[l h]|].
    + destruct IH as (A & B & C & E). destruct (bound i) as [[bl bh]|] eqn:Eb.
      * assert (Q : exists l1 h1, join r (bl, bh) = Some (l1, h1) /\ l1 <= bl /\ bh <= h1 /\ (forall l0 h0, r = Some (l0, h0) -> l1 <= l0 /\ h0 <= h1) /\ ((exists h0, r = Some (l1, h0)) \/ l1 = bl) /\ ((exists l0, r = Some (l0, h1)) \/ h1 = bh)).
        { destruct r as [[l0 h0]|]; cbn [join fst snd]; do 2 eexists; (split; [reflexivity|]); [|repeat split; try lia; auto; intros; discriminate].
          split; [lia|]. split; [lia|]. split; [intros a c H; injection H as <- <-; lia|]. split.
          - destruct (Z.min_spec l0 bl) as [[_ ->]|[_ ->]]; [left; eauto|right; reflexivity].
          - destruct (Z.max_spec h0 bh) as [[_ ->]|[_ ->]]; [right; reflexivity|left; eauto]. }
        destruct Q as (l1 & h1 & Ej & Q1 & Q2 & Q3 & Q4 & Q5). rewrite Ej in *. destruct (A l1 h1 eq_refl) as [A1 A2].
        split; [intros l0 h0 Hr; destruct (Q3 l0 h0 Hr); lia|]. split; [intros i' b [<- |Hi] Hb; [rewrite Eb in Hb; injection Hb as <-; cbn [fst snd]; lia|exact (B i' b Hi Hb)]|]. split.
        -- destruct C as [[h0 Eh]|(i' & b & Hi & Hb)]; [|right; exists i', b; split; [right; exact Hi|exact Hb]]. injection Eh as <- _. destruct Q4 as [Q4|Q4]; [left; exact Q4|right; exists i, (bl, bh); split; [left; reflexivity|split; [exact Eb|symmetry; exact Q4]]].
        -- destruct E as [[l0 El]|(i' & b & Hi & Hb)]; [|right; exists i', b; split; [right; exact Hi|exact Hb]]. injection El as _ <-. destruct Q5 as [Q5|Q5]; [left; exact Q5|right; exists i, (bl, bh); split; [left; reflexivity|split; [exact Eb|symmetry; exact Q5]]].
      * split; [exact A|]. split; [intros i' b [<- |Hi] Hb; [congruence|exact (B i' b Hi Hb)]|]. split.
        -- destruct C as [C|(i' & b & Hi & Hb)]; [left; exact C|right; exists i', b; split; [right; exact Hi|exact Hb]].
        -- destruct E as [E|(i' & b & Hi & Hb)]; [left; exact E|right; exists i', b; split; [right; exact Hi|exact Hb]].
    + destruct IH as [A B]. destruct (bound i) as [b|] eqn:Eb; [destruct r as [[? ?]|]; discriminate A|]. split; [exact A|]. intros i' [<- |Hi]; [exact Eb|exact (B i' Hi)].
Qed.
Lemma set_tight ids : tight_box bound ids (setMinMax bound ids).
Proof.
  pose proof (fold_join ids None) as H. cbv zeta in H. unfold setMinMax, tight_box. destruct (fold_left _ ids None) as [[l h]|].
  - destruct H as (_ & B & C & E). split; [exact B|]. split; [destruct C as [[? C]|C]; [discriminate C|exact C]|destruct E as [[? E]|E]; [discriminate E|exact E]].
  - exact (proj2 H).
Qed.
End Bounds.
Lemma tight_ext b1 b2 ids r : (forall i, In i ids -> b1 i = b2 i) -> tight_box b1 ids r -> tight_box b2 ids r.
Proof.
  intros H. unfold tight_box. destruct r as [[l h]|].
  - intros (A & (i & b & Hi & Hb & E) & (i' & b' & Hi' & Hb' & E')). split; [intros j bj Hj Hbj; apply (A j bj Hj); rewrite H by exact Hj; exact Hbj|].
    split; [exists i, b; rewrite <- H by exact Hi; auto|exists i', b'; rewrite <- H by exact Hi'; auto].
  - intros A i Hi. rewrite <- H by exact Hi. exact (A i Hi).
Qed.
Lemma refresh_first own ids last bound : ~ In own ids -> tight_box bound ids (refresh own ids last bound).
Proof.
  intros Hn. unfold refresh. eapply tight_ext; [|apply set_tight]. intros i Hi. cbv beta. destruct (Nat.eqb_spec i own) as [-> |]; [contradiction|reflexivity].
Qed.
Lemma refresh_grows own ids l h bound : In own ids -> exists l' h', refresh own ids (Some (l, h)) bound = Some (l', h') /\ (l' <= l)%Z /\ (h <= h')%Z.
Proof.
  intros Hi. unfold refresh. set (b := fun i => if (i =? own)%nat then Some (l, h) else bound i). pose proof (set_tight b ids) as T. unfold tight_box in T.
  assert (Eb : b own = Some (l, h)) by (unfold b; rewrite Nat.eqb_refl; reflexivity). destruct (setMinMax b ids) as [[l' h']|].
  - exists l', h'. destruct T as [A _]. pose proof (A own (l, h) Hi Eb) as [X Y]. cbn [fst snd] in X, Y. auto.
  - rewrite (T own Hi) in Eb. discriminate Eb.
Qed.
Lemma members_own k own bs : In (own, k) bs -> In own (members k bs).
Proof. intros H. unfold members. apply in_map_iff. exists (own, k). split; [reflexivity|]. apply filter_In. split; [exact H|]. apply Nat.eqb_refl. Qed.
