(** Proofs about linear interpolation in a table. *)
From Coq Require Import List ZArith Bool Reals Lia Lra.
From Verif Require Import Interp_Model Interp_Spec.
Import ListNotations.
Local Open Scope R_scope.

Lemma size_t_small : forall z, (0 <= z < 2 ^ 64)%Z -> size_t z = z.
Proof. intros z H. unfold size_t. apply Z.mod_small. exact H. Qed.
Lemma size_t_state : forall z, lookup_state (size_t z).
Proof. intros z. apply Z.mod_pos_bound. reflexivity. Qed.
Lemma get_nat : forall l n, get l (Z.of_nat n) = nth_error l n.
Proof. intros l n. unfold get. destruct (Z.ltb_spec (Z.of_nat n) 0); [lia|]. rewrite Nat2Z.id. reflexivity. Qed.
Lemma nth_some : forall {A} (l : list A) n, (n < length l)%nat -> exists a, nth_error l n = Some a.
Proof. intros A l n H. apply nth_error_Some in H. destruct (nth_error l n) as [a|]; [exists a; reflexivity|congruence]. Qed.
Lemma nth_lt : forall {A} (l : list A) n a, nth_error l n = Some a -> (n < length l)%nat.
Proof. intros A l n a H. apply nth_error_Some. rewrite H. discriminate. Qed.

Section Seek.
  Variable tt : list R.
  Variable t : R.
  Hypothesis small : (Z.of_nat (length tt) < 2 ^ 63)%Z.
  Variables ta tb : R.
  Hypothesis first : nth_error tt 0 = Some ta.
  Hypothesis last : nth_error tt (length tt - 1) = Some tb.
  Hypothesis after : ta < t.
  Hypothesis before : t < tb.

  Lemma next_nat : forall p, (p < length tt)%nat -> size_t (Z.of_nat p + 1) = Z.of_nat (S p).
  Proof. intros p H. rewrite size_t_small; lia. Qed.
  Definition found (q : nat) : Prop := exists a b, nth_error tt q = Some a /\ nth_error tt (S q) = Some b /\ a <= t <= b.
  Lemma seek_down : forall p fuel b, nth_error tt (S p) = Some b -> t < b -> (p < fuel)%nat ->
    exists q, seek fuel tt t (Z.of_nat p) = Done (Z.of_nat q) /\ found q /\ (q <= p)%nat.
  Proof.
    induction p as [|p IH]; intros fuel b Hb Hlt Hf; (destruct fuel as [|fuel]; [lia|]); cbn [seek].
    - pose proof (nth_lt _ _ _ Hb). rewrite next_nat by lia. rewrite !get_nat, first, Hb.
      destruct (Rlt_dec t ta); [lra|]. destruct (Rlt_dec b t); [lra|].
      exists 0%nat. split; [reflexivity|]. split; [|lia]. exists ta, b. repeat split; (assumption || lra).
    - pose proof (nth_lt _ _ _ Hb). destruct (nth_some tt (S p)) as [a Ha]; [lia|].
      rewrite next_nat by lia. rewrite !get_nat, Ha, Hb. destruct (Rlt_dec t a).
      + replace (size_t (Z.of_nat (S p) - 1)) with (Z.of_nat p) by (rewrite size_t_small; lia).
        destruct (IH fuel a Ha r ltac:(lia)) as [q (E & F & L)]. exists q. split; [exact E|]. split; [exact F|lia].
      + destruct (Rlt_dec b t); [lra|]. exists (S p). split; [reflexivity|]. split; [|lia]. exists a, b. split; [exact Ha|]. split; [exact Hb|]. lra.
  Qed.
  Lemma seek_up : forall k p fuel a, (S p + k = length tt - 1)%nat -> nth_error tt p = Some a -> a <= t -> (k < fuel)%nat ->
    exists q, seek fuel tt t (Z.of_nat p) = Done (Z.of_nat q) /\ found q.
  Proof.
    induction k as [|k IH]; intros p fuel a Hk Ha Hle Hf; (destruct fuel as [|fuel]; [lia|]); cbn [seek].
    - pose proof last as Hl. replace (length tt - 1)%nat with (S p) in Hl by lia. pose proof (nth_lt _ _ _ Hl).
      rewrite next_nat by lia. rewrite !get_nat, Ha, Hl.
      destruct (Rlt_dec t a); [lra|]. destruct (Rlt_dec tb t); [lra|].
      exists p. split; [reflexivity|]. exists a, tb. split; [exact Ha|]. split; [exact Hl|]. lra.
    - destruct (nth_some tt (S p)) as [b Hb]; [lia|]. rewrite next_nat by lia. rewrite !get_nat, Ha, Hb.
      destruct (Rlt_dec t a); [lra|]. destruct (Rlt_dec b t).
      + apply (IH (S p) fuel b); [lia|exact Hb|lra|lia].
      + exists p. split; [reflexivity|]. exists a, b. split; [exact Ha|]. split; [exact Hb|]. lra.
  Qed.
  Lemma two : (2 <= length tt)%nat.
  Proof.
    destruct (le_lt_dec 2 (length tt)) as [|Hl]; [assumption|exfalso].
    pose proof (nth_lt _ _ _ first). pose proof last as Hx. replace (length tt - 1)%nat with 0%nat in Hx by lia. rewrite first in Hx. injection Hx as E. lra.
  Qed.
  Lemma seek_ends : forall pos, lookup_state pos -> exists q, seek (S (length tt)) tt t (Z.min pos (size_t (size tt - 2))) = Done (Z.of_nat q) /\ found q.
  Proof.
    intros pos Hp. pose proof two as Ht. unfold size. rewrite size_t_small by lia. unfold lookup_state in Hp.
    set (m := Z.min pos (Z.of_nat (length tt) - 2)). assert (Hm : (0 <= m <= Z.of_nat (length tt) - 2)%Z) by (unfold m; lia).
    replace m with (Z.of_nat (Z.to_nat m)) by lia. set (p := Z.to_nat m). assert (Hp' : (p <= length tt - 2)%nat) by (unfold p; lia).
    destruct (nth_some tt p) as [a Ha]; [lia|]. destruct (Rlt_dec t a) as [Hlt|Hge].
    - destruct p as [|p]; [rewrite first in Ha; injection Ha as E; lra|].
      change (seek (S (length tt)) tt t (Z.of_nat (S p))) with
        (match get tt (Z.of_nat (S p)), get tt (size_t (Z.of_nat (S p) + 1)) with
         | Some a, Some b => if Rlt_dec t a then seek (length tt) tt t (size_t (Z.of_nat (S p) - 1)) else if Rlt_dec b t then seek (length tt) tt t (size_t (Z.of_nat (S p) + 1)) else Done (Z.of_nat (S p))
         | _, _ => UB end).
      rewrite next_nat by lia. destruct (nth_some tt (S (S p))) as [b Hb]; [lia|]. rewrite !get_nat, Ha, Hb.
      destruct (Rlt_dec t a) as [_|]; [|lra]. replace (size_t (Z.of_nat (S p) - 1)) with (Z.of_nat p) by (rewrite size_t_small; lia).
      destruct (seek_down p (length tt) a Ha Hlt ltac:(lia)) as [q (E & F & _)]. exists q. split; assumption.
    - apply (seek_up (length tt - 2 - p) p (S (length tt)) a); [lia|exact Ha|lra|lia].
  Qed.
End Seek.

Lemma back_nat : forall l, (0 < length l)%nat -> back l = nth_error l (length l - 1).
Proof. intros l H. unfold back, size. replace (Z.of_nat (length l) - 1)%Z with (Z.of_nat (length l - 1)) by lia. apply get_nat. Qed.
Lemma get0 : forall l, get l 0 = nth_error l 0.
Proof. intros l. apply (get_nat l 0). Qed.

(** the three ways the function ends *)
Lemma interp_cases : forall t tt values pos, table tt values -> lookup_state pos ->
  (exists a u, nth_error tt 0 = Some a /\ nth_error values 0 = Some u /\ t <= a /\ linearInterpolate t tt values pos = Done (u, 0%Z)) \/
  (exists a b u, nth_error tt 0 = Some a /\ nth_error tt (length tt - 1) = Some b /\ nth_error values (length tt - 1) = Some u /\ a < t /\ b <= t /\ linearInterpolate t tt values pos = Done (u, size_t (size tt - 2))) \/
  (exists a0 bn q a b u w, nth_error tt 0 = Some a0 /\ nth_error tt (length tt - 1) = Some bn /\ a0 < t < bn /\
     nth_error tt q = Some a /\ nth_error tt (S q) = Some b /\ nth_error values q = Some u /\ nth_error values (S q) = Some w /\ a <= t <= b /\
     linearInterpolate t tt values pos = if Req_EM_T b a then NaN (Z.of_nat q) else Done (u + (w - u) * ((t - a) / (b - a)), Z.of_nat q)).
Proof.
  intros t tt values pos (Hn & Hv & Hs) Hp. unfold linearInterpolate. rewrite !get0.
  destruct (nth_some tt 0) as [a0 Ha0]; [lia|]. destruct (nth_some values 0) as [u0 Hu0]; [lia|]. rewrite Ha0, Hu0.
  destruct (Rle_dec t a0) as [Hle|Hgt]. { left. exists a0, u0. repeat split; assumption. }
  rewrite !back_nat by lia. rewrite Hv.
  destruct (nth_some tt (length tt - 1)) as [bn Hbn]; [lia|]. destruct (nth_some values (length tt - 1)) as [un Hun]; [lia|]. rewrite Hbn, Hun.
  destruct (Rle_dec bn t) as [Hle2|Hgt2]. { right; left. exists a0, bn, un. repeat split; try assumption. lra. }
  right; right. destruct (seek_ends tt t Hs a0 bn Ha0 Hbn ltac:(lra) ltac:(lra) pos Hp) as [q [Eq (a & b & Ha & Hb & Hab)]]. rewrite Eq.
  pose proof (nth_lt _ _ _ Hb) as Hlt. destruct (nth_some values q) as [u Hu]; [lia|]. destruct (nth_some values (S q)) as [w Hw]; [lia|].
  exists a0, bn, q, a, b, u, w. rewrite (next_nat tt Hs q) by lia. rewrite !get_nat, Ha, Hb, Hu, Hw.
  repeat (split; [reflexivity || assumption || lra|]). reflexivity.
Qed.

Lemma interp_ends : forall t tt values pos, table tt values -> lookup_state pos ->
  (exists v p, linearInterpolate t tt values pos = Done (v, p) /\ lookup_state p) \/ (exists p, linearInterpolate t tt values pos = NaN p /\ lookup_state p).
Proof.
  intros t tt values pos Ht Hp. pose proof Ht as (Hn & Hv & Hs). destruct (interp_cases t tt values pos Ht Hp) as [(a & u & _ & _ & _ & E)|[(a & b & u & _ & _ & _ & _ & _ & E)|(a0 & bn & q & a & b & u & w & _ & _ & _ & _ & Hb & _ & _ & _ & E)]].
  - left. exists u, 0%Z. split; [exact E|]. unfold lookup_state. lia.
  - left. exists u, (size_t (size tt - 2)). split; [exact E|]. apply size_t_state.
  - pose proof (nth_lt _ _ _ Hb) as Hlt. assert (Hq : lookup_state (Z.of_nat q)) by (unfold lookup_state; lia).
    destruct (Req_EM_T b a); [right; exists (Z.of_nat q); split; assumption|left; eexists _, (Z.of_nat q); split; [exact E|exact Hq]].
Qed.
Lemma interp_range : forall t tt values pos v p lo hi, table tt values -> lookup_state pos -> (forall x, In x values -> lo <= x <= hi) ->
  linearInterpolate t tt values pos = Done (v, p) -> lo <= v <= hi.
Proof.
  intros t tt values pos v p lo hi Ht Hp Hr E. destruct (interp_cases t tt values pos Ht Hp) as [(a & u & _ & Hu & _ & E')|[(a & b & u & _ & _ & Hu & _ & _ & E')|(a0 & bn & q & a & b & u & w & _ & _ & _ & _ & _ & Hu & Hw & Hab & E')]].
  - rewrite E in E'. injection E' as -> _. apply Hr. eapply nth_error_In; exact Hu.
  - rewrite E in E'. injection E' as -> _. apply Hr. eapply nth_error_In; exact Hu.
  - rewrite E in E'. destruct (Req_EM_T b a) as [|Hne]; [discriminate|]. injection E' as -> _.
    pose proof (Hr u (nth_error_In _ _ Hu)). pose proof (Hr w (nth_error_In _ _ Hw)).
    assert (Hk : 0 <= (t - a) / (b - a) <= 1).
    { split; [apply Rmult_le_pos; [lra|left; apply Rinv_0_lt_compat; lra]|]. apply Rmult_le_reg_r with (b - a); [lra|]. unfold Rdiv. rewrite Rmult_assoc, Rinv_l by lra. lra. }
    set (k := (t - a) / (b - a)) in *. replace (u + (w - u) * k) with ((1 - k) * u + k * w) by ring.
    assert (0 <= (1 - k) * (u - lo)) by (apply Rmult_le_pos; lra). assert (0 <= k * (w - lo)) by (apply Rmult_le_pos; lra).
    assert (0 <= (1 - k) * (hi - u)) by (apply Rmult_le_pos; lra). assert (0 <= k * (hi - w)) by (apply Rmult_le_pos; lra). lra.
Qed.

Lemma incr_le : forall tt i j a b, increasing tt -> (i <= j)%nat -> nth_error tt i = Some a -> nth_error tt j = Some b -> a <= b.
Proof. intros tt i j a b H Hij Ha Hb. destruct (Nat.eq_dec i j) as [->|]; [rewrite Ha in Hb; injection Hb as ->; lra|]. left. apply (H i j a b); [lia|assumption|assumption]. Qed.
(** two chords that contain t give the same value *)
Lemma chords : forall tt values t i j a b u w a' b' u' w', increasing tt ->
  nth_error tt i = Some a -> nth_error tt (S i) = Some b -> nth_error values i = Some u -> nth_error values (S i) = Some w -> a <= t <= b ->
  nth_error tt j = Some a' -> nth_error tt (S j) = Some b' -> nth_error values j = Some u' -> nth_error values (S j) = Some w' -> a' <= t <= b' ->
  (i <= j)%nat -> u + (w - u) * ((t - a) / (b - a)) = u' + (w' - u') * ((t - a') / (b' - a')).
Proof.
  intros tt values t i j a b u w a' b' u' w' Hi Ha Hb Hu Hw Hab Ha' Hb' Hu' Hw' Hab' Hij.
  pose proof (Hi i (S i) a b ltac:(lia) Ha Hb). pose proof (Hi j (S j) a' b' ltac:(lia) Ha' Hb').
  destruct (Nat.eq_dec i j) as [E|Ne].
  - subst j. rewrite Ha in Ha'. injection Ha' as <-. rewrite Hb in Hb'. injection Hb' as <-. rewrite Hu in Hu'. injection Hu' as <-. rewrite Hw in Hw'. injection Hw' as <-. reflexivity.
  - pose proof (incr_le tt (S i) j b a' Hi ltac:(lia) Hb Ha') as Hba. assert (t = b) by lra. assert (t = a') by lra.
    destruct (Nat.eq_dec (S i) j) as [E|Ne2].
    + subst j. rewrite Hw in Hu'. injection Hu' as <-. subst b. subst a'. unfold Rdiv. rewrite Rinv_r by lra. rewrite (Rminus_diag_eq t t) by reflexivity. lra.
    + pose proof (Hi (S i) j b a' ltac:(lia) Hb Ha'). lra.
Qed.
Lemma interp_value : forall t tt values pos, table tt values -> increasing tt -> lookup_state pos ->
  exists v p, linearInterpolate t tt values pos = Done (v, p) /\ interpolates tt values t v.
Proof.
  intros t tt values pos Ht Hi Hp. pose proof Ht as (Hn & Hv & Hs).
  destruct (interp_cases t tt values pos Ht Hp) as [(a & u & Ha & Hu & Hle & E)|[(a & b & u & Ha & Hb & Hu & Hlt & Hge & E)|(a0 & bn & q & a & b & u & w & Ha0 & Hbn & Hin & Ha & Hb & Hu & Hw & Hab & E)]].
  - exists u, 0%Z. split; [exact E|]. split; [|split].
    + intros t0 v0 H1 H2 _. congruence.
    + intros tn vn H1 H2 Hle2. pose proof (incr_le tt 0 (length tt - 1) a tn Hi ltac:(lia) Ha H1).
      destruct (Nat.eq_dec (length tt - 1) 0) as [Z|NZ]; [rewrite Z in H2; congruence|]. pose proof (Hi 0%nat (length tt - 1)%nat a tn ltac:(lia) Ha H1). lra.
    + intros i a' b' u' w' Ha' Hb' Hu' Hw' Hab. pose proof (incr_le tt 0 i a a' Hi ltac:(lia) Ha Ha').
      destruct i as [|i]; [|pose proof (Hi 0%nat (S i) a a' ltac:(lia) Ha Ha'); lra].
      assert (t = a') by lra. subst a'. replace u' with u by congruence. unfold Rdiv. rewrite (Rminus_diag_eq t t) by reflexivity. lra.
  - exists u, (size_t (size tt - 2)). split; [exact E|]. split; [|split].
    + intros t0 v0 H1 H2 Hle. rewrite Ha in H1. injection H1 as <-. lra.
    + intros tn vn H1 H2 _. congruence.
    + intros i a' b' u' w' Ha' Hb' Hu' Hw' Hab. pose proof (nth_lt _ _ _ Hb'). pose proof (incr_le tt (S i) (length tt - 1) b' b Hi ltac:(lia) Hb' Hb).
      destruct (Nat.eq_dec (S i) (length tt - 1)) as [Q|NQ].
      * rewrite Q in *. assert (t = b') by lra. subst b'. replace w' with u by congruence. pose proof (Hi i (length tt - 1)%nat a' t ltac:(lia) Ha' Hb'). unfold Rdiv. rewrite Rinv_r by lra. lra.
      * pose proof (Hi (S i) (length tt - 1)%nat b' b ltac:(lia) Hb' Hb). lra.
  - pose proof (Hi q (S q) a b ltac:(lia) Ha Hb). destruct (Req_EM_T b a); [lra|]. eexists _, (Z.of_nat q). split; [exact E|]. split; [|split].
    + intros t0 v0 H1 _ Hle. rewrite Ha0 in H1. injection H1 as <-. lra.
    + intros tn vn H1 _ Hle. rewrite Hbn in H1. injection H1 as <-. lra.
    + intros i a' b' u' w' Ha' Hb' Hu' Hw' Hab'. destruct (le_lt_dec q i).
      * eapply chords; eauto.
      * symmetry. eapply chords; eauto. lia.
Qed.
(** the specification determines the value *)
Lemma interpolates_unique : forall tt values t v v', table tt values -> increasing tt -> interpolates tt values t v -> interpolates tt values t v' -> v = v'.
Proof.
  intros tt values t v v' Ht Hi (A & B & C) (A' & B' & C'). pose proof Ht as (Hn & Hv & Hs). 
  destruct (interp_cases t tt values 0 Ht) as [(a & u & Ha & Hu & Hle & E)|[(a & b & u & Ha & Hb & Hu & Hlt & Hge & E)|(a0 & bn & q & a & b & u & w & Ha0 & Hbn & Hin & Ha & Hb & Hu & Hw & Hab & E)]].
  - unfold lookup_state; lia.
  - rewrite (A a u), (A' a u) by assumption. reflexivity.
  - rewrite (B b u), (B' b u) by assumption. reflexivity.
  - rewrite (C q a b u w), (C' q a b u w) by assumption. reflexivity.
Qed.
Lemma interp_state_free : forall t tt values pos pos', table tt values -> increasing tt -> lookup_state pos -> lookup_state pos' ->
  exists v p p', linearInterpolate t tt values pos = Done (v, p) /\ linearInterpolate t tt values pos' = Done (v, p').
Proof.
  intros t tt values pos pos' Ht Hi Hp Hp'. destruct (interp_value t tt values pos Ht Hi Hp) as (v & p & E & I). destruct (interp_value t tt values pos' Ht Hi Hp') as (v' & p' & E' & I').
  rewrite (interpolates_unique tt values t v' v Ht Hi I' I) in E'. exists v, p, p'. split; assumption.
Qed.

(** ** wrapping *)
Lemma wrap_spec : forall x x0 x1, x0 < x1 -> x0 <= periodicWrap x x0 x1 < x1 /\ exists k : Z, periodicWrap x x0 x1 = x - IZR k * (x1 - x0).
Proof.
  intros x x0 x1 H. unfold periodicWrap. set (n := (x - x0) / (x1 - x0)). assert (En : n * (x1 - x0) = x - x0) by (unfold n; field; lra).
  destruct (base_Int_part n) as [H1 H2]. split.
  - assert (0 <= (n - IZR (Int_part n)) * (x1 - x0)) by (apply Rmult_le_pos; lra).
    assert (0 < (1 - (n - IZR (Int_part n))) * (x1 - x0)) by (apply Rmult_lt_0_compat; lra). lra.
  - exists (Int_part n). lra.
Qed.
Lemma wrap_unique : forall x x0 x1 y k, x0 < x1 -> x0 <= y < x1 -> y = x - IZR k * (x1 - x0) -> periodicWrap x x0 x1 = y.
Proof.
  intros x x0 x1 y k H Hy E. destruct (wrap_spec x x0 x1 H) as [Hw [k' E']]. 
  assert (Hk : (k = k')%Z).
  { assert (D : IZR (k' - k) * (x1 - x0) = y - periodicWrap x x0 x1) by (rewrite minus_IZR; lra).
    assert (B : - (x1 - x0) < IZR (k' - k) * (x1 - x0) < x1 - x0) by lra.
    destruct (Z.lt_trichotomy (k' - k) 0) as [L|[Z|G]]; [|lia|].
    - assert (IZR (k' - k) <= -1) by (apply IZR_le; lia). assert (0 <= (-1 - IZR (k' - k)) * (x1 - x0)) by (apply Rmult_le_pos; lra). lra.
    - assert (1 <= IZR (k' - k)) by (apply IZR_le; lia). assert (0 <= (IZR (k' - k) - 1) * (x1 - x0)) by (apply Rmult_le_pos; lra). lra. }
  subst k'. lra.
Qed.
Lemma wrap_periodic : forall x x0 x1 k, x0 < x1 -> periodicWrap (x + IZR k * (x1 - x0)) x0 x1 = periodicWrap x x0 x1.
Proof.
  intros x x0 x1 k H. destruct (wrap_spec x x0 x1 H) as [Hw [k' E']]. apply (wrap_unique _ _ _ _ (k + k') H Hw). rewrite plus_IZR. lra.
Qed.
Lemma wrap_inside : forall x x0 x1, x0 <= x < x1 -> periodicWrap x x0 x1 = x.
Proof. intros x x0 x1 H. apply (wrap_unique x x0 x1 x 0); lra. Qed.

(** ** what goes wrong *)
Lemma empty_ub : forall t pos, linearInterpolate t [] [] pos = UB.
Proof. reflexivity. Qed.
Ltac rd := repeat match goal with |- context [Rle_dec ?a ?b] => destruct (Rle_dec a b); try lra | |- context [Rlt_dec ?a ?b] => destruct (Rlt_dec a b); try lra | |- context [Req_EM_T ?a ?b] => destruct (Req_EM_T a b); try lra end.
Lemma repeated_0 : linearInterpolate 1 [0; 1; 1; 2] [0; 10; 20; 30] 0 = Done (10, 0%Z).
Proof.
  unfold linearInterpolate. cbn [get Z.ltb Z.compare Z.to_nat nth_error]. rd. unfold back, size. cbn [length]. 
  change (get [0; 1; 1; 2] (Z.of_nat 4 - 1)) with (Some 2). change (get [0; 10; 20; 30] (Z.of_nat 4 - 1)) with (Some 30). rd.
  change (Z.min 0 (size_t (Z.of_nat 4 - 2))) with 0%Z. cbn [seek]. change (get [0; 1; 1; 2] 0) with (Some 0). change (get [0; 1; 1; 2] (size_t (0 + 1))) with (Some 1). rd.
  change (get [0; 1; 1; 2] 0) with (Some 0). change (get [0; 1; 1; 2] (size_t (0 + 1))) with (Some 1). change (get [0; 10; 20; 30] 0) with (Some 0). change (get [0; 10; 20; 30] (size_t (0 + 1))) with (Some 10). cbv beta iota. rd.
  do 2 f_equal. field.
Qed.
Lemma repeated_1 : linearInterpolate 1 [0; 1; 1; 2] [0; 10; 20; 30] 1 = NaN 1.
Proof.
  unfold linearInterpolate. cbn [get Z.ltb Z.compare Z.to_nat nth_error]. rd. unfold back, size. cbn [length]. 
  change (get [0; 1; 1; 2] (Z.of_nat 4 - 1)) with (Some 2). change (get [0; 10; 20; 30] (Z.of_nat 4 - 1)) with (Some 30). rd.
  change (Z.min 1 (size_t (Z.of_nat 4 - 2))) with 1%Z. cbn [seek]. change (get [0; 1; 1; 2] 1) with (Some 1). change (get [0; 1; 1; 2] (size_t (1 + 1))) with (Some 1). rd.
  change (get [0; 1; 1; 2] 1) with (Some 1). change (get [0; 1; 1; 2] (size_t (1 + 1))) with (Some 1). change (get [0; 10; 20; 30] 1) with (Some 10). change (get [0; 10; 20; 30] (size_t (1 + 1))) with (Some 20). cbv beta iota. rd. reflexivity.
Qed.
Lemma repeated_2 : linearInterpolate 1 [0; 1; 1; 2] [0; 10; 20; 30] 2 = Done (20, 2%Z).
Proof.
  unfold linearInterpolate. cbn [get Z.ltb Z.compare Z.to_nat nth_error]. rd. unfold back, size. cbn [length]. 
  change (get [0; 1; 1; 2] (Z.of_nat 4 - 1)) with (Some 2). change (get [0; 10; 20; 30] (Z.of_nat 4 - 1)) with (Some 30). rd.
  change (Z.min 2 (size_t (Z.of_nat 4 - 2))) with 2%Z. cbn [seek]. change (get [0; 1; 1; 2] 2) with (Some 1). change (get [0; 1; 1; 2] (size_t (2 + 1))) with (Some 2). rd.
  change (get [0; 1; 1; 2] 2) with (Some 1). change (get [0; 1; 1; 2] (size_t (2 + 1))) with (Some 2). change (get [0; 10; 20; 30] 2) with (Some 20). change (get [0; 10; 20; 30] (size_t (2 + 1))) with (Some 30). cbv beta iota. rd.
  do 2 f_equal. field.
Qed.
