(** The code of the periodic insertion sort performs exchanges of neighbours on the
    sequence of images, and leaves it sorted. *)
From Coq Require Import List ZArith Arith Bool Lia.
From Verif Require Import Coll_Model Peri_Model Peri_Sort.
Import ListNotations.
Local Open Scope Z_scope.

Section S.
Variables n d : Z.
Hypothesis Hn : 1 < n.
Hypothesis Hd : 0 < d.

(** The array with its split index stands for the sequence A. *)
Definition rep (s : vb) (A : seqz) (X : ident -> Z) (H : ident -> bool) : Prop :=
  exists L, loIdx s = L mod n /\
    (forall i, A i = (who (vec s (i mod n)), (i - L) / n - per (vec s (i mod n)))) /\
    (forall i, X (who (vec s (i mod n))) = pco (vec s (i mod n)) + d * per (vec s (i mod n))) /\
    (forall i, H (who (vec s (i mod n))) = phas (vec s (i mod n))).

Lemma rep_periodic s A X H : rep s A X H -> periodicA n A.
Proof.
  intros (L & _ & E & _) p k. rewrite !E. cbn [fst snd]. rewrite Z.mod_add by lia.
  replace (p + k * n - L) with (p - L + k * n) by lia. rewrite div_shift by lia. f_equal. lia.
Qed.

Lemma mod_add1 i : ((i mod n) + 1) mod n = (i + 1) mod n.
Proof. apply Zplus_mod_idemp_l. Qed.
Lemma mod_sub1 i : ((i mod n) - 1) mod n = (i - 1) mod n.
Proof. apply Zminus_mod_idemp_l. Qed.
Lemma eqb_mod a b : (a mod n =? b mod n) = ((a - b) mod n =? 0).
Proof.
  apply eq_true_iff_eq. rewrite mod0_mul by lia. rewrite Z.eqb_eq. split.
  - intros E. exists (a / n - b / n). pose proof (Z.div_mod a n ltac:(lia)). pose proof (Z.div_mod b n ltac:(lia)). lia.
  - intros [k E]. replace a with (b + k * n) by lia. apply Z.mod_add. lia.
Qed.

(** comparison of neighbours *)
Lemma rep_cov s A X H L : loIdx s = L mod n ->
  (forall i, A i = (who (vec s (i mod n)), (i - L) / n - per (vec s (i mod n)))) ->
  (forall i, X (who (vec s (i mod n))) = pco (vec s (i mod n)) + d * per (vec s (i mod n))) ->
  (forall i, H (who (vec s (i mod n))) = phas (vec s (i mod n))) ->
  forall p, cov d X A p = pco (vec s (p mod n)) + d * ((p - L) / n).
Proof. intros _ E EX _ p. unfold cov. rewrite E. cbn [fst snd]. rewrite EX. lia. Qed.
Lemma rep_test s A X H p : rep s A X H ->
  (pco (vec s ((p + 1) mod n)) + (if (p + 1) mod n =? loIdx s then d else 0) <? pco (vec s (p mod n))) = (cov d X A (p + 1) <? cov d X A p).
Proof.
  intros (L & EL & E & EX & EH). rewrite !(rep_cov s A X H L EL E EX EH).
  replace (p + 1 - L) with (p - L + 1) by lia. rewrite div_step by lia. rewrite EL, eqb_mod.
  replace (p + 1 - L) with (p - L + 1) by lia.
  apply eq_true_iff_eq. rewrite !Z.ltb_lt. destruct ((p - L + 1) mod n =? 0); nia.
Qed.

Lemma upd_same v i e : upd v i e i = e.
Proof. unfold upd. rewrite Z.eqb_refl. reflexivity. Qed.
Lemma upd_other v i e k : k <> i -> upd v i e k = v k.
Proof. intros. unfold upd. rewrite (proj2 (Z.eqb_neq k i)) by assumption. reflexivity. Qed.
Lemma mod_eq a b : a mod n = b mod n -> exists k, a = b + k * n.
Proof. intros E. exists (a / n - b / n). pose proof (Z.div_mod a n ltac:(lia)). pose proof (Z.div_mod b n ltac:(lia)). lia. Qed.
Lemma mod_of b k : (b + k * n) mod n = b mod n.
Proof. apply Z.mod_add. lia. Qed.

(** (a) where a / n is constant *)
Lemma div_same a b : (forall k, a < k * n <= b -> False) -> a <= b -> a / n = b / n.
Proof.
  intros H Hab. assert (a / n <= b / n) by (apply Z.div_le_mono; lia).
  destruct (Z.eq_dec (a / n) (b / n)) as [|N]; [assumption|exfalso].
  apply (H (b / n)). pose proof (Z.div_mod a n ltac:(lia)). pose proof (Z.div_mod b n ltac:(lia)).
  pose proof (Z.mod_pos_bound a n ltac:(lia)). pose proof (Z.mod_pos_bound b n ltac:(lia)). nia.
Qed.
Lemma div_mul_small k c : 0 <= c < n -> (k * n + c) / n = k.
Proof. intros. rewrite Z.div_add_l by lia. rewrite Z.div_small by lia. lia. Qed.

(** relabelling does not change the sequence *)
Lemma rep_relabel s A X H i : rep s A X H -> rep (relabel n d (i mod n) s) A X H.
Proof.
  intros R. unfold relabel. destruct ((i mod n =? loIdx s) && (pco (vec s (i mod n)) <? 0)) eqn:T; [|exact R].
  apply andb_prop in T. destruct T as [T _]. apply Z.eqb_eq in T. destruct R as (L & EL & E & EX & EH).
  exists (L + 1). cbn [vec loIdx]. split; [rewrite EL; apply mod_add1|].
  rewrite T, EL.
  assert (V : forall k, (exists c, k = L + c * n) /\ upd (vec s) (L mod n) (lower d (vec s (L mod n))) (k mod n) = lower d (vec s (k mod n))
            \/ (forall c, k <> L + c * n) /\ upd (vec s) (L mod n) (lower d (vec s (L mod n))) (k mod n) = vec s (k mod n)).
  { intros k. destruct (Z.eq_dec (k mod n) (L mod n)) as [e|e].
    - left. split; [apply mod_eq; exact e|]. rewrite e. apply upd_same.
    - right. split; [intros c Hc; apply e; rewrite Hc; apply mod_of|apply upd_other; exact e]. }
  repeat split; intros k.
  - rewrite E. destruct (V k) as [[[c Hc] ->]|[Hc ->]]; unfold lower, who; cbn [pid pmin per]; f_equal.
    + replace (k - (L + 1)) with ((c - 1) * n + (n - 1)) by lia. replace (k - L) with (c * n + 0) by lia. rewrite !div_mul_small by lia. lia.
    + f_equal. symmetry. apply div_same; [|lia]. intros c Hcc. apply (Hc c). lia.
  - destruct (V k) as [[_ ->]|[_ ->]]; [|apply EX]. specialize (EX k). unfold lower, who in *; cbn [pid pmin pco per] in *. lia.
  - destruct (V k) as [[_ ->]|[_ ->]]; [|apply EH]. apply EH.
Qed.

(** one iteration of the while loop *)
Definition step (j : Z) (s : vb) : vb :=
  let j1 := (j + 1) mod n in
  let x := vec s j1 in
  let y := vec s j in
  if (j =? loIdx s) && (pco x <? 0) then mkVb (upd (upd (vec s) j1 y) j (lower d x)) ((loIdx s + 1) mod n)
  else if j1 =? loIdx s then mkVb (upd (upd (vec s) j1 (raise d y)) j x) ((loIdx s - 1) mod n)
  else mkVb (upd (upd (vec s) j1 y) j x) (loIdx s).

Lemma place v p (x' y' : pent) k :
  let v' := upd (upd v ((p + 1) mod n) y') (p mod n) x' in
  ((exists c, k = p + c * n) /\ v' (k mod n) = x') \/
  ((exists c, k = p + 1 + c * n) /\ v' (k mod n) = y') \/
  ((forall c, k <> p + c * n) /\ (forall c, k <> p + 1 + c * n) /\ v' (k mod n) = v (k mod n)).
Proof.
  cbv zeta. destruct (Z.eq_dec (k mod n) (p mod n)) as [e|e].
  - left. split; [apply mod_eq; exact e|]. rewrite e. apply upd_same.
  - right. rewrite upd_other by exact e. destruct (Z.eq_dec (k mod n) ((p + 1) mod n)) as [e'|e'].
    + left. split; [apply mod_eq; exact e'|]. rewrite e'. apply upd_same.
    + right. split; [intros c Hc; apply e; rewrite Hc; apply mod_of|]. split; [intros c Hc; apply e'; rewrite Hc; apply mod_of|].
      apply upd_other. exact e'.
Qed.

Lemma sig_at p c : sig n p (p + c * n) = p + 1 + c * n.
Proof.
  destruct (sig_cases n Hn p (p + c * n)) as [[_ S]|[[[k E] S]|[E1 _]]]; [lia| |exfalso; exact (E1 c eq_refl)].
  exfalso. assert (1 = 0) by (apply (mul_small n (c - k) 1); lia). lia.
Qed.
Lemma sig_at1 p c : sig n p (p + 1 + c * n) = p + c * n.
Proof. rewrite <- (sig_at p c). apply sig_invol. exact Hn. Qed.
Lemma sig_off p k : (forall c, k <> p + c * n) -> (forall c, k <> p + 1 + c * n) -> sig n p k = k.
Proof.
  intros H1 H2. destruct (sig_cases n Hn p k) as [[[c E] _]|[[[c E] _]|[_ [_ S]]]]; [exfalso; exact (H1 c E)|exfalso; exact (H2 c E)|exact S].
Qed.

Lemma rep_step s A X H p : rep s A X H ->
  rep (step (p mod n) s) (fun i => A (sig n p i)) X H.
Proof.
  intros (L & EL & E & EX & EH). unfold step. rewrite mod_add1, EL.
  set (x := vec s ((p + 1) mod n)). set (y := vec s (p mod n)).
  assert (Ax : forall c, A (p + 1 + c * n) = (who x, (p + 1 + c * n - L) / n - per x)) by (intros c; rewrite E, mod_of; reflexivity).
  assert (Ay : forall c, A (p + c * n) = (who y, (p + c * n - L) / n - per y)) by (intros c; rewrite E, mod_of; reflexivity).
  assert (Xx : X (who x) = pco x + d * per x) by apply EX. assert (Xy : X (who y) = pco y + d * per y) by apply EX.
  assert (Bx : H (who x) = phas x) by apply EH. assert (By : H (who y) = phas y) by apply EH.
  destruct ((p mod n =? L mod n) && (pco x <? 0)) eqn:T; [|destruct ((p + 1) mod n =? L mod n) eqn:T1].
  - apply andb_prop in T. destruct T as [T _]. apply Z.eqb_eq in T. destruct (mod_eq _ _ T) as [l El].
    exists (L + 1). cbn [vec loIdx]. split; [apply mod_add1|].
    pose proof (fun k => place (vec s) p (lower d x) y k) as V. cbv zeta in V.
    repeat split; intros k; specialize (V k); destruct V as [[[c Hc] ->]|[[[c Hc] ->]|[H1 [H2 ->]]]].
    + rewrite Hc, sig_at, Ax. unfold lower, who; cbn [pid pmin per]. f_equal.
      replace (p + 1 + c * n - L) with ((l + c) * n + 1) by lia. replace (p + c * n - (L + 1)) with ((l + c - 1) * n + (n - 1)) by lia.
      rewrite !div_mul_small by lia. lia.
    + rewrite Hc, sig_at1, Ay. f_equal. f_equal. f_equal. lia.
    + rewrite sig_off by assumption. rewrite E. f_equal. f_equal. symmetry. apply div_same; [|lia]. intros c Hcc. apply (H1 (c - l)). lia.
    + unfold lower, who in *; cbn [pid pmin pco per] in *. lia.
    + exact Xy.
    + apply EX.
    + exact Bx.
    + exact By.
    + apply EH.
  - apply Z.eqb_eq in T1. destruct (mod_eq _ _ T1) as [l El].
    exists (L - 1). cbn [vec loIdx]. split; [apply mod_sub1|].
    pose proof (fun k => place (vec s) p x (raise d y) k) as V. cbv zeta in V.
    repeat split; intros k; specialize (V k); destruct V as [[[c Hc] ->]|[[[c Hc] ->]|[H1 [H2 ->]]]].
    + rewrite Hc, sig_at, Ax. f_equal. f_equal. f_equal. lia.
    + rewrite Hc, sig_at1, Ay. unfold raise, who; cbn [pid pmin per]. f_equal.
      replace (p + 1 + c * n - (L - 1)) with ((l + c) * n + 1) by lia. replace (p + c * n - L) with ((l + c - 1) * n + (n - 1)) by lia.
      rewrite !div_mul_small by lia. lia.
    + rewrite sig_off by assumption. rewrite E. f_equal. f_equal. apply div_same; [|lia]. intros c Hcc. apply (H1 (c - l)). lia.
    + exact Xx.
    + unfold raise, who in *; cbn [pid pmin pco per] in *. lia.
    + apply EX.
    + exact Bx.
    + exact By.
    + apply EH.
  - assert (N1 : forall c, p + 1 <> L + c * n).
    { intros c Hc. apply Z.eqb_neq in T1. apply T1. rewrite Hc. apply mod_of. }
    exists L. cbn [vec loIdx]. split; [reflexivity|].
    pose proof (fun k => place (vec s) p x y k) as V. cbv zeta in V.
    repeat split; intros k; specialize (V k); destruct V as [[[c Hc] ->]|[[[c Hc] ->]|[H1 [H2 ->]]]].
    + rewrite Hc, sig_at, Ax. f_equal. f_equal. symmetry. apply div_same; [|lia]. intros b Hb. apply (N1 (b - c)). lia.
    + rewrite Hc, sig_at1, Ay. f_equal. f_equal. apply div_same; [|lia]. intros b Hb. apply (N1 (b - c)). lia.
    + rewrite sig_off by assumption. apply E.
    + exact Xx.
    + exact Xy.
    + apply EX.
    + exact Bx.
    + exact By.
    + apply EH.
Qed.

Lemma travel_S f i0 j s : travel (S f) n d i0 j s =
  (if (j <? i0) && (pco (vec s ((j + 1) mod n)) + (if (j + 1) mod n =? loIdx s then d else 0) <? pco (vec s j))
   then do (r, ev) <- travel f n d i0 ((j - 1) mod n) (step j s); Ok (r, (vec s ((j + 1) mod n), vec s j) :: ev)
   else Ok (s, [])).
Proof. reflexivity. Qed.

Lemma bind_ok {A B} (r : res A) (f : A -> res B) b : bind r f = Ok b -> exists a, r = Ok a /\ f a = Ok b.
Proof. destruct r; cbn [bind]; intros H; try discriminate. eauto. Qed.

(** The element at p+1 travels down in the window [w,t]. *)
Lemma travel_ok f : forall i0 w t p s A X H s' ev,
  rep s A X H -> travel f n d i0 (p mod n) s = Ok (s', ev) ->
  w <= p + 1 <= t -> t < w + n ->
  (forall q, w <= q < t -> q <> p -> cov d X A q <= cov d X A (q + 1)) ->
  (w <= p -> p + 2 <= t -> cov d X A p <= cov d X A (p + 2)) ->
  (w <= p /\ n <= i0 /\ (exists q, w <= q <= p /\ cov d X A q <= cov d X A (p + 1)) \/ (w = 0 /\ t = i0 /\ i0 < n)) ->
  exists A', rep s' A' X H /\ swaps n d X H A ev A' /\
    (forall q, w <= q < t -> cov d X A' q <= cov d X A' (q + 1)) /\
    (forall q, w <= q <= t -> exists q', w <= q' <= t /\ A' q = A q').
Proof.
  induction f as [|f IH]; intros i0 w t p s A X H s' ev R E Hp Ht S1 S2 G; [discriminate|].
  rewrite travel_S, mod_add1, (rep_test s A X H p R), mod_sub1 in E.
  assert (Stop : s' = s -> ev = [] -> (w <= p -> cov d X A p <= cov d X A (p + 1)) ->
     exists A', rep s' A' X H /\ swaps n d X H A ev A' /\
      (forall q, w <= q < t -> cov d X A' q <= cov d X A' (q + 1)) /\
      (forall q, w <= q <= t -> exists q', w <= q' <= t /\ A' q = A q')).
  { intros -> -> K. exists A. split; [exact R|]. split; [apply sw_nil; reflexivity|]. split.
    - intros q Hq. destruct (Z.eq_dec q p) as [->|N]; [apply K; lia|apply S1; assumption].
    - intros q Hq. exists q. auto. }
  assert (Pw : w <= p \/ (p = -1 /\ w = 0 /\ t = i0 /\ i0 < n)) by (destruct G as [(G & _)|G]; [left; exact G|destruct (Z.eq_dec p (-1)); [right; lia|left; lia]]).
  destruct Pw as [Pw|(-> & -> & -> & Hi)].
  2: { replace ((-1) mod n) with (n - 1) in E by (apply Z.mod_unique_pos with (-1); lia).
       rewrite (proj2 (Z.ltb_ge (n - 1) i0)) in E by lia. cbn [andb] in E. injection E as <- <-. apply Stop; [reflexivity|reflexivity|lia]. }
  destruct ((p mod n <? i0) && (cov d X A (p + 1) <? cov d X A p)) eqn:T.
  2: { injection E as <- <-. apply Stop; [reflexivity|reflexivity|]. intros _.
       apply andb_false_iff in T. destruct T as [T|T]; [|apply Z.ltb_ge in T; exact T].
       apply Z.ltb_ge in T. destruct G as [(_ & Hi & _)|(-> & -> & Hi)].
       - pose proof (Z.mod_pos_bound p n ltac:(lia)). lia.
       - rewrite Z.mod_small in T by lia. lia. }
  apply andb_prop in T. destruct T as [_ T]. apply Z.ltb_lt in T.
  apply bind_ok in E. destruct E as ([r ev1] & E1 & E2). injection E2 as <- <-.
  pose proof (rep_step s A X H p R) as R1. set (A1 := fun i => A (sig n p i)) in *.
  assert (C1 : forall q, w <= q <= t -> cov d X A1 q = if q =? p then cov d X A (p + 1) else if q =? p + 1 then cov d X A p else cov d X A q).
  { intros q Hq. unfold cov, A1. rewrite (sig_window n Hn w p q) by lia. destruct (q =? p); [reflexivity|]. destruct (q =? p + 1); reflexivity. }
  destruct (IH i0 w t (p - 1) (step (p mod n) s) A1 X H r ev1 R1 E1) as (A' & R' & SW & SO & PW); [lia|lia| | | |].
  - intros q Hq Hqp. rewrite !C1 by lia.
    destruct (Z.eqb_spec q p) as [->|Nq].
    + rewrite (proj2 (Z.eqb_neq (p + 1) p)) by lia. rewrite Z.eqb_refl. lia.
    + rewrite (proj2 (Z.eqb_neq (q + 1) p)) by lia. rewrite (proj2 (Z.eqb_neq (q + 1) (p + 1))) by lia.
      destruct (Z.eqb_spec q (p + 1)) as [->|Nq1].
      * replace (p + 1 + 1) with (p + 2) by lia. apply S2; lia.
      * apply S1; lia.
  - intros H1 H2. rewrite !C1 by lia. rewrite (proj2 (Z.eqb_neq (p - 1) p)) by lia. rewrite (proj2 (Z.eqb_neq (p - 1) (p + 1))) by lia.
    replace (p - 1 + 2) with (p + 1) by lia. rewrite (proj2 (Z.eqb_neq (p + 1) p)) by lia. rewrite Z.eqb_refl.
    specialize (S1 (p - 1)). replace (p - 1 + 1) with p in S1 by lia. apply S1; lia.
  - destruct G as [(_ & Hi & q & Hq & Hc)|G]; [|right; exact G]. left.
    assert (q <> p) by (intros ->; lia). split; [lia|]. split; [exact Hi|]. exists q. split; [lia|]. rewrite !C1 by lia.
    rewrite (proj2 (Z.eqb_neq q p)) by lia. rewrite (proj2 (Z.eqb_neq q (p + 1))) by lia.
    replace (p - 1 + 1) with p by lia. rewrite Z.eqb_refl. exact Hc.
  - exists A'. split; [exact R'|]. split; [|split; [exact SO|]].
    + destruct R as (L & EL & EA & EX & EH). apply (sw_cons n d X H A p A1); auto; rewrite EA; reflexivity.
    + intros q Hq. destruct (PW q Hq) as (q' & Hq' & Eq). unfold A1 in Eq. exists (sig n p q'). split; [|exact Eq].
      rewrite (sig_window n Hn w p q') by lia. destruct (q' =? p); [lia|]. destruct (q' =? p + 1); lia.
Qed.

(** every bound has another one it need not pass *)
Definition guarded (X : ident -> Z) (A : seqz) : Prop :=
  forall r, exists r', fst (A r') <> fst (A r) /\ noninv d X A (fst (A r)) (fst (A r')).
Lemma guarded_swaps X H A ev A' : swaps n d X H A ev A' -> periodicA n A -> guarded X A -> guarded X A'.
Proof.
  intros SW HP G r. destruct (swaps_occ_back n d X H A ev A' SW r) as [p Ep].
  destruct (G p) as (p' & N & NI). destruct (swaps_occ n d Hn X H A ev A' SW p') as [r' Er].
  exists r'. rewrite Ep, Er. split; [exact N|]. exact (swaps_noninv n d Hn X H A ev A' _ _ SW HP NI).
Qed.

Lemma visit_ok1 f i0 s A X H s' ev :
  rep s A X H -> visit f n d i0 s = Ok (s', ev) -> 0 <= i0 < n ->
  (forall q, 0 <= q < i0 - 1 -> cov d X A q <= cov d X A (q + 1)) ->
  exists A', rep s' A' X H /\ swaps n d X H A ev A' /\
    (forall q, 0 <= q < i0 -> cov d X A' q <= cov d X A' (q + 1)).
Proof.
  intros R E Hi S. unfold visit in E. rewrite mod_sub1 in E.
  pose proof (rep_relabel s A X H i0 R) as R1. set (s1 := relabel n d (i0 mod n) s) in *.
  rewrite Z.leb_antisym in E. replace (i0 mod n) with ((i0 - 1 + 1) mod n) in E by (f_equal; lia).
  rewrite (rep_test s1 A X H (i0 - 1) R1) in E. replace (i0 - 1 + 1) with i0 in E by lia.
  destruct (cov d X A i0 <? cov d X A (i0 - 1)) eqn:T; cbn [negb] in E.
  - destruct (travel_ok f i0 0 i0 (i0 - 1) s1 A X H s' ev R1 E) as (A' & R' & SW & SO & _); [lia|lia| | |right; lia|].
    + intros q Hq N. apply S. lia.
    + intros. exfalso. lia.
    + exists A'. auto.
  - apply Z.ltb_ge in T. injection E as <- <-. exists A. split; [exact R1|]. split; [apply sw_nil; reflexivity|].
    intros q Hq. destruct (Z.eq_dec q (i0 - 1)) as [->|N]; [replace (i0 - 1 + 1) with i0 by lia; exact T|apply S; lia].
Qed.

Lemma visit_ok2 f i0 s A X H s' ev :
  rep s A X H -> visit f n d i0 s = Ok (s', ev) -> n <= i0 -> guarded X A ->
  (forall q, i0 - n <= q < i0 - 1 -> cov d X A q <= cov d X A (q + 1)) ->
  exists A', rep s' A' X H /\ swaps n d X H A ev A' /\
    (forall q, i0 + 1 - n <= q < i0 -> cov d X A' q <= cov d X A' (q + 1)).
Proof.
  intros R E Hi G S. unfold visit in E. rewrite mod_sub1 in E.
  pose proof (rep_relabel s A X H i0 R) as R1. set (s1 := relabel n d (i0 mod n) s) in *.
  rewrite Z.leb_antisym in E. replace (i0 mod n) with ((i0 - 1 + 1) mod n) in E by (f_equal; lia).
  rewrite (rep_test s1 A X H (i0 - 1) R1) in E. replace (i0 - 1 + 1) with i0 in E by lia.
  destruct (cov d X A i0 <? cov d X A (i0 - 1)) eqn:T; cbn [negb] in E.
  - destruct (travel_ok f i0 (i0 + 1 - n) i0 (i0 - 1) s1 A X H s' ev R1 E) as (A' & R' & SW & SO & _); [lia|lia| | | |].
    + intros q Hq N. apply S. lia.
    + intros. exfalso. lia.
    + left. split; [lia|]. split; [exact Hi|]. replace (i0 - 1 + 1) with i0 by lia.
      destruct (G i0) as (r & Nr & NI). pose proof (rep_periodic s A X H R) as HP.
      pose proof (Z.div_mod (r - (i0 + 1 - n)) n ltac:(lia)) as DM. pose proof (Z.mod_pos_bound (r - (i0 + 1 - n)) n ltac:(lia)) as MB.
      set (k := (r - (i0 + 1 - n)) / n) in *. set (q := r + (- k) * n) in *.
      assert (Eq : fst (A q) = fst (A r)) by (unfold q; rewrite HP; reflexivity).
      assert (q <> i0) by (intros Hq; rewrite Hq in Eq; congruence).
      exists q. split; [unfold q in *; lia|]. apply NI; [unfold q in *; lia|]. right. split; [exact Eq|reflexivity].
    + exists A'. auto.
  - apply Z.ltb_ge in T. injection E as <- <-. exists A. split; [exact R1|]. split; [apply sw_nil; reflexivity|].
    intros q Hq. destruct (Z.eq_dec q (i0 - 1)) as [->|N]; [replace (i0 - 1 + 1) with i0 by lia; exact T|apply S; lia].
Qed.

Lemma passes_ok2 f : forall i0 s A X H s' ev,
  rep s A X H -> passes f n d i0 s = Ok (s', ev) -> n <= i0 -> guarded X A ->
  (forall q, i0 - n <= q < i0 - 1 -> cov d X A q <= cov d X A (q + 1)) ->
  exists A', rep s' A' X H /\ swaps n d X H A ev A' /\ sortedA d X A'.
Proof.
  induction f as [|f IH]; intros i0 s A X H s' ev R E Hi G S; [discriminate|].
  cbn [passes] in E. rewrite (proj2 (Z.ltb_ge i0 n)) in E by exact Hi. cbn [orb] in E.
  destruct (pco (vec s (i0 mod n)) <? pco (vec s ((i0 - 1) mod n))) eqn:T.
  - apply bind_ok in E. destruct E as ([s1 ev1] & E1 & E). apply bind_ok in E. destruct E as ([s2 ev2] & E2 & E). injection E as <- <-.
    destruct (visit_ok2 f i0 s A X H s1 ev1 R E1 Hi G S) as (A1 & R1 & SW1 & S1).
    destruct (IH (i0 + 1) s1 A1 X H s2 ev2 R1 E2) as (A2 & R2 & SW2 & S2); [lia|exact (guarded_swaps X H A ev1 A1 SW1 (rep_periodic _ _ _ _ R) G)|intros q Hq; apply S1; lia|].
    exists A2. split; [exact R2|]. split; [exact (swaps_app n d X H A ev1 A1 SW1 ev2 A2 SW2)|exact S2].
  - injection E as <- <-. exists A. split; [exact R|]. split; [apply sw_nil; reflexivity|].
    apply (window_sorted n d Hn X A (i0 - n) (rep_periodic _ _ _ _ R)). intros q Hq.
    destruct (Z.eq_dec q (i0 - 1)) as [->|N]; [|apply S; lia].
    pose proof (rep_test s A X H (i0 - 1) R) as K. replace (i0 - 1 + 1) with i0 in * by lia.
    apply Z.ltb_ge in T. apply Z.ltb_ge. rewrite <- K. apply Z.ltb_ge. destruct (i0 mod n =? loIdx s); lia.
Qed.

Lemma passes_ok1 f : forall i0 s A X H s' ev,
  rep s A X H -> passes f n d i0 s = Ok (s', ev) -> 0 <= i0 <= n -> guarded X A ->
  (forall q, 0 <= q < i0 - 1 -> cov d X A q <= cov d X A (q + 1)) ->
  exists A', rep s' A' X H /\ swaps n d X H A ev A' /\ sortedA d X A'.
Proof.
  induction f as [|f IH]; intros i0 s A X H s' ev R E Hi G S; [discriminate|].
  destruct (Z.eq_dec i0 n) as [->|N].
  { apply (passes_ok2 (Datatypes.S f) n s A X H s' ev R E); [lia|exact G|]. intros q Hq. apply S. lia. }
  cbn [passes] in E. rewrite (proj2 (Z.ltb_lt i0 n)) in E by lia. cbn [orb] in E.
  apply bind_ok in E. destruct E as ([s1 ev1] & E1 & E). apply bind_ok in E. destruct E as ([s2 ev2] & E2 & E). injection E as <- <-.
  destruct (visit_ok1 f i0 s A X H s1 ev1 R E1) as (A1 & R1 & SW1 & S1); [lia|exact S|].
  destruct (IH (i0 + 1) s1 A1 X H s2 ev2 R1 E2) as (A2 & R2 & SW2 & S2); [lia|exact (guarded_swaps X H A ev1 A1 SW1 (rep_periodic _ _ _ _ R) G)|intros q Hq; apply S1; lia|].
  exists A2. split; [exact R2|]. split; [exact (swaps_app n d X H A ev1 A1 SW1 ev2 A2 SW2)|exact S2].
Qed.

(** clamping does not change the sequence *)
Lemma clamp_ok f : forall p s A X H s' L,
  loIdx s = L mod n -> p = (L - 1) mod n -> rep s A X H -> clamp f n d p s = Ok s' -> rep s' A X H.
Proof.
  induction f as [|f IH]; intros p s A X H s' L0 EL0 Ep R E; [discriminate|]. cbn [clamp] in E.
  destruct (d <? pco (vec s p)); [|injection E as <-; exact R].
  revert E. apply IH with (L := L0 - 1); cbn [loIdx]; [exact Ep|rewrite Ep; apply mod_sub1|].
  destruct R as (L & EL & E & EX & EH). rewrite EL0 in EL. destruct (mod_eq _ _ EL) as [l El].
  assert (Ep' : p = (L - 1) mod n) by (rewrite Ep; replace (L0 - 1) with (L - 1 + l * n) by lia; apply mod_of).
  exists (L - 1). cbn [vec loIdx]. split; [exact Ep'|]. rewrite Ep'.
  set (y := vec s ((L - 1) mod n)).
  assert (V : forall k, (exists c, k = L - 1 + c * n) /\ upd (vec s) ((L - 1) mod n) (raise d y) (k mod n) = raise d (vec s (k mod n))
            \/ (forall c, k <> L - 1 + c * n) /\ upd (vec s) ((L - 1) mod n) (raise d y) (k mod n) = vec s (k mod n)).
  { intros k. destruct (Z.eq_dec (k mod n) ((L - 1) mod n)) as [e|e].
    - left. split; [apply mod_eq; exact e|]. rewrite e. apply upd_same.
    - right. split; [intros c Hc; apply e; rewrite Hc; apply mod_of|apply upd_other; exact e]. }
  repeat split; intros k.
  - rewrite E. destruct (V k) as [[[c Hc] ->]|[Hc ->]]; unfold raise, who; cbn [pid pmin per]; f_equal.
    + replace (k - (L - 1)) with (c * n + 0) by lia. replace (k - L) with ((c - 1) * n + (n - 1)) by lia. rewrite !div_mul_small by lia. lia.
    + f_equal. apply div_same; [|lia]. intros c Hcc. apply (Hc c). lia.
  - destruct (V k) as [[_ ->]|[_ ->]]; [|apply EX]. specialize (EX k). unfold raise, who in *; cbn [pid pmin pco per] in *. lia.
  - destruct (V k) as [[_ ->]|[_ ->]]; apply EH.
Qed.

(** the whole sort *)
Lemma sortPeri_ok f s A X H s' ev :
  rep s A X H -> insertionSortPeri f n d s = Ok (s', ev) -> guarded X A ->
  exists A', rep s' A' X H /\ swaps n d X H A ev A' /\ sortedA d X A'.
Proof.
  intros R E G. unfold insertionSortPeri in E. rewrite (proj2 (Z.eqb_neq n 0)) in E by lia.
  apply bind_ok in E. destruct E as ([s1 ev1] & E1 & E). apply bind_ok in E. destruct E as (s2 & E2 & E). injection E as <- <-.
  destruct (passes_ok1 f 0 s A X H s1 ev1 R E1) as (A' & R' & SW & SO); [lia|exact G|intros q Hq; lia|].
  exists A'. split; [|split; assumption].
  destruct R' as (L & EL & R''). apply (clamp_ok f ((loIdx s1 - 1) mod n) s1 A' X H s2 L); [exact EL|rewrite EL; apply mod_sub1| |exact E2].
  exists L. split; [exact EL|exact R''].
Qed.
End S.
