(** The periodic insertion sort seen on the infinite periodic sequence of images. *)
From Coq Require Import List ZArith Arith Bool Lia.
From Verif Require Import Coll_Model Peri_Model.
Import ListNotations.
Local Open Scope Z_scope.

(** ** arithmetic *)
Lemma mod0_mul n a : 0 < n -> (a mod n =? 0) = true <-> exists k, a = k * n.
Proof.
  intros Hn. rewrite Z.eqb_eq, Z.mod_divide by lia. reflexivity.
Qed.
Lemma mod0_not n a : 0 < n -> (a mod n =? 0) = false -> forall k, a <> k * n.
Proof. intros Hn H k E. assert (K : (a mod n =? 0) = true) by (apply mod0_mul; [exact Hn|exists k; exact E]). congruence. Qed.
Lemma mul_small n k c : 0 < n -> k * n = c -> -n < c < n -> c = 0.
Proof. intros Hn E H. assert (k = 0) by nia. subst. lia. Qed.
Lemma div_step n a : 1 < n -> (a + 1) / n = a / n + (if (a + 1) mod n =? 0 then 1 else 0).
Proof.
  intros Hn. pose proof (Z.div_mod a n ltac:(lia)) as E. pose proof (Z.mod_pos_bound a n ltac:(lia)) as B.
  destruct ((a + 1) mod n =? 0) eqn:H.
  - apply mod0_mul in H; [|lia]. destruct H as [k Hk]. rewrite Hk, Z.div_mul by lia.
    assert (k - a / n = 1) by nia. lia.
  - symmetry. rewrite Z.add_0_r. apply (Z.div_unique (a + 1) n (a / n) (a mod n + 1)); [|lia].
    left. split; [lia|]. destruct (Z.eq_dec (a mod n + 1) n) as [E1|E1]; [|lia]. exfalso.
    apply (mod0_not n (a + 1) ltac:(lia) H (a / n + 1)). lia.
Qed.
Lemma div_shift n a k : 0 < n -> (a + k * n) / n = a / n + k.
Proof. intros. apply Z.div_add. lia. Qed.

Section S.
Variables n d : Z.
Hypothesis Hn : 1 < n.
Hypothesis Hd : 0 < d.

Definition ident := (nat * bool)%type.
Definition who (e : pent) : ident := (pid e, pmin e).
Definition seqz := Z -> ident * Z.

(** exchange of the neighbours p and p+1, in all periods *)
Definition sig (p i : Z) : Z :=
  if (i - p) mod n =? 0 then i + 1 else if (i - p - 1) mod n =? 0 then i - 1 else i.

Lemma sig_cases p i :
  ((exists k, i = p + k * n) /\ sig p i = i + 1) \/
  ((exists k, i = p + 1 + k * n) /\ sig p i = i - 1) \/
  ((forall k, i <> p + k * n) /\ (forall k, i <> p + 1 + k * n) /\ sig p i = i).
Proof.
  unfold sig. destruct ((i - p) mod n =? 0) eqn:E1.
  - left. apply mod0_mul in E1; [|lia]. destruct E1 as [k E1]. split; [exists k; lia|reflexivity].
  - destruct ((i - p - 1) mod n =? 0) eqn:E2.
    + right; left. apply mod0_mul in E2; [|lia]. destruct E2 as [k E2]. split; [exists k; lia|reflexivity].
    + right; right. split; [|split; [|reflexivity]]; intros k Ek.
      * apply (mod0_not n _ ltac:(lia) E1 k). lia.
      * apply (mod0_not n _ ltac:(lia) E2 k). lia.
Qed.

Ltac nodiv k1 k2 c := exfalso; assert (c = 0) by (apply (mul_small n (k1 - k2) c); [lia|lia|lia]); lia.

Lemma sig_invol p i : sig p (sig p i) = i.
Proof.
  destruct (sig_cases p i) as [[[k E] S]|[[[k E] S]|[E1 [E2 S]]]]; rewrite S.
  - destruct (sig_cases p (i + 1)) as [[[k' E'] S']|[[_ S']|[_ [E2 S']]]]; [nodiv k' k 1|lia|exfalso; apply (E2 k); lia].
  - destruct (sig_cases p (i - 1)) as [[_ S']|[[[k' E'] S']|[E1 [_ S']]]]; [lia|nodiv k k' 1|exfalso; apply (E1 k); lia].
  - exact S.
Qed.
Lemma sig_per p i k : sig p (i + k * n) = sig p i + k * n.
Proof.
  unfold sig. replace (i + k * n - p) with (i - p + k * n) by lia. replace (i - p + k * n - 1) with (i - p - 1 + k * n) by lia.
  rewrite !Z.mod_add by lia. destruct ((i - p) mod n =? 0); [lia|]. destruct ((i - p - 1) mod n =? 0); lia.
Qed.
(** the only pairs whose order changes are those exchanged *)
Lemma sig_mono p a b : a < b -> sig p a < sig p b \/ (b = a + 1 /\ exists k, a = p + k * n).
Proof.
  intros H. destruct (sig_cases p a) as [[[k E] S]|[[[k E] S]|[E1 [E2 S]]]]; rewrite S;
  destruct (sig_cases p b) as [[[k' E'] S']|[[[k' E'] S']|[E1' [E2' S']]]]; rewrite S'; try lia.
  - destruct (Z.eq_dec b (a + 1)) as [->|]; [right; split; [reflexivity|exists k; exact E]|].
    destruct (Z.eq_dec b (a + 2)) as [->|]; [|lia].
    left. nodiv k' k 1.
  - destruct (Z.eq_dec b (a + 1)) as [->|]; [right; split; [reflexivity|exists k; exact E]|lia].
  - destruct (Z.eq_dec b (a + 1)) as [->|]; [exfalso; apply (E1 k'); lia|lia].
Qed.
(** within a window of one period, an ordinary exchange *)
Lemma sig_window w p i : w <= p -> p + 1 <= w + n - 1 -> w <= i <= w + n - 1 ->
  sig p i = if i =? p then p + 1 else if i =? p + 1 then p else i.
Proof.
  intros H1 H2 H3. destruct (Z.eqb_spec i p) as [->|N].
  { destruct (sig_cases p p) as [[_ S]|[[[k E] S]|[E1 [_ S]]]]; [exact S|nodiv 0 k 1|exfalso; apply (E1 0); lia]. }
  destruct (Z.eqb_spec i (p + 1)) as [->|N'].
  { destruct (sig_cases p (p + 1)) as [[[k E] S]|[[_ S]|[_ [E2 S]]]]; [nodiv k 0 1|lia|exfalso; apply (E2 0); lia]. }
  destruct (sig_cases p i) as [[[k E] S]|[[[k E] S]|[_ [_ S]]]]; [|  |exact S].
  - nodiv k 0 (i - p).
  - nodiv k 0 (i - p - 1).
Qed.

(** ** the sequence *)
Definition cov (X : ident -> Z) (A : seqz) (p : Z) : Z := X (fst (A p)) + d * snd (A p).
Definition periodicA (A : seqz) : Prop := forall p k, A (p + k * n) = (fst (A p), snd (A p) + k).
Definition injA (A : seqz) : Prop := forall p q, fst (A p) = fst (A q) -> q = p + (snd (A q) - snd (A p)) * n.
Definition sortedA (X : ident -> Z) (A : seqz) : Prop := forall p, cov X A p <= cov X A (p + 1).
Definition before (A : seqz) (e : ident) (m : Z) (f : ident) (k : Z) : Prop :=
  exists p q, p < q /\ A p = (e, m) /\ A q = (f, k).
(** no image of e has to pass an image of f *)
Definition noninv (X : ident -> Z) (A : seqz) (e f : ident) : Prop :=
  forall p q, p < q -> (fst (A p) = e /\ fst (A q) = f) \/ (fst (A p) = f /\ fst (A q) = e) -> cov X A p <= cov X A q.

Lemma cov_per X A p k : periodicA A -> cov X A (p + k * n) = cov X A p + k * d.
Proof. intros H. unfold cov. rewrite (H p k). cbn [fst snd]. lia. Qed.
Lemma sortedA_le X A : sortedA X A -> forall p q, p <= q -> cov X A p <= cov X A q.
Proof.
  intros H p q Hpq. replace q with (p + Z.of_nat (Z.to_nat (q - p))) by lia.
  induction (Z.to_nat (q - p)) as [|k IH].
  - replace (p + Z.of_nat 0) with p by lia. lia.
  - specialize (H (p + Z.of_nat k)). replace (p + Z.of_nat (S k)) with (p + Z.of_nat k + 1) by lia. lia.
Qed.
Lemma window_sorted X A w : periodicA A -> (forall q, w <= q < w + n -> cov X A q <= cov X A (q + 1)) -> sortedA X A.
Proof.
  intros HP H p. set (k := (p - w) / n). pose proof (Z.div_mod (p - w) n ltac:(lia)). pose proof (Z.mod_pos_bound (p - w) n ltac:(lia)).
  specialize (H (p - k * n)). replace p with (p - k * n + k * n) by lia. replace (p - k * n + k * n + 1) with (p - k * n + 1 + k * n) by lia.
  rewrite !cov_per by exact HP. assert (w <= p - k * n < w + n) by (unfold k; lia). specialize (H H2). lia.
Qed.

(** exchanges, each of them of two neighbours in the wrong order; with the events *)
Inductive swaps (X : ident -> Z) (H : ident -> bool) : seqz -> list pevent -> seqz -> Prop :=
| sw_nil A A' : (forall i, A' i = A i) -> swaps X H A [] A'
| sw_cons A p A1 x y ev A' :
    cov X A (p + 1) < cov X A p -> who x = fst (A (p + 1)) -> who y = fst (A p) ->
    phas x = H (who x) -> phas y = H (who y) ->
    (forall i, A1 i = A (sig p i)) -> swaps X H A1 ev A' -> swaps X H A ((x, y) :: ev) A'.

Lemma swaps_app X H A ev A1 : swaps X H A ev A1 -> forall ev' A2, swaps X H A1 ev' A2 -> swaps X H A (ev ++ ev') A2.
Proof.
  induction 1 as [A A' E|A p A1 x y ev A' Hlt Hx Hy Hbx Hby E S IH]; intros ev' A2 S2; cbn [app].
  - revert E. induction S2 as [B B' E'|B p B1 x y ev B' Hlt Hx Hy Hbx Hby E' S' IH]; intros E.
    + apply sw_nil. intros i. rewrite E', E. reflexivity.
    + apply (sw_cons X H A p B1); auto.
      * unfold cov in *. rewrite <- !E. exact Hlt.
      * rewrite <- E. exact Hx.
      * rewrite <- E. exact Hy.
      * intros i. rewrite E', E. reflexivity.
  - apply (sw_cons X H A p A1); auto.
Qed.

Lemma sig_periodic A p A1 : periodicA A -> (forall i, A1 i = A (sig p i)) -> periodicA A1.
Proof. intros HP E i k. rewrite !E, sig_per. apply HP. Qed.
Lemma swaps_periodic X H A ev A' : swaps X H A ev A' -> periodicA A -> periodicA A'.
Proof.
  induction 1 as [A A' E|A p A1 x y ev A' Hlt Hx Hy Hbx Hby E S IH]; intros HP.
  - intros i k. rewrite !E. apply HP.
  - apply IH. apply (sig_periodic A p); assumption.
Qed.
Lemma swaps_inj X H A ev A' : swaps X H A ev A' -> injA A -> injA A'.
Proof.
  induction 1 as [A A' E|A p A1 x y ev A' Hlt Hx Hy Hbx Hby E S IH]; intros HI.
  - intros a b. rewrite !E. apply HI.
  - apply IH. intros a b Hab. rewrite !E in *. specialize (HI _ _ Hab).
    assert (K : sig p (sig p b) = sig p (sig p a + (snd (A (sig p b)) - snd (A (sig p a))) * n)) by (rewrite <- HI; reflexivity).
    rewrite sig_per, !sig_invol in K. exact K.
Qed.
Lemma swaps_occ X H A ev A' : swaps X H A ev A' -> forall p, exists q, A' q = A p.
Proof.
  induction 1 as [A A' E|A p A1 x y ev A' Hlt Hx Hy Hbx Hby E S IH]; intros q.
  - exists q. apply E.
  - destruct (IH (sig p q)) as [r Hr]. exists r. rewrite Hr, E, sig_invol. reflexivity.
Qed.
Lemma swaps_occ_back X H A ev A' : swaps X H A ev A' -> forall q, exists p, A' q = A p.
Proof.
  induction 1 as [A A' E|A p A1 x y ev A' Hlt Hx Hy Hbx Hby E S IH]; intros q.
  - exists q. apply E.
  - destruct (IH q) as [r Hr]. exists (sig p r). rewrite Hr, E. reflexivity.
Qed.

(** An order that is new means an event. *)
Lemma swaps_before X H A ev A' : swaps X H A ev A' -> periodicA A -> forall e m f k, before A' e m f k ->
  before A e m f k \/ (exists x y, In (x, y) ev /\ who x = e /\ who y = f /\ phas x = H e /\ phas y = H f).
Proof.
  induction 1 as [A A' E|A p A1 x y ev A' Hlt Hx Hy Hbx Hby E S IH]; intros HP e m f k B.
  - left. destruct B as (p & q & Hpq & Ep & Eq). exists p, q. rewrite <- !E. auto.
  - destruct (IH (sig_periodic A p A1 HP E) e m f k B) as [(a & b & Hab & Ea & Eb)|(x' & y' & Hin & K)].
    + rewrite E in Ea, Eb. destruct (sig_mono p a b Hab) as [Hs|[-> [c Hc]]].
      * left. exists (sig p a), (sig p b). auto.
      * right. exists x, y. split; [left; reflexivity|].
        assert (Sa : sig p a = p + 1 + c * n).
        { destruct (sig_cases p a) as [[_ S1]|[[[k' E'] S1]|[E1 _]]]; [lia|nodiv c k' 1|exfalso; exact (E1 c Hc)]. }
        assert (Sb : sig p (a + 1) = p + c * n).
        { destruct (sig_cases p (a + 1)) as [[[k' E'] S1]|[[_ S1]|[_ [E2 _]]]]; [nodiv k' c 1|lia|exfalso; apply (E2 c); lia]. }
        rewrite Sa, HP in Ea. rewrite Sb, HP in Eb. apply (f_equal fst) in Ea, Eb. cbn [fst] in Ea, Eb.
        rewrite Hx, Ea in *. rewrite Hy, Eb in *. rewrite Hbx, Hby. auto.
    + right. exists x', y'. split; [right; exact Hin|exact K].
Qed.

(** What need not be exchanged never is. *)
Lemma swaps_noninv X H A ev A' e f : swaps X H A ev A' -> periodicA A -> noninv X A e f -> noninv X A' e f.
Proof.
  induction 1 as [A A' E|A p A1 x y ev A' Hlt Hx Hy Hbx Hby E S IH]; intros HP HN.
  - intros a b Hab Hef. unfold cov in *. rewrite !E in *. exact (HN a b Hab Hef).
  - apply IH; [apply (sig_periodic A p); assumption|]. intros a b Hab Hef. rewrite !E in Hef.
    unfold cov. rewrite !E. fold (cov X A (sig p a)) (cov X A (sig p b)).
    destruct (sig_mono p a b Hab) as [Hs|[-> [c Hc]]]; [exact (HN _ _ Hs Hef)|].
    assert (Sa : sig p a = p + 1 + c * n).
    { destruct (sig_cases p a) as [[_ S1]|[[[k' E'] S1]|[E1 _]]]; [lia|nodiv c k' 1|exfalso; exact (E1 c Hc)]. }
    assert (Sb : sig p (a + 1) = p + c * n).
    { destruct (sig_cases p (a + 1)) as [[[k' E'] S1]|[[_ S1]|[_ [E2 _]]]]; [nodiv k' c 1|lia|exfalso; apply (E2 c); lia]. }
    rewrite Sa, Sb, !cov_per by exact HP. lia.
Qed.
End S.
