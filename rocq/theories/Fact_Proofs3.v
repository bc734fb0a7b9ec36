(** Places of new particles, the probe of the collider, and DomainLimiter. *)
From Coq Require Import Reals List ZArith Bool Arith Lra Lia.
From Verif Require Import Vec_Model Vec_Proofs Fact_Model Fact_Spec Fact_Proofs.
Import ListNotations.
Local Open Scope R_scope.

(** ** overlaps *)
Lemma attempts_spec c rnd probe new r n : forall sd x sd', attempts c rnd probe new r n sd = (Some x, sd') ->
  probe x r = false /\ collides new x r = false /\ exists sd1, pick c rnd sd1 r = (x, sd').
Proof.
  induction n as [|n IH]; intros sd x sd' E; cbn [attempts] in E; [discriminate|]. destruct (pick c rnd sd r) as [y sd1] eqn:Ep.
  destruct (probe y r) eqn:E1; cbn [negb andb] in E; [exact (IH _ _ _ E)|]. destruct (collides new y r) eqn:E2; cbn [negb] in E; [exact (IH _ _ _ E)|].
  injection E as <- <-. split; [exact E1|]. split; [exact E2|]. eauto.
Qed.
Lemma place_spec c rnd probe new r sd x sd' : (0 <= maxAttempt c)%Z -> place c rnd probe new r sd = (Some x, sd') ->
  probe x r = false /\ collides new x r = false /\ exists sd1, pick c rnd sd1 r = (x, sd').
Proof. intros M. unfold place. replace (maxAttempt c <? 0)%Z with false by (symmetry; apply Z.ltb_ge; exact M). apply attempts_spec. Qed.
Lemma collides_spec new x r b : collides new x r = false -> In b new -> bradius b + r <= norm (vsub (bcenter b) x).
Proof.
  unfold collides. induction new as [|b0 new IH]; cbn [existsb]; intros H [].
  - subst b0. destruct (Rlt_dec _ _) as [L|L]; [discriminate|]. lra.
  - apply orb_false_iff in H. apply IH; tauto.
Qed.
Lemma pairwise_snoc P l b : pairwise P l -> (forall b', In b' l -> P b' b) -> pairwise P (l ++ [b]).
Proof.
  induction l as [|a l IH]; cbn [pairwise app]; intros H K; [split; [intros b' []|exact I]|]. destruct H as (H1 & H2). split.
  - intros b' [J|[<-|[]]]%in_app_or; [auto|]. apply K. left. reflexivity.
  - apply IH; [exact H2|]. intros b' J. apply K. right. exact J.
Qed.
Lemma clear_of c rnd probe junk dt fuel s s' : (0 <= maxAttempt c)%Z -> outcome (action c rnd probe junk dt fuel s) s' ->
  exists new, made s' = made s ++ new /\ pairwise no_overlap new /\ (forall b, In b new -> probe (bcenter b) (bradius b) = false) /\ (forall b, In b new -> exists sd, fst (pick c rnd sd (bradius b)) = bcenter b).
Proof.
  intros M. apply (action_inv c rnd probe junk dt fuel (fun new s' => made s' = made s ++ new /\ pairwise no_overlap new /\ (forall b, In b new -> probe (bcenter b) (bradius b) = false) /\ (forall b, In b new -> exists sd, fst (pick c rnd sd (bradius b)) = bcenter b))).
  - intros new s1 r id sd sd' x rho _ _ Ep _ (A & B & C & D). destruct (place_spec _ _ _ _ _ _ _ _ M Ep) as (P1 & P2 & sd1 & P3).
    unfold add. cbn [made]. split; [rewrite A, app_assoc; reflexivity|]. split; [|split].
    + apply pairwise_snoc; [exact B|]. intros b' I. apply (collides_spec _ _ _ _ P2 I).
    + intros b [I|[<-|[]]]%in_app_or; [auto|exact P1].
    + intros b [I|[<-|[]]]%in_app_or; [auto|]. exists sd1. cbn [born bradius bcenter]. rewrite P3. reflexivity.
  - intros new s1 sd H. exact H.
  - intros new s1 sd H. exact H.
  - unfold throwing. cbn [made pairwise]. rewrite app_nil_r. split; [reflexivity|]. split; [exact I|]. split; intros b [].
  - intros s0 s1 _ (_ & _ & _ & _ & _ & E & _) _ _ _ _ _. rewrite E, app_nil_r. split; [reflexivity|]. split; [exact I|]. split; intros b [].
Qed.

(** ** regions *)
Lemma picked c s s' b : (0 <= maxAttempt c)%Z -> history c s s' -> In b (made s') -> In b (made s) \/ exists rnd sd, randoms rnd /\ bcenter b = fst (pick c rnd sd (bradius b)).
Proof.
  intros M H. induction H as [|rnd probe junk dt fuel s1 s2 H IH R O]; [auto|]. destruct (clear_of _ _ _ _ _ _ _ _ M O) as (new & E & _ & _ & D).
  rewrite E. intros [I|I]%in_app_or; [auto|]. destruct (D _ I) as (sd & X). right. exists rnd, sd. auto.
Qed.
Lemma dec_a center x k n : vsub (vadd (vadd center x) (smul k n)) center = vadd x (smul k n).
Proof. destruct center as [a1 a2 a3], x as [b1 b2 b3], n as [c1 c2 c3]. unfold vsub, vadd, smul. cbn [vx vy vz]. f_equal; ring. Qed.
Lemma dec_b x k n : vsub (vadd x (smul k n)) (smul k n) = x.
Proof. destruct x as [b1 b2 b3], n as [c1 c2 c3]. unfold vsub, vadd, smul. cbn [vx vy vz]. f_equal; ring. Qed.
Lemma dot_lin x k n m : dot (vadd x (smul k n)) m = dot x m + k * dot n m.
Proof. destruct x as [b1 b2 b3], n as [c1 c2 c3], m as [d1 d2 d3]. unfold dot, vadd, smul. cbn [vx vy vz]. ring. Qed.
Lemma circular_region q n center rad len rnd sd r : randoms rnd -> qnorm2 q = 1 -> qrot q (V 0 0 1) = n -> 0 <= len -> r <= rad ->
  let d := vsub (fst (circular q n center rad len rnd sd r)) center in
  - (len / 2) <= dot d n <= len / 2 /\ norm (vsub d (smul (dot d n) n)) + r <= rad.
Proof.
  intros R Q N L Le. unfold circular. cbn [fst]. cbv zeta. rewrite dec_a. rewrite dot_lin.
  set (v := V (cos (rnd sd * 2 * PI) * (rnd (S sd) * (rad - r))) (sin (rnd sd * 2 * PI) * (rnd (S sd) * (rad - r))) 0).
  assert (D1 : dot (qrot q v) n = 0). { rewrite <- N, qrot_dot by exact Q. unfold v, dot. cbn [vx vy vz]. ring. }
  assert (D2 : dot n n = 1). { rewrite <- N, qrot_dot by exact Q. unfold dot. cbn [vx vy vz]. ring. }
  rewrite D1, D2. replace (0 + (rnd (S (S sd)) - 1 / 2) * len * 1) with ((rnd (S (S sd)) - 1 / 2) * len) by ring. rewrite dec_b.
  pose proof (R (S (S sd))) as (U1 & U2). pose proof (R (S sd)) as (W1 & W2). split.
  - split.
    + pose proof (Rmult_le_pos (rnd (S (S sd))) len U1 L). lra.
    + pose proof (Rmult_le_compat_r len (rnd (S (S sd))) 1 L ltac:(lra)). lra.
  - unfold norm. rewrite qrot_norm by exact Q.
    replace (norm2 v) with ((rnd (S sd) * (rad - r)) * (rnd (S sd) * (rad - r))).
    + rewrite sqrt_square; [|apply Rmult_le_pos; lra]. pose proof (Rmult_le_compat_r (rad - r) (rnd (S sd)) 1 ltac:(lra) ltac:(lra)). lra.
    + unfold v, norm2, dot. cbn [vx vy vz]. pose proof (sin2_cos2 (rnd sd * 2 * PI)) as T. unfold Rsqr in T.
      remember (cos (rnd sd * 2 * PI)) as co. remember (sin (rnd sd * 2 * PI)) as si. remember (rnd (S sd) * (rad - r)) as w.
      transitivity ((si * si + co * co) * (w * w)); [rewrite T; ring|ring].
Qed.
Lemma vsub_back a x : vsub (vadd a x) a = x.
Proof. destruct a as [a1 a2 a3], x as [b1 b2 b3]. unfold vsub, vadd. cbn [vx vy vz]. f_equal; ring. Qed.
Lemma half u e : 0 <= u < 1 -> 0 <= e -> - e <= (u - 1 / 2) * 2 * e <= e.
Proof. intros (A & B) E. pose proof (Rmult_le_pos u e A E). pose proof (Rmult_le_compat_r e u 1 E ltac:(lra)). lra. Qed.
Lemma boxed_region q center ext rnd sd r : randoms rnd -> qnorm2 q = 1 -> 0 <= vx ext -> 0 <= vy ext -> 0 <= vz ext ->
  let d := qrot (qconj q) (vsub (fst (boxed q center ext rnd sd r)) center) in
  - vx ext <= vx d <= vx ext /\ - vy ext <= vy d <= vy ext /\ - vz ext <= vz d <= vz ext.
Proof.
  intros R Q X Y Z. unfold boxed. cbn [fst]. cbv zeta. rewrite vsub_back, qrot_conj_l by exact Q. cbn [vx vy vz]. split; [|split]; apply half; auto.
Qed.

(** ** the probe *)
Lemma apart_spec e lo hi : apart e lo hi = false <->
  vx lo <= vx (bmax e) - sweep e + vx (disp e) /\ vx (bmin e) + sweep e + vx (disp e) <= vx hi /\ vy lo <= vy (bmax e) - sweep e + vy (disp e) /\ vy (bmin e) + sweep e + vy (disp e) <= vy hi
  /\ vz lo <= vz (bmax e) - sweep e + vz (disp e) /\ vz (bmin e) + sweep e + vz (disp e) <= vz hi.
Proof.
  unfold apart. rewrite !orb_false_iff. repeat (destruct (Rlt_dec _ _)); split; intros H; try (repeat split; lra); try (exfalso; lra); try (exfalso; intuition discriminate); intuition reflexivity.
Qed.
Lemma vec_eqs a b : a = b -> vx a = vx b /\ vy a = vy b /\ vz a = vz b.
Proof. intros ->. auto. Qed.
Lemma stands_apart e p r lo hi : stands_for e p r -> (apart e lo hi = false <-> boxes_meet (fst (cube p r)) (snd (cube p r)) lo hi).
Proof.
  intros (_ & _ & _ & _ & A & B). apply vec_eqs in A. apply vec_eqs in B. unfold vadd, vsub in A, B. cbn [vx vy vz] in A, B. rewrite apart_spec. unfold boxes_meet, cube. cbn [fst snd]. unfold vadd, vsub. cbn [vx vy vz]. lra.
Qed.
Lemma probe_sound l lo hi i : In i (probeBB l lo hi) -> exists e, In e l /\ eid e = i /\ apart e lo hi = false /\ isMin e = true /\ hasBB e = true /\ exists_ e = true.
Proof.
  induction l as [|e l IH]; cbn [probeBB]; [intros []|]. destruct (Rlt_dec _ _); [intros []|].
  destruct (isMin e && hasBB e && exists_ e && negb (apart e lo hi)) eqn:E.
  - intros [<-|I].
    + exists e. rewrite !andb_true_iff in E. destruct E as (((A & B) & C) & D). apply negb_true_iff in D. split; [left; reflexivity|]. auto.
    + destruct (IH I) as (e' & J & K). exists e'. split; [right; exact J|exact K].
  - intros I. destruct (IH I) as (e' & J & K). exists e'. split; [right; exact J|exact K].
Qed.
Lemma probe_complete l lo hi e p r : ordered l -> In e l -> stands_for e p r -> 0 <= sweep e + vx (disp e) -> boxes_meet (fst (cube p r)) (snd (cube p r)) lo hi -> In (eid e) (probeBB l lo hi).
Proof.
  intros Or I S D M. assert (A : apart e lo hi = false) by (apply (stands_apart e p r lo hi S); exact M).
  assert (C : coord e <= vx hi).
  { apply apart_spec in A. destruct S as (_ & _ & _ & Ec & _). rewrite Ec. lra. }
  induction l as [|e0 l IH]; [destruct I|]. cbn [probeBB]. destruct Or as (O1 & O2). destruct I as [->|I].
  - destruct (Rlt_dec _ _); [lra|]. destruct S as (S1 & S2 & S3 & _). rewrite S1, S2, S3, A. cbn [andb negb]. left. reflexivity.
  - destruct (Rlt_dec _ _) as [L|L]; [specialize (O1 e I); lra|]. destruct (_ && negb (apart e0 lo hi)); [right|]; apply IH; auto.
Qed.
Lemma coordinate_norm v : Rabs (vx v) <= norm v /\ Rabs (vy v) <= norm v /\ Rabs (vz v) <= norm v.
Proof.
  unfold norm, norm2, dot. destruct v as [a b c]. cbn [vx vy vz]. pose proof (Rle_0_sqr a). pose proof (Rle_0_sqr b). pose proof (Rle_0_sqr c). unfold Rsqr in *.
  split; [|split]; rewrite <- sqrt_Rsqr_abs; apply sqrt_le_1_alt; unfold Rsqr; lra.
Qed.
Lemma probe_clear l x r e p rb : ordered l -> In e l -> stands_for e p rb -> 0 <= sweep e + vx (disp e) -> probeBB l (fst (cube x r)) (snd (cube x r)) = [] -> r + rb <= norm (vsub x p).
Proof.
  intros Or I S D E. destruct (Rle_lt_dec (r + rb) (norm (vsub x p))) as [L|L]; [exact L|exfalso].
  enough (X : In (eid e) []) by destruct X. rewrite <- E. apply (probe_complete l _ _ e p rb Or I S D).
  destruct (coordinate_norm (vsub x p)) as (A & B & C). unfold boxes_meet, cube. cbn [fst snd]. revert A B C. unfold vsub, vadd. cbn [vx vy vz]. intros A B C.
  assert (A' := Rle_lt_trans _ _ _ A L). assert (B' := Rle_lt_trans _ _ _ B L). assert (C' := Rle_lt_trans _ _ _ C L).
  apply Rabs_def2 in A'. apply Rabs_def2 in B'. apply Rabs_def2 in C'. lra.
Qed.

(** ** DomainLimiter *)
Lemma outside_spec l p : outside l p = true <-> left_box l p.
Proof.
  unfold outside, left_box, below, above. rewrite !orb_true_iff. split.
  - intros H. destruct (px p) as [x|], (py p) as [y|], (pz p) as [z|]; repeat (destruct (Rlt_dec _ _)); intuition (try discriminate);
    first [left; eexists; split; [reflexivity|lra] | right; left; eexists; split; [reflexivity|lra] | right; right; eexists; split; [reflexivity|lra]].
  - intros [(x & -> & [L|L])|[(x & -> & [L|L])|(x & -> & [L|L])]]; destruct (Rlt_dec _ _) as [K|K] in |- *; try (exfalso; lra); auto 10.
    all: repeat (destruct (Rlt_dec _ _); try (exfalso; lra)); auto 10.
Qed.
Lemma number_left l p : number p -> (left_box l p <-> ~ within l p).
Proof.
  intros (A & B & C). destruct p as [[x|] [y|] [z|]]; cbn [px py pz] in *; try congruence. unfold left_box, within. cbn [px py pz]. split.
  - intros H ((x' & E1 & X) & (y' & E2 & Y) & (z' & E3 & Z)). injection E1 as <-. injection E2 as <-. injection E3 as <-.
    destruct H as [(x' & E & H)|[(x' & E & H)|(x' & E & H)]]; injection E as <-; lra.
  - intros H. destruct (Rlt_dec x (vx (lo l))); [left; eauto|]. destruct (Rlt_dec (vx (hi l)) x); [left; eauto|].
    destruct (Rlt_dec y (vy (lo l))); [right; left; eauto|]. destruct (Rlt_dec (vy (hi l)) y); [right; left; eauto|].
    destruct (Rlt_dec z (vz (lo l))); [right; right; eauto|]. destruct (Rlt_dec (vz (hi l)) z); [right; right; eauto|].
    exfalso. apply H. split; [exists x; split; [reflexivity|lra]|]. split; [exists y; split; [reflexivity|lra]|exists z; split; [reflexivity|lra]].
Qed.
Lemma deletable_spec l b : deletable l b = true <-> selected l b /\ left_box l (bpos b).
Proof.
  unfold deletable, selected. rewrite !andb_true_iff, negb_true_iff, outside_spec, andb_false_iff, Z.ltb_ge, Z.eqb_neq.
  destruct (clumpOf b), (bkind b); intuition congruence.
Qed.
Lemma deletable_box l l' b : lo l' = lo l -> hi l' = hi l -> lmask l' = lmask l -> deletable l' b = deletable l b.
Proof. intros A B C. unfold deletable, outside. rewrite A, B, C. reflexivity. Qed.
Lemma collect_spec B : forall n i l o l', collect n i B l = (o, l') ->
  NoDup o /\ (forall k, In k o <-> (i <= k < i + n)%nat /\ exists b, B k = Some b /\ deletable l b = true)
  /\ lo l' = lo l /\ hi l' = hi l /\ lmask l' = lmask l /\ nDeleted l' = (nDeleted l + Z.of_nat (length o))%Z /\ mDeleted l' = mDeleted l + sum_of (mass_of B) o /\ vDeleted l' = vDeleted l + sum_of (volume_of B) o.
Proof.
  induction n as [|n IH]; intros i l o l' E; cbn [collect] in E.
  - injection E as <- <-. cbn [sum_of length In]. split; [constructor|]. split; [intros k; split; [intros []|intros (H & _); lia]|]. repeat (split; [reflexivity|]). split; [lia|]. lra.
  - assert (Keep : forall o l', collect n (S i) B l = (o, l') -> (forall b, B i = Some b -> deletable l b = false) ->
       NoDup o /\ (forall k, In k o <-> (i <= k < i + S n)%nat /\ exists b, B k = Some b /\ deletable l b = true)
       /\ lo l' = lo l /\ hi l' = hi l /\ lmask l' = lmask l /\ nDeleted l' = (nDeleted l + Z.of_nat (length o))%Z /\ mDeleted l' = mDeleted l + sum_of (mass_of B) o /\ vDeleted l' = vDeleted l + sum_of (volume_of B) o).
    { intros o1 l1 E1 ND. destruct (IH _ _ _ _ E1) as (A1 & A2 & A3). split; [exact A1|]. split; [|exact A3]. intros k. rewrite A2. split; intros (H1 & b & H2 & H3).
      - split; [lia|eauto]. - split; [|eauto]. destruct (Nat.eq_dec k i) as [->|N]; [rewrite (ND b H2) in H3; discriminate|lia]. }
    destruct (B i) as [b|] eqn:Eb; [|apply Keep; [exact E|congruence]].
    destruct (deletable l b) eqn:Ed; [|apply Keep; [exact E|intros b' X; injection X as <-; exact Ed]].
    destruct (collect n (S i) B (counted l b)) as [o1 l1] eqn:E1. injection E as <- <-. destruct (IH _ _ _ _ E1) as (A1 & A2 & A3 & A4 & A5 & A6 & A7 & A8).
    split; [|split].
    + constructor; [|exact A1]. rewrite A2. intros (H & _). lia.
    + intros k. cbn [In]. rewrite A2. split.
      * intros [<-|(H1 & b' & H2 & H3)]; [split; [lia|eauto]|]. split; [lia|]. exists b'. split; [exact H2|]. rewrite <- H3. symmetry. apply deletable_box; reflexivity.
      * intros (H1 & b' & H2 & H3). destruct (Nat.eq_dec i k) as [X|N]; [left; exact X|]. right. split; [lia|]. exists b'. split; [exact H2|]. rewrite <- H3. apply deletable_box; reflexivity.
    + unfold counted in A3, A4, A5, A6, A7, A8. cbn [lo hi lmask nDeleted mDeleted vDeleted] in *. rewrite A3, A4, A5, A6, A7, A8. repeat (split; [reflexivity|]).
      cbn [length sum_of]. unfold mass_of at 2, volume_of at 2. rewrite Eb. split; [lia|]. split; [lra|]. destruct (bkind b); try lra. unfold sphereVolume. ring_simplify. lra.
Qed.
Definition members_of (B : bodies) (k : nat) : list nat := match B k with Some b => match bkind b with Clump ms => ms | _ => [] end | None => [] end.
Definition gone (B : bodies) (d : list nat) (i : nat) : bool := existsb (fun k => Nat.eqb i k || existsb (Nat.eqb i) (members_of B k)) d.
Lemma gone_spec B d i : gone B d i = true <-> exists k, In k d /\ (i = k \/ In i (members_of B k)).
Proof.
  unfold gone. rewrite existsb_exists. split; intros (k & H & K); exists k; (split; [exact H|]).
  - apply orb_true_iff in K. destruct K as [K|K]; [left; apply Nat.eqb_eq; exact K|right]. apply existsb_exists in K. destruct K as (j & J & X). apply Nat.eqb_eq in X. subst. exact J.
  - apply orb_true_iff. destruct K as [->|K]; [left; apply Nat.eqb_refl|right]. apply existsb_exists. exists i. split; [exact K|apply Nat.eqb_refl].
Qed.
Lemma erase_fold n B o : consistent n B -> (forall k, In k o -> exists b, B k = Some b /\ clumpOf b = None) ->
  forall d C, (forall i, C i = if gone B d i then None else B i) -> (forall k, In k d -> exists b, B k = Some b) -> NoDup (d ++ o) -> forall i, fold_left erase o C i = if gone B (d ++ o) i then None else B i.
Proof.
  intros Co. induction o as [|k o IH]; intros Ho d C Hc Hd Nd i; cbn [fold_left]; [rewrite app_nil_r; apply Hc|].
  destruct (Ho k (or_introl eq_refl)) as (b & Eb & Cb).
  replace (d ++ k :: o) with ((d ++ [k]) ++ o) in * by (rewrite <- app_assoc; reflexivity).
  apply IH; [intros k' I'; apply Ho; right; exact I'| | |exact Nd].
  - intros j. assert (Gk : gone B d k = false).
    { destruct (gone B d k) eqn:X; [|reflexivity]. apply gone_spec in X. destruct X as (m & M1 & [->|M2]).
      - exfalso. rewrite <- app_assoc in Nd. cbn [app] in Nd. apply NoDup_remove_2 in Nd. apply Nd. apply in_or_app. left. exact M1.
      - unfold members_of in M2. destruct (B m) as [c|] eqn:Em; [|destruct M2]. destruct (bkind c) as [|ms|] eqn:Ek; try destruct M2; destruct Co as (_ & _ & Co);
        (destruct (Co m c ms k Em Ek ltac:(cbn [In]; auto)) as (b' & X1 & X2); congruence). }
    assert (Ck : C k = Some b) by (rewrite Hc, Gk; exact Eb).
    assert (Gj : gone B (d ++ [k]) j = gone B d j || (Nat.eqb j k || existsb (Nat.eqb j) (members_of B k))).
    { unfold gone. rewrite existsb_app. cbn [existsb]. rewrite orb_false_r. reflexivity. }
    rewrite Gj. unfold erase. rewrite Ck. unfold members_of. rewrite Eb. destruct (bkind b) as [r|ms|].
    + cbn [existsb]. rewrite orb_false_r. rewrite Hc. destruct (Nat.eqb j k), (gone B d j); reflexivity.
    + rewrite Hc. destruct (Nat.eqb j k), (gone B d j), (existsb (Nat.eqb j) ms); reflexivity.
    + cbn [existsb]. rewrite orb_false_r. rewrite Hc. destruct (Nat.eqb j k), (gone B d j); reflexivity.
  - intros k' [I'|[<-|[]]]%in_app_or; [auto|eauto].
Qed.
(** which bodies are deleted, and what is counted *)
Lemma limiter_exact n B l B' l' : consistent n B -> limit n B l = (B', l') -> exists o,
  NoDup o /\ (forall i, In i o <-> exists b, B i = Some b /\ selected l b /\ left_box l (bpos b))
  /\ (forall i, B' i = None <-> B i = None \/ In i o \/ (exists b j, B i = Some b /\ clumpOf b = Some j /\ In j o))
  /\ (forall i b, B' i = Some b -> B i = Some b)
  /\ lo l' = lo l /\ hi l' = hi l /\ lmask l' = lmask l
  /\ nDeleted l' = (nDeleted l + Z.of_nat (length o))%Z /\ mDeleted l' = mDeleted l + sum_of (mass_of B) o /\ vDeleted l' = vDeleted l + sum_of (volume_of B) o.
Proof.
  intros Co. unfold limit. destruct (collect n 0 B l) as [o l1] eqn:E. intros X. injection X as <- <-. exists o.
  destruct (collect_spec _ _ _ _ _ _ E) as (A1 & A2 & A3 & A4 & A5 & A6).
  assert (In_o : forall i, In i o <-> exists b, B i = Some b /\ selected l b /\ left_box l (bpos b)).
  { intros i. rewrite A2. split; intros H.
    - destruct H as (_ & b & H2 & H3). exists b. rewrite deletable_spec in H3. tauto.
    - destruct H as (b & H2 & H3). split; [|exists b; rewrite deletable_spec; tauto]. destruct Co as (Co & _). destruct (Nat.lt_ge_cases i n) as [L|L]; [lia|]. rewrite (Co i L) in H2. discriminate. }
  assert (F : forall i, fold_left erase o B i = if gone B o i then None else B i).
  { intros i. apply (erase_fold n B o Co) with (d := []).
    - intros k I. apply In_o in I. destruct I as (b & H1 & (_ & H2 & _) & _). eauto.
    - intros j. reflexivity.
    - intros k [].
    - exact A1. }
  split; [exact A1|]. split; [exact In_o|]. split; [|split; [|auto]].
  - intros i. rewrite F. destruct (gone B o i) eqn:G.
    + split; [intros _|reflexivity]. apply gone_spec in G. destruct G as (k & K & [->|M]); [auto|]. right. right. unfold members_of in M.
      destruct (B k) as [c|] eqn:Ek; [|destruct M]. destruct (bkind c) as [|ms|] eqn:Ekind; try destruct M. all: destruct Co as (_ & _ & Co); destruct (Co k c ms i Ek Ekind ltac:(cbn [In]; auto)) as (b & B1 & B2); eauto.
    + split; [auto|]. intros [H|[H|(b & j & H1 & H2 & H3)]]; [exact H| |]; exfalso.
      * enough (gone B o i = true) by congruence. apply gone_spec. exists i. auto.
      * enough (gone B o i = true) by congruence. apply gone_spec. exists j. split; [exact H3|]. right. destruct Co as (_ & Co & _). destruct (Co i b j H1 H2) as (c & ms & C1 & C2 & C3 & _).
        unfold members_of. rewrite C1, C2. exact C3.
  - intros i b. rewrite F. destruct (gone B o i); [discriminate|auto].
Qed.
(** a place that is not a number is never outside *)
Lemma nan_never n B l B' l' i b : consistent n B -> limit n B l = (B', l') -> B i = Some b -> clumpOf b = None -> bpos b = P3 None None None -> B' i = Some b.
Proof.
  intros Co E Hb Hc Hp. destruct (limiter_exact _ _ _ _ _ Co E) as (o & _ & A & C & D & _).
  destruct (B' i) as [b'|] eqn:Eb; [rewrite <- Hb; symmetry; apply D; exact Eb|]. exfalso. apply C in Eb. destruct Eb as [X|[X|(b' & j & X1 & X2 & _)]]; [congruence| |congruence].
  apply A in X. destruct X as (b' & X1 & _ & X2). rewrite Hb in X1. injection X1 as <-. rewrite Hp in X2. destruct X2 as [(x & X & _)|[(x & X & _)|(x & X & _)]]; discriminate.
Qed.
