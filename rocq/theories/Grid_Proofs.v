(** Proofs about the grid collider. *)
From Coq Require Import List ZArith Bool Arith Reals Lra Lia.
From Verif Require Import Vec_Model Vec_Proofs Cell_Proofs Grid_Model Grid_Spec.
Import ListNotations.
Local Open Scope R_scope.

(** ** interactions *)
Lemma of_pair_spec a b i : of_pair a b i = true <-> (a1 i = a /\ a2 i = b) \/ (a1 i = b /\ a2 i = a).
Proof. unfold of_pair. rewrite orb_true_iff, !andb_true_iff, !Nat.eqb_eq. tauto. Qed.
Lemma has_known is a b : has is a b = true <-> known is a b.
Proof. unfold has, known. rewrite existsb_exists. split; intros (i & H & E); exists i; split; auto; apply of_pair_spec; exact E. Qed.
Lemma see_known it a b is x y : known is x y -> known (see it a b is) x y.
Proof.
  intros (i & H & E). exists (if of_pair a b i then mkI (a1 i) (a2 i) it else i). split; [unfold see; apply in_map_iff; exists i; auto|]. destruct (of_pair a b i); exact E.
Qed.
Lemma visit_keeps may it is p x y : known is x y -> known (visit may it is p) x y.
Proof.
  intros H. unfold visit. destruct p as [a b]. destruct (a =? b)%nat; [exact H|]. destruct (has is a b); [apply see_known; exact H|]. destruct (may a b); [|exact H].
  destruct H as (i & H & E). exists i. split; [apply in_or_app; left; exact H|exact E].
Qed.
Lemma visit_adds may it is a b : a <> b -> may a b = true -> known (visit may it is (a, b)) a b.
Proof.
  intros Hn Hm. unfold visit. apply Nat.eqb_neq in Hn. rewrite Hn. destruct (has is a b) eqn:E; [apply see_known; apply has_known; exact E|]. rewrite Hm. exists (mkI a b (-1)). split; [apply in_or_app; right; left; reflexivity|left; split; reflexivity].
Qed.
Lemma collide_keeps may it ps : forall is x y, known is x y -> known (fold_left (visit may it) ps is) x y.
Proof. induction ps as [|p ps IH]; intros is x y H; cbn [fold_left]; [exact H|]. apply IH. apply visit_keeps. exact H. Qed.
Lemma collide_adds may it ps : forall is a b, In (a, b) ps -> a <> b -> may a b = true -> known (fold_left (visit may it) ps is) a b.
Proof. induction ps as [|p ps IH]; intros is a b Hi Hn Hm; [destruct Hi|]. destruct Hi as [-> |Hi]; cbn [fold_left]; [apply collide_keeps; apply visit_adds; assumption|apply IH; assumption]. Qed.
Lemma pairs_in v : forall a b, In a v -> In b v -> a <> b -> In (a, b) (pairs v) \/ In (b, a) (pairs v).
Proof.
  induction v as [|x v IH]; intros a b Ha Hb Hn; [destruct Ha|]. cbn [pairs]. destruct Ha as [<- |Ha], Hb as [<- |Hb].
  - contradiction.
  - left. apply in_or_app. left. apply in_map. exact Hb.
  - right. apply in_or_app. left. apply in_map. exact Ha.
  - destruct (IH a b Ha Hb Hn) as [H|H]; [left|right]; apply in_or_app; right; exact H.
Qed.
Lemma pairs_from v : forall a b, In (a, b) (pairs v) -> In a v /\ In b v.
Proof. induction v as [|x v IH]; intros a b H; [destruct H|]. cbn [pairs] in H. apply in_app_or in H. destruct H as [H|H]; [apply in_map_iff in H; destruct H as (y & E & Hy); injection E as <- <-; split; [left; reflexivity|right; exact Hy]|]. destruct (IH a b H). split; right; assumption. Qed.
Lemma known_sym is a b : known is a b -> known is b a.
Proof. intros (i & H & E). exists i. split; [exact H|tauto]. Qed.
Lemma updateCollisions_adds may it data is v a b : (forall x y, may x y = may y x) -> In v data -> In a v -> In b v -> a <> b -> may a b = true -> known (updateCollisions may it data is) a b.
Proof.
  intros Sy Hv Ha Hb Hn Hm. unfold updateCollisions. destruct (pairs_in v a b Ha Hb Hn) as [H|H].
  - apply collide_adds; [apply in_flat_map; exists v; auto|exact Hn|exact Hm].
  - apply known_sym. apply collide_adds; [apply in_flat_map; exists v; auto|intros E; apply Hn; symmetry; exact E|rewrite Sy; exact Hm].
Qed.
(** nothing is found but pairs in a common cell *)
Lemma visit_from may it is p x y : known (visit may it is p) x y -> known is x y \/ (p = (x, y) \/ p = (y, x)).
Proof.
  unfold visit. destruct p as [a b]. destruct (a =? b)%nat; [tauto|]. destruct (has is a b).
  - intros (i & H & E). left. unfold see in H. apply in_map_iff in H. destruct H as (j & <- & Hj). exists j. split; [exact Hj|]. destruct (of_pair a b j); exact E.
  - destruct (may a b); [|tauto]. intros (i & H & E). apply in_app_or in H. destruct H as [H|[<- |[]]]; [left; exists i; auto|]. right. cbn [a1 a2] in E. destruct E as [(-> & ->)|(-> & ->)]; auto.
Qed.
Lemma collide_from may it ps : forall is x y, known (fold_left (visit may it) ps is) x y -> known is x y \/ In (x, y) ps \/ In (y, x) ps.
Proof.
  induction ps as [|p ps IH]; intros is x y H; cbn [fold_left] in H; [left; exact H|]. destruct (IH _ _ _ H) as [H'|[H'|H']]; [|right; left; right; exact H'|right; right; right; exact H'].
  destruct (visit_from _ _ _ _ _ _ H') as [K|[-> | ->]]; [left; exact K|right; left; left; reflexivity|right; right; left; reflexivity].
Qed.

(** ** cells *)
Lemma in_range a b z : In z (range a b) <-> (a <= z <= b)%Z.
Proof.
  unfold range. rewrite in_map_iff. split.
  - intros (k & <- & H). apply in_seq in H. lia.
  - intros H. exists (Z.to_nat (z - a)). split; [lia|]. apply in_seq. lia.
Qed.
Lemma in_cells g p r x y z : In (x, y, z) (cells_of g p r) <->
  (floor ((vx p - r - vy (mn g)) / step g) <= x <= floor ((vx p + r - vy (mn g)) / step g) /\
   floor ((vy p - r - vy (mn g)) / step g) <= y <= floor ((vy p + r - vy (mn g)) / step g) /\
   floor ((vz p - r - vy (mn g)) / step g) <= z <= floor ((vz p + r - vy (mn g)) / step g))%Z /\
  norm2 (vsub p (ccp g (x, y, z) (pt2int g p) p)) <= r * r.
Proof.
  unfold cells_of. cbn [pt2int vsub vadd vx vy vz]. rewrite filter_In. rewrite in_flat_map. split.
  - intros ((x' & Hx & H) & Hd). apply in_flat_map in H. destruct H as (y' & Hy & H). apply in_map_iff in H. destruct H as (z' & E & Hz). injection E as -> -> ->. apply in_range in Hx, Hy, Hz.
    split; [repeat split; lia|]. destruct (Rle_dec _ _) as [L|L]; [exact L|discriminate].
  - intros ((Hx & Hy & Hz) & Hd). split.
    + exists x. split; [apply in_range; exact Hx|]. apply in_flat_map. exists y. split; [apply in_range; exact Hy|]. apply in_map_iff. exists z. split; [reflexivity|]. apply in_range. exact Hz.
    + destruct (Rle_dec _ _) as [L|L]; [reflexivity|contradiction].
Qed.
Lemma floor_mono x y : x <= y -> (floor x <= floor y)%Z.
Proof. intros H. unfold floor. pose proof (int_part_bounds x) as [A B]. pose proof (int_part_bounds y) as [C D]. assert (IZR (Int_part x) < IZR (Int_part y + 1)) as K by (rewrite plus_IZR; lra). apply lt_IZR in K. lia. Qed.
(** the closest point is not farther than any point of the cell *)
Lemma closest_near m s c q : 0 < s -> (c - closest m s (floor ((q - m) / s)) (floor ((c - m) / s)) c) * (c - closest m s (floor ((q - m) / s)) (floor ((c - m) / s)) c) <= (c - q) * (c - q).
Proof.
  intros Hs. unfold closest. set (k := floor ((q - m) / s)). set (k0 := floor ((c - m) / s)). destruct (k =? k0)%Z eqn:E; [replace (c - c) with 0 by ring; rewrite Rmult_0_l; pose proof (pow2_ge_0 (c - q)) as P; rewrite <- Rsqr_pow2 in P; unfold Rsqr in P; exact P|].
  apply Z.eqb_neq in E. pose proof (int_part_bounds ((q - m) / s)) as [A B]. fold (floor ((q - m) / s)) in A, B. fold k in A, B. pose proof (int_part_bounds ((c - m) / s)) as [C D]. fold (floor ((c - m) / s)) in C, D. fold k0 in C, D.
  assert (A' : m + s * IZR k <= q). { apply (Rmult_le_compat_r s) in A; [|lra]. unfold Rdiv in A. rewrite Rmult_assoc, Rinv_l, Rmult_1_r in A by lra. lra. }
  assert (B' : q < m + s * (IZR k + 1)). { apply (Rmult_lt_compat_r s) in B; [|lra]. unfold Rdiv in B. rewrite Rmult_assoc, Rinv_l, Rmult_1_r in B by lra. lra. }
  assert (C' : m + s * IZR k0 <= c). { apply (Rmult_le_compat_r s) in C; [|lra]. unfold Rdiv in C. rewrite Rmult_assoc, Rinv_l, Rmult_1_r in C by lra. lra. }
  assert (D' : c < m + s * (IZR k0 + 1)). { apply (Rmult_lt_compat_r s) in D; [|lra]. unfold Rdiv in D. rewrite Rmult_assoc, Rinv_l, Rmult_1_r in D by lra. lra. }
  destruct (k <? k0)%Z eqn:L.
  - apply Z.ltb_lt in L. assert (IZR k + 1 <= IZR k0) by (rewrite <- plus_IZR; apply IZR_le; lia). rewrite plus_IZR. assert (s * (IZR k + 1) <= s * IZR k0) by (apply Rmult_le_compat_l; lra).
    assert (W : m + s * (IZR k + 1) <= c) by lra. set (w := m + s * (IZR k + 1)) in *. apply Rmult_le_compat; lra.
  - apply Z.ltb_ge in L. assert (IZR k0 + 1 <= IZR k) by (rewrite <- plus_IZR; apply IZR_le; lia). replace (k + 0)%Z with k by lia. assert (s * (IZR k0 + 1) <= s * IZR k) by (apply Rmult_le_compat_l; lra).
    assert (W : c < m + s * IZR k) by lra. set (w := m + s * IZR k) in *. replace ((c - w) * (c - w)) with ((w - c) * (w - c)) by ring. replace ((c - q) * (c - q)) with ((q - c) * (q - c)) by ring. apply Rmult_le_compat; lra.
Qed.
Lemma norm2_coord v r : 0 <= r -> norm2 v <= r * r -> - r <= vx v <= r /\ - r <= vy v <= r /\ - r <= vz v <= r.
Proof.
  intros Hr H. unfold norm2, dot in H. pose proof (Rle_0_sqr (vx v)) as X. pose proof (Rle_0_sqr (vy v)) as Y. pose proof (Rle_0_sqr (vz v)) as Z. unfold Rsqr in X, Y, Z.
  assert (K : forall t, t * t <= r * r -> - r <= t <= r). { intros t Ht. split; [apply Rnot_lt_le; intros C|apply Rnot_lt_le; intros C].
    - assert (r * r < (- t) * (- t)) by (apply Rmult_le_0_lt_compat; lra). lra.
    - assert (r * r < t * t) by (apply Rmult_le_0_lt_compat; lra). lra. }
  repeat split; apply K; lra.
Qed.
(** a point of the ball: its cell is one of those of the ball *)
Lemma ball_cell g p r q : 0 < step g -> 0 <= r -> vx (mn g) = vy (mn g) -> vz (mn g) = vy (mn g) -> norm2 (vsub p q) <= r * r -> In (pt2int g q) (cells_of g p r).
Proof.
  intros Hs Hr Ex Ez H. unfold pt2int at 1. apply in_cells. destruct (norm2_coord _ r Hr H) as ((X1 & X2) & (Y1 & Y2) & (Z1 & Z2)). cbn [vsub vx vy vz] in *.
  assert (K : forall u w, u <= w -> (floor ((u - vy (mn g)) / step g) <= floor ((w - vy (mn g)) / step g))%Z).
  { intros u w L. apply floor_mono. apply Rmult_le_compat_r; [left; apply Rinv_0_lt_compat; exact Hs|lra]. }
  split; [repeat split; apply K; lra|]. unfold ccp, pt2int. rewrite Ex, Ez. unfold norm2, dot in *. cbn [vsub vx vy vz] in *.
  pose proof (closest_near (vy (mn g)) (step g) (vx p) (vx q) Hs) as A. pose proof (closest_near (vy (mn g)) (step g) (vy p) (vy q) Hs) as B. pose proof (closest_near (vy (mn g)) (step g) (vz p) (vz q) Hs) as C. lra.
Qed.
(** two balls which touch have a common point *)
Lemma common_point p1 r1 p2 r2 : 0 <= r1 -> 0 <= r2 -> norm2 (vsub p1 p2) <= (r1 + r2) * (r1 + r2) -> exists q, norm2 (vsub p1 q) <= r1 * r1 /\ norm2 (vsub p2 q) <= r2 * r2.
Proof.
  intros H1 H2 H. destruct (Req_dec (r1 + r2) 0) as [E|E].
  - assert (r1 = 0) by lra. assert (r2 = 0) by lra. subst. exists p1. replace ((0 + 0) * (0 + 0)) with 0 in H by ring. split; [unfold norm2, dot; cbn [vsub vx vy vz]; right; ring|]. replace (norm2 (vsub p2 p1)) with (norm2 (vsub p1 p2)) by (unfold norm2, dot; cbn [vsub vx vy vz]; ring). lra.
  - set (t := r1 / (r1 + r2)). exists (vadd p1 (smul t (vsub p2 p1))). assert (Ht : 0 <= t). { unfold t, Rdiv. apply Rmult_le_pos; [exact H1|]. left. apply Rinv_0_lt_compat. lra. }
    assert (E1 : t * (r1 + r2) = r1) by (unfold t; field; exact E). assert (E2 : (1 - t) * (r1 + r2) = r2) by (unfold t; field; exact E). split.
    + replace (norm2 (vsub p1 (vadd p1 (smul t (vsub p2 p1))))) with (t * t * norm2 (vsub p1 p2)) by (unfold norm2, dot; cbn [vsub vadd smul vx vy vz]; ring). rewrite <- E1. replace (t * (r1 + r2) * (t * (r1 + r2))) with (t * t * ((r1 + r2) * (r1 + r2))) by ring. apply Rmult_le_compat_l; [apply Rmult_le_pos; exact Ht|exact H].
    + replace (norm2 (vsub p2 (vadd p1 (smul t (vsub p2 p1))))) with ((1 - t) * (1 - t) * norm2 (vsub p1 p2)) by (unfold norm2, dot; cbn [vsub vadd smul vx vy vz]; ring). set (u := (1 - t)) in *. replace (r2 * r2) with (u * (r1 + r2) * (u * (r1 + r2))) by (rewrite E2; ring). replace (u * (r1 + r2) * (u * (r1 + r2))) with (u * u * ((r1 + r2) * (r1 + r2))) by ring.
      apply Rmult_le_compat_l; [|exact H]. apply Rle_0_sqr.
Qed.

(** ** the array *)
Lemma fit_bounds i n : (0 < n)%Z -> (0 <= fit i n < n)%Z.
Proof. unfold fit. lia. Qed.
Definition positive (g : grid) : Prop := (0 < sx g /\ 0 < sy g /\ 0 < sz g)%Z.
Lemma lin_bounds g c : positive g -> (0 <= lin g c < sx g * sy g * sz g)%Z.
Proof.
  intros (X & Y & Z). destruct c as [[x y] z]. unfold lin. pose proof (fit_bounds x _ X). pose proof (fit_bounds y _ Y). pose proof (fit_bounds z _ Z).
  set (u := fit x (sx g)) in *. set (v := fit y (sy g)) in *. set (w := fit z (sz g)) in *.
  assert (sx g * v <= sx g * (sy g - 1))%Z by (apply Z.mul_le_mono_nonneg_l; lia). assert (sx g * sy g * w <= sx g * sy g * (sz g - 1))%Z by (apply Z.mul_le_mono_nonneg_l; lia).
  assert (0 <= sx g * v)%Z by (apply Z.mul_nonneg_nonneg; lia). assert (0 <= sx g * sy g * w)%Z by (apply Z.mul_nonneg_nonneg; lia). lia.
Qed.
Lemma put_ok data : forall k id, (k < length data)%nat -> exists d, put data k id = Done d /\ length d = length data /\
  (forall j v, nth_error data j = Some v -> exists v', nth_error d j = Some v' /\ forall x, In x v' <-> In x v \/ (x = id /\ j = k)).
Proof.
  induction data as [|v data IH]; intros [|k] id H; cbn [length put] in *; try lia.
  - eexists. split; [reflexivity|]. split; [reflexivity|]. intros [|j] w E; cbn [nth_error] in *.
    + injection E as <-. eexists. split; [reflexivity|]. intros x. destruct (rev v) as [|b t] eqn:R.
      * rewrite in_app_iff. cbn [In]. intuition.
      * assert (Ev : v = rev t ++ [b]) by (rewrite <- (rev_involutive v), R; reflexivity). destruct (b =? id)%nat eqn:Eb; cbn [negb].
        -- apply Nat.eqb_eq in Eb. subst b. split; [tauto|]. intros [K|(-> & _)]; [exact K|]. rewrite Ev. apply in_or_app. right. left. reflexivity.
        -- rewrite in_app_iff. cbn [In]. intuition.
    + exists w. split; [exact E|]. intros x. split; [tauto|]. intros [K|(_ & C)]; [exact K|discriminate].
  - destruct (IH k id ltac:(lia)) as (d & -> & L & P). cbn [bind]. eexists. split; [reflexivity|]. split; [cbn; lia|]. intros [|j] w E; cbn [nth_error] in *.
    + injection E as <-. eexists. split; [reflexivity|]. intros x. split; [tauto|]. intros [K|(_ & C)]; [exact K|discriminate].
    + destruct (P j w E) as (w' & Ew & Q). exists w'. split; [exact Ew|]. intros x. rewrite Q. split; intros [K|(? & C)]; auto; right; split; auto; lia.
Qed.
(** a body is put into the cells given, and nowhere else *)
Lemma puts_ok g id cs : positive g -> forall data, length data = Z.to_nat (sx g * sy g * sz g) ->
  exists d, foldM (fun d c => let k := lin g (fitGrid g c) in if (k <? 0)%Z then UB else put d (Z.to_nat k) id) cs data = Done d /\ length d = length data /\
  (forall j v, nth_error data j = Some v -> exists v', nth_error d j = Some v' /\ forall x, In x v' <-> In x v \/ (x = id /\ exists c, In c cs /\ j = Z.to_nat (lin g (fitGrid g c)))).
Proof.
  intros Hg. induction cs as [|c cs IH]; intros data L; cbn [foldM].
  - exists data. split; [reflexivity|]. split; [reflexivity|]. intros j v E. exists v. split; [exact E|]. intros x. split; [tauto|]. intros [K|(_ & c & [] & _)]. exact K.
  - pose proof (lin_bounds g (fitGrid g c) Hg) as B. cbv zeta. destruct (lin g (fitGrid g c) <? 0)%Z eqn:N; [apply Z.ltb_lt in N; lia|].
    destruct (put_ok data (Z.to_nat (lin g (fitGrid g c))) id) as (d1 & -> & L1 & P1); [rewrite L; apply Z2Nat.inj_lt; lia|]. cbn [bind]. destruct (IH d1) as (d & E & L2 & P2); [congruence|]. exists d. split; [exact E|]. split; [congruence|].
    intros j v Ev. destruct (P1 j v Ev) as (v1 & E1 & Q1). destruct (P2 j v1 E1) as (v2 & E2 & Q2). exists v2. split; [exact E2|]. intros x. rewrite Q2, Q1. split.
    + intros [[K|(-> & ->)]|(-> & c' & Hc & ->)]; [left; exact K|right; split; [reflexivity|exists c; split; [left; reflexivity|reflexivity]]|right; split; [reflexivity|exists c'; split; [right; exact Hc|reflexivity]]].
    + intros [K|(-> & c' & [<- |Hc] & ->)]; [left; left; exact K|left; right; auto|right; split; [reflexivity|exists c'; auto]].
Qed.
Lemma bodies_ok A g l : positive g -> (forall ib, In ib l -> shape (snd ib) <> Other) -> forall data, length data = Z.to_nat (sx g * sy g * sz g) ->
  exists d, foldM (updateBodyCells A g) l data = Done d /\ length d = length data /\
  (forall j v, nth_error data j = Some v -> exists v', nth_error d j = Some v' /\ forall x, In x v' <-> In x v \/ (exists b r c, In (x, b) l /\ shape b = Ball r /\ In c (cells_of g (pos b) (r + verletDist A)) /\ j = Z.to_nat (lin g (fitGrid g c)))).
Proof.
  intros Hg. induction l as [|[id b] l IH]; intros Hl data L; cbn [foldM].
  - exists data. split; [reflexivity|]. split; [reflexivity|]. intros j v E. exists v. split; [exact E|]. intros x. split; [tauto|]. intros [K|(b & r & c & [] & _)]. exact K.
  - assert (Hl' : forall ib, In ib l -> shape (snd ib) <> Other) by (intros ib Hi; apply Hl; right; exact Hi). unfold updateBodyCells at 1. cbn [fst snd]. destruct (shape b) as [|r|] eqn:Sb; cbn [bind].
    + destruct (IH Hl' data L) as (d & E & L2 & P). exists d. split; [exact E|]. split; [exact L2|]. intros j v Ev. destruct (P j v Ev) as (v' & E' & Q). exists v'. split; [exact E'|]. intros x. rewrite Q. split.
      * intros [K|(b' & r & c & H1 & H2)]; [left; exact K|right; exists b', r, c; split; [right; exact H1|exact H2]].
      * intros [K|(b' & r & c & [H1|H1] & H2)]; [left; exact K| |right; exists b', r, c; split; assumption]. injection H1 as <- <-. destruct H2 as (H2 & _). congruence.
    + destruct (puts_ok g id (cells_of g (pos b) (r + verletDist A)) Hg data L) as (d1 & E0 & L1 & P1). match goal with |- context[bind ?x _] => replace x with (Done d1) by (symmetry; exact E0) end. cbn [bind]. destruct (IH Hl' d1) as (d & E & L2 & P2); [congruence|]. exists d. split; [exact E|]. split; [congruence|]. intros j v Ev. destruct (P1 j v Ev) as (v1 & E1 & Q1). destruct (P2 j v1 E1) as (v2 & E2 & Q2). exists v2. split; [exact E2|]. intros x. rewrite Q2, Q1. split.
      * intros [[K|(-> & c & Hc & Hj)]|(b' & r' & c & H1 & H2)]; [left; exact K|right; exists b, r, c; split; [left; reflexivity|auto]|right; exists b', r', c; split; [right; exact H1|exact H2]].
      * intros [K|(b' & r' & c & [H1|H1] & H2)]; [left; left; exact K| |right; exists b', r', c; split; assumption]. injection H1 as <- <-. destruct H2 as (H2 & H3 & H4). rewrite Sb in H2. injection H2 as <-. left. right. split; [reflexivity|]. exists c. auto.
    + exfalso. apply (Hl (id, b)); [left; reflexivity|exact Sb].
Qed.

(** ** the collider *)
Lemma ceil_pos x : 0 < x -> (0 < ceil x)%Z.
Proof. intros H. unfold ceil. pose proof (int_part_bounds (- x)) as [A B]. assert (IZR (Int_part (- x)) < 0) by lra. apply (lt_IZR _ 0) in H0. lia. Qed.
Lemma updateGrid_ok A g d : updateGrid A = Done (g, d) -> positive g /\ 0 < step g /\ mn g = aabbMin A /\ step g = stepA A /\ d = repeat [] (Z.to_nat (sx g * sy g * sz g)) /\
  sx g = ceil ((vx (aabbMax A) - vx (aabbMin A)) / stepA A) /\ sy g = ceil ((vy (aabbMax A) - vy (aabbMin A)) / stepA A) /\ sz g = ceil ((vz (aabbMax A) - vz (aabbMin A)) / stepA A).
Proof.
  unfold updateGrid. destruct (Rle_dec (stepA A) 0) as [|S]; [discriminate|]. cbv zeta. cbn [vsub vx vy vz]. repeat (match goal with |- context[Rle_dec ?x 0] => destruct (Rle_dec x 0); [discriminate|] end).
  cbn [sx sy sz]. destruct (_ && _); [|discriminate]. intros E. injection E as <- <-. cbn [sx sy sz mn step]. assert (Hs : 0 < stepA A) by lra.
  assert (K : forall u w, ~ w - u <= 0 -> (0 < ceil ((w - u) / stepA A))%Z) by (intros u w H; apply ceil_pos; apply Rmult_lt_0_compat; [lra|apply Rinv_0_lt_compat; lra]).
  split; [split; [|split]; apply K; assumption|]. auto 10.
Qed.
Lemma existing_in bs a b : In (a, b) (existing bs) <-> nth_error bs a = Some (Some b).
Proof.
  unfold existing. rewrite in_flat_map. assert (G : forall (l : list (option body)) n k x, In (k, x) (combine (seq n (length l)) l) <-> exists j, k = (n + j)%nat /\ nth_error l j = Some x).
  { induction l as [|y l IH]; intros n k x; cbn [length seq combine In].
    - split; [intros []|]. intros (j & _ & E). destruct j; discriminate.
    - rewrite IH. split.
      + intros [E|(j & -> & E)]; [injection E as <- <-; exists 0%nat; split; [lia|reflexivity]|exists (S j); split; [lia|exact E]].
      + intros ([|j] & -> & E); [left; injection E as ->; f_equal; lia|right; exists j; split; [lia|exact E]]. }
  split.
  - intros ((k & x) & H & E). cbn [fst snd] in E. destruct x as [x|]; [|destruct E]. destruct E as [E|[]]. injection E as <- <-. apply G in H. destruct H as (j & -> & E). exact E.
  - intros H. exists (a, Some b). split; [apply G; exists a; auto|]. left. reflexivity.
Qed.
Lemma action_ok A may it bs is : valid A -> handled bs -> exists g is', updateGrid A = Done (g, repeat [] (Z.to_nat (sx g * sy g * sz g))) /\ action A may it bs is = Done is' /\
  exists data, is' = updateCollisions may it data is /\ length data = Z.to_nat (sx g * sy g * sz g) /\
   forall j v, nth_error data j = Some v -> forall x, In x v <-> (exists b r c, nth_error bs x = Some (Some b) /\ shape b = Ball r /\ In c (cells_of g (pos b) (r + verletDist A)) /\ j = Z.to_nat (lin g (fitGrid g c))).
Proof.
  intros ((g & d0) & Eg) Hh. destruct (updateGrid_ok A g d0 Eg) as (Hp & _ & _ & _ & -> & _). unfold action. rewrite Eg. cbn [bind fst snd].
  destruct (bodies_ok A g (existing bs) Hp) with (data := repeat (@nil nat) (Z.to_nat (sx g * sy g * sz g))) as (d & E & L & P).
  - intros [k b] Hi. apply existing_in in Hi. exact (Hh k b Hi).
  - apply repeat_length.
  - exists g, (updateCollisions may it d is). split; [reflexivity|]. rewrite E. cbn [bind]. split; [reflexivity|]. exists d. split; [reflexivity|]. rewrite repeat_length in L. split; [exact L|]. intros j v Ev x.
    assert (Hj : (j < length (repeat (@nil nat) (Z.to_nat (sx g * sy g * sz g))))%nat) by (rewrite repeat_length, <- L; apply nth_error_Some; congruence).
    destruct (nth_error (repeat (@nil nat) (Z.to_nat (sx g * sy g * sz g))) j) as [v0|] eqn:E0; [|apply nth_error_None in E0; lia]. assert (v0 = []) by (apply nth_error_In in E0; apply repeat_spec in E0; exact E0). subst v0.
    destruct (P j [] E0) as (v' & E' & Q). rewrite Ev in E'. injection E' as <-. rewrite Q. split.
    + intros [[]|(b & r & c & H1 & H2)]. exists b, r, c. split; [apply existing_in; exact H1|exact H2].
    + intros (b & r & c & H1 & H2). right. exists b, r, c. split; [apply existing_in; exact H1|exact H2].
Qed.
Lemma action_finds A may it bs is is' a b : (forall x y, may x y = may y x) -> diagonal A -> 0 <= verletDist A -> handled bs -> action A may it bs is = Done is' -> near bs (2 * verletDist A) a b -> a <> b -> may a b = true -> known is' a b.
Proof.
  intros Sy (D1 & D2) Hv Hh Ha (ra & rb & pa & pb & (ba & Na & Sa & Pa) & (bb & Nb & Sb & Pb) & Ra & Rb & Hd) Hn Hm. assert (Hva : valid A). { unfold valid. unfold action in Ha. destruct (updateGrid A) as [gd| |]; [eauto|discriminate|discriminate]. }
  destruct (action_ok A may it bs is Hva Hh) as (g & is2 & Eg & E2 & data & -> & L & P). rewrite Ha in E2. injection E2 as ->. destruct (updateGrid_ok A g _ Eg) as (Hp & Hs & Em & _).
  destruct (common_point pa (ra + verletDist A) pb (rb + verletDist A)) as (q & Q1 & Q2); [lra|lra|replace (ra + verletDist A + (rb + verletDist A)) with (ra + rb + 2 * verletDist A) by ring; exact Hd|].
  assert (C1 : In (pt2int g q) (cells_of g pa (ra + verletDist A))) by (apply ball_cell; rewrite ?Em; auto; lra). assert (C2 : In (pt2int g q) (cells_of g pb (rb + verletDist A))) by (apply ball_cell; rewrite ?Em; auto; lra).
  pose proof (lin_bounds g (fitGrid g (pt2int g q)) Hp) as B. set (j := Z.to_nat (lin g (fitGrid g (pt2int g q)))). assert (Hj : (j < length data)%nat) by (rewrite L; apply Z2Nat.inj_lt; lia).
  destruct (nth_error data j) as [v|] eqn:Ev; [|apply nth_error_None in Ev; lia]. apply (updateCollisions_adds may it data is v a b Sy); [eapply nth_error_In; exact Ev| | |exact Hn|exact Hm].
  - apply (P j v Ev). exists ba, ra, (pt2int g q). rewrite Pa. auto.
  - apply (P j v Ev). exists bb, rb, (pt2int g q). rewrite Pb. auto.
Qed.
Lemma action_keeps A may it bs is is' a b : action A may it bs is = Done is' -> known is a b -> known is' a b.
Proof.
  unfold action. destruct (updateGrid A) as [gd| |]; cbn [bind]; try discriminate. destruct (foldM _ _ _) as [data| |]; cbn [bind]; try discriminate. intros E. injection E as <-. apply collide_keeps.
Qed.

(** ** Verlet distance *)
Lemma norm_nonneg v : 0 <= norm v. Proof. apply sqrt_pos. Qed.
Lemma norm_triangle u v : norm (vadd u v) <= norm u + norm v.
Proof.
  pose proof (norm_nonneg u) as U. pose proof (norm_nonneg v) as W. apply Rsqr_incr_0_var; [|lra]. unfold Rsqr. rewrite norm_sq. pose proof (norm_sq u) as Eu. pose proof (norm_sq v) as Ev. pose proof (cauchy u v) as C.
  assert (D : dot u v <= norm u * norm v).
  { apply Rsqr_incr_0_var; [|apply Rmult_le_pos; assumption]. unfold Rsqr. replace (norm u * norm v * (norm u * norm v)) with ((norm u * norm u) * (norm v * norm v)) by ring. rewrite Eu, Ev. exact C. }
  replace (norm2 (vadd u v)) with (norm2 u + 2 * dot u v + norm2 v) by (unfold norm2, dot, vadd; cbn [vx vy vz]; ring). rewrite <- Eu, <- Ev. replace ((norm u + norm v) * (norm u + norm v)) with (norm u * norm u + 2 * (norm u * norm v) + norm v * norm v) by ring. lra.
Qed.
Lemma norm_sub_sym a b : norm (vsub a b) = norm (vsub b a).
Proof. unfold norm. f_equal. unfold norm2, dot, vsub. cbn [vx vy vz]. ring. Qed.
Lemma norm_split a b c : norm (vsub a c) <= norm (vsub a b) + norm (vsub b c).
Proof. replace (vsub a c) with (vadd (vsub a b) (vsub b c)) by (unfold vadd, vsub; cbn [vx vy vz]; f_equal; ring). apply norm_triangle. Qed.
Lemma norm_le v r : 0 <= r -> norm v <= r <-> norm2 v <= r * r.
Proof.
  intros Hr. rewrite <- norm_sq. split.
  - intros H. apply Rmult_le_compat; try assumption; apply norm_nonneg.
  - intros H. apply Rsqr_incr_0_var; [exact H|exact Hr].
Qed.
Lemma moved_trans d d' bs1 bs2 bs3 : moved d bs1 bs2 -> moved d' bs2 bs3 -> moved (d + d') bs1 bs3.
Proof.
  intros H1 H2 a b3 E3. destruct (H2 a b3 E3) as (b2 & E2 & S2 & D2). destruct (H1 a b2 E2) as (b1 & E1 & S1 & D1). exists b1. split; [exact E1|]. split; [congruence|]. pose proof (norm_split (pos b3) (pos b2) (pos b1)). lra.
Qed.
Lemma moved_near d bs bs' a b : 0 <= d -> moved d bs bs' -> touch bs' a b -> near bs (2 * d) a b.
Proof.
  intros Hd Hm (ra & rb & pa & pb & (ba & Na & Sa & Pa) & (bb & Nb & Sb & Pb) & Ra & Rb & H). destruct (Hm a ba Na) as (ba0 & Na0 & Sa0 & Da). destruct (Hm b bb Nb) as (bb0 & Nb0 & Sb0 & Db).
  exists ra, rb, (pos ba0), (pos bb0). split; [exists ba0; split; [exact Na0|split; [congruence|reflexivity]]|]. split; [exists bb0; split; [exact Nb0|split; [congruence|reflexivity]]|]. split; [exact Ra|]. split; [exact Rb|].
  apply norm_le; [lra|]. apply norm_le in H; [|lra]. rewrite Pa in Da. rewrite Pb in Db. pose proof (norm_split (pos ba0) pa (pos bb0)) as T1. pose proof (norm_split pa pb (pos bb0)) as T2. rewrite (norm_sub_sym (pos ba0) pa) in T1. lra.
Qed.
Lemma moved_refl bs : moved 0 bs bs.
Proof. intros a b H. exists b. split; [exact H|]. split; [reflexivity|]. replace (vsub (pos b) (pos b)) with vzero by (unfold vsub, vzero; f_equal; ring). unfold norm, norm2, dot, vzero. cbn [vx vy vz]. replace (0 * 0 + 0 * 0 + 0 * 0) with 0 by ring. rewrite sqrt_0. lra. Qed.
(** what is known at any time: the pairs which were close when the collider has run *)
Definition inv (A : attrs) (may : nat -> nat -> bool) (bs : list (option body)) (st : engine * list intr) : Prop :=
  newton (fst st) = true /\ 0 <= fastest (fst st) <= verletDist A /\ exists bs0, moved (fastest (fst st)) bs0 bs /\ forall a b, near bs0 (2 * verletDist A) a b -> a <> b -> may a b = true -> known (snd st) a b.
Lemma near_more bs m m' a b : 0 <= m -> m <= m' -> near bs m a b -> near bs m' a b.
Proof.
  intros H0 H (ra & rb & pa & pb & Ha & Hb & Ra & Rb & D). exists ra, rb, pa, pb. repeat (split; [assumption|]). eapply Rle_trans; [exact D|]. apply Rmult_le_compat; lra.
Qed.
Lemma inv_touch A may bs st a b : inv A may bs st -> touch bs a b -> a <> b -> may a b = true -> known (snd st) a b.
Proof.
  intros (_ & (F0 & F1) & bs0 & Hm & Hk) Ht Hn Hma. apply Hk; [|exact Hn|exact Hma]. apply (near_more bs0 (2 * fastest (fst st))); [lra|lra|]. apply (moved_near (fastest (fst st)) bs0 bs); assumption.
Qed.
Lemma turn_inv A may it d bs bs' st st' : (forall x y, may x y = may y x) -> diagonal A -> 0 <= verletDist A -> 0 <= d -> moved d bs bs' -> handled bs' ->
  (newton (fst st) = true -> inv A may bs st) -> turn A may it d bs' st = Done st' -> inv A may bs' st'.
Proof.
  intros Sy Hd Hv H0 Hm Hh Hi. assert (Run : forall is', action A may it bs' (snd st) = Done is' -> inv A may bs' (mkE true 0, is')).
  { intros is' Ha. split; [reflexivity|]. cbn [fst snd newton fastest]. split; [lra|]. exists bs'. split; [apply moved_refl|]. intros a b Hn Hne Hma. exact (action_finds A may it bs' (snd st) is' a b Sy Hd Hv Hh Ha Hn Hne Hma). }
  unfold turn, isActivated. destruct (newton (fst st)) eqn:N.
  - destruct (Hi eq_refl) as (_ & (F0 & F1) & bs0 & Hm0 & Hk). destruct (Rlt_dec (verletDist A) (fastest (fst st) + d)) as [L|L].
    + destruct (action A may it bs' (snd st)) as [is'| |] eqn:Ha; cbn [bind]; try discriminate. intros E. injection E as <-. apply Run. reflexivity.
    + intros E. injection E as <-. split; [reflexivity|]. cbn [fst snd fastest]. split; [lra|]. exists bs0. split; [apply (moved_trans _ _ bs0 bs bs'); assumption|exact Hk].
  - destruct (action A may it bs' (snd st)) as [is'| |] eqn:Ha; cbn [bind]; try discriminate. intros E. injection E as <-. apply Run. reflexivity.
Qed.
Lemma sim_inv A may steps : forall bs st bs' st', (forall x y, may x y = may y x) -> diagonal A -> 0 <= verletDist A -> Forall (fun s => 0 <= snd (fst s)) steps -> moves bs steps ->
  (newton (fst st) = true -> inv A may bs st) -> sim A may bs steps st = Done (bs', st') -> newton (fst st') = true -> inv A may bs' st'.
Proof.
  induction steps as [|[[it d] bs1] steps IH]; intros bs st bs' st' Sy Hd Hv Hp Hm Hi H Hn; cbn [sim moves] in *.
  - injection H as <- <-. apply Hi. exact Hn.
  - destruct (turn A may it d bs1 st) as [st1| |] eqn:E; cbn [bind] in H; try discriminate. destruct Hm as (M1 & M2 & M3). inversion Hp as [|? ? P1 P2]; subst. cbn [fst snd] in P1.
    apply (IH bs1 st1 bs' st' Sy Hd Hv P2 M3); [|exact H|exact Hn]. intros _. exact (turn_inv A may it d bs bs1 st st1 Sy Hd Hv P1 M1 M2 Hi E).
Qed.
Lemma turn_newton A may it d bs st st' : turn A may it d bs st = Done st' -> newton (fst st') = true.
Proof.
  unfold turn, isActivated. destruct (newton (fst st)) eqn:N.
  - destruct (Rlt_dec (verletDist A) (fastest (fst st) + d)).
    + destruct (action A may it bs (snd st)); cbn [bind]; try discriminate. intros E. injection E as <-. reflexivity.
    + intros E. injection E as <-. reflexivity.
  - destruct (action A may it bs (snd st)); cbn [bind]; try discriminate. intros E. injection E as <-. reflexivity.
Qed.
Lemma sim_newton A may steps : forall bs st bs' st', steps <> [] -> sim A may bs steps st = Done (bs', st') -> newton (fst st') = true.
Proof.
  assert (G : forall steps bs st bs' st', newton (fst st) = true -> sim A may bs steps st = Done (bs', st') -> newton (fst st') = true).
  { clear steps. induction steps as [|[[it d] bs1] steps IH]; intros bs st bs' st' Hn H; cbn [sim] in H; [injection H as <- <-; exact Hn|]. destruct (turn A may it d bs1 st) as [st1| |] eqn:E; cbn [bind] in H; try discriminate. exact (IH _ _ _ _ (turn_newton _ _ _ _ _ _ _ E) H). }
  intros bs st bs' st' Hne H. destruct steps as [|[[it d] bs1] steps]; [contradiction|]. cbn [sim] in H. destruct (turn A may it d bs1 st) as [st1| |] eqn:E; cbn [bind] in H; try discriminate. exact (G _ _ _ _ _ (turn_newton _ _ _ _ _ _ _ E) H).
Qed.
Lemma sim_touch A may steps bs E0 is bs' st' a b : (forall x y, may x y = may y x) -> diagonal A -> 0 <= verletDist A -> Forall (fun s => 0 <= snd (fst s)) steps -> moves bs steps -> newton E0 = false -> steps <> [] ->
  sim A may bs steps (E0, is) = Done (bs', st') -> touch bs' a b -> a <> b -> may a b = true -> known (snd st') a b.
Proof.
  intros Sy Hd Hv Hp Hm Hn Hne H Ht Hab Hma. apply (inv_touch A may bs' st'); [|exact Ht|exact Hab|exact Hma]. apply (sim_inv A may steps bs (E0, is) bs' st' Sy Hd Hv Hp Hm); [cbn [fst]; congruence|exact H|]. exact (sim_newton _ _ _ _ _ _ _ Hne H).
Qed.

(** ** when an interaction was last seen *)
Definition seen_at (it : Z) (a b : nat) (is : list intr) : Prop := forall i, In i is -> of_pair a b i = true -> lastSeen i = it.
Lemma see_sets it a b is : seen_at it a b (see it a b is).
Proof.
  intros i H E. unfold see in H. apply in_map_iff in H. destruct H as (j & <- & Hj). destruct (of_pair a b j) eqn:Ej; [reflexivity|]. congruence.
Qed.
Lemma see_other it x y a b is : seen_at it a b is -> seen_at it a b (see it x y is).
Proof.
  intros K i H E. unfold see in H. apply in_map_iff in H. destruct H as (j & <- & Hj). destruct (of_pair x y j) eqn:Ej; [reflexivity|]. apply K; assumption.
Qed.
Lemma of_pair_sym a b i : of_pair a b i = of_pair b a i.
Proof. unfold of_pair. apply orb_comm. Qed.
Lemma has_sym is a b : has is a b = has is b a.
Proof. unfold has. induction is as [|i is IH]; [reflexivity|]. cbn [existsb]. rewrite IH, of_pair_sym. reflexivity. Qed.
Lemma visit_seen may it a b is p : known is a b -> seen_at it a b is -> seen_at it a b (visit may it is p).
Proof.
  intros Hk Hs. unfold visit. destruct p as [x y]. destruct (x =? y)%nat; [exact Hs|]. destruct (has is x y) eqn:E; [apply see_other; exact Hs|]. destruct (may x y); [|exact Hs].
  intros i H Ei. apply in_app_or in H. destruct H as [H|[<- |[]]]; [apply Hs; assumption|]. exfalso. apply of_pair_spec in Ei. cbn [a1 a2] in Ei. apply has_known in Hk. destruct Ei as [(-> & ->)|(-> & ->)]; [congruence|]. rewrite has_sym in E. congruence.
Qed.
Lemma visit_sees may it a b is : known is a b -> a <> b -> seen_at it a b (visit may it is (a, b)).
Proof. intros Hk Hn. unfold visit. apply Nat.eqb_neq in Hn. rewrite Hn. apply has_known in Hk. rewrite Hk. apply see_sets. Qed.
Lemma seen_sym it a b is : seen_at it a b is -> seen_at it b a is.
Proof. intros H i Hi E. apply H; [exact Hi|]. rewrite of_pair_sym. exact E. Qed.
Lemma collide_seen may it a b ps : forall is, known is a b -> seen_at it a b is -> seen_at it a b (fold_left (visit may it) ps is).
Proof. induction ps as [|p ps IH]; intros is Hk Hs; cbn [fold_left]; [exact Hs|]. apply IH; [apply visit_keeps; exact Hk|apply visit_seen; assumption]. Qed.
Lemma collide_sees may it a b ps : forall is, known is a b -> a <> b -> In (a, b) ps \/ In (b, a) ps -> seen_at it a b (fold_left (visit may it) ps is).
Proof.
  induction ps as [|p ps IH]; intros is Hk Hn Hi; [destruct Hi as [[]|[]]|]. cbn [fold_left]. destruct Hi as [[-> |Hi]|[-> |Hi]].
  - apply collide_seen; [apply visit_keeps; exact Hk|apply visit_sees; assumption].
  - apply IH; [apply visit_keeps; exact Hk|exact Hn|left; exact Hi].
  - apply collide_seen; [apply visit_keeps; exact Hk|]. apply seen_sym. apply visit_sees; [apply known_sym; exact Hk|]. intros E. apply Hn. symmetry. exact E.
  - apply IH; [apply visit_keeps; exact Hk|exact Hn|right; exact Hi].
Qed.
Lemma action_sees A may it bs is is' a b : diagonal A -> 0 <= verletDist A -> handled bs -> action A may it bs is = Done is' -> near bs (2 * verletDist A) a b -> a <> b -> known is a b -> seen_at it a b is'.
Proof.
  intros (D1 & D2) Hv Hh Ha (ra & rb & pa & pb & (ba & Na & Sa & Pa) & (bb & Nb & Sb & Pb) & Ra & Rb & Hd) Hn Hk. assert (Hva : valid A). { unfold valid. unfold action in Ha. destruct (updateGrid A) as [gd| |]; [eauto|discriminate|discriminate]. }
  destruct (action_ok A may it bs is Hva Hh) as (g & is2 & Eg & E2 & data & -> & L & P). rewrite Ha in E2. injection E2 as ->. destruct (updateGrid_ok A g _ Eg) as (Hp & Hs & Em & _).
  destruct (common_point pa (ra + verletDist A) pb (rb + verletDist A)) as (q & Q1 & Q2); [lra|lra|replace (ra + verletDist A + (rb + verletDist A)) with (ra + rb + 2 * verletDist A) by ring; exact Hd|].
  assert (C1 : In (pt2int g q) (cells_of g pa (ra + verletDist A))) by (apply ball_cell; rewrite ?Em; auto; lra). assert (C2 : In (pt2int g q) (cells_of g pb (rb + verletDist A))) by (apply ball_cell; rewrite ?Em; auto; lra).
  pose proof (lin_bounds g (fitGrid g (pt2int g q)) Hp) as B. set (j := Z.to_nat (lin g (fitGrid g (pt2int g q)))). assert (Hj : (j < length data)%nat) by (rewrite L; apply Z2Nat.inj_lt; lia).
  destruct (nth_error data j) as [v|] eqn:Ev; [|apply nth_error_None in Ev; lia]. unfold updateCollisions. apply collide_sees; [exact Hk|exact Hn|].
  assert (I1 : In a v) by (apply (P j v Ev); exists ba, ra, (pt2int g q); rewrite Pa; auto). assert (I2 : In b v) by (apply (P j v Ev); exists bb, rb, (pt2int g q); rewrite Pb; auto).
  destruct (pairs_in v a b I1 I2 Hn) as [H|H]; [left|right]; apply in_flat_map; exists v; split; auto; eapply nth_error_In; exact Ev.
Qed.
