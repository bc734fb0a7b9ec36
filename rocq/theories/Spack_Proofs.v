(** Packings of spheres: repetition. *)
From Coq Require Import Reals List ZArith Bool Lra Lia Psatz Sorted FinFun.
From Verif Require Import Vec_Model Vec_Proofs Cloud_Model Cloud_Spec Cloud_Proofs Spack_Model Spack_Spec.
Import ListNotations.
Local Open Scope R_scope.

Definition kadd (a b : Z * Z * Z) : Z * Z * Z := let '(i, j, l) := a in let '(i', j', l') := b in (i + i', j + j', l + l')%Z.
Definition kmul (a b : Z * Z * Z) : Z * Z * Z := let '(i, j, l) := a in let '(i', j', l') := b in (i * i', j * j', l * l')%Z.
Definition kopp (a : Z * Z * Z) : Z * Z * Z := let '(i, j, l) := a in (- i, - j, - l)%Z.
Definition inbox (n k : Z * Z * Z) : Prop := let '(a, b, d) := n in let '(i, j, l) := k in (0 <= i < a /\ 0 <= j < b /\ 0 <= l < d)%Z.
Lemma image_c cs k a : c (image (diag cs) k a) = vadd (c a) (offset cs k).
Proof. destruct k as [[i j] l]. unfold image. cbn [c]. f_equal. destruct cs as [x y z]. unfold mulv, diag, dot, offset. cbn [r0 r1 r2 vx vy vz]. f_equal; ring. Qed.
Lemma image_r cs k a : r (image cs k a) = r a. Proof. destruct k as [[i j] l]. reflexivity. Qed.
Lemma offset_add cs a b : offset cs (kadd a b) = vadd (offset cs a) (offset cs b).
Proof. destruct a as [[i j] l], b as [[i' j'] l']. unfold kadd, offset, vadd. cbn [vx vy vz]. rewrite !plus_IZR. f_equal; ring. Qed.
Lemma offset_opp cs a : offset cs (kopp a) = vopp (offset cs a).
Proof. destruct a as [[i j] l]. unfold kopp, offset, vopp. cbn [vx vy vz]. rewrite !opp_IZR. f_equal; ring. Qed.
Lemma offset_mul cs n k : offset (offset cs n) k = offset cs (kmul n k).
Proof. destruct n as [[a b] d], k as [[i j] l]. unfold kmul, offset. cbn [vx vy vz]. rewrite !mult_IZR. f_equal; ring. Qed.
Lemma offset_0 cs : offset cs (0, 0, 0)%Z = vzero.
Proof. unfold offset, vzero. f_equal; ring. Qed.

Lemma indices_in n i : In i (indices n) <-> (0 <= i < n)%Z.
Proof.
  unfold indices. rewrite in_map_iff. split.
  - intros (x & <- & H). apply in_seq in H. lia.
  - intros H. exists (Z.to_nat i). rewrite in_seq. lia.
Qed.
Lemma indices_nodup n : NoDup (indices n).
Proof. unfold indices. apply Injective_map_NoDup; [intros a b; lia|apply seq_NoDup]. Qed.
Lemma indices_length n : length (indices n) = Z.to_nat n. Proof. unfold indices. rewrite map_length, seq_length. reflexivity. Qed.
Definition cells (n m p : Z) : list (Z * Z * Z) := flat_map (fun i => flat_map (fun j => map (fun k => (i, j, k)) (indices p)) (indices m)) (indices n).
Lemma cells_in n m p k : In k (cells n m p) <-> inbox (n, m, p) k.
Proof.
  destruct k as [[i j] l]. unfold cells, inbox. rewrite in_flat_map. split.
  - intros (i' & Hi & H). apply in_flat_map in H as (j' & Hj & H). apply in_map_iff in H as (l' & E & Hl). apply indices_in in Hi, Hj, Hl. injection E as E1 E2 E3. lia.
  - intros (Hi & Hj & Hl). exists i. split; [apply indices_in; exact Hi|]. apply in_flat_map. exists j. split; [apply indices_in; exact Hj|]. apply in_map_iff. exists l. split; [reflexivity|apply indices_in; exact Hl].
Qed.
Lemma nodup_app {A} (l l' : list A) : NoDup l -> NoDup l' -> (forall x, In x l -> In x l' -> False) -> NoDup (l ++ l').
Proof.
  induction l as [|a l IH]; intros H H' D; [exact H'|]. inversion_clear H. cbn [app]. constructor.
  - rewrite in_app_iff. intros [I|I]; [contradiction|]. apply (D a); [left; reflexivity|exact I].
  - apply IH; auto. intros x I. apply D. right. exact I.
Qed.
Lemma nodup_flat {A B} (f : A -> list B) l : NoDup l -> (forall a, NoDup (f a)) -> (forall a b x, In x (f a) -> In x (f b) -> a = b) -> NoDup (flat_map f l).
Proof.
  intros N F D. induction l as [|a l IH]; [constructor|]. inversion_clear N. cbn [flat_map]. apply nodup_app; [apply F|apply IH; assumption|].
  intros x I J. apply in_flat_map in J as (b & Ib & J). apply H. rewrite (D a b x I J). exact Ib.
Qed.
Lemma cells_nodup n m p : NoDup (cells n m p).
Proof.
  unfold cells. apply nodup_flat; [apply indices_nodup| |].
  - intros i. apply nodup_flat; [apply indices_nodup| |].
    + intros j. apply Injective_map_NoDup; [|apply indices_nodup]. intros a b E. injection E. auto.
    + intros a b x I J. apply in_map_iff in I as (k & <- & _). apply in_map_iff in J as (k' & E & _). injection E. congruence.
  - intros a b x I J. apply in_flat_map in I as (j & _ & I). apply in_flat_map in J as (j' & _ & J). apply in_map_iff in I as (k & <- & _). apply in_map_iff in J as (k' & E & _). injection E. congruence.
Qed.
Lemma flat_length {A B} (f : A -> list B) l k : (forall a, length (f a) = k) -> length (flat_map f l) = (length l * k)%nat.
Proof. intros H. induction l as [|a l IH]; [reflexivity|]. cbn [flat_map length]. rewrite app_length, H, IH. lia. Qed.
Lemma cells_length n m p : length (cells n m p) = (Z.to_nat n * (Z.to_nat m * Z.to_nat p))%nat.
Proof. unfold cells. rewrite (flat_length _ _ (Z.to_nat m * Z.to_nat p)%nat), indices_length; [reflexivity|]. intros i. rewrite (flat_length _ _ (Z.to_nat p)), indices_length; [reflexivity|]. intros j. rewrite map_length. apply indices_length. Qed.
Definition nonzero (x : Z * Z * Z) : bool := let '(i, j, k) := x in negb ((i =? 0) && (j =? 0) && (k =? 0))%Z.
Lemma nonzero_iff x : nonzero x = true <-> x <> (0, 0, 0)%Z.
Proof.
  destruct x as [[i j] l]. unfold nonzero. rewrite negb_true_iff. split.
  - intros H E. injection E as -> -> ->. discriminate.
  - intros H. apply not_true_is_false. intros E. apply H. apply andb_true_iff in E as [E E3]. apply andb_true_iff in E as [E1 E2]. apply Z.eqb_eq in E1, E2, E3. congruence.
Qed.
Lemma others_filter n m p : others n m p = filter nonzero (cells n m p). Proof. reflexivity. Qed.
Lemma others_in n m p k : In k (others n m p) <-> inbox (n, m, p) k /\ k <> (0, 0, 0)%Z.
Proof. rewrite others_filter, filter_In, cells_in, nonzero_iff. tauto. Qed.
Lemma others_nodup n m p : NoDup (others n m p). Proof. rewrite others_filter. apply NoDup_filter, cells_nodup. Qed.
Lemma filter_all {A} (f : A -> bool) l : (forall x, In x l -> f x = true) -> filter f l = l.
Proof. induction l as [|a l IH]; intros H; [reflexivity|]. cbn [filter]. rewrite (H a) by (left; reflexivity). f_equal. apply IH. intros x I. apply H. right. exact I. Qed.
Lemma filter_one (l : list (Z * Z * Z)) : NoDup l -> In (0, 0, 0)%Z l -> S (length (filter nonzero l)) = length l.
Proof.
  induction l as [|a l IH]; intros N I; [contradiction|]. inversion_clear N. cbn [filter]. destruct (nonzero a) eqn:E.
  - destruct I as [->|I]; [discriminate E|]. cbn [length]. rewrite IH by assumption. reflexivity.
  - assert (a = (0, 0, 0)%Z) as -> by (destruct a as [[i j] k]; unfold nonzero in E; apply negb_false_iff in E; apply andb_true_iff in E as [E E3]; apply andb_true_iff in E as [E1 E2]; apply Z.eqb_eq in E1, E2, E3; congruence).
    cbn [length]. f_equal. rewrite filter_all; [reflexivity|]. intros x Ix. apply nonzero_iff. congruence.
Qed.
Lemma others_length n m p : (0 < n)%Z -> (0 < m)%Z -> (0 < p)%Z -> S (length (others n m p)) = (Z.to_nat n * (Z.to_nat m * Z.to_nat p))%nat.
Proof. intros Hn Hm Hp. rewrite others_filter, filter_one, cells_length; [reflexivity|apply cells_nodup|apply cells_in; unfold inbox; lia]. Qed.

(** ** what a repetition does *)
Lemma repeat_done n m p s s' : cellRepeat (n, m, p) s = Done s' ->
  (0 < n)%Z /\ (0 < m)%Z /\ (0 < p)%Z /\ cellSize s <> vzero /\ cellSize s' = offset (cellSize s) (n, m, p) /\ appliedPsdScaling s' = appliedPsdScaling s /\ isPeriodic s' = isPeriodic s /\
  pack s' = pack s ++ flat_map (fun k => map (moved (offset (cellSize s) k)) (pack s)) (others n m p).
Proof.
  unfold cellRepeat. destruct (vec_zero (cellSize s)) eqn:Z; [discriminate|]. destruct ((n <=? 0)%Z || (m <=? 0)%Z || (p <=? 0)%Z) eqn:N; [discriminate|]. intros [= <-].
  apply orb_false_iff in N as [N N3]. apply orb_false_iff in N as [N1 N2]. apply Z.leb_gt in N1, N2, N3. cbn [cellSize appliedPsdScaling isPeriodic pack].
  repeat split; try assumption. intros E. rewrite E in Z. unfold vec_zero, vzero in Z. cbn [vx vy vz] in Z. unfold is_zero in Z. destruct (Req_EM_T 0 0) as [_|H]; [discriminate|lra].
Qed.
Lemma repeat_raises n m p s : (exists s', cellRepeat (n, m, p) s = Done s') \/ (cellRepeat (n, m, p) s = Raises s /\ (cellSize s = vzero \/ (n <= 0)%Z \/ (m <= 0)%Z \/ (p <= 0)%Z)).
Proof.
  unfold cellRepeat. destruct (vec_zero (cellSize s)) eqn:Z.
  - right. split; [reflexivity|]. left. unfold vec_zero in Z. apply andb_true_iff in Z as [Z Z3]. apply andb_true_iff in Z as [Z1 Z2]. apply is_zero_true in Z1, Z2, Z3. destruct (cellSize s) as [x y z]. cbn [vx vy vz] in *. subst. reflexivity.
  - destruct ((n <=? 0)%Z || (m <=? 0)%Z || (p <=? 0)%Z) eqn:N; [|left; eauto]. right. split; [reflexivity|]. right. apply orb_true_iff in N as [N|N]; [apply orb_true_iff in N as [N|N]|]; apply Z.leb_le in N; auto.
Qed.
Lemma repeat_length n m p s s' : cellRepeat (n, m, p) s = Done s' -> Z.of_nat (length (pack s')) = (n * m * p * Z.of_nat (length (pack s)))%Z.
Proof.
  intros H. destruct (repeat_done _ _ _ _ _ H) as (Hn & Hm & Hp & _ & _ & _ & _ & E). rewrite E, app_length, (flat_length _ _ (length (pack s))) by (intros; apply map_length).
  pose proof (others_length n m p Hn Hm Hp) as L.
  replace (length (pack s) + length (others n m p) * length (pack s))%nat with (S (length (others n m p)) * length (pack s))%nat by lia. rewrite L, !Nat2Z.inj_mul, !Z2Nat.id by lia. ring.
Qed.
(** sphere [x] is [a] in the cell [k] *)
Definition at_cell (cs : vec) (x a : sph) (k : Z * Z * Z) : Prop := c x = vadd (c a) (offset cs k) /\ r x = r a.
Lemma repeat_source n m p s s' x : cellRepeat (n, m, p) s = Done s' -> In x (pack s') -> exists a k, In a (pack s) /\ inbox (n, m, p) k /\ at_cell (cellSize s) x a k.
Proof.
  intros H I. destruct (repeat_done _ _ _ _ _ H) as (Hn & Hm & Hp & _ & _ & _ & _ & E). rewrite E in I. apply in_app_iff in I as [I|I].
  - exists x, (0, 0, 0)%Z. split; [exact I|]. split; [unfold inbox; lia|]. split; [rewrite offset_0; symmetry; apply vadd_0_r|reflexivity].
  - apply in_flat_map in I as (k & Hk & I). apply in_map_iff in I as (a & <- & Ia). apply others_in in Hk as [Hk _]. exists a, k. split; [exact Ia|]. split; [exact Hk|]. split; reflexivity.
Qed.
Lemma repeat_target n m p s s' a k : cellRepeat (n, m, p) s = Done s' -> In a (pack s) -> inbox (n, m, p) k -> exists x, In x (pack s') /\ at_cell (cellSize s) x a k.
Proof.
  intros H I B. destruct (repeat_done _ _ _ _ _ H) as (Hn & Hm & Hp & _ & _ & _ & _ & E). rewrite E.
  destruct (nonzero k) eqn:Z.
  - exists (moved (offset (cellSize s) k) a). split; [|split; reflexivity]. apply in_app_iff. right. apply in_flat_map. exists k. split; [apply others_in; split; [exact B|apply nonzero_iff; exact Z]|]. apply in_map. exact I.
  - exists a. split; [apply in_app_iff; left; exact I|]. assert (k = (0, 0, 0)%Z) as ->.
    { destruct k as [[i j] l]. unfold nonzero in Z. apply negb_false_iff in Z. apply andb_true_iff in Z as [E1 E3]. apply andb_true_iff in E1 as [E1 E2]. apply Z.eqb_eq in E1, E2, E3. congruence. }
    split; [rewrite offset_0; symmetry; apply vadd_0_r|reflexivity].
Qed.
Lemma kdiv n m p k : (0 < n)%Z -> (0 < m)%Z -> (0 < p)%Z -> exists q t, inbox (n, m, p) q /\ k = kadd q (kmul (n, m, p) t).
Proof.
  intros Hn Hm Hp. destruct k as [[i j] l]. exists ((i mod n, j mod m, l mod p)%Z), ((i / n, j / m, l / p)%Z). unfold inbox, kadd, kmul.
  pose proof (Z.mod_pos_bound i n Hn). pose proof (Z.mod_pos_bound j m Hm). pose proof (Z.mod_pos_bound l p Hp). split; [auto|].
  pose proof (Z.div_mod i n ltac:(lia)). pose proof (Z.div_mod j m ltac:(lia)). pose proof (Z.div_mod l p ltac:(lia)). f_equal; [f_equal|]; lia.
Qed.
Lemma repeat_occurs n m p s s' x rad : cellRepeat (n, m, p) s = Done s' -> (occurs s' x rad <-> occurs s x rad).
Proof.
  intros H. destruct (repeat_done _ _ _ _ _ H) as (Hn & Hm & Hp & _ & Ec & _ & _ & _). unfold occurs. split.
  - intros (b & t & Ib & <- & <-). destruct (repeat_source _ _ _ _ _ _ H Ib) as (a & k & Ia & B & Cb & Rb). exists a, (kadd k (kmul (n, m, p) t)). split; [exact Ia|]. split; [|symmetry; exact Rb].
    rewrite !image_c, Cb, Ec, offset_mul, offset_add. apply vadd_assoc.
  - intros (a & k & Ia & <- & <-). destruct (kdiv n m p k Hn Hm Hp) as (q & t & B & Ek). destruct (repeat_target _ _ _ _ _ a q H Ia B) as (b & Ib & Cb & Rb).
    exists b, t. split; [exact Ib|]. split; [|exact Rb]. rewrite !image_c, Cb, Ec, offset_mul, Ek, offset_add. symmetry. apply vadd_assoc.
Qed.

(** ** no overlap *)
Lemma fop_app {A} (P : A -> A -> Prop) l l' : ForallOrdPairs P l -> ForallOrdPairs P l' -> (forall x y, In x l -> In y l' -> P x y) -> ForallOrdPairs P (l ++ l').
Proof.
  intros H H' X. induction H as [|a l F H IH]; [exact H'|]. cbn [app]. constructor.
  - apply Forall_app. split; [exact F|]. apply Forall_forall. intros y I. apply X; [left; reflexivity|exact I].
  - apply IH. intros x y I. apply X. right. exact I.
Qed.
Lemma fop_flat {A B} (P : B -> B -> Prop) (f : A -> list B) l : NoDup l -> (forall a, In a l -> ForallOrdPairs P (f a)) ->
  (forall a b x y, In a l -> In b l -> a <> b -> In x (f a) -> In y (f b) -> P x y) -> ForallOrdPairs P (flat_map f l).
Proof.
  induction l as [|a l IH]; intros N F X; [constructor|]. inversion_clear N. cbn [flat_map]. apply fop_app.
  - apply F. left. reflexivity.
  - apply IH; [assumption| |]; intros; [apply F; right; assumption|apply (X a0 b); try (right; assumption); assumption].
  - intros x y Ix Iy. apply in_flat_map in Iy as (b & Ib & Iy). apply (X a b); [left; reflexivity|right; exact Ib|congruence|exact Ix|exact Iy].
Qed.
Lemma fop_map {A B} (P : B -> B -> Prop) (f : A -> B) l : ForallOrdPairs (fun x y => P (f x) (f y)) l -> ForallOrdPairs P (map f l).
Proof. induction 1 as [|a l F H IH]; [constructor|]. cbn [map]. constructor; [|exact IH]. apply Forall_map. exact F. Qed.
Lemma norm_vsub a b : norm (vsub a b) = norm (vsub b a).
Proof. unfold norm. f_equal. destruct a as [x y z], b as [x' y' z']. unfold norm2, dot, vsub. cbn [vx vy vz]. ring. Qed.
(** relative place *)
Lemma apart_rel cs x a k y b k' t n : at_cell cs x a k -> at_cell cs y b k' ->
  (apart (image (diag (offset cs n)) t x) y <-> apart (image (diag cs) (kadd (kadd k (kmul n t)) (kopp k')) a) b).
Proof.
  intros [Cx Rx] [Cy Ry]. unfold apart. rewrite !image_r, !image_c, Rx, Ry, Cx, Cy, offset_mul, !offset_add, offset_opp.
  replace (vsub (vadd (vadd (c a) (offset cs k)) (offset cs (kmul n t))) (vadd (c b) (offset cs k'))) with (vsub (vadd (c a) (vadd (vadd (offset cs k) (offset cs (kmul n t))) (vopp (offset cs k')))) (c b)); [tauto|].
  generalize (c a) (c b) (offset cs k) (offset cs k') (offset cs (kmul n t)). clear. intros. vring.
Qed.
Lemma apart_sym_periodic cs a b k : apart_periodic (diag cs) b a -> apart (image (diag cs) k a) b.
Proof.
  intros H. specialize (H (kopp k)). unfold apart in *. rewrite image_r in *. rewrite image_c in *. rewrite offset_opp in H.
  replace (vsub (vadd (c a) (offset cs k)) (c b)) with (vopp (vsub (vadd (c b) (vopp (offset cs k))) (c a))) by (generalize (c a) (c b) (offset cs k); clear; intros; vring).
  replace (norm (vopp (vsub (vadd (c b) (vopp (offset cs k))) (c a)))) with (norm (vsub (vadd (c b) (vopp (offset cs k))) (c a))); [lra|].
  unfold norm. f_equal. generalize (vsub (vadd (c b) (vopp (offset cs k))) (c a)). clear. intros. vring.
Qed.
Lemma knonzero n m p k k' t : inbox (n, m, p) k -> inbox (n, m, p) k' -> k <> k' -> kadd (kadd k (kmul (n, m, p) t)) (kopp k') <> (0, 0, 0)%Z.
Proof.
  destruct k as [[i j] l], k' as [[i' j'] l'], t as [[a b] d]. unfold inbox, kadd, kmul, kopp. intros (A1 & A2 & A3) (B1 & B2 & B3) N E. injection E as E1 E2 E3. apply N.
  assert (Hx : forall x y w u : Z, (0 <= x < w -> 0 <= y < w -> x + w * u + - y = 0 -> x = y)%Z).
  { intros x y w u X Y Q. assert (u = 0)%Z by nia. subst. lia. }
  rewrite (Hx i i' n a), (Hx j j' m b), (Hx l l' p d) by assumption. reflexivity.
Qed.
Lemma repeat_loose n m p s s' : cellRepeat (n, m, p) s = Done s' -> loose s -> loose s'.
Proof.
  intros H [F O]. pose proof (repeat_done _ _ _ _ _ H) as (Hn & Hm & Hp & _ & Ec & _ & _ & Ep). unfold loose. rewrite Ec. rewrite Forall_forall in O.
  assert (A0 : forall a, at_cell (cellSize s) a a (0, 0, 0)%Z) by (intros a; split; [rewrite offset_0; symmetry; apply vadd_0_r|reflexivity]).
  assert (Ak : forall a k, at_cell (cellSize s) (moved (offset (cellSize s) k) a) a k) by (intros a k; split; reflexivity).
  assert (B0 : inbox (n, m, p) (0, 0, 0)%Z) by (unfold inbox; lia).
  assert (Same : forall x y a b k, at_cell (cellSize s) x a k -> at_cell (cellSize s) y b k -> apart_periodic (diag (cellSize s)) a b -> apart_periodic (diag (offset (cellSize s) (n, m, p))) x y).
  { intros x y a b k X Y P t. apply (apart_rel _ _ _ _ _ _ _ _ _ X Y). apply P. }
  assert (Cross : forall x y a b k k', at_cell (cellSize s) x a k -> at_cell (cellSize s) y b k' -> In a (pack s) -> In b (pack s) -> inbox (n, m, p) k -> inbox (n, m, p) k' -> k <> k' -> apart_periodic (diag (offset (cellSize s) (n, m, p))) x y).
  { intros x y a b k k' X Y Ia Ib Bk Bk' N t. apply (apart_rel _ _ _ _ _ _ _ _ _ X Y). pose proof (knonzero n m p k k' t Bk Bk' N) as NZ.
    destruct (ForallOrdPairs_In F a b Ia Ib) as [->|[P|P]]; [apply O; assumption|apply P|apply apart_sym_periodic; exact P]. }
  split.
  - rewrite Ep. apply fop_app.
    + clear -F Same A0. induction F as [|a l Fa F IH]; [constructor|]. constructor; [|exact IH]. eapply Forall_impl; [|exact Fa]. intros b P. apply (Same a b a b (0, 0, 0)%Z); auto.
    + apply fop_flat; [apply others_nodup| |].
      * intros k _. apply fop_map. clear -F Same Ak. induction F as [|a l Fa F IH]; [constructor|]. constructor; [|exact IH]. eapply Forall_impl; [|exact Fa]. intros b P. apply (Same _ _ a b k); auto.
      * intros k k' x y Ik Ik' N Ix Iy. apply in_map_iff in Ix as (a & <- & Ia). apply in_map_iff in Iy as (b & <- & Ib). apply others_in in Ik as [Ik _]. apply others_in in Ik' as [Ik' _]. apply (Cross _ _ a b k k'); auto.
    + intros x y Ix Iy. apply in_flat_map in Iy as (k & Ik & Iy). apply in_map_iff in Iy as (b & <- & Ib). apply others_in in Ik as [Ik Nk]. apply (Cross _ _ x b (0, 0, 0)%Z k); auto.
  - apply Forall_forall. intros x Ix. destruct (repeat_source _ _ _ _ _ _ H Ix) as (a & k & Ia & Bk & X). intros t Nt. apply (apart_rel _ _ _ _ _ _ _ _ _ X X). apply (O a Ia).
    destruct k as [[i j] l], t as [[u v] w]. unfold kadd, kmul, kopp. intros E. injection E as E1 E2 E3. apply Nt. f_equal; [f_equal|]; nia.
Qed.

(** ** filling *)
Lemma ceil_spec x : x <= IZR (ceil x) < x + 1.
Proof. unfold ceil. destruct (base_Int_part (- x)) as [A B]. rewrite opp_IZR. lra. Qed.
Lemma fill_spec v d : 0 < d -> 0 < v -> v / d <= 2147483647 -> exists n, fill_count v d = Some n /\ (0 < n)%Z /\ v <= d * IZR n /\ d * IZR n - v < d.
Proof.
  intros Hd Hv Hb. unfold fill_count. destruct (is_zero d) eqn:Z; [apply is_zero_true in Z; lra|]. pose proof (ceil_spec (v / d)) as [A B].
  assert (Q : 0 < v / d) by (apply Rdiv_lt_0_compat; assumption). assert (V : d * (v / d) = v) by (field; lra).
  assert (N : (0 < ceil (v / d))%Z) by (apply lt_IZR; lra). assert (N2 : (ceil (v / d) <= 2147483647)%Z) by (assert (IZR (ceil (v / d)) < 2147483648) by lra; apply lt_IZR in H; lia).
  exists (ceil (v / d)). unfold to_int. rewrite (proj2 (Z.leb_le _ _)) by lia. rewrite (proj2 (Z.leb_le _ _)) by lia. split; [reflexivity|]. split; [exact N|].
  pose proof (Rmult_le_compat_l d _ _ (Rlt_le _ _ Hd) A). pose proof (Rmult_lt_compat_l d _ _ Hd B). rewrite Rmult_plus_distr_l, V in *. lra.
Qed.
Lemma fill_done v s : 0 < vx (cellSize s) -> 0 < vy (cellSize s) -> 0 < vz (cellSize s) -> 0 < vx v -> 0 < vy v -> 0 < vz v ->
  vx v / vx (cellSize s) <= 2147483647 -> vy v / vy (cellSize s) <= 2147483647 -> vz v / vz (cellSize s) <= 2147483647 ->
  exists n m p s', cellFill v s = Done s' /\ cellRepeat (n, m, p) s = Done s' /\
    0 <= vx (cellSize s') - vx v < vx (cellSize s) /\ 0 <= vy (cellSize s') - vy v < vy (cellSize s) /\ 0 <= vz (cellSize s') - vz v < vz (cellSize s).
Proof.
  intros X Y Z VX VY VZ BX BY BZ. destruct (fill_spec _ _ X VX BX) as (n & En & Nn & A1 & A2). destruct (fill_spec _ _ Y VY BY) as (m & Em & Nm & B1 & B2). destruct (fill_spec _ _ Z VZ BZ) as (p & Ep & Np & C1 & C2).
  destruct (repeat_raises n m p s) as [[s' H]|[_ [E|[E|[E|E]]]]]; [|rewrite E in X; cbn [vzero vx] in X; lra|lia|lia|lia].
  exists n, m, p, s'. unfold cellFill. rewrite En, Em, Ep. split; [exact H|]. split; [exact H|]. destruct (repeat_done _ _ _ _ _ H) as (_ & _ & _ & _ & Ec & _). rewrite Ec. unfold offset. cbn [vx vy vz]. lra.
Qed.
