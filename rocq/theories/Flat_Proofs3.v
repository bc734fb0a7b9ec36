From Coq Require Import Reals List ZArith Bool Arith Lra Lia.
From Verif Require Import Vec_Model Vec_Proofs Law_Model Law_Proofs Pred_Proofs Flat_Model Flat_Spec Flat_Proofs Flat_Proofs2.
Import ListNotations.
Local Open Scope R_scope.

Lemma fill_spherical g verlet : forall bodies n d d', fold_left (updateBodyCells g verlet) (combine (seq n (length bodies)) bodies) (Ok d) = Ok d' -> spherical bodies.
Proof.
  induction bodies as [|b bodies IH]; intros n d d' E; [constructor|]. cbn [length seq combine fold_left] in E.
  destruct (updateBodyCells g verlet (Ok d) (n, b)) as [d1| |] eqn:U; [|rewrite (fold_stuck g verlet _ Throws I) in E; discriminate|rewrite (fold_stuck g verlet _ OutOfBounds I) in E; discriminate].
  constructor; [|apply (IH (Datatypes.S n) d1 d' E)]. destruct b as [b|]; [|exact I]. unfold updateBodyCells in U. cbn [fst snd] in U. destruct (fshape_of b) as [[rad|]|]; discriminate.
Qed.
Lemma action_inv newton mn0 mx step verlet may iter bodies l l' : action newton mn0 mx step verlet may iter bodies l = Ok l' ->
  exists g d, updateGrid mn0 mx step = Some g /\ fill g verlet bodies = Ok d /\ spherical bodies /\ l' = updateCollisions may iter g d l.
Proof.
  unfold action. destruct newton; [|discriminate]. destruct (updateGrid mn0 mx step) as [g|]; [|discriminate]. destruct (fill g verlet bodies) as [d| |] eqn:F; [|discriminate|discriminate]. intros E. injection E as <-. exists g, d. split; [reflexivity|]. split; [exact F|]. split; [apply (fill_spherical g verlet bodies 0 _ d F)|reflexivity].
Qed.
(** C242 *)
Lemma action_errors newton mn0 mx step verlet may iter bodies l :
  action newton mn0 mx step verlet may iter bodies l <> OutOfBounds /\
  (action newton mn0 mx step verlet may iter bodies l = Throws <-> newton = false \/ step <= 0 \/ vx mx <= vx mn0 \/ vy mx <= vy mn0 \/ vz mx <= vz mn0 \/ ~ spherical bodies).
Proof.
  destruct newton; [|split; [discriminate|split; [auto|reflexivity]]]. unfold action. destruct (updateGrid mn0 mx step) as [g|] eqn:G.
  - destruct (updateGrid_spec _ _ _ _ G) as (SZ & _ & _ & S & _). assert (V0 : vx mn0 < vx mx /\ vy mn0 < vy mx /\ vz mn0 < vz mx).
    { unfold updateGrid, vsub in G. cbv zeta in G. cbn [vx vy vz] in G. destruct (Rle_dec step 0); [discriminate|]. destruct (Rle_dec _ 0); [discriminate|]. destruct (Rle_dec _ 0); [discriminate|]. destruct (Rle_dec _ 0); [discriminate|]. lra. }
    assert (ND : ~ spherical bodies -> fill g verlet bodies = Throws).
    { clear -SZ. enough (Q : forall (d : data) n, ~ spherical bodies -> fold_left (updateBodyCells g verlet) (combine (seq n (length bodies)) bodies) (Ok d) = Throws) by (apply Q). induction bodies as [|b bodies IH]; intros d n N; [exfalso; apply N; constructor|]. cbn [length seq combine fold_left].
      destruct b as [b|]; [|apply IH; intros H; apply N; constructor; [exact I|exact H]]. unfold updateBodyCells at 2. cbn [fst snd]. destruct (fshape_of b) as [[rad|]|] eqn:F.
      - destruct (add_spheres g n (rad + verlet) (fpos b) SZ (cells_between (pt2int g (vsub (fpos b) (V (rad + verlet) (rad + verlet) (rad + verlet)))) (pt2int g (vadd (fpos b) (V (rad + verlet) (rad + verlet) (rad + verlet))))) d) as (d1 & E & _). cbv zeta. rewrite E. apply IH. intros H. apply N. constructor; [congruence|exact H].
      - apply fold_stuck. exact I.
      - apply IH. intros H. apply N. constructor; [congruence|exact H]. }
    assert (DEC : spherical bodies \/ ~ spherical bodies).
    { clear. induction bodies as [|b bodies IH]; [left; constructor|]. destruct IH as [IH|IH]; [|right; intros H; apply IH; inversion H; assumption]. destruct b as [b|]; [|left; constructor; [exact I|exact IH]]. destruct (fshape_of b) as [[rad|]|] eqn:F; [left; constructor; [congruence|exact IH]|right; intros H; inversion H; contradiction|left; constructor; [congruence|exact IH]]. }
    destruct DEC as [D|D].
    + destruct (fill_spec g verlet bodies SZ D) as (d & -> & _). split; [discriminate|]. split; [discriminate|]. intros [H|[H|[H|[H|[H|H]]]]]; [discriminate|exfalso; lra|exfalso; lra|exfalso; lra|exfalso; lra|contradiction].
    + rewrite (ND D). split; [discriminate|]. split; [auto 10|reflexivity].
  - split; [discriminate|]. split; [intros _|reflexivity]. unfold updateGrid, vsub in G. cbv zeta in G. cbn [vx vy vz] in G. destruct (Rle_dec step 0); [auto|]. destruct (Rle_dec _ 0); [right; right; left; lra|]. destruct (Rle_dec _ 0); [right; right; right; left; lra|]. destruct (Rle_dec _ 0); [right; right; right; right; left; lra|discriminate].
Qed.
(** the interactions of a pair *)
Definition seen (a b : nat) (g : grid) (d : data) : list (nat * nat) := filter (same a b) (flat_map pairs (map d (seq 0 (len g)))).
Lemma seen_some a b g d n : a <> b -> (n < len g)%nat -> In a (d n) -> In b (d n) -> seen a b g d <> [].
Proof.
  intros N L A B E. destruct (pairs_have (d n) a b N A B) as (p & I & S). assert (J : In p (seen a b g d)). { apply filter_In. split; [|exact S]. apply in_flat_map. exists (d n). split; [apply in_map, in_seq; lia|exact I]. } rewrite E in J. destruct J.
Qed.
Lemma seen_cell a b g d : seen a b g d <> [] -> exists n, (n < len g)%nat /\ In a (d n) /\ In b (d n).
Proof.
  intros N. destruct (seen a b g d) as [|p t] eqn:E; [contradiction|]. assert (I : In p (seen a b g d)) by (rewrite E; left; reflexivity). apply filter_In in I as (I & S). apply in_flat_map in I as (x & X & P). apply in_map_iff in X as (n & <- & X). apply in_seq in X. exists n. split; [lia|]. apply same_spec in S as [-> | -> ]; apply pairs_in in P as (A & B); auto.
Qed.
Lemma view_after may iter g d l a b : a <> b -> filter (joins a b) (updateCollisions may iter g d l) = fold_left (touch may iter) (seen a b g d) (filter (joins a b) l).
Proof. intros N. apply fold_view. exact N. Qed.
Lemma known_after may iter g d l a b : a <> b -> allowed may a b -> seen a b g d <> [] -> known (updateCollisions may iter g d l) a b.
Proof.
  intros N M S. apply known_spec. rewrite view_after by exact N. destruct (filter (joins a b) l) as [|i t] eqn:E.
  - destruct (touch_new may iter a b (seen a b g d) M (filter_all _ _ _)) as (x & y & _ & ->). destruct (seen a b g d) as [|p [|q L]]; [contradiction|discriminate|discriminate].
  - rewrite touch_known by discriminate. destruct (seen a b g d); discriminate.
Qed.
(** shared cells of spheres that meet *)
Lemma meet_cell g verlet bodies d a b ra Ca rb Cb : sized g -> 0 < gstep g -> diagonal (mn g) -> spherical bodies -> fill g verlet bodies = Ok d -> a <> b -> sphere_at bodies a ra Ca -> sphere_at bodies b rb Cb -> 0 <= ra + verlet -> 0 <= rb + verlet -> meet (ra + verlet) Ca (rb + verlet) Cb -> seen a b g d <> [].
Proof.
  intros SZ S D SP F N A B H1 H2 M. destruct (fill_spec g verlet bodies SZ SP) as (d' & F' & IN & _). rewrite F in F'. injection F' as <-. destruct (common_point _ _ _ _ H1 H2 M) as (p & P1 & P2).
  destruct (ball_near g _ _ p D S H1 P1) as (X1 & Y1). destruct (ball_near g _ _ p D S H2 P2) as (X2 & Y2).
  apply (seen_some a b g d (lin g (pt2int g p)) N); [apply lin_bound; exact SZ|apply (IN a ra Ca); assumption|apply (IN b rb Cb); assumption].
Qed.
(** C240 *)
Lemma action_complete newton mn0 mx step verlet may iter bodies l l' a b ra Ca rb Cb :
  action newton mn0 mx step verlet may iter bodies l = Ok l' -> diagonal mn0 -> a <> b -> allowed may a b ->
  sphere_at bodies a ra Ca -> sphere_at bodies b rb Cb -> 0 <= ra + verlet -> 0 <= rb + verlet -> meet (ra + verlet) Ca (rb + verlet) Cb -> known l' a b.
Proof.
  intros A D N M SA SB H1 H2 ME. destruct (action_inv _ _ _ _ _ _ _ _ _ _ A) as (g & d & G & F & SP & ->). destruct (updateGrid_spec _ _ _ _ G) as (SZ & Emn & Est & S & _). apply known_after; [exact N|exact M|].
  apply (meet_cell g verlet bodies d a b ra Ca rb Cb); try assumption; [rewrite Est; exact S|rewrite Emn; exact D].
Qed.
(** C241: what survives *)
Lemma filter_swept a b iter l : filter (joins a b) (swept iter l) = swept iter (filter (joins a b) l).
Proof. unfold swept. induction l as [|i l IH]; [reflexivity|]. cbn [filter]. destruct (real i || (iter <=? lastSeen i)%Z)%bool eqn:E, (joins a b i) eqn:J; cbn [filter]; rewrite ?E, ?J, IH; reflexivity. Qed.
Lemma swept_mark iter v : swept iter (map (mark iter) v) = map (mark iter) v.
Proof. unfold swept. induction v as [|i v IH]; [reflexivity|]. cbn [map filter]. unfold mark at 1 2. cbn [real lastSeen]. rewrite Z.leb_refl, orb_true_r, IH. reflexivity. Qed.
Lemma known_kept newton mn0 mx step verlet may iter bodies l l' a b ra Ca rb Cb :
  action newton mn0 mx step verlet may iter bodies l = Ok l' -> diagonal mn0 -> a <> b -> known l a b ->
  sphere_at bodies a ra Ca -> sphere_at bodies b rb Cb -> 0 <= ra + verlet -> 0 <= rb + verlet -> meet (ra + verlet) Ca (rb + verlet) Cb -> known (swept iter l') a b.
Proof.
  intros A D N K SA SB H1 H2 ME. destruct (action_inv _ _ _ _ _ _ _ _ _ _ A) as (g & d & G & F & SP & ->). destruct (updateGrid_spec _ _ _ _ G) as (SZ & Emn & Est & S & _).
  assert (NE : seen a b g d <> []) by (apply (meet_cell g verlet bodies d a b ra Ca rb Cb); try assumption; [rewrite Est; exact S|rewrite Emn; exact D]).
  apply known_spec. rewrite filter_swept, view_after by exact N. apply known_spec in K. rewrite touch_known by exact K. destruct (seen a b g d) as [|p L]; [contradiction|]. rewrite swept_mark. destruct (filter (joins a b) l); [contradiction|discriminate].
Qed.
Lemma new_survives may iter g d l a b : (0 <= iter)%Z -> a <> b -> allowed may a b -> ~ known l a b -> (known (swept iter (updateCollisions may iter g d l)) a b <-> (2 <= length (seen a b g d))%nat).
Proof.
  intros P N M K. rewrite known_spec, filter_swept, view_after by exact N. assert (E : filter (joins a b) l = []) by (destruct (filter (joins a b) l) as [|i t] eqn:E; [reflexivity|exfalso; apply K, known_spec; rewrite E; discriminate]). rewrite E.
  destruct (touch_new may iter a b (seen a b g d) M (filter_all _ _ _)) as (x & y & _ & ->). destruct (seen a b g d) as [|p [|q L]]; cbn [length].
  - split; [intros H; exfalso; apply H; reflexivity|lia].
  - unfold swept. cbn [filter real lastSeen orb]. destruct (Z.leb_spec iter (-1)); [lia|]. split; [intros H'; exfalso; apply H'; reflexivity|lia].
  - unfold swept. cbn [filter real lastSeen orb]. rewrite Z.leb_refl. split; [lia|discriminate].
Qed.
Lemma two_of (f : nat -> bool) n k m : (k < n)%nat -> (m < n)%nat -> k <> m -> f k = true -> f m = true -> (2 <= length (filter f (seq 0 n)))%nat.
Proof.
  intros K M N FK FM. assert (ND : NoDup [k; m]) by (constructor; [intros [E|[]]; congruence|constructor; [intros []|constructor]]). apply (NoDup_incl_length ND (l' := filter f (seq 0 n))). intros x [<- |[<- |[]]]; apply filter_In; split; try assumption; apply in_seq; lia.
Qed.
Lemma inside_pt g p c : diagonal (mn g) -> 0 < gstep g -> inside (mn g) (gstep g) (gx g) (gy g) (gz g) p c -> pt2int g p = c.
Proof.
  intros (DX & DZ) S. destruct c as [[x y] z]. unfold inside. intros (A & B & C & _). rewrite DX in A. rewrite DZ in C. unfold pt2int. rewrite (cell_floor _ _ _ x S A), (cell_floor _ _ _ y S B), (cell_floor _ _ _ z S C). reflexivity.
Qed.
(** C241: two common points in different cells *)
Lemma two_cells_survive newton mn0 mx step verlet may iter bodies l l' a b ra Ca rb Cb p q c c' :
  action newton mn0 mx step verlet may iter bodies l = Ok l' -> diagonal mn0 -> (0 <= iter)%Z -> a <> b -> allowed may a b ->
  sphere_at bodies a ra Ca -> sphere_at bodies b rb Cb -> 0 <= ra + verlet -> 0 <= rb + verlet ->
  in_ball (ra + verlet) Ca p -> in_ball (rb + verlet) Cb p -> in_ball (ra + verlet) Ca q -> in_ball (rb + verlet) Cb q ->
  inside mn0 step (ceilR ((vx mx - vx mn0) / step)) (ceilR ((vy mx - vy mn0) / step)) (ceilR ((vz mx - vz mn0) / step)) p c ->
  inside mn0 step (ceilR ((vx mx - vx mn0) / step)) (ceilR ((vy mx - vy mn0) / step)) (ceilR ((vz mx - vz mn0) / step)) q c' -> c <> c' ->
  known (swept iter l') a b.
Proof.
  intros A D P N M SA SB H1 H2 PA PB QA QB IP IQ NC. destruct (action_inv _ _ _ _ _ _ _ _ _ _ A) as (g & d & G & F & SP & ->). destruct (updateGrid_spec _ _ _ _ G) as (SZ & Emn & Est & S & EX & EY & EZ). rewrite <- Emn in D. rewrite <- Est in S. rewrite <- EX, <- EY, <- EZ, <- Emn, <- Est in IP, IQ.
  pose proof (inside_pt g p c D S IP) as Ec. pose proof (inside_pt g q c' D S IQ) as Ec'.
  destruct (fill_spec g verlet bodies SZ SP) as (d' & F' & IN & _). rewrite F in F'. injection F' as <-.
  assert (BOTH : forall x, in_ball (ra + verlet) Ca x -> in_ball (rb + verlet) Cb x -> both a b (d (lin g (pt2int g x))) = true).
  { intros x X1 X2. apply both_spec. destruct (ball_near g _ _ x D S H1 X1) as (U1 & W1). destruct (ball_near g _ _ x D S H2 X2) as (U2 & W2). split; [apply (IN a ra Ca)|apply (IN b rb Cb)]; assumption. }
  pose proof (BOTH p PA PB) as B1. pose proof (BOTH q QA QB) as B2. rewrite Ec in B1. rewrite Ec' in B2.
  assert (NL : lin g c <> lin g c').
  { intros E. apply NC. destruct c as [[x y] z], c' as [[x' y'] z']. destruct IP as (_ & _ & _ & I1 & I2 & I3), IQ as (_ & _ & _ & J1 & J2 & J3). apply (lin_injective g); assumption. }
  assert (TWO : (2 <= length (seen a b g d))%nat).
  { unfold seen. rewrite (count_cells a b d _ N (fill_nodup g verlet bodies d F)). apply two_of with (lin g c) (lin g c'); try assumption; apply lin_bound; exact SZ. }
  assert (DEC : known l a b \/ ~ known l a b) by (rewrite known_spec; destruct (filter (joins a b) l); [right; intros H; apply H; reflexivity|left; discriminate]).
  destruct DEC as [K|K]; [|apply new_survives; assumption].
  apply known_spec. rewrite filter_swept, view_after by exact N. apply known_spec in K. rewrite touch_known by exact K. destruct (seen a b g d) as [|e L]; [cbn [length] in TWO; lia|]. rewrite swept_mark. destruct (filter (joins a b) l); [contradiction|discriminate].
Qed.
(** C241: a ball in one cell *)
Lemma one_cell g r C c : diagonal (mn g) -> 0 < gstep g -> inside (mn g) (gstep g) (gx g) (gy g) (gz g) (vsub C (V r r r)) c -> inside (mn g) (gstep g) (gx g) (gy g) (gz g) (vadd C (V r r r)) c -> box_cells g r C = [c].
Proof.
  intros D S L H. unfold box_cells. rewrite (inside_pt g _ c D S L), (inside_pt g _ c D S H). destruct c as [[x y] z]. unfold cells_between, zrange. rewrite !Z.sub_diag. change (Z.to_nat (0 + 1)) with 1%nat. cbn [seq map flat_map app]. rewrite !Z.add_0_r. reflexivity.
Qed.
Lemma one_cell_erased newton mn0 mx step verlet may iter bodies l l' a b ra Ca rb Cb c :
  action newton mn0 mx step verlet may iter bodies l = Ok l' -> diagonal mn0 -> (0 <= iter)%Z -> a <> b -> allowed may a b -> ~ known l a b ->
  sphere_at bodies a ra Ca -> sphere_at bodies b rb Cb ->
  (let at_ p := inside mn0 step (ceilR ((vx mx - vx mn0) / step)) (ceilR ((vy mx - vy mn0) / step)) (ceilR ((vz mx - vz mn0) / step)) p c in
   at_ (vsub Ca (V (ra + verlet) (ra + verlet) (ra + verlet))) /\ at_ (vadd Ca (V (ra + verlet) (ra + verlet) (ra + verlet)))) -> ~ known (swept iter l') a b.
Proof.
  intros A D P N M K SA SB (I1 & I2). destruct (action_inv _ _ _ _ _ _ _ _ _ _ A) as (g & d & G & F & SP & ->). destruct (updateGrid_spec _ _ _ _ G) as (SZ & Emn & Est & S & EX & EY & EZ). rewrite <- Emn in D. rewrite <- Est in S. rewrite <- EX, <- EY, <- EZ, <- Emn, <- Est in I1, I2.
  pose proof (one_cell g _ _ c D S I1 I2) as BC. destruct (fill_spec g verlet bodies SZ SP) as (d' & F' & _ & OUT). rewrite F in F'. injection F' as <-.
  rewrite (new_survives may iter g d l a b P N M K). unfold seen. rewrite (count_cells a b d _ N (fill_nodup g verlet bodies d F)).
  assert (ONE : forall n, both a b (d n) = true -> n = lin g c).
  { intros n B. apply both_spec in B as (B & _). destruct (OUT n a B) as (r & C & c0 & (x & X1 & X2 & X3) & I & _ & ->). destruct SA as (y & Y1 & Y2 & Y3). rewrite X1 in Y1. injection Y1 as ->. rewrite X2 in Y2. injection Y2 as ->. subst. rewrite BC in I. destruct I as [-> |[]]. reflexivity. }
  intros TWO. destruct (filter (fun n => both a b (d n)) (seq 0 (len g))) as [|n [|m t]] eqn:E; [cbn [length] in TWO; lia|cbn [length] in TWO; lia|].
  assert (ND : NoDup (n :: m :: t)) by (rewrite <- E; apply NoDup_filter, seq_NoDup). assert (IN' : forall x, In x (n :: m :: t) -> x = lin g c) by (intros x I; rewrite <- E in I; apply filter_In in I as (_ & B); apply ONE; exact B).
  inversion ND as [|? ? N1 _]; subst. apply N1. left. rewrite (IN' n (or_introl eq_refl)), (IN' m (or_intror (or_introl eq_refl))). reflexivity.
Qed.
