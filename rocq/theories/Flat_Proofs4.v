From Coq Require Import Reals List ZArith Bool Arith Lra Lia.
From Verif Require Import Vec_Model Vec_Proofs Law_Model Law_Proofs Pred_Proofs Flat_Model Flat_Spec Flat_Proofs Flat_Proofs2 Flat_Proofs3.
Import ListNotations.
Local Open Scope R_scope.

(** ** C243: the enlarged spheres *)
Lemma quiet_bound verlet h : forall f p q, quiet verlet f h -> not_shortened h -> moves p h q -> f <= verlet -> norm (vsub q p) <= verlet - f.
Proof.
  induction h as [|[[v2 dt] dt'] h IH]; intros f p q Q NS M F.
  - cbn [moves] in M. subst q. assert (E : vsub p p = vzero) by (unfold vsub, vzero; f_equal; ring). rewrite E. assert (N0 : norm vzero = 0) by (unfold norm; replace (norm2 vzero) with 0 by (unfold norm2, dot, vzero; cbn [vx vy vz]; ring); apply sqrt_0). rewrite N0. lra.
  - cbn [quiet] in Q. destruct Q as (Q1 & Q2). cbn [moves] in M. destruct M as (m & M1 & M2). inversion NS as [|? ? S1 S2]; subst. cbv beta iota in S1. unfold isActivated in Q1, Q2. cbv zeta in Q1, Q2. cbn [fst snd] in Q1, Q2. destruct (Rlt_dec verlet (f + sqrt v2 * dt')) as [|L]; [discriminate|]. apply Rnot_lt_le in L.
    specialize (IH _ m q Q2 S2 M2 L). assert (T : norm (vsub q p) <= norm (vsub q m) + norm (vsub m p)). { replace (vsub q p) with (vadd (vsub q m) (vsub m p)) by (unfold vsub, vadd; cbn [vx vy vz]; f_equal; ring). apply norm_triangle. }
    assert (sqrt v2 * dt <= sqrt v2 * dt') by (apply Rmult_le_compat_l; [apply sqrt_pos|exact S1]). lra.
Qed.
Lemma norm_le_of r v : 0 <= r -> norm2 v <= r * r -> norm v <= r.
Proof. intros H L. unfold norm. rewrite <- (sqrt_square r H). apply sqrt_le_1_alt. exact L. Qed.
Lemma norm2_le_of r v : 0 <= r -> norm v <= r -> norm2 v <= r * r.
Proof. intros H L. rewrite <- norm_sq. apply Rmult_le_compat; try exact L; apply norm_pos. Qed.
Lemma norm_sym a b : norm (vsub a b) = norm (vsub b a).
Proof. unfold norm. f_equal. unfold norm2, dot, vsub. cbn [vx vy vz]. ring. Qed.
Lemma met_before verlet h pa qa pb qb ra rb : 0 <= verlet -> quiet verlet 0 h -> not_shortened h -> moves pa h qa -> moves pb h qb -> meet ra qa rb qb -> meet (ra + verlet) pa (rb + verlet) pb.
Proof.
  intros V0 Q NS MA MB (P & M). pose proof (quiet_bound verlet h 0 pa qa Q NS MA V0) as A. pose proof (quiet_bound verlet h 0 pb qb Q NS MB V0) as B. split; [lra|]. apply norm2_le_of; [lra|]. apply norm_le_of in M; [|exact P].
  assert (T : norm (vsub pa pb) <= norm (vsub pa qa) + norm (vsub qa qb) + norm (vsub qb pb)).
  { replace (vsub pa pb) with (vadd (vadd (vsub pa qa) (vsub qa qb)) (vsub qb pb)) by (unfold vsub, vadd; cbn [vx vy vz]; f_equal; ring). eapply Rle_trans; [apply norm_triangle|]. apply Rplus_le_compat_r, norm_triangle. }
  rewrite (norm_sym pa qa) in T. lra.
Qed.
Lemma quiet_complete newton mn0 mx step verlet may iter bodies l l' a b ra pa rb pb h qa qb :
  action newton mn0 mx step verlet may iter bodies l = Ok l' -> diagonal mn0 -> a <> b -> allowed may a b -> sphere_at bodies a ra pa -> sphere_at bodies b rb pb -> 0 <= ra -> 0 <= rb -> 0 <= verlet ->
  quiet verlet 0 h -> not_shortened h -> moves pa h qa -> moves pb h qb -> meet ra qa rb qb -> known l' a b.
Proof.
  intros A D N M SA SB RA RB V0 Q NS MA MB ME. apply (action_complete newton mn0 mx step verlet may iter bodies l l' a b ra pa rb pb); try assumption; try lra. apply (met_before verlet h pa qa pb qb); assumption.
Qed.
(** ** C244: the list of interactions *)
Definition follows (may : nat -> nat -> bool) (iter : Z) (l0 l : list intr) : Prop :=
  (forall i, In i l0 -> exists s, In (mkI (i1 i) (i2 i) s (real i)) l /\ (s = lastSeen i \/ s = iter)) /\
  (forall i, In i l -> (exists s, In (mkI (i1 i) (i2 i) s (real i)) l0 /\ (lastSeen i = s \/ lastSeen i = iter)) \/
     (real i = false /\ may (i1 i) (i2 i) = true /\ ~ known l0 (i1 i) (i2 i) /\ i1 i <> i2 i /\ (lastSeen i = (-1)%Z \/ lastSeen i = iter))).
Lemma follows_refl may iter l : follows may iter l l.
Proof. split; [|]; intros i I; [|left]; exists (lastSeen i); split; auto; destruct i; exact I. Qed.
Lemma follows_known may iter l0 l a b : follows may iter l0 l -> known l0 a b -> known l a b.
Proof. intros (A & _) (i & I & P). destruct (A i I) as (s & J & _). exists (mkI (i1 i) (i2 i) s (real i)). split; [exact J|exact P]. Qed.
Lemma existsb_joins a b l : existsb (joins a b) l = true <-> known l a b.
Proof. rewrite existsb_exists. unfold known. split; intros (i & I & P); exists i; (split; [exact I|apply joins_spec; exact P]). Qed.
Lemma follows_step may iter l0 l p : follows may iter l0 l -> follows may iter l0 (collide may iter l p).
Proof.
  intros F. pose proof F as (A & B). destruct p as [a b]. unfold collide. destruct (Nat.eqb_spec a b) as [|N]; [exact F|]. destruct (existsb (joins a b) l) eqn:E.
  - split; intros i I.
    + destruct (A i I) as (s & J & S). apply (in_map (fun i => if joins a b i then mkI (i1 i) (i2 i) iter (real i) else i)) in J. destruct (joins a b _) in J; cbn [i1 i2 real] in J; [exists iter|exists s]; auto.
    + apply in_map_iff in I as (j & <- & I). destruct (joins a b j); [|apply B; exact I]. cbn [i1 i2 real lastSeen]. destruct (B j I) as [(s & J & _)|(H1 & H2 & H3 & H4 & _)]; [left; exists s; auto|right; auto 10].
  - destruct (may a b) eqn:M; [|exact F]. split; intros i I.
    + destruct (A i I) as (s & J & S). exists s. split; [apply in_or_app; left; exact J|exact S].
    + apply in_app_or in I as [I|[<- |[]]]; [apply B; exact I|]. cbn [i1 i2 real lastSeen]. right. split; [reflexivity|]. split; [exact M|]. split; [|split; [exact N|auto]]. intros K. apply (follows_known may iter l0 l a b F) in K. apply existsb_joins in K. congruence.
Qed.
Lemma follows_fold may iter l0 L : forall l, follows may iter l0 l -> follows may iter l0 (fold_left (collide may iter) L l).
Proof. induction L as [|p L IH]; intros l F; [exact F|]. cbn [fold_left]. apply IH, follows_step, F. Qed.
Lemma follows_distinct may iter l0 l : follows may iter l0 l -> Forall (fun i => i1 i <> i2 i) l0 -> Forall (fun i => i1 i <> i2 i) l.
Proof. intros (_ & B) F. rewrite Forall_forall in *. intros i I. destruct (B i I) as [(s & J & _)|(_ & _ & _ & N & _)]; [apply (F _ J)|exact N]. Qed.
Lemma touch_short may iter v p : (length v <= 1)%nat -> (length (touch may iter v p) <= 1)%nat.
Proof. unfold touch. destruct v; [destruct (may _ _); cbn [length]; lia|rewrite map_length; auto]. Qed.
Lemma fold_short may iter L : forall v, (length v <= 1)%nat -> (length (fold_left (touch may iter) L v) <= 1)%nat.
Proof. induction L as [|p L IH]; intros v H; [exact H|]. cbn [fold_left]. apply IH, touch_short, H. Qed.
Lemma action_list newton mn0 mx step verlet may iter bodies l l' : action newton mn0 mx step verlet may iter bodies l = Ok l' ->
  (once l -> once l') /\
  (forall i, In i l -> exists s, In (mkI (i1 i) (i2 i) s (real i)) l' /\ (s = lastSeen i \/ s = iter)) /\
  (forall i, In i l' -> (exists s, In (mkI (i1 i) (i2 i) s (real i)) l /\ (lastSeen i = s \/ lastSeen i = iter)) \/
     (real i = false /\ may (i1 i) (i2 i) = true /\ ~ known l (i1 i) (i2 i) /\ i1 i <> i2 i /\ (lastSeen i = (-1)%Z \/ lastSeen i = iter))).
Proof.
  intros A. destruct (action_inv _ _ _ _ _ _ _ _ _ _ A) as (g & d & _ & _ & _ & ->). assert (F : follows may iter l (updateCollisions may iter g d l)) by (apply follows_fold, follows_refl).
  split; [|exact F]. intros (D & O). assert (D' := follows_distinct may iter l _ F D). split; [exact D'|]. intros a b. destruct (Nat.eq_dec a b) as [<- |N].
  - assert (E : filter (of_pair a a) (updateCollisions may iter g d l) = []). { apply filter_nil. intros i I. rewrite Forall_forall in D'. specialize (D' i I). rewrite of_pair_joins. destruct (joins a a i) eqn:J; [|reflexivity]. apply joins_spec in J. exfalso. apply D'. destruct J as [(-> & ->)|(-> & ->)]; reflexivity. } rewrite E. cbn [length]. lia.
  - change (of_pair a b) with (joins a b). rewrite view_after by exact N. apply fold_short. exact (O a b).
Qed.
(** ** C245: nothing far away *)
Lemma changed_seen may iter g d l i : i1 i <> i2 i -> In i (updateCollisions may iter g d l) -> In i l \/ seen (i1 i) (i2 i) g d <> [].
Proof.
  intros N I. destruct (seen (i1 i) (i2 i) g d) as [|p L] eqn:E; [left|right; discriminate]. assert (J : In i (filter (joins (i1 i) (i2 i)) (updateCollisions may iter g d l))) by (apply filter_In; split; [exact I|apply joins_spec; auto]). rewrite view_after in J by exact N. rewrite E in J. cbn [fold_left] in J. apply filter_In in J. tauto.
Qed.
Lemma closest_in m step c center x : 0 < step -> cell_of m step x center -> m + step * IZR c <= closest m step c center x <= m + step * (IZR c + 1).
Proof. intros S (A & B). unfold closest. destruct (Z.eqb_spec c center) as [->|N]; [lra|]. destruct (c <? center)%Z; lra. Qed.
Lemma axis_range m M step r x c : 0 < step -> m <= x - r -> x + r < M -> (floorR ((x - r - m) / step) <= c <= floorR ((x + r - m) / step))%Z -> (0 <= c < ceilR ((M - m) / step))%Z.
Proof.
  intros S L H (C1 & C2). assert (IS : 0 < / step) by (apply Rinv_0_lt_compat; exact S). split.
  - apply Z.le_trans with (floorR ((x - r - m) / step)); [|exact C1]. assert (P : 0 <= (x - r - m) / step) by (apply Rmult_le_pos; lra). pose proof (floor_mono 0 _ P) as F. rewrite (floor_unique 0 0) in F; [exact F|lra].
  - apply Z.le_lt_trans with (floorR ((x + r - m) / step)); [exact C2|]. apply lt_IZR. apply Rle_lt_trans with ((x + r - m) / step); [apply floor_spec|]. apply Rlt_le_trans with ((M - m) / step); [unfold Rdiv; apply Rmult_lt_compat_r; lra|apply ceil_ge].
Qed.
Lemma box_range g mx r C c : diagonal (mn g) -> 0 < gstep g -> gx g = ceilR ((vx mx - vx (mn g)) / gstep g) -> gy g = ceilR ((vy mx - vy (mn g)) / gstep g) -> gz g = ceilR ((vz mx - vz (mn g)) / gstep g) -> ball_in_box r C (mn g) mx -> In c (box_cells g r C) ->
  let '(x, y, z) := c in (0 <= x < gx g /\ 0 <= y < gy g /\ 0 <= z < gz g)%Z.
Proof.
  intros (DX & DZ) S EX EY EZ ((B1 & B2) & (B3 & B4) & B5 & B6) I. destruct c as [[x y] z]. unfold box_cells, pt2int, vsub, vadd in I. cbn [vx vy vz] in I. apply in_cells in I as (X & Y & Z). rewrite EX, EY, EZ. rewrite <- DX in X. rewrite <- DZ in Z.
  split; [|split]; [apply (axis_range _ _ _ r (vx C)); assumption|apply (axis_range _ _ _ r (vy C)); assumption|apply (axis_range _ _ _ r (vz C)); assumption].
Qed.
Lemma cell_diameter g c cA cB A B : diagonal (mn g) -> 0 < gstep g -> pt2int g A = cA -> pt2int g B = cB -> norm (vsub (closest_point g c cA A) (closest_point g c cB B)) <= sqrt 3 * gstep g.
Proof.
  intros (DX & DZ) S <- <-. destruct c as [[x y] z]. unfold closest_point, pt2int. rewrite DX, DZ. remember (gstep g) as s. remember (vy (mn g)) as m.
  pose proof (closest_in m s x _ (vx A) S (floor_cell m s (vx A) S)) as X1. pose proof (closest_in m s y _ (vy A) S (floor_cell m s (vy A) S)) as Y1. pose proof (closest_in m s z _ (vz A) S (floor_cell m s (vz A) S)) as Z1.
  pose proof (closest_in m s x _ (vx B) S (floor_cell m s (vx B) S)) as X2. pose proof (closest_in m s y _ (vy B) S (floor_cell m s (vy B) S)) as Y2. pose proof (closest_in m s z _ (vz B) S (floor_cell m s (vz B) S)) as Z2.
  assert (Q : forall u v k, m + s * IZR k <= u <= m + s * (IZR k + 1) -> m + s * IZR k <= v <= m + s * (IZR k + 1) -> (u - v) * (u - v) <= s * s).
  { intros u v k U W. destruct (Rle_dec 0 (u - v)); [apply Rsqr_incr_1; lra|]. replace ((u - v) * (u - v)) with ((v - u) * (v - u)) by ring. apply Rsqr_incr_1; lra. }
  apply norm_le_of; [apply Rmult_le_pos; [apply sqrt_pos|lra]|]. replace (sqrt 3 * s * (sqrt 3 * s)) with (sqrt 3 * sqrt 3 * (s * s)) by ring. rewrite sqrt_sqrt by lra. unfold norm2, dot, vsub. cbn [vx vy vz].
  pose proof (Q _ _ _ X1 X2). pose proof (Q _ _ _ Y1 Y2). pose proof (Q _ _ _ Z1 Z2). lra.
Qed.
Lemma action_near newton mn0 mx step verlet may iter bodies l l' i : action newton mn0 mx step verlet may iter bodies l = Ok l' -> once l -> In i l' -> ~ In i l ->
  exists ra Ca rb Cb, sphere_at bodies (i1 i) ra Ca /\ sphere_at bodies (i2 i) rb Cb /\
   (diagonal mn0 -> 0 <= ra + verlet -> 0 <= rb + verlet -> ball_in_box (ra + verlet) Ca mn0 mx -> ball_in_box (rb + verlet) Cb mn0 mx -> norm (vsub Ca Cb) <= ra + rb + 2 * verlet + sqrt 3 * step).
Proof.
  intros A O I NI. destruct (action_list _ _ _ _ _ _ _ _ _ _ A) as (O' & _). apply O' in O as (D' & _). rewrite Forall_forall in D'. specialize (D' i I). destruct (action_inv _ _ _ _ _ _ _ _ _ _ A) as (g & d & G & F & SP & ->). destruct (updateGrid_spec _ _ _ _ G) as (SZ & Emn & Est & S & EX & EY & EZ).
  destruct (changed_seen may iter g d l i D' I) as [H|H]; [contradiction|]. apply seen_cell in H as (n & _ & IA & IB). destruct (fill_spec g verlet bodies SZ SP) as (d' & F' & _ & OUT). rewrite F in F'. injection F' as <-.
  destruct (OUT n _ IA) as (ra & Ca & ca & SA & BA & NA & LA). destruct (OUT n _ IB) as (rb & Cb & cb & SB & BB & NB & LB). exists ra, Ca, rb, Cb. split; [exact SA|]. split; [exact SB|]. intros D H1 H2 XA XB. rewrite <- Emn, <- Est in *.
  pose proof (box_range g mx _ _ ca D S EX EY EZ XA BA) as RA. pose proof (box_range g mx _ _ cb D S EX EY EZ XB BB) as RB. assert (E : ca = cb).
  { destruct ca as [[x y] z], cb as [[x' y'] z']. destruct RA as (R1 & R2 & R3), RB as (R4 & R5 & R6). apply (lin_injective g); try assumption. congruence. }
  subst cb. unfold near in NA, NB. apply norm_le_of in NA; [|exact H1]. apply norm_le_of in NB; [|exact H2]. pose proof (cell_diameter g ca _ _ Ca Cb D S eq_refl eq_refl) as CD.
  remember (closest_point g ca (pt2int g Ca) Ca) as u. remember (closest_point g ca (pt2int g Cb) Cb) as w.
  assert (T : norm (vsub Ca Cb) <= norm (vsub Ca u) + norm (vsub u w) + norm (vsub w Cb)).
  { replace (vsub Ca Cb) with (vadd (vadd (vsub Ca u) (vsub u w)) (vsub w Cb)) by (clear; unfold vsub, vadd; cbn [vx vy vz]; f_equal; ring). eapply Rle_trans; [apply norm_triangle|]. apply Rplus_le_compat_r, norm_triangle. }
  rewrite (norm_sym w Cb) in T. lra.
Qed.
(** ** witnesses *)
Lemma ceil_val r n : IZR n - 1 < r <= IZR n -> ceilR r = n.
Proof. intros H. unfold ceilR. rewrite (floor_unique (- n) (- r)); [lia|rewrite opp_IZR; lra]. Qed.
Lemma ball_0 r C t : sphere_at (ball r C :: t) 0 r C. Proof. eexists. split; [reflexivity|]. split; reflexivity. Qed.
Lemma ball_1 r C x t : sphere_at (x :: ball r C :: t) 1 r C. Proof. eexists. split; [reflexivity|]. split; reflexivity. Qed.
Lemma all_allowed a b : allowed everyone a b. Proof. split; reflexivity. Qed.
Lemma spherical2 r C r' C' : spherical [ball r C; ball r' C']. Proof. repeat (apply Forall_cons; [discriminate|]). apply Forall_nil. Qed.
Lemma sphere_unique bodies i r C r' C' : sphere_at bodies i r C -> sphere_at bodies i r' C' -> r = r' /\ C = C'.
Proof. intros (x & X1 & X2 & X3) (y & Y1 & Y2 & Y3). rewrite X1 in Y1. injection Y1 as ->. rewrite X2 in Y2. injection Y2 as ->. subst. auto. Qed.
Lemma erased_refuted : exists l', action true (V 0 0 0) (V 10 10 10) 10 0 everyone 7 (two_in (V 4 5 5) (V 6 5 5) (3/2)) [] = Ok l' /\ meet (3/2) (V 4 5 5) (3/2) (V 6 5 5) /\ known l' 0 1 /\ ~ known (swept 7 l') 0 1.
Proof.
  destruct (action_defined true (V 0 0 0) (V 10 10 10) 10 0 everyone 7 (two_in (V 4 5 5) (V 6 5 5) (3/2)) []) as (l' & E); try (cbn [vx vy vz]; lra); [apply spherical2|].
  assert (M : meet (3/2) (V 4 5 5) (3/2) (V 6 5 5)) by (split; unfold norm2, dot, vsub; cbn [vx vy vz]; lra).
  exists l'. split; [exact E|]. split; [exact M|]. split.
  - apply (action_complete _ _ _ _ _ _ _ _ _ _ 0 1 (3/2) (V 4 5 5) (3/2) (V 6 5 5) E); try (split; reflexivity); try discriminate; try apply ball_0; try apply ball_1; try lra. replace (3 / 2 + 0) with (3 / 2) by ring. exact M.
  - apply (one_cell_erased _ _ _ _ _ _ _ _ _ _ 0 1 (3/2) (V 4 5 5) (3/2) (V 6 5 5) (0, 0, 0)%Z E); try (split; reflexivity); try discriminate; try apply ball_0; try apply ball_1; try lia.
    + intros (i & [] & _).
    + cbn [vx vy vz]. replace ((10 - 0) / 10) with 1 by lra. rewrite (ceil_val 1 1) by lra. unfold inside, cell_of, vsub, vadd. cbn [vx vy vz]. repeat split; try lra; lia.
Qed.
Lemma missed_refuted : exists l', action true (V 0 10 0) (V 20 11 1) 1 0 everyone 7 (two_in (V (59/4) (21/2) (1/2)) (V (61/4) (21/2) (1/2)) (3/10)) [] = Ok l' /\ meet (3/10) (V (59/4) (21/2) (1/2)) (3/10) (V (61/4) (21/2) (1/2)) /\ ~ known l' 0 1.
Proof.
  set (A := V (59/4) (21/2) (1/2)). set (B := V (61/4) (21/2) (1/2)).
  destruct (action_defined true (V 0 10 0) (V 20 11 1) 1 0 everyone 7 (two_in A B (3/10)) []) as (l' & E); try (cbn [vx vy vz]; lra); [apply spherical2|].
  exists l'. split; [exact E|]. split; [split; unfold norm2, dot, vsub, A, B; cbn [vx vy vz]; lra|]. destruct (action_inv _ _ _ _ _ _ _ _ _ _ E) as (g & d & G & F & SP & ->). destruct (updateGrid_spec _ _ _ _ G) as (SZ & Emn & Est & _ & EX & EY & EZ). cbn [vx vy vz] in EX, EY, EZ.
  rewrite (ceil_val _ 20) in EX by lra. rewrite (ceil_val _ 1) in EY by lra. rewrite (ceil_val _ 1) in EZ by lra.
  destruct (fill_spec g 0 _ SZ SP) as (d' & F' & _ & OUT). rewrite F in F'. injection F' as <-.
  assert (CELL : forall p x z, cell_of 10 1 (vx p) x -> cell_of 10 1 (vy p) 0 -> cell_of 10 1 (vz p) z -> pt2int g p = (x, 0%Z, z)) by (intros p x z X Y Z; unfold pt2int; rewrite Emn, Est; cbn [vy]; rewrite (cell_floor 10 1 (vx p) x), (cell_floor 10 1 (vy p) 0), (cell_floor 10 1 (vz p) z) by (assumption || lra); reflexivity).
  assert (ONLY : forall n i C k, In i (d n) -> sphere_at (two_in A B (3/10)) i (3/10) C -> vy C = 21/2 -> vz C = 1/2 -> (k = 4%Z /\ vx C = 59/4 \/ k = 5%Z /\ vx C = 61/4) -> n = Z.to_nat k).
  { intros n i C k IN SA Y Z K. destruct (OUT n i IN) as (r & C' & c & SA' & BC & NE & ->). destruct (sphere_unique _ _ _ _ _ _ SA SA') as (<- & <-). replace (3/10 + 0) with (3/10) in BC, NE by ring.
    unfold box_cells in BC. rewrite (CELL (vsub C (V (3/10) (3/10) (3/10))) 4%Z (-10)%Z), (CELL (vadd C (V (3/10) (3/10) (3/10))) 5%Z (-10)%Z) in BC by (unfold cell_of, vsub, vadd; cbn [vx vy vz]; destruct K as [(_ & X)|(_ & X)]; lra).
    destruct c as [[x y] z]. apply in_cells in BC as (X1 & Y1 & Z1). assert (y = 0%Z) by lia. assert (z = (-10)%Z) by lia. subst y z.
    assert (XK : x = k).
    { unfold near in NE. destruct (Z.eq_dec x k) as [|NK]; [assumption|exfalso]. rewrite (CELL C k (-10)%Z) in NE by (unfold cell_of; destruct K as [(-> & X)|(-> & X)]; lra). unfold closest_point in NE. rewrite Emn, Est in NE. cbn [vx vy vz] in NE. unfold norm2, dot, vsub in NE. cbn [vx vy vz] in NE. unfold closest in NE. rewrite !Z.eqb_refl in NE.
      assert (XX : (x = 4 \/ x = 5)%Z) by lia. pose proof (Rle_0_sqr (vy C - vy C)) as P2. pose proof (Rle_0_sqr (vz C - vz C)) as P3. unfold Rsqr in P2, P3. destruct K as [(-> & X)|(-> & X)]; destruct XX as [-> | -> ]; try lia; cbn [Z.eqb Z.ltb Z.compare Pos.eqb Pos.compare Pos.compare_cont] in NE; rewrite X in NE; lra. }
    subst x. unfold lin. rewrite EX, EY, EZ. unfold fit. destruct K as [(-> & _)|(-> & _)]; reflexivity. }
  rewrite known_spec, view_after by discriminate. cbn [filter]. destruct (seen 0 1 g d) as [|p L] eqn:SE; [intros H; apply H; reflexivity|exfalso]. assert (NS : seen 0 1 g d <> []) by (rewrite SE; discriminate). apply seen_cell in NS as (n & _ & IA & IB).
  pose proof (ONLY n 0%nat A 4%Z IA (ball_0 _ _ _) eq_refl eq_refl (or_introl (conj eq_refl eq_refl))) as N1. pose proof (ONLY n 1%nat B 5%Z IB (ball_1 _ _ _ _) eq_refl eq_refl (or_intror (conj eq_refl eq_refl))) as N2. rewrite N1 in N2. discriminate.
Qed.
Lemma center_in g verlet bodies d i r C : sized g -> 0 < gstep g -> spherical bodies -> fill g verlet bodies = Ok d -> sphere_at bodies i r C -> 0 <= r + verlet -> In i (d (lin g (pt2int g C))).
Proof.
  intros SZ S SP F SA H. destruct (fill_spec g verlet bodies SZ SP) as (d' & F' & IN & _). rewrite F in F'. injection F' as <-. assert (IS : 0 < / gstep g) by (apply Rinv_0_lt_compat; exact S).
  assert (FM : forall a b, a <= b -> (floorR ((a - vy (mn g)) / gstep g) <= floorR ((b - vy (mn g)) / gstep g))%Z) by (intros a b AB; apply floor_mono; unfold Rdiv; apply Rmult_le_compat_r; lra).
  apply (IN i r C); [exact SA| |].
  - unfold box_cells, pt2int, vsub, vadd. cbn [vx vy vz]. apply in_cells. split; [|split]; split; apply FM; lra.
  - unfold near, closest_point, pt2int, closest. rewrite !Z.eqb_refl. unfold norm2, dot, vsub. cbn [vx vy vz]. pose proof (Rle_0_sqr (r + verlet)) as Q. unfold Rsqr in Q. replace ((vx C - vx C) * (vx C - vx C) + (vy C - vy C) * (vy C - vy C) + (vz C - vz C) * (vz C - vz C)) with 0 by ring. exact Q.
Qed.
Lemma far_refuted : exists l', action true (V 0 10 0) (V 10 20 10) 1 0 everyone 7 (two_in (V 1 15 5) (V 9 15 5) (1/2)) [] = Ok l' /\
  ball_in_box (1/2 + 0) (V 1 15 5) (V 0 10 0) (V 10 20 10) /\ ball_in_box (1/2 + 0) (V 9 15 5) (V 0 10 0) (V 10 20 10) /\ known l' 0 1.
Proof.
  destruct (action_defined true (V 0 10 0) (V 10 20 10) 1 0 everyone 7 (two_in (V 1 15 5) (V 9 15 5) (1/2)) []) as (l' & E); try (cbn [vx vy vz]; lra); [apply spherical2|].
  exists l'. split; [exact E|]. split; [unfold ball_in_box; cbn [vx vy vz]; lra|]. split; [unfold ball_in_box; cbn [vx vy vz]; lra|].
  destruct (action_inv _ _ _ _ _ _ _ _ _ _ E) as (g & d & G & F & SP & ->). destruct (updateGrid_spec _ _ _ _ G) as (SZ & Emn & Est & S & EX & EY & EZ). rewrite <- Est in S.
  pose proof (center_in g 0 _ d 0 (1/2) (V 1 15 5) SZ S SP F (ball_0 _ _ _) ltac:(lra)) as I0. pose proof (center_in g 0 _ d 1 (1/2) (V 9 15 5) SZ S SP F (ball_1 _ _ _ _) ltac:(lra)) as I1.
  assert (EL : lin g (pt2int g (V 9 15 5)) = lin g (pt2int g (V 1 15 5))).
  { unfold pt2int. cbn [vx vy vz]. rewrite Emn, Est. cbn [vy]. rewrite (floor_unique (-1) ((9 - 10) / 1)), (floor_unique (-9) ((1 - 10) / 1)) by lra. unfold lin. f_equal. f_equal. f_equal. destruct SZ as (SX & _). unfold fit. lia. }
  rewrite EL in I1. apply known_after; [discriminate|apply all_allowed|]. apply (seen_some 0 1 g d (lin g (pt2int g (V 1 15 5)))); [discriminate|apply lin_bound; exact SZ|exact I0|exact I1].
Qed.
Lemma shortened_refuted : exists l' h, action true (V 0 0 0) (V 40 40 40) 1 1 everyone 7 (two_in (V 5 5 5) (V 25 5 5) (1/2)) [] = Ok l' /\ quiet 1 0 h /\ moves (V 5 5 5) h (V (29/2) 5 5) /\ moves (V 25 5 5) h (V (31/2) 5 5) /\ meet (1/2) (V (29/2) 5 5) (1/2) (V (31/2) 5 5) /\ ~ known l' 0 1.
Proof.
  destruct (action_defined true (V 0 0 0) (V 40 40 40) 1 1 everyone 7 (two_in (V 5 5 5) (V 25 5 5) (1/2)) []) as (l' & E); try (cbn [vx vy vz]; lra); [apply spherical2|].
  assert (S10 : sqrt 100 = 10) by (replace 100 with (10 * 10) by ring; apply sqrt_square; lra). assert (S3 : sqrt 3 <= 2) by (rewrite <- (sqrt_square 2) by lra; apply sqrt_le_1_alt; lra).
  exists l', [(100, 1, 1/100)]. split; [exact E|]. split; [|split; [|split; [|split]]].
  - cbn [quiet]. split; [|exact I]. unfold isActivated. cbv zeta. cbn [fst]. rewrite S10. destruct (Rlt_dec _ _); [exfalso; lra|reflexivity].
  - cbn [moves]. eexists. split; [|reflexivity]. rewrite S10. apply norm_le_of; [lra|]. unfold norm2, dot, vsub. cbn [vx vy vz]. lra.
  - cbn [moves]. eexists. split; [|reflexivity]. rewrite S10. apply norm_le_of; [lra|]. unfold norm2, dot, vsub. cbn [vx vy vz]. lra.
  - split; unfold norm2, dot, vsub; cbn [vx vy vz]; lra.
  - intros (i & IN & P). assert (O : once []) by (split; [constructor|intros; cbn [filter length]; lia]).
    assert (NE : ~ In i []) by (intros []). destruct (action_near _ _ _ _ _ _ _ _ _ _ i E O IN NE) as (ra & Ca & rb & Cb & SA & SB & N).
    assert (V1 : (ra = 1/2 /\ rb = 1/2) /\ ((Ca = V 5 5 5 /\ Cb = V 25 5 5) \/ (Ca = V 25 5 5 /\ Cb = V 5 5 5))).
    { destruct P as [(P1 & P2)|(P1 & P2)]; rewrite P1 in SA; rewrite P2 in SB; [destruct (sphere_unique _ _ _ _ _ _ SA (ball_0 _ _ _)), (sphere_unique _ _ _ _ _ _ SB (ball_1 _ _ _ _))|destruct (sphere_unique _ _ _ _ _ _ SA (ball_1 _ _ _ _)), (sphere_unique _ _ _ _ _ _ SB (ball_0 _ _ _))]; auto. }
    destruct V1 as ((-> & ->) & V1). assert (D : norm (vsub Ca Cb) = 20).
    { unfold norm. replace (norm2 (vsub Ca Cb)) with (20 * 20); [apply sqrt_square; lra|]. destruct V1 as [(-> & ->)|(-> & ->)]; unfold norm2, dot, vsub; cbn [vx vy vz]; ring. }
    rewrite D in N. assert (B : forall C, C = V 5 5 5 \/ C = V 25 5 5 -> ball_in_box (1/2 + 1) C (V 0 0 0) (V 40 40 40)) by (intros C [-> | -> ]; unfold ball_in_box; cbn [vx vy vz]; lra).
    assert (20 <= 1 / 2 + 1 / 2 + 2 * 1 + sqrt 3 * 1); [|lra]. apply N; [split; reflexivity|lra|lra|apply B; destruct V1 as [(-> & _)|(-> & _)]; auto|apply B; destruct V1 as [(_ & ->)|(_ & ->)]; auto].
Qed.
