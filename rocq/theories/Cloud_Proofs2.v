(** Random packings: distances. *)
From Coq Require Import Reals List ZArith Bool Lra Lia Psatz.
From Verif Require Cell_Model Cell_Proofs.
From Verif Require Import Vec_Model Vec_Proofs Cloud_Model Cloud_Spec Cloud_Proofs.
Import ListNotations.
Local Open Scope R_scope.

Lemma sq_le a b : 0 <= a -> a <= Rabs b -> a * a <= b * b.
Proof. intros H1 H2. pose proof (Rabs_pos b). replace (b * b) with (Rabs b * Rabs b) by (rewrite <- Rabs_mult; apply Rabs_pos_eq; apply Rle_0_sqr). apply Rmult_le_compat; lra. Qed.
Lemma cellWrapRel_num x y s : cellWrapRel x y (y + s) = Cell_Model.wrapNum (x - y) s.
Proof. unfold cellWrapRel, Cell_Model.wrapNum. replace (y + s - y) with s by ring. reflexivity. Qed.
Lemma wrap_axis_min s x y k : 0 <= s -> 0 <= wrap_axis s x y /\ wrap_axis s x y <= Rabs (x + IZR k * s - y).
Proof.
  intros Hs. unfold wrap_axis. destruct (is_zero s) eqn:Z; [split; [lra|apply Rabs_pos]|]. apply is_zero_false in Z. assert (Ps : 0 < s) by lra.
  rewrite !cellWrapRel_num.
  pose proof (Cell_Proofs.wrapNum_range (x - y) s Ps) as [A1 A2]. pose proof (Cell_Proofs.wrapNum_range (y - x) s Ps) as [B1 B2].
  pose proof (Cell_Proofs.wrapNum_period (x - y) s Ps) as A3. pose proof (Cell_Proofs.wrapNum_period (y - x) s Ps) as B3.
  remember (Cell_Model.wrapNum (x - y) s) as w1. remember (Cell_Model.wrapNum (y - x) s) as w2. clear Heqw1 Heqw2.
  remember (Int_part ((x - y) / s)) as n. remember (Int_part ((y - x) / s)) as m. clear Heqn Heqm.
  split; [apply Rmin_glb; assumption|].
  assert (E1 : x + IZR k * s - y = w1 + IZR (n + k) * s) by (rewrite plus_IZR; lra).
  assert (E2 : - (x + IZR k * s - y) = w2 + IZR (m - k) * s) by (rewrite minus_IZR; lra).
  destruct (Z_le_gt_dec 0 (n + k)) as [G|G].
  - apply IZR_le in G. pose proof (Rmult_le_pos _ _ G (Rlt_le _ _ Ps)). apply Rle_trans with (x + IZR k * s - y); [|apply Rle_abs]. pose proof (Rmin_l w1 w2). lra.
  - destruct (Z_le_gt_dec 0 (m - k)) as [K|K].
    + apply IZR_le in K. pose proof (Rmult_le_pos _ _ K (Rlt_le _ _ Ps)). rewrite <- Rabs_Ropp. apply Rle_trans with (- (x + IZR k * s - y)); [|apply Rle_abs]. pose proof (Rmin_r w1 w2). lra.
    + assert (IZR (n + k) <= -1) by (apply (IZR_le _ (-1)); lia). assert (IZR (m - k) <= -1) by (apply (IZR_le _ (-1)); lia).
      assert (IZR (n + k) * s <= -1 * s) by (apply Rmult_le_compat_r; lra). assert (IZR (m - k) * s <= -1 * s) by (apply Rmult_le_compat_r; lra). lra.
Qed.
Lemma nearest_min x k : -1 <= x <= 1 -> nearest x * nearest x <= (x + IZR k) * (x + IZR k).
Proof.
  intros H.
  assert (A : forall y, 0 <= y <= 1 -> forall j, (y <= Rabs (y + IZR j) \/ 1 - y <= Rabs (y + IZR j))).
  { intros y Hy j. destruct (Z_le_gt_dec 0 j) as [G|G].
    - apply IZR_le in G. left. rewrite Rabs_pos_eq; lra.
    - assert (IZR j <= -1) by (apply (IZR_le _ (-1)); lia). right. rewrite Rabs_left1; lra. }
  assert (N : Rabs (nearest x) <= Rabs (x + IZR k)).
  { unfold nearest, sign. destruct (ltb x 0) eqn:L.
    - apply ltb_true in L. rewrite (Rabs_left x) by lra. replace (x - -1) with (1 + x) by ring. rewrite (Rabs_pos_eq (1 + x)) by lra.
      destruct (A (- x) ltac:(lra) (- k)%Z) as [B|B]; replace (- x + IZR (- k)) with (- (x + IZR k)) in B by (rewrite opp_IZR; ring); rewrite Rabs_Ropp in B;
      destruct (ltb (- x) (1 + x)) eqn:C; [apply ltb_true in C|apply ltb_false in C|apply ltb_true in C|apply ltb_false in C]; try (rewrite Rabs_left by lra; lra); rewrite Rabs_pos_eq by lra; lra.
    - apply ltb_false in L. destruct (ltb 0 x) eqn:L2.
      + rewrite (Rabs_pos_eq x) by lra. rewrite (Rabs_left1 (x - 1)) by lra.
        destruct (A x ltac:(lra) k) as [B|B]; destruct (ltb x (- (x - 1))) eqn:C; [apply ltb_true in C|apply ltb_false in C|apply ltb_true in C|apply ltb_false in C]; try (rewrite Rabs_pos_eq by lra; lra); rewrite Rabs_left1 by lra; lra.
      + apply ltb_false in L2. assert (x = 0) by lra. subst x. rewrite Rminus_0_r. destruct (ltb (Rabs 0) (Rabs 0)); rewrite Rabs_R0; apply Rabs_pos. }
  assert (E : nearest x * nearest x = Rabs (nearest x) * Rabs (nearest x)) by (rewrite <- Rabs_mult; symmetry; apply Rabs_pos_eq; apply Rle_0_sqr).
  rewrite E. apply sq_le; [apply Rabs_pos|exact N].
Qed.
Lemma norm2_xyz v : norm2 v = vx v * vx v + vy v * vy v + vz v * vz v. Proof. reflexivity. Qed.
Lemma apart_of a b g : (r a + r b) ^ 2 < norm2 g -> norm2 g <= norm2 (vsub (c a) (c b)) -> apart a b.
Proof.
  intros H1 H2. unfold apart, norm. apply Rle_lt_trans with (Rabs (r a + r b)); [apply Rle_abs|].
  rewrite <- sqrt_Rsqr_abs. apply sqrt_lt_1_alt. split; [apply Rle_0_sqr|]. unfold Rsqr. replace ((r a + r b) * (r a + r b)) with ((r a + r b) ^ 2) by ring. lra.
Qed.
Lemma overlaps_false q p l x rad : overlaps q p l x rad = false -> forall a, In a l -> (r a + rad) ^ 2 < norm2 (gap q p x (c a)).
Proof.
  unfold overlaps. intros H a I. destruct (leb (norm2 (gap q p x (c a))) ((r a + rad) ^ 2)) eqn:E; [|apply leb_false; exact E].
  assert (existsb (fun s => leb (norm2 (gap q p x (c s))) ((r s + rad) ^ 2)) l = true) by (apply existsb_exists; exists a; auto). congruence.
Qed.

(** without periodicity *)
Lemma gap_free q p x a rad b : periodic q = false -> (r a + rad) ^ 2 < norm2 (gap q p x (c a)) -> b = mkSph x rad (clumpId b) -> apart a b.
Proof.
  intros P H E. apply (apart_of a b (gap q p x (c a))); [rewrite E; exact H|]. unfold gap. rewrite P. cbn [negb]. rewrite E. cbn [c]. apply Rle_refl.
Qed.
(** aligned periodic box *)
Lemma gap_box q p x a rad b : periodic q = true -> hSizeFound p = false -> 0 <= vx (size p) -> 0 <= vy (size p) -> 0 <= vz (size p) ->
  (r a + rad) ^ 2 < norm2 (gap q p x (c a)) -> b = mkSph x rad (clumpId b) -> apart_periodic (diag (size p)) a b.
Proof.
  intros P F X Y Z H E [[i j] l]. apply (apart_of _ b (gap q p x (c a))); [rewrite E; cbn [image r]; exact H|].
  unfold gap. rewrite P, F, E. cbn [negb image c]. rewrite !norm2_xyz. unfold mulv, diag, vsub, vadd, dot. cbn [vx vy vz r0 r1 r2].
  assert (G : forall s y w k, 0 <= s -> wrap_axis s w y * wrap_axis s w y <= (y + IZR k * s - w) * (y + IZR k * s - w)).
  { intros s y w k Hs. destruct (wrap_axis_min s w y (- k) Hs) as [W0 W1]. apply sq_le; [exact W0|].
    replace (y + IZR k * s - w) with (- (w + IZR (- k) * s - y)) by (rewrite opp_IZR; ring). rewrite Rabs_Ropp. exact W1. }
  pose proof (G _ (vx (c a)) (vx x) i X) as GX. pose proof (G _ (vy (c a)) (vy x) j Y) as GY. pose proof (G _ (vz (c a)) (vz x) l Z) as GZ.
  replace (vx (c a) + (vx (size p) * IZR i + 0 * IZR j + 0 * IZR l) - vx x) with (vx (c a) + IZR i * vx (size p) - vx x) by ring.
  replace (vy (c a) + (0 * IZR i + vy (size p) * IZR j + 0 * IZR l) - vy x) with (vy (c a) + IZR j * vy (size p) - vy x) by ring.
  replace (vz (c a) + (0 * IZR i + 0 * IZR j + vz (size p) * IZR l) - vz x) with (vz (c a) + IZR l * vz (size p) - vz x) by ring.
  lra.
Qed.
(** periods at right angles *)
Lemma orthogonal_norm2 H v : orthogonal H -> norm2 (mulv H v) = norm2 (col0 H) * (vx v * vx v) + norm2 (col1 H) * (vy v * vy v) + norm2 (col2 H) * (vz v * vz v).
Proof.
  intros (A & B & C).
  assert (E : norm2 (mulv H v) = norm2 (col0 H) * (vx v * vx v) + norm2 (col1 H) * (vy v * vy v) + norm2 (col2 H) * (vz v * vz v) + 2 * (vx v * vy v * dot (col0 H) (col1 H) + vx v * vz v * dot (col0 H) (col2 H) + vy v * vz v * dot (col1 H) (col2 H))) by vring.
  rewrite E, A, B, C. ring.
Qed.
Lemma gap_cell q p x a rad b m : periodic q = true -> hSizeFound p = true -> det (cell p) <> 0 -> orthogonal (cell p) ->
  in_cell m (cell p) x -> in_cell m (cell p) (c a) ->
  (r a + rad) ^ 2 < norm2 (gap q p x (c a)) -> b = mkSph x rad (clumpId b) -> apart_periodic (cell p) a b.
Proof.
  intros P F D O (t & T1 & T2 & T3 & Ex) (u & U1 & U2 & U3 & Ea) H E [[i j] l]. apply (apart_of _ b (gap q p x (c a))); [rewrite E; cbn [image r]; exact H|].
  unfold gap. rewrite P, F, E. cbn [negb image c].
  assert (Ed : mulv (minv (cell p)) (vsub (c a) x) = vsub u t).
  { rewrite Ex, Ea. replace (vsub (vadd m (mulv (cell p) u)) (vadd m (mulv (cell p) t))) with (mulv (cell p) (vsub u t)) by (generalize (cell p); clear; intros; vring).
    rewrite <- mulv_mmul, minv_l by exact D. apply mulv_id. }
  rewrite Ed. replace (vsub (vadd (c a) (mulv (cell p) (V (IZR i) (IZR j) (IZR l)))) x) with (mulv (cell p) (vadd (vsub u t) (V (IZR i) (IZR j) (IZR l)))) by (rewrite Ea, Ex; generalize (cell p); clear; intros; vring).
  rewrite !orthogonal_norm2 by exact O. unfold vadd, vsub. cbn [vx vy vz].
  pose proof (norm2_pos (col0 (cell p))) as N0. pose proof (norm2_pos (col1 (cell p))) as N1. pose proof (norm2_pos (col2 (cell p))) as N2.
  pose proof (Rmult_le_compat_l _ _ _ N0 (nearest_min (vx u - vx t) i ltac:(lra))).
  pose proof (Rmult_le_compat_l _ _ _ N1 (nearest_min (vy u - vy t) j ltac:(lra))).
  pose proof (Rmult_le_compat_l _ _ _ N2 (nearest_min (vz u - vz t) l ltac:(lra))). lra.
Qed.

(** ** the method *)
Section Cloud.
Variable rnd : nat -> R.
Lemma new_eta q p i l s : new_sphere rnd q p i l s -> s = mkSph (c s) (r s) (clumpId s). Proof. intros _. destruct s; reflexivity. Qed.
Lemma cloud_pairs (P : sph -> sph -> Prop) (I : sph -> Prop) mt f q s k n s' k' :
  (forall q' p sc i l x, retried q q' -> prepare q' = (Some p, sc) -> Forall I l -> new_sphere rnd q' p i l x -> I x) ->
  (forall q' p sc i l x a, retried q q' -> prepare q' = (Some p, sc) -> Forall I l -> new_sphere rnd q' p i l x -> In a l -> P a x) ->
  Forall I (pack s) -> attempts rnd f mt q s k = Returned n s' k' -> exists new, added P (pack s) (pack s') new /\ Forall I new.
Proof.
  intros HI HP H0 H. destruct (attempts_spec rnd mt f _ _ _ _ _ _ H) as (q' & p & sc & kept & new & Rq & Pq & Es & G & K & N).
  assert (H0' : Forall I kept) by (destruct K as [[_ ->]|[-> _]]; [exact H0|constructor]).
  destruct (grows_pairs rnd P I q' p (fun i l x => HI q' p sc i l x Rq Pq) (fun i l x a => HP q' p sc i l x a Rq Pq) new 0 kept H0' G) as [F Q].
  exists new. split; [|exact F]. exists kept. split; [exact Es|]. split; [destruct K as [[_ ->]|[-> _]]; auto|]. rewrite Es. exact Q.
Qed.
Lemma plan_box q q' p sc : retried q q' -> prepare q' = (Some p, sc) -> size p = box q /\ hSizeFound p = negb (mat_zero (hSize q)) /\ cell p = period q /\ (hSizeFound p = true -> det (cell p) <> 0).
Proof.
  intros Rq Pq. destruct (prepare_plan _ _ _ Pq) as (A & B & C & D). destruct (retried_same _ _ Rq) as (E1 & E2 & E3 & E4 & _).
  unfold box, period, volume, box in *. rewrite ?E1, ?E2, ?E4 in *. split; [exact A|]. split; [exact B|]. split; [exact C|].
  rewrite B. intros T. rewrite T, andb_true_r in D. apply is_zero_false in D. rewrite C. unfold period, box in D. rewrite E1, E2, E4 in D. exact D.
Qed.
Lemma cloud_apart mt f q s k n s' k' : periodic q = false -> attempts rnd f mt q s k = Returned n s' k' -> exists new, added apart (pack s) (pack s') new.
Proof.
  intros P H. destruct (cloud_pairs apart (fun _ => True) mt f q s k n s' k') as (new & A & _); [tauto| |apply Forall_forall; tauto|exact H|exists new; exact A].
  intros q' p sc i l x a Rq Pq _ N I. destruct (retried_same _ _ Rq) as (_ & _ & E & _). pose proof (new_eta _ _ _ _ _ N) as Et. destruct N as (kr & kd & R & C & O & _).
  apply (gap_free q' p (c x) a (r x) x); [congruence|apply (overlaps_false q' p l (c x) (r x) O a I)|exact Et].
Qed.
Lemma cloud_apart_box mt f q s k n s' k' : periodic q = true -> mat_zero (hSize q) = true -> 0 <= vx (box q) -> 0 <= vy (box q) -> 0 <= vz (box q) ->
  attempts rnd f mt q s k = Returned n s' k' -> exists new, added (apart_periodic (diag (box q))) (pack s) (pack s') new.
Proof.
  intros P Z X Y W H. destruct (cloud_pairs (apart_periodic (diag (box q))) (fun _ => True) mt f q s k n s' k') as (new & A & _); [tauto| |apply Forall_forall; tauto|exact H|exists new; exact A].
  intros q' p sc i l x a Rq Pq _ N I. destruct (retried_same _ _ Rq) as (_ & _ & E & _). destruct (plan_box _ _ _ _ Rq Pq) as (B1 & B2 & _). rewrite Z in B2.
  pose proof (new_eta _ _ _ _ _ N) as Et. destruct N as (kr & kd & R & C & O & _). rewrite <- B1.
  apply (gap_box q' p (c x) a (r x) x); try (rewrite B1; assumption); [congruence|exact B2|apply (overlaps_false q' p l (c x) (r x) O a I)|exact Et].
Qed.
Lemma draw_in_cell q p rad k : in_unit rnd -> periodic q = true -> in_cell (mn q) (cell p) (fst (draw rnd q p rad k)).
Proof.
  intros U P. unfold draw. rewrite P. cbn [negb fst]. exists (V (rnd k) (rnd (S k)) (rnd (S (S k)))). cbn [vx vy vz].
  split; [apply U|]. split; [apply U|]. split; [apply U|]. apply vadd_comm.
Qed.
Lemma cloud_in_cell mt f q s k n s' k' : in_unit rnd -> periodic q = true -> attempts rnd f mt q s k = Returned n s' k' ->
  exists kept new, pack s' = kept ++ new /\ (kept = pack s \/ kept = []) /\ Forall (fun a => in_cell (mn q) (period q) (c a)) new.
Proof.
  intros U P H. destruct (attempts_spec rnd mt f _ _ _ _ _ _ H) as (q' & p & sc & kept & new & Rq & Pq & Es & G & K & N).
  exists kept, new. split; [exact Es|]. split; [destruct K as [[_ ->]|[-> _]]; auto|]. apply Forall_forall. intros a Ha. apply In_nth_error in Ha as [j Ha].
  destruct (grows_nth rnd q' p new 0 kept j a G Ha) as (l' & kr & kd & R & C & _). destruct (retried_same _ _ Rq) as (E1 & _ & E3 & _). destruct (plan_box _ _ _ _ Rq Pq) as (_ & _ & B3 & _).
  rewrite C, <- B3, <- E1. apply draw_in_cell; [exact U|congruence].
Qed.
Lemma cloud_apart_cell mt f q s k n s' k' : in_unit rnd -> periodic q = true -> mat_zero (hSize q) = false -> orthogonal (hSize q) ->
  Forall (fun a => in_cell (mn q) (hSize q) (c a)) (pack s) ->
  attempts rnd f mt q s k = Returned n s' k' -> exists new, added (apart_periodic (hSize q)) (pack s) (pack s') new.
Proof.
  intros U P Z Or F0 H.
  assert (Hc : period q = hSize q) by (unfold period; rewrite Z; reflexivity).
  destruct (cloud_pairs (apart_periodic (hSize q)) (fun a => in_cell (mn q) (hSize q) (c a)) mt f q s k n s' k') as (new & A & _); [| |exact F0|exact H|exists new; exact A].
  - intros q' p sc i l x Rq Pq _ (kr & kd & R & C & _). destruct (retried_same _ _ Rq) as (E1 & _ & E3 & _). destruct (plan_box _ _ _ _ Rq Pq) as (_ & _ & B3 & _).
    rewrite C, <- Hc, <- B3, <- E1. apply draw_in_cell; [exact U|congruence].
  - intros q' p sc i l x a Rq Pq Fl N I. destruct (retried_same _ _ Rq) as (E1 & _ & E3 & _). destruct (plan_box _ _ _ _ Rq Pq) as (B1 & B2 & B3 & B4). rewrite Z in B2. cbn [negb] in B2.
    pose proof (new_eta _ _ _ _ _ N) as Et. destruct N as (kr & kd & R & C & O & _). rewrite Hc in B3. rewrite <- B3.
    apply (gap_cell q' p (c x) a (r x) x (mn q)); [congruence|exact B2|exact (B4 B2)|rewrite B3; exact Or| | |apply (overlaps_false q' p l (c x) (r x) O a I)|exact Et].
    + rewrite C, <- E1. apply draw_in_cell; [exact U|congruence].
    + rewrite B3. exact (proj1 (Forall_forall _ _) Fl a I).
Qed.
(** inside the box *)
Lemma coordinate_between m s rad k : in_unit rnd -> 0 < s -> 2 * rad <= s -> between m (m + s) (fst (coordinate rnd m s rad k)) rad.
Proof.
  intros U Hs Hr. unfold coordinate. assert (E : is_zero s = false) by (apply is_zero_false; lra). rewrite E. cbn [fst]. destruct (U k) as [U1 U2].
  pose proof (Rmult_le_pos (s - 2 * rad) (rnd k) ltac:(lra) U1). pose proof (Rmult_le_pos (s - 2 * rad) (1 - rnd k) ltac:(lra) ltac:(lra)). unfold between. lra.
Qed.
Lemma coordinate_box lo hi rad k : in_unit rnd -> let x := fst (coordinate rnd lo (hi - lo) rad k) in (lo = hi -> x = lo) /\ (lo < hi -> 2 * rad <= hi - lo -> between lo hi x rad).
Proof.
  intros U x. split.
  - intros ->. subst x. unfold coordinate. assert (E : is_zero (hi - hi) = true) by (apply is_zero_true; ring). rewrite E. cbn [fst]. ring.
  - intros L Hr. replace hi with (lo + (hi - lo)) at 1 by ring. subst x. apply coordinate_between; [exact U|lra|exact Hr].
Qed.
Lemma cloud_in_box mt f q s k n s' k' : in_unit rnd -> periodic q = false -> attempts rnd f mt q s k = Returned n s' k' ->
  exists kept new, pack s' = kept ++ new /\ (kept = pack s \/ kept = []) /\ Forall (in_box q) new.
Proof.
  intros U P H. destruct (attempts_spec rnd mt f _ _ _ _ _ _ H) as (q' & p & sc & kept & new & Rq & Pq & Es & G & K & N).
  exists kept, new. split; [exact Es|]. split; [destruct K as [[_ ->]|[-> _]]; auto|]. apply Forall_forall. intros a Ha. apply In_nth_error in Ha as [j Ha].
  destruct (grows_nth rnd q' p new 0 kept j a G Ha) as (l' & kr & kd & R & C & _). destruct (retried_same _ _ Rq) as (E1 & _ & E3 & _). destruct (plan_box _ _ _ _ Rq Pq) as (B1 & _).
  revert C. unfold draw. rewrite E3, P, E1, B1. cbn [negb]. unfold box, vsub. cbn [vx vy vz].
  pose proof (coordinate_box (vx (mn q)) (vx (mx q)) (r a) kd U) as Cx. destruct (coordinate rnd (vx (mn q)) (vx (mx q) - vx (mn q)) (r a) kd) as [x k1].
  pose proof (coordinate_box (vy (mn q)) (vy (mx q)) (r a) k1 U) as Cy. destruct (coordinate rnd (vy (mn q)) (vy (mx q) - vy (mn q)) (r a) k1) as [y k2].
  pose proof (coordinate_box (vz (mn q)) (vz (mx q)) (r a) k2 U) as Cz. destruct (coordinate rnd (vz (mn q)) (vz (mx q) - vz (mn q)) (r a) k2) as [z k3].
  cbn [fst] in *. intros E. unfold in_box. rewrite E. cbn [vx vy vz]. intros lo hi w [[= <- <- <-]|[[= <- <- <-]|[[= <- <- <-]|[]]]]; assumption.
Qed.
End Cloud.
