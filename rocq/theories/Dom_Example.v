(** Witnesses for the properties of the decomposition of the domain. *)
From Verif Require Import Vec_Model Dom_Model Dom_Spec Dom_Proofs Dom_Proofs2.
From Coq Require Import Reals Qreals List ZArith QArith Qround Arith Lia Lra Psatz.
Import ListNotations.
Local Open Scope R_scope.

Definition v0 : vec := V 0 0 0.
Definition v1 : vec := V 1 1 1.
Lemma unit_below : below v0 v1. Proof. unfold below, v0, v1. cbn [vx vy vz]. lra. Qed.

(** a direction without a number of blocks *)
Lemma missing mn mx nx ny nz : (nx * ny * nz = 0)%nat -> manual mn mx nx ny nz = [] /\ forall p, findSubdomain (manual mn mx nx ny nz) p = 0%nat.
Proof.
  intros H. assert (E : manual mn mx nx ny nz = []).
  { unfold manual. rewrite blocks_parts. replace (cells nx ny nz) with (@nil (nat * nat * nat)); [reflexivity|]. symmetry. apply length_zero_iff_nil. rewrite cells_length. exact H. }
  split; [exact E|]. intros p. rewrite E. reflexivity.
Qed.

(** norms *)
Lemma norm_x v : Rabs (vx v) <= norm v.
Proof.
  unfold norm, norm2, dot. rewrite <- sqrt_Rsqr_abs. apply sqrt_le_1; [apply Rle_0_sqr| |].
  - pose proof (Rle_0_sqr (vx v)) as A. pose proof (Rle_0_sqr (vy v)) as B. pose proof (Rle_0_sqr (vz v)) as C. unfold Rsqr in *. lra.
  - pose proof (Rle_0_sqr (vy v)) as B. pose proof (Rle_0_sqr (vz v)) as C. unfold Rsqr in *. lra.
Qed.
Lemma norm_nonneg v : 0 <= norm v. Proof. apply sqrt_pos. Qed.
Lemma total_ge pts p : forall d q, In q pts -> 0 <= d -> d + norm (vsub p q) <= fold_left (fun d q => d + norm (vsub p q)) pts d.
Proof.
  assert (G : forall pts d, d <= fold_left (fun d q => d + norm (vsub p q)) pts d). { induction pts0 as [|q pts0 IH]; intros d; cbn [fold_left]; [lra|]. specialize (IH (d + norm (vsub p q))). pose proof (norm_nonneg (vsub p q)). lra. }
  induction pts as [|q' pts IH]; intros d q H Hd; [destruct H|]. cbn [fold_left]. destruct H as [-> |H]; [apply G|]. pose proof (norm_nonneg (vsub p q')). specialize (IH (d + norm (vsub p q')) q H ltac:(lra)). lra.
Qed.

(** a domain that is too large *)
Lemma too_far sds p : (forall sd, In sd sds -> 10000000 < totalDist (points sd) p) -> findSubdomain sds p = 0%nat.
Proof.
  intros H. unfold findSubdomain. destruct (find_fold p sds 10000000 0%nat) as (A & _ & D). cbv zeta in *. destruct D as [D|(sd & Hs & E)]; [rewrite D; reflexivity|]. rewrite E in A. cbn [fst] in A. specialize (H sd Hs). lra.
Qed.
Definition vbig : vec := V 100000000 1 1.
Definition pbig : vec := V 50000000 (1 / 2) (1 / 2).
Lemma big_find : below v0 vbig /\ (exists sd, In sd (manual v0 vbig 1 1 1) /\ inside_sub sd pbig /\ worker sd = 1%nat) /\ findSubdomain (manual v0 vbig 1 1 1) pbig = 0%nat.
Proof.
  split; [unfold below, v0, vbig; cbn [vx vy vz]; lra|].
  assert (E : manual v0 vbig 1 1 1 = [mkS (corners 0 100000000 0 1 0 1) 1]).
  { unfold manual. rewrite blocks_parts. change (cells 1 1 1) with [(0%nat, 0%nat, 0%nat)]. cbn [parts makeOneSubdomain app]. unfold v0, vbig. cbn [vx vy vz]. rewrite !lin_0, !lin_d by lia. reflexivity. }
  rewrite E. split.
  - eexists. split; [left; reflexivity|]. split; [|reflexivity]. apply sub_inside. unfold pbig. cbn [vx vy vz]. lra.
  - apply too_far. intros sd [<- |[]]. cbn [points]. pose proof (total_ge (corners 0 100000000 0 1 0 1) pbig 0 (V 0 0 0) (or_introl eq_refl) (Rle_refl 0)) as T. fold (totalDist (corners 0 100000000 0 1 0 1) pbig) in T.
    assert (N : 50000000 <= norm (vsub pbig (V 0 0 0))). { eapply Rle_trans; [|apply norm_x]. unfold vsub, pbig. cbn [vx]. rewrite Rabs_right by lra. lra. } lra.
Qed.

(** blocks of different size *)
Lemma not_found sds sd sd' p : NoDup (map worker sds) -> In sd sds -> In sd' sds -> worker sd <> 0%nat -> totalDist (points sd') p < totalDist (points sd) p -> findSubdomain sds p <> worker sd.
Proof.
  intros Nd H H' H0 Hl E. destruct (find_closest sds p) as [[E0 _]|(s & Hs & Es & Hm)]; [congruence|]. assert (Ew : worker s = worker sd) by congruence.
  assert (s = sd). { clear - Nd H Hs Ew. induction sds as [|a l IH]; [destruct H|]. cbn [map] in Nd. inversion Nd as [|? ? N1 N2]; subst. destruct H as [<- |H], Hs as [<- |Hs]; [reflexivity| | |auto]; exfalso; apply N1; [rewrite <- Ew|rewrite Ew]; apply in_map; assumption. }
  subst s. specialize (Hm sd' H'). lra.
Qed.
Definition p9 : vec := V (6 / 1000) (1 / 400) (1 / 400).
Definition v9 : vec := V (1 / 100) (1 / 100) (1 / 100).
Lemma v9_below : below v0 v9. Proof. unfold below, v0, v9. cbn [vx vy vz]. lra. Qed.
Lemma lin2 : linspace 0 (1 / 100) 2 1 = 1 / 200. Proof. unfold linspace. cbn [INR]. field. Qed.
Definition s9 : decomp := first_guess (1 # 100) (1 # 100) (1 # 100).
Lemma cube9 : loop 9 1 s9 = Some s9. Proof. reflexivity. Qed.
Lemma automatic9 : automatic v0 v9 9 s9 = blocks v0 v9 2 2 2 1. Proof. reflexivity. Qed.
Definition sd6 : subdomain := mkS (corners (1 / 200) (1 / 100) 0 (1 / 200) 0 (1 / 200)) 6.
Definition sd2 : subdomain := mkS (corners (0 + (1 / 200 - 0) / 2) (1 / 200) 0 (1 / 200) 0 (1 / 200)) 2.
Lemma blocks9 : In sd6 (blocks v0 v9 2 2 2 1) /\ In sd2 (blocks v0 v9 2 2 2 1).
Proof.
  rewrite blocks_parts. change (cells 2 2 2) with [(0, 0, 0); (0, 0, 1); (0, 1, 0); (0, 1, 1); (1, 0, 0); (1, 0, 1); (1, 1, 0); (1, 1, 1)]%nat.
  cbn [parts makeOneSubdomain makeTwoSubdomains app Nat.add]. unfold v0, v9. cbn [vx vy vz]. rewrite !lin_0, !lin_d, !lin2 by lia. split.
  - do 5 right. left. reflexivity.
  - right. left. reflexivity.
Qed.
Lemma total_corners x x' y y' z z' p : totalDist (corners x x' y y' z z') p =
  norm (V (vx p - x) (vy p - y) (vz p - z)) + norm (V (vx p - x') (vy p - y) (vz p - z)) + norm (V (vx p - x) (vy p - y') (vz p - z)) + norm (V (vx p - x') (vy p - y') (vz p - z)) +
  norm (V (vx p - x) (vy p - y) (vz p - z')) + norm (V (vx p - x') (vy p - y) (vz p - z')) + norm (V (vx p - x) (vy p - y') (vz p - z')) + norm (V (vx p - x') (vy p - y') (vz p - z')).
Proof. unfold totalDist, corners. cbn [fold_left]. unfold vsub. cbn [vx vy vz]. ring. Qed.
Lemma norm_val a b c k : a * a + b * b + c * c = k -> norm (V a b c) = sqrt k.
Proof. intros <-. reflexivity. Qed.
Lemma totals9 : totalDist (points sd2) p9 < totalDist (points sd6) p9.
Proof.
  unfold sd2, sd6, p9. cbn [points]. rewrite !total_corners. cbn [vx vy vz].
  assert (A : forall b c, b * b = 1 / 160000 -> c * c = 1 / 160000 -> norm (V (6 / 1000 - 1 / 200) b c) = sqrt (27 / 2000000)) by (intros b c Hb Hc; apply norm_val; rewrite Hb, Hc; field).
  assert (B : forall b c, b * b = 1 / 160000 -> c * c = 1 / 160000 -> norm (V (6 / 1000 - 1 / 100) b c) = sqrt (57 / 2000000)) by (intros b c Hb Hc; apply norm_val; rewrite Hb, Hc; field).
  assert (C : forall b c, b * b = 1 / 160000 -> c * c = 1 / 160000 -> norm (V (6 / 1000 - (0 + (1 / 200 - 0) / 2)) b c) = sqrt (99 / 4000000)) by (intros b c Hb Hc; apply norm_val; rewrite Hb, Hc; field).
  rewrite !A, !B, !C by field. pose proof (sqrt_lt_1 (99 / 4000000) (57 / 2000000) ltac:(lra) ltac:(lra) ltac:(lra)). lra.
Qed.
Lemma v9_edges : edges v0 v9 (1 # 100) (1 # 100) (1 # 100).
Proof. unfold edges, v0, v9, Q2R. cbn [vx vy vz Qnum Qden]. lra. Qed.
Lemma halves_find : exists sd, In sd (automatic v0 v9 9 s9) /\ inside_sub sd p9 /\ findSubdomain (automatic v0 v9 9 s9) p9 <> worker sd.
Proof.
  exists sd6. assert (T : tiles v0 v9 9 (automatic v0 v9 9 s9)).
  { change 9%nat with (Z.to_nat 9). apply (automatic_tiles v0 v9 9 s9 1 s9); [exact v9_below|lia| |exact cube9]. apply guess_nonneg; discriminate. }
  rewrite automatic9 in *. destruct blocks9 as [H6 H2]. split; [exact H6|]. split; [unfold sd6, p9; apply sub_inside; cbn [vx vy vz]; lra|].
  apply (not_found _ sd6 sd2 p9); [destruct T as (-> & _); apply seq_NoDup|exact H6|exact H2|discriminate|exact totals9].
Qed.

(** a long domain: an edge in x or z between 5 and 10 mm, and more blocks of 5 mm than workers *)
Lemma long_never x y z n fuel : (0 < n < int (200 * x) * int (200 * y) * int (200 * z))%Z -> int (200 * x) = 1%Z \/ int (200 * z) = 1%Z -> loop n fuel (first_guess x y z) = None.
Proof.
  intros (Hn & Hl) H. destruct fuel as [|fuel]; [reflexivity|]. cbn [loop]. assert (E : estimated (first_guess x y z) = (int (200 * x) * int (200 * y) * int (200 * z))%Z) by (unfold estimated, first_guess; cbn [xD yD zD]; rewrite !int_inject; ring).
  unfold iteration. rewrite E, (proj2 (Z.ltb_lt _ _) Hl). apply flat_never; [exact Hn|]. unfold flat, first_guess. cbn [xD zD]. destruct H as [-> | ->]; [left|right]; reflexivity.
Qed.

(** the points of the cloud *)
Lemma nn_ge pts p e : e <= 1000000 -> (forall q, In q pts -> e <= norm (vsub p q)) -> e <= nearestNeighborDist pts p.
Proof.
  intros He H. unfold nearestNeighborDist. destruct (nn_fold p pts 1000000) as (_ & _ & D). cbv zeta in *. destruct D as [-> |(q & Hq & ->)]; [exact He|exact (H q Hq)].
Qed.
Lemma nn_le pts p q : In q pts -> nearestNeighborDist pts p <= norm (vsub p q).
Proof. intros H. unfold nearestNeighborDist. destruct (nn_fold p pts 1000000) as (_ & B & _). cbv zeta in *. exact (B q H). Qed.
Definition centre : vec := V (1 / 2) (1 / 2) (1 / 2).
Definition near : vec := V (1 / 10) 0 0.
Lemma unit_corners q : In q (makeDomainCornerPoints v0 v1) -> vx q = 0 \/ vx q = 1.
Proof.
  unfold makeDomainCornerPoints, corners, v0, v1. cbn [vx vy vz In]. rewrite (Rabs_right (1 - 0)) by lra. intros H. repeat (destruct H as [<- |H]; [cbn [vx]; lra|]). destruct H.
Qed.
Lemma nn_near : nearestNeighborDist (makeDomainCornerPoints v0 v1) near = 1 / 10.
Proof.
  apply Rle_antisym.
  - eapply Rle_trans; [apply nn_le; left; reflexivity|]. right. unfold near, v0, vsub. cbn [vx vy vz]. rewrite (norm_val _ _ _ ((1 / 10) * (1 / 10))) by field. apply sqrt_square. lra.
  - apply nn_ge; [lra|]. intros q Hq. eapply Rle_trans; [|apply norm_x]. unfold near, vsub. cbn [vx]. destruct (unit_corners q Hq) as [-> | ->]; [rewrite Rabs_right by lra; lra|rewrite Rabs_left by lra; lra].
Qed.
Lemma nn_centre : 1 / 2 <= nearestNeighborDist (makeDomainCornerPoints v0 v1) centre.
Proof.
  apply nn_ge; [lra|]. intros q Hq. eapply Rle_trans; [|apply norm_x]. unfold centre, vsub. cbn [vx]. destruct (unit_corners q Hq) as [-> | ->]; [rewrite Rabs_right by lra; lra|rewrite Rabs_left by lra; lra].
Qed.
Lemma last_kept : generateRandomCloud (makeDomainCornerPoints v0 v1) [] [[centre; near]] = Some [near].
Proof.
  cbn [generateRandomCloud pointSample rev app]. unfold findMostRemotePointNN. cbn [fold_left fst]. rewrite nn_near. destruct (Rlt_dec 0 (1 / 10)) as [C|C]; [reflexivity|exfalso; lra].
Qed.
Lemma cloud_last cp draws : forall sub pts, generateRandomCloud cp sub draws = Some pts -> pts = sub ++ map (fun d => last d v0) draws /\ Forall (fun d => d <> []) draws.
Proof.
  induction draws as [|d draws IH]; intros sub pts E; cbn [generateRandomCloud map] in *; [injection E as <-; rewrite app_nil_r; auto|].
  destruct (findMostRemotePointNN (sub ++ cp) (pointSample d)) as [p|] eqn:Ep; [|discriminate]. apply most_remote in Ep. destruct Ep as [Ep _]. apply IH in E. destruct E as [-> F]. rewrite <- app_assoc. cbn [app].
  assert (K : d <> [] /\ p = last d v0).
  { unfold pointSample in Ep. destruct d as [|a d0] using rev_ind; [destruct Ep|]. rewrite rev_app_distr in Ep. cbn [rev app] in Ep. destruct Ep as [<- |[]]. split; [intros C; apply app_eq_nil in C; destruct C; discriminate|]. rewrite last_last. reflexivity. }
  destruct K as [K1 ->]. split; [reflexivity|]. constructor; assumption.
Qed.

Lemma norm_le a b c k : 0 <= k -> a * a + b * b + c * c <= k * k -> norm (V a b c) <= k.
Proof. intros Hk H. unfold norm, norm2, dot. cbn [vx vy vz]. rewrite <- (sqrt_square k Hk). apply sqrt_le_1; [|nra|exact H]. pose proof (Rle_0_sqr a). pose proof (Rle_0_sqr b). pose proof (Rle_0_sqr c). unfold Rsqr in *. lra. Qed.
(** within a small box all distances are small *)
Lemma total_small x x' y y' z z' p L : 0 <= L -> x' - x <= L -> y' - y <= L -> z' - z <= L -> x <= vx p <= x' -> y <= vy p <= y' -> z <= vz p <= z' -> totalDist (corners x x' y y' z z') p <= 16 * L.
Proof.
  intros HL Lx Ly Lz Px Py Pz. rewrite total_corners.
  assert (S : forall t u, 0 <= u -> - u <= t <= u -> t * t <= u * u) by (intros; nra).
  assert (N : forall a b c, - L <= a <= L -> - L <= b <= L -> - L <= c <= L -> norm (V a b c) <= 2 * L). { intros a b c A B C. apply norm_le; [lra|]. pose proof (S a L HL A). pose proof (S b L HL B). pose proof (S c L HL C). pose proof (Rle_0_sqr L). unfold Rsqr in *. lra. }
  pose proof (N (vx p - x) (vy p - y) (vz p - z) ltac:(lra) ltac:(lra) ltac:(lra)). pose proof (N (vx p - x') (vy p - y) (vz p - z) ltac:(lra) ltac:(lra) ltac:(lra)).
  pose proof (N (vx p - x) (vy p - y') (vz p - z) ltac:(lra) ltac:(lra) ltac:(lra)). pose proof (N (vx p - x') (vy p - y') (vz p - z) ltac:(lra) ltac:(lra) ltac:(lra)).
  pose proof (N (vx p - x) (vy p - y) (vz p - z') ltac:(lra) ltac:(lra) ltac:(lra)). pose proof (N (vx p - x') (vy p - y) (vz p - z') ltac:(lra) ltac:(lra) ltac:(lra)).
  pose proof (N (vx p - x) (vy p - y') (vz p - z') ltac:(lra) ltac:(lra) ltac:(lra)). pose proof (N (vx p - x') (vy p - y') (vz p - z') ltac:(lra) ltac:(lra) ltac:(lra)). lra.
Qed.
Lemma manual_small mn mx nx ny nz sd p L : below mn mx -> (0 < nx)%nat -> (0 < ny)%nat -> (0 < nz)%nat -> vx mx - vx mn <= L -> vy mx - vy mn <= L -> vz mx - vz mn <= L ->
  In sd (manual mn mx nx ny nz) -> in_sub sd p -> totalDist (points sd) p <= 16 * L.
Proof.
  intros B Hx Hy Hz Lx Ly Lz Hs Hp. pose proof B as (Bx & By & Bz). unfold manual in Hs. rewrite blocks_parts in Hs. apply parts_regular in Hs. destruct Hs as (i & j & k & w & Hc & ->). apply in_cells in Hc. destruct Hc as (Hi & Hj & Hk). apply sub_box in Hp. destruct Hp as (Px & Py & Pz). cbn [points].
  assert (Ri : (i <= nx)%nat) by lia. assert (Rj : (j <= ny)%nat) by lia. assert (Rk : (k <= nz)%nat) by lia.
  pose proof (lin_range _ _ _ Bx Hx i Ri). pose proof (lin_range _ _ _ Bx Hx (S i) Hi). pose proof (lin_range _ _ _ By Hy j Rj). pose proof (lin_range _ _ _ By Hy (S j) Hj). pose proof (lin_range _ _ _ Bz Hz k Rk). pose proof (lin_range _ _ _ Bz Hz (S k) Hk).
  apply total_small; lra.
Qed.
Lemma near_centre x h p i i' (F : nat -> R) : 0 < h -> (forall n, F n = x + INR n * h) -> F i <= p <= F (S i) ->
  (p - (F i + F (S i)) / 2)^2 <= (p - (F i' + F (S i')) / 2)^2 /\ (~ (F i' <= p <= F (S i')) -> (p - (F i + F (S i)) / 2)^2 < (p - (F i' + F (S i')) / 2)^2).
Proof.
  intros Hh EF Hp. destruct (Nat.eq_dec i i') as [<- |Hne]; [split; [lra|intros C; contradiction]|]. rewrite !EF, !S_INR in *. set (t := p - (x + INR i * h + (x + (INR i + 1) * h)) / 2). assert (T : - (h / 2) <= t <= h / 2) by (unfold t; lra).
  set (t' := p - (x + INR i' * h + (x + (INR i' + 1) * h)) / 2). assert (T' : h / 2 <= t' \/ t' <= - (h / 2)).
  { destruct (Nat.lt_ge_cases i i') as [C|C]; [right|left].
    - assert (E : 1 <= INR i' - INR i). { rewrite <- minus_INR by lia. apply (le_INR 1). lia. } assert (h <= (INR i' - INR i) * h) by nra. unfold t' in *. lra.
    - assert (E : 1 <= INR i - INR i'). { rewrite <- minus_INR by lia. apply (le_INR 1). lia. } assert (h <= (INR i - INR i') * h) by nra. unfold t' in *. lra. }
  split; [destruct T' as [T'|T']; nra|]. intros C. assert (T2 : h / 2 < t' \/ t' < - (h / 2)).
  { destruct (Rlt_dec (h / 2) t') as [D|D]; [left; exact D|]. destruct (Rlt_dec t' (- (h / 2))) as [D'|D']; [right; exact D'|]. exfalso. apply C. unfold t' in *. lra. }
  destruct T2 as [T2|T2]; nra.
Qed.
Lemma found_near mn mx nx ny nz s0 s p : below mn mx -> (0 < nx)%nat -> (0 < ny)%nat -> (0 < nz)%nat -> In s0 (manual mn mx nx ny nz) -> in_sub s0 p -> In s (manual mn mx nx ny nz) -> ~ in_sub s p ->
  totalDist (points s0) p < totalDist (points s) p.
Proof.
  intros (Bx & By & Bz) Hx Hy Hz Hs Hp Hi Hn. unfold manual in Hs, Hi. rewrite blocks_parts in Hs, Hi. apply parts_regular in Hs, Hi. destruct Hs as (i & j & k & w & _ & ->), Hi as (i' & j' & k' & w' & _ & ->).
  apply sub_box in Hp. destruct Hp as (Px & Py & Pz). rewrite sub_box in Hn. cbn [points]. rewrite !total_oct.
  assert (HX : forall n, linspace (vx mn) (vx mx) nx (S n) - linspace (vx mn) (vx mx) nx n = (vx mx - vx mn) / INR nx) by (intros n; rewrite lin_step; ring).
  assert (HY : forall n, linspace (vy mn) (vy mx) ny (S n) - linspace (vy mn) (vy mx) ny n = (vy mx - vy mn) / INR ny) by (intros n; rewrite lin_step; ring).
  assert (HZ : forall n, linspace (vz mn) (vz mx) nz (S n) - linspace (vz mn) (vz mx) nz n = (vz mx - vz mn) / INR nz) by (intros n; rewrite lin_step; ring).
  rewrite !HX, !HY, !HZ. pose proof (hpos _ _ _ Bx Hx) as hx. pose proof (hpos _ _ _ By Hy) as hy. pose proof (hpos _ _ _ Bz Hz) as hz.
  destruct (near_centre (vx mn) ((vx mx - vx mn) / INR nx) (vx p) i i' (linspace (vx mn) (vx mx) nx) hx ltac:(reflexivity) Px) as [X1 X2].
  destruct (near_centre (vy mn) ((vy mx - vy mn) / INR ny) (vy p) j j' (linspace (vy mn) (vy mx) ny) hy ltac:(reflexivity) Py) as [Y1 Y2].
  destruct (near_centre (vz mn) ((vz mx - vz mn) / INR nz) (vz p) k k' (linspace (vz mn) (vz mx) nz) hz ltac:(reflexivity) Pz) as [Z1 Z2].
  apply oct_mono; lra.
Qed.
Lemma manual_everywhere mn mx nx ny nz p : below mn mx -> (0 < nx)%nat -> (0 < ny)%nat -> (0 < nz)%nat -> Dom_Spec.between mn mx p -> vx mx - vx mn <= 400000 -> vy mx - vy mn <= 400000 -> vz mx - vz mn <= 400000 ->
  exists sd, In sd (manual mn mx nx ny nz) /\ findSubdomain (manual mn mx nx ny nz) p = worker sd /\ in_sub sd p.
Proof.
  intros B Hx Hy Hz Hp Lx Ly Lz. pose proof (blocks_tile mn mx nx ny nz 0 B Hx Hy Hz ltac:(lia)) as (_ & Cov & _ & _). fold (manual mn mx nx ny nz) in Cov. destruct (Cov p Hp) as (s0 & H0 & P0).
  pose proof (manual_small mn mx nx ny nz s0 p 400000 B Hx Hy Hz Lx Ly Lz H0 P0) as T0. destruct (find_closest (manual mn mx nx ny nz) p) as [[_ F]|(sd & Hs & E & M)]; [specialize (F s0 H0); lra|].
  exists sd. split; [exact Hs|]. split; [exact E|]. specialize (M s0 H0).
  assert (Dc : in_sub sd p \/ ~ in_sub sd p).
  { pose proof Hs as Hs'. unfold manual in Hs'. rewrite blocks_parts in Hs'. apply parts_regular in Hs'. destruct Hs' as (i & j & k & w & _ & ->). rewrite sub_box.
    destruct (Rle_dec (linspace (vx mn) (vx mx) nx i) (vx p)), (Rle_dec (vx p) (linspace (vx mn) (vx mx) nx (S i))), (Rle_dec (linspace (vy mn) (vy mx) ny j) (vy p)), (Rle_dec (vy p) (linspace (vy mn) (vy mx) ny (S j))), (Rle_dec (linspace (vz mn) (vz mx) nz k) (vz p)), (Rle_dec (vz p) (linspace (vz mn) (vz mx) nz (S k))); try (right; intros (? & ? & ?); lra). left. lra. }
  destruct Dc as [Dc|Dc]; [exact Dc|]. pose proof (found_near mn mx nx ny nz s0 sd p B Hx Hy Hz H0 P0 Hs Dc). lra.
Qed.
Lemma unit_centre : exists sd, In sd (manual v0 v1 1 1 1) /\ inside_sub sd centre /\ totalDist (points sd) centre < 10000000.
Proof.
  assert (E : manual v0 v1 1 1 1 = [mkS (corners 0 1 0 1 0 1) 1]).
  { unfold manual. rewrite blocks_parts. change (cells 1 1 1) with [(0%nat, 0%nat, 0%nat)]. cbn [parts makeOneSubdomain app]. unfold v0, v1. cbn [vx vy vz]. rewrite !lin_0, !lin_d by lia. reflexivity. }
  rewrite E. eexists. split; [left; reflexivity|]. split; [apply sub_inside; unfold centre; cbn [vx vy vz]; lra|]. cbn [points]. pose proof (total_small 0 1 0 1 0 1 centre 1) as T. unfold centre in T at 1 2 3 4 5 6. cbn [vx vy vz] in T. lra.
Qed.
Lemma near_ex : exists q, In q [near; V 0 0 0] /\ norm (vsub (V 0 0 0) q) < 10000000.
Proof. exists near. split; [left; reflexivity|]. unfold near, vsub. cbn [vx vy vz]. assert (H : norm (V (0 - 1 / 10) (0 - 0) (0 - 0)) <= 1) by (apply norm_le; lra). lra. Qed.

Lemma edges_tiles mn mx n x y z fuel s : below mn mx -> (0 < n)%Z -> edges mn mx x y z -> loop n fuel (first_guess x y z) = Some s -> tiles mn mx (Z.to_nat n) (automatic mn mx n s).
Proof.
  intros B Hn (X & Y & Z). apply automatic_tiles; [exact B|exact Hn|]. destruct B as (Bx & By & Bz). assert (Q0 : Q2R 0 = 0) by (unfold Q2R; cbn [Qnum Qden]; lra).
  apply guess_nonneg; apply Rle_Qle; rewrite Q0; lra.
Qed.
