(** Averages of points in the plane *)
From Coq Require Import Reals List ZArith Bool Lra Lia Permutation.
From Verif Require Import Wavg_Model Wavg_Spec.
Import ListNotations.
Local Open Scope R_scope.

Lemma floor_spec x : IZR (floorR x) <= x < IZR (floorR x + 1).
Proof. unfold floorR. destruct (archimed x) as [A B]. replace (up x - 1 + 1)%Z with (up x) by lia. rewrite minus_IZR. lra. Qed.
Lemma floor_is x z : IZR z <= x < IZR (z + 1) -> floorR x = z.
Proof. intros H. destruct (floor_spec x) as [A B]. assert (U : (floorR x < z + 1)%Z) by (apply lt_IZR; lra). assert (V : (z < floorR x + 1)%Z) by (apply lt_IZR; lra). lia. Qed.
Lemma floor_mono x y : x <= y -> (floorR x <= floorR y)%Z.
Proof. intros H. destruct (floor_spec x) as [A B]. destruct (floor_spec y) as [C D]. assert (U : (floorR x < floorR y + 1)%Z) by (apply lt_IZR; lra). lia. Qed.
Lemma div_le a b c : 0 < c -> a <= b -> a / c <= b / c. Proof. intros C H. apply Rmult_le_compat_r; [left; apply Rinv_0_lt_compat; exact C|exact H]. Qed.
Lemma zrange_in a b z : In z (zrange a b) <-> (a <= z <= b)%Z.
Proof.
  unfold zrange. rewrite in_map_iff. split.
  - intros (i & <- & I). apply in_seq in I. lia.
  - intros H. exists (Z.to_nat (z - a)). split; [lia|]. apply in_seq. lia.
Qed.
Lemma zrange_nodup a b : NoDup (zrange a b).
Proof. unfold zrange. apply FinFun.Injective_map_NoDup; [intros i j H; lia|apply seq_NoDup]. Qed.
Lemma eqcell_iff a b : eqcell a b = true <-> a = b.
Proof. unfold eqcell. rewrite andb_true_iff, !Z.eqb_eq. destruct a, b; cbn [fst snd]. split; [intros (-> & ->); reflexivity|intros [= -> ->]; auto]. Qed.

(** ** C290: elements of cells *)
Lemma clamp_in a n : (0 < n)%Z -> (0 <= clamp a n < n)%Z.
Proof. intros N. unfold clamp. cbv zeta. destruct (a <? 0)%Z eqn:A; [apply Z.ltb_lt in A|apply Z.ltb_ge in A]; destruct (_ >=? n)%Z eqn:B; rewrite Z.geb_leb in B; [apply Z.leb_le in B|apply Z.leb_gt in B|apply Z.leb_le in B|apply Z.leb_gt in B]; lia. Qed.
Lemma inGrid_iff g c : inGrid g c = true <-> (0 <= fst c < nx g /\ 0 <= snd c < ny g)%Z.
Proof. unfold inGrid. rewrite !andb_true_iff, !Z.leb_le, !Z.ltb_lt. lia. Qed.
Lemma cell_of_in g e : proper g -> inGrid g (cell_of g e) = true.
Proof. intros (_ & _ & N & M). unfold cell_of. cbv zeta. destruct (inGrid g (xy2cell g (ex e) (ey e))) eqn:E; [exact E|]. apply inGrid_iff. cbn [fst snd]. split; apply clamp_in; assumption. Qed.
Lemma cell_coord lo s n x : 0 < s -> lo <= x < lo + s * IZR n -> (0 <= floorR ((x - lo) / s) < n)%Z /\ lo + s * IZR (floorR ((x - lo) / s)) <= x < lo + s * IZR (floorR ((x - lo) / s) + 1).
Proof.
  intros S H. destruct (floor_spec ((x - lo) / s)) as [A B]. assert (E : (x - lo) / s * s = x - lo) by (field; lra).
  assert (A' : s * IZR (floorR ((x - lo) / s)) <= x - lo). { rewrite <- E at 2. rewrite (Rmult_comm s). apply Rmult_le_compat_r; lra. }
  assert (B' : x - lo < s * IZR (floorR ((x - lo) / s) + 1)). { rewrite <- E at 1. rewrite (Rmult_comm s). apply Rmult_lt_compat_r; lra. }
  split; [|lra]. split.
  - assert (U : (-1 < floorR ((x - lo) / s))%Z); [|lia]. apply lt_IZR. apply Rmult_lt_reg_l with s; [exact S|]. rewrite plus_IZR in B'. lra.
  - apply lt_IZR. apply Rmult_lt_reg_l with s; [exact S|]. lra.
Qed.
Theorem own_cell g e : proper g -> within g (ex e) (ey e) -> inGrid g (cell_of g e) = true /\ (let (i, j) := cell_of g e in lx g + sx g * IZR i <= ex e < lx g + sx g * IZR (i + 1) /\ ly g + sy g * IZR j <= ey e < ly g + sy g * IZR (j + 1)).
Proof.
  intros P (X & Y). split; [apply cell_of_in; exact P|]. destruct P as (SX & SY & _ & _). destruct (cell_coord _ _ _ _ SX X) as (X1 & X2). destruct (cell_coord _ _ _ _ SY Y) as (Y1 & Y2). unfold cell_of. cbv zeta. assert (I : inGrid g (xy2cell g (ex e) (ey e)) = true) by (apply inGrid_iff; unfold xy2cell; cbn [fst snd]; split; assumption). rewrite I. unfold xy2cell. split; assumption.
Qed.
Lemma flat_filter {K} (f : K -> elem -> bool) (ks : list K) (l : list elem) : NoDup ks -> (forall e k k', In k ks -> In k' ks -> f k e = true -> f k' e = true -> k = k') -> Permutation (flat_map (fun k => filter (f k) l) ks) (filter (fun e => existsb (fun k => f k e) ks) l).
Proof.
  induction ks as [|k ks IH]; intros ND U; [cbn [flat_map existsb]; induction l as [|e l IHl]; [constructor|exact IHl]|]. inversion ND as [|? ? N1 N2]; subst. cbn [flat_map existsb].
  rewrite IH; [|exact N2|intros e a b A B; apply U; right; assumption]. clear IH. induction l as [|e l IHl]; [constructor|]. cbn [filter]. destruct (f k e) eqn:F; cbn [orb].
  - assert (Q : existsb (fun k0 => f k0 e) ks = false). { apply not_true_is_false. intros H. apply existsb_exists in H as (k' & K1 & K2). apply N1. rewrite (U e k k' (or_introl eq_refl) (or_intror K1) F K2). exact K1. }
    rewrite Q. cbn [app]. constructor. exact IHl.
  - destruct (existsb (fun k0 => f k0 e) ks); [|exact IHl]. rewrite <- IHl. symmetry. apply Permutation_middle.
Qed.
Lemma flat_pairs {A B C} (f : A -> B -> list C) la lb : flat_map (fun i => flat_map (fun j => f i j) lb) la = flat_map (fun p => f (fst p) (snd p)) (list_prod la lb).
Proof.
  induction la as [|a la IH]; [reflexivity|]. cbn [flat_map list_prod]. rewrite IH, flat_map_app. f_equal. clear. induction lb as [|b lb IH]; [reflexivity|]. cbn [flat_map map fst snd]. rewrite IH. reflexivity.
Qed.
Lemma nodup_prod {A B} (la : list A) (lb : list B) : NoDup la -> NoDup lb -> NoDup (list_prod la lb).
Proof.
  intros NA NB. induction la as [|a la IH]; [constructor|]. inversion NA as [|? ? N1 N2]; subst. cbn [list_prod]. assert (D : forall l m : list (A * B), NoDup l -> NoDup m -> (forall x, In x l -> ~ In x m) -> NoDup (l ++ m)).
  { induction l as [|x l IHl]; intros m L M X; [exact M|]. inversion L; subst. cbn [app]. constructor; [rewrite in_app_iff; intros [H | H]; [contradiction|exact (X x (or_introl eq_refl) H)]|]. apply IHl; [assumption|exact M|]. intros y Y. apply X. right. exact Y. }
  apply D; [apply FinFun.Injective_map_NoDup; [intros x y [= E]; exact E|exact NB]|exact (IH N2)|]. intros [x y] H K. apply in_map_iff in H as (z & [= <- <-] & _). apply in_prod_iff in K as (K & _). contradiction.
Qed.
Theorem all_data g l : proper g -> Permutation (data g l) l.
Proof.
  intros P. unfold data. rewrite flat_pairs. rewrite (flat_filter (fun p e => eqcell (cell_of g e) (fst p, snd p))).
  - replace (filter _ l) with l; [reflexivity|]. symmetry. rewrite <- (filter_ext_in (fun _ => true)).
    + induction l as [|e l IH]; [reflexivity|]. cbn [filter]. f_equal. exact IH.
    + intros e _. symmetry. apply existsb_exists. exists (cell_of g e). pose proof (cell_of_in g e P) as I. apply inGrid_iff in I. destruct (cell_of g e) as [i j]. cbn [fst snd] in *. split; [apply in_prod; apply zrange_in; lia|]. apply eqcell_iff. reflexivity.
  - apply nodup_prod; apply zrange_nodup.
  - intros e [i j] [i' j'] _ _ A B. cbn [fst snd] in *. apply eqcell_iff in A, B. congruence.
Qed.
Lemma refused clips e : clipped clips (ex e) (ey e) = false <-> (forall inside inclusive, In (inside, inclusive) clips -> inside (ex e) (ey e) = inclusive).
Proof.
  unfold clipped. split.
  - intros H inside inclusive I. destruct (Bool.bool_dec (inside (ex e) (ey e)) inclusive) as [|N]; [assumption|]. exfalso. assert (T : existsb (fun c : (R -> R -> bool) * bool => let (ins, inc) := c in (ins (ex e) (ey e) && negb inc) || (negb (ins (ex e) (ey e)) && inc)) clips = true); [|congruence]. apply existsb_exists. exists (inside, inclusive). split; [exact I|]. destruct (inside (ex e) (ey e)), inclusive; try reflexivity; contradiction N; reflexivity.
  - intros H. apply not_true_is_false. intros T. apply existsb_exists in T as ([inside inclusive] & I & T). rewrite (H inside inclusive I) in T. destruct inclusive; discriminate T.
Qed.
Theorem added clips l e : (snd (addPt clips l e) = true <-> (forall inside inclusive, In (inside, inclusive) clips -> inside (ex e) (ey e) = inclusive)) /\ (snd (addPt clips l e) = true -> fst (addPt clips l e) = l ++ [e]) /\ (snd (addPt clips l e) = false -> fst (addPt clips l e) = l).
Proof. rewrite <- refused. unfold addPt. destruct (clipped clips (ex e) (ey e)); cbn [fst snd]; repeat split; intros; congruence. Qed.

(** ** C291: elements of the circle *)
Lemma sq_abs a b : 0 <= b -> a * a <= b * b -> - b <= a <= b.
Proof. intros B H. split; [|]; apply Rnot_lt_le; intros L; [assert (b * b < a * a) by (replace (a * a) with (- a * - a) by ring; apply Rmult_le_0_lt_compat; lra)|assert (b * b < a * a) by (apply Rmult_le_0_lt_compat; lra)]; lra. Qed.
Lemma in_rectangle g x0 y0 r e : proper g -> 0 < r -> within g (ex e) (ey e) -> close x0 y0 r e -> In (cell_of g e) (rectangle g (x0 - r) (y0 - r) (x0 + r) (y0 + r)).
Proof.
  intros P R W C. pose proof (cell_of_in g e P) as I. unfold rectangle. cbv zeta. apply filter_In. split; [|exact I]. assert (E : cell_of g e = xy2cell g (ex e) (ey e)).
  { unfold cell_of. cbv zeta. destruct P as (SX & SY & _ & _). destruct W as (X & Y). destruct (cell_coord _ _ _ _ SX X) as (X1 & _). destruct (cell_coord _ _ _ _ SY Y) as (Y1 & _). assert (J : inGrid g (xy2cell g (ex e) (ey e)) = true) by (apply inGrid_iff; unfold xy2cell; cbn [fst snd]; split; assumption). rewrite J. reflexivity. }
  rewrite E. unfold close in C. pose proof (Rle_0_sqr (x0 - ex e)) as X. pose proof (Rle_0_sqr (y0 - ey e)) as Y. unfold Rsqr in X, Y. destruct (sq_abs (x0 - ex e) r) as (X1 & X2); [lra|lra|]. destruct (sq_abs (y0 - ey e) r) as (Y1 & Y2); [lra|lra|]. destruct P as (SX & SY & _ & _).
  apply in_flat_map. unfold xy2cell. cbn [fst snd]. exists (floorR ((ex e - lx g) / sx g)). split; [apply zrange_in; split; apply floor_mono; apply div_le; lra|]. apply in_map. apply zrange_in. split; apply floor_mono; apply div_le; lra.
Qed.
Lemma quot_le1 a r : 0 < r -> - r <= a <= r -> a * a / (r * r) + 0 * 0 / (r * r) <= 1.
Proof.
  intros R H. assert (RR : 0 < r * r) by (apply Rmult_lt_0_compat; exact R). assert (A : a * a <= r * r) by (assert (0 <= (r - a) * (r + a)) by (apply Rmult_le_pos; lra); lra). replace (a * a / (r * r) + 0 * 0 / (r * r)) with (a * a / (r * r)) by (field; lra). apply Rmult_le_reg_r with (r * r); [exact RR|]. unfold Rdiv. rewrite Rmult_assoc, Rinv_l, Rmult_1_r by lra. lra.
Qed.
(** all elements close by in the row of cells of the point *)
Theorem same_row g l x0 y0 r e j : proper g -> 0 < r -> In e l -> within g (ex e) (ey e) -> close x0 y0 r e -> row g j y0 -> row g j (ey e) -> In e (visited g l x0 y0 r).
Proof.
  intros P R L W C J0 JE. pose proof (in_rectangle g x0 y0 r e P R W C) as IR. unfold visited. apply in_flat_map. exists (cell_of g e). split; [|apply filter_In; split; [exact L|apply eqcell_iff; reflexivity]]. unfold circle. apply filter_In. split; [exact IR|].
  destruct (own_cell g e P W) as (_ & OC). destruct P as (SX & SY & NX & NY). 
  assert (FY : forall y, row g j y -> floorR ((y - ly g) / sy g) = j). { intros y (Y1 & Y2). apply floor_is. split; apply Rmult_le_reg_r with (sy g) || apply Rmult_lt_reg_r with (sy g); try exact SY; unfold Rdiv; rewrite Rmult_assoc, Rinv_l, Rmult_1_r by lra; lra. }
  assert (E : cell_of g e = xy2cell g (ex e) (ey e)).
  { unfold cell_of. cbv zeta. destruct W as (X & Y). destruct (cell_coord _ _ _ _ SX X) as (X1 & _). destruct (cell_coord _ _ _ _ SY Y) as (Y1 & _). assert (Q : inGrid g (xy2cell g (ex e) (ey e)) = true) by (apply inGrid_iff; unfold xy2cell; cbn [fst snd]; split; assumption). rewrite Q. reflexivity. }
  rewrite E in *. unfold xy2cell in OC at 1. cbv beta iota in OC. destruct OC as (OX & _). unfold passes. cbv zeta. unfold xy2cell. cbn [fst snd]. rewrite (FY y0 J0), (FY (ey e) JE), Z.eqb_refl. cbn [fst snd].
  set (i := floorR ((ex e - lx g) / sx g)) in *. set (k := floorR ((x0 - lx g) / sx g)) in *. destruct (inGrid g (k, j) && (i =? k)%Z && true) eqn:B; [reflexivity|]. unfold lteR.
  unfold close in C. pose proof (Rle_0_sqr (x0 - ex e)) as X. pose proof (Rle_0_sqr (y0 - ey e)) as Y. unfold Rsqr in X, Y. destruct (sq_abs (x0 - ex e) r) as (X1 & X2); [lra|lra|].
  assert (K : lx g + sx g * IZR k <= x0 < lx g + sx g * IZR (k + 1)). { destruct (floor_spec ((x0 - lx g) / sx g)) as [A' B']. fold k in A', B'. assert (EQ : (x0 - lx g) / sx g * sx g = x0 - lx g) by (field; lra). assert (A2 : IZR k * sx g <= x0 - lx g) by (rewrite <- EQ; apply Rmult_le_compat_r; lra). assert (B2 : x0 - lx g < IZR (k + 1) * sx g) by (rewrite <- EQ at 1; apply Rmult_lt_compat_r; lra). lra. }
  match goal with |- context [Rle_dec ?a 1] => assert (G : a <= 1); [|destruct (Rle_dec a 1); [reflexivity|contradiction]] end.
  apply quot_le1; [exact R|]. rewrite plus_IZR in OX, K. destruct (i =? k)%Z eqn:Q; [lra|]. apply Z.eqb_neq in Q. destruct (i <? k)%Z eqn:T; [apply Z.ltb_lt in T|apply Z.ltb_ge in T].
  - assert (T' : IZR i + 1 <= IZR k) by (rewrite <- plus_IZR; apply IZR_le; lia). assert (M : sx g * (IZR i + 1) <= sx g * IZR k) by (apply Rmult_le_compat_l; lra). lra.
  - assert (T' : IZR k + 1 <= IZR i) by (rewrite <- plus_IZR; apply IZR_le; lia). assert (M : sx g * (IZR k + 1) <= sx g * IZR i) by (apply Rmult_le_compat_l; lra). lra.
Qed.
Theorem other_row_refuted : let e := mkE (1/2) (11/10) 7 in within unit_grid (ex e) (ey e) /\ within unit_grid (1/2) (9/10) /\ close (1/2) (9/10) (3/10) e /\ ~ In e (visited unit_grid [e] (1/2) (9/10) (3/10)).
Proof.
  cbv zeta. split; [unfold within, unit_grid; cbn [lx ly sx sy nx ny ex ey]; lra|]. split; [unfold within, unit_grid; cbn [lx ly sx sy nx ny]; lra|]. split; [unfold close; cbn [ex ey]; lra|].
  intros H. unfold visited in H. apply in_flat_map in H as (c & C1 & C2). apply filter_In in C2 as (_ & C2). apply eqcell_iff in C2. unfold circle in C1. apply filter_In in C1 as (_ & C1).
  assert (F : forall x z, IZR z <= x < IZR (z + 1) -> floorR ((x - 0) / 1) = z) by (intros x z Z; apply floor_is; replace ((x - 0) / 1) with x by field; exact Z).
  assert (E : xy2cell unit_grid (1/2) (11/10) = (0, 1)%Z) by (unfold xy2cell, unit_grid; cbn [lx ly sx sy]; rewrite (F (1/2) 0%Z), (F (11/10) 1%Z); [reflexivity| |]; cbn; lra).
  assert (E0 : xy2cell unit_grid (1/2) (9/10) = (0, 0)%Z) by (unfold xy2cell, unit_grid; cbn [lx ly sx sy]; rewrite (F (1/2) 0%Z), (F (9/10) 0%Z); [reflexivity| |]; cbn; lra).
  unfold cell_of in C2. cbn [ex ey] in C2. cbv zeta in C2. rewrite E in C2. replace (inGrid unit_grid (0, 1)%Z) with true in C2 by reflexivity. subst c. unfold passes in C1. rewrite E0 in C1. replace (inGrid unit_grid (0, 0)%Z) with true in C1 by reflexivity. cbn [fst snd Z.eqb andb Z.ltb Z.compare] in C1. cbv zeta in C1. unfold lteR, unit_grid in C1. cbn [lx ly sx sy] in C1. destruct (Rle_dec _ 1) as [L|]; [|discriminate C1]. lra.
Qed.
(** points out of the grid are never averaged there *)
Theorem outside_refuted : let e := mkE (-10) (1/2) 7 in In e (data unit_grid [e]) /\ close (-10) (1/2) 1 e /\ visited unit_grid [e] (-10) (1/2) 1 = [].
Proof.
  cbv zeta. split; [|split].
  - apply (Permutation_in _ (Permutation_sym (all_data unit_grid [mkE (-10) (1/2) 7] ltac:(unfold proper, unit_grid; cbn [sx sy nx ny]; repeat split; lra || lia)))). left. reflexivity.
  - unfold close. cbn [ex ey]. lra.
  - unfold visited. replace (circle unit_grid (-10) (1/2) 1) with (@nil (Z * Z)); [reflexivity|]. symmetry. destruct (circle unit_grid (-10) (1/2) 1) as [|c l] eqn:E; [reflexivity|]. exfalso. assert (I : In c (circle unit_grid (-10) (1/2) 1)) by (rewrite E; left; reflexivity). unfold circle in I. apply filter_In in I as (I & _). unfold rectangle in I. cbv zeta in I. apply filter_In in I as (I1 & I2). apply inGrid_iff in I2. apply in_flat_map in I1 as (z & Z1 & Z2). apply in_map_iff in Z2 as (y & <- & _). cbn [fst snd] in I2. apply zrange_in in Z1 as (_ & Z1). unfold xy2cell in Z1. cbn [fst unit_grid lx sx] in Z1.
    assert (F : floorR ((-10 + 1 - 0) / 1) = (-9)%Z) by (apply floor_is; cbn; lra). rewrite F in Z1. lia.
Qed.

(** ** C292: the average *)
Lemma sums_spec w l : sums w l = (rsum (map (fun e => w e * ev e) l), rsum (map w l)).
Proof.
  unfold sums. assert (G : forall l s, fold_left (fun s e => (fst s + w e * ev e, snd s + w e)) l s = (fst s + rsum (map (fun e => w e * ev e) l), snd s + rsum (map w l))).
  { clear l. induction l as [|e l IH]; intros [a b]; cbn [fold_left map rsum fst snd]; [apply (f_equal2 pair); ring|]. rewrite IH. cbn [fst snd]. apply (f_equal2 pair); ring. }
  rewrite G. cbn [fst snd]. apply (f_equal2 pair); ring.
Qed.
Theorem between w l a b : (forall e, In e l -> 0 <= w e /\ a <= ev e <= b) -> (exists e, In e l /\ 0 < w e) -> exists m, average w l = Some m /\ a <= m <= b /\ m * rsum (map w l) = rsum (map (fun e => w e * ev e) l).
Proof.
  intros H (e0 & I0 & P0). unfold average. rewrite sums_spec. cbv zeta. cbn [fst snd].
  assert (NN : forall l, (forall e, In e l -> 0 <= w e) -> 0 <= rsum (map w l)). { induction l0 as [|e l0 IH]; intros Q; cbn [map rsum]; [lra|]. pose proof (Q e (or_introl eq_refl)). pose proof (IH (fun x X => Q x (or_intror X))). lra. }
  assert (S : 0 < rsum (map w l)). { clear - H I0 P0 NN. induction l as [|e l IH]; [destruct I0|]. cbn [map rsum]. destruct (H e (or_introl eq_refl)) as (W & _). assert (T : 0 <= rsum (map w l)) by (apply NN; intros x X; apply H; right; exact X). destruct I0 as [-> | I0]; [lra|]. pose proof (IH (fun x X => H x (or_intror X)) I0). lra. }
  assert (B : a * rsum (map w l) <= rsum (map (fun e => w e * ev e) l) <= b * rsum (map w l)).
  { clear - H. induction l as [|e l IH]; cbn [map rsum]; [lra|]. destruct (H e (or_introl eq_refl)) as (W & V1 & V2). destruct (IH (fun x X => H x (or_intror X))) as (B1 & B2). pose proof (Rmult_le_compat_l (w e) a (ev e) W V1). pose proof (Rmult_le_compat_l (w e) (ev e) b W V2). lra. }
  destruct (Req_EM_T (rsum (map w l)) 0) as [|N]; [lra|]. eexists. split; [reflexivity|]. assert (M : rsum (map (fun e => w e * ev e) l) / rsum (map w l) * rsum (map w l) = rsum (map (fun e => w e * ev e) l)) by (field; exact N). split; [|exact M]. split; apply Rmult_le_reg_r with (rsum (map w l)); try exact S; rewrite M; lra.
Qed.
Theorem far_refuted w : average w [] = None. Proof. unfold average, sums. cbn [fold_left snd]. destruct (Req_EM_T 0 0); [reflexivity|lra]. Qed.
Theorem default_area cdf sd : area (construct cdf sd 3) = support cdf sd (relThreshold (construct cdf sd 3)). Proof. reflexivity. Qed.
Theorem weighted pdf cdf sd thr x0 y0 e : weight pdf (construct cdf sd thr) x0 y0 e = if Rle_dec ((x0 - ex e) * (x0 - ex e) + (y0 - ey e) * (y0 - ey e)) (thr * sd * (thr * sd)) then pdf sd (sqrt ((x0 - ex e) * (x0 - ex e) + (y0 - ey e) * (y0 - ey e))) else 0.
Proof. unfold weight, lteR, construct. cbn [relThreshold stDev dist_sd]. cbv zeta. destruct (Rle_dec _ _); reflexivity. Qed.
(** the area does not follow the threshold, nor the deviation; the density does not follow the deviation *)
Theorem stale_refuted cdf pdf sd thr s t : area (construct cdf sd thr) = support cdf sd 3 /\ area (stDev_set (construct cdf sd 3) s) = support cdf sd 3 /\ area (relThreshold_set (construct cdf sd 3) t) = support cdf sd 3 /\ weight pdf (stDev_set (construct cdf sd 3) s) 0 0 (mkE 0 0 1) = pdf sd 0.
Proof.
  repeat split. unfold weight, lteR, stDev_set, construct. cbn [ex ey relThreshold stDev dist_sd]. cbv zeta. destruct (Rle_dec _ _) as [L|N]; [f_equal; replace ((0 - 0) * (0 - 0) + (0 - 0) * (0 - 0)) with 0 by ring; apply sqrt_0|]. exfalso. apply N. pose proof (Rle_0_sqr (3 * s)) as Q. unfold Rsqr in Q. lra.
Qed.
Theorem area_refuted : exists cdf, support cdf 1 1 <> area (construct cdf 1 1).
Proof. exists (fun _ _ => 0). unfold construct, support. cbn [area]. pose proof PI_RGT_0. lra. Qed.

(** ** C291, C292: each element is counted once *)
Lemma circle_nodup g x0 y0 r : NoDup (circle g x0 y0 r).
Proof.
  unfold circle, rectangle. cbv zeta. apply NoDup_filter, NoDup_filter. replace (flat_map _ _) with (list_prod (zrange (fst (xy2cell g (x0 - r) (y0 - r))) (fst (xy2cell g (x0 + r) (y0 + r)))) (zrange (snd (xy2cell g (x0 - r) (y0 - r))) (snd (xy2cell g (x0 + r) (y0 + r))))); [apply nodup_prod; apply zrange_nodup|].
  generalize (zrange (fst (xy2cell g (x0 - r) (y0 - r))) (fst (xy2cell g (x0 + r) (y0 + r)))). intros l. induction l as [|a l IH]; [reflexivity|]. cbn [list_prod flat_map]. rewrite IH. reflexivity.
Qed.
Lemma visited_perm g l x0 y0 r : Permutation (visited g l x0 y0 r) (filter (fun e => existsb (fun c => eqcell (cell_of g e) c) (circle g x0 y0 r)) l).
Proof. unfold visited. apply (flat_filter (fun c e => eqcell (cell_of g e) c)); [apply circle_nodup|]. intros e a b _ _ A B. apply eqcell_iff in A, B. congruence. Qed.
Theorem once g l x0 y0 r : exists rest, Permutation (visited g l x0 y0 r ++ rest) l.
Proof.
  set (f := fun e => existsb (fun c => eqcell (cell_of g e) c) (circle g x0 y0 r)). exists (filter (fun e => negb (f e)) l). rewrite visited_perm. fold f. induction l as [|e l IH]; [constructor|]. cbn [filter]. destruct (f e); cbn [negb app]; [constructor; exact IH|]. rewrite <- Permutation_middle. constructor. exact IH.
Qed.
Lemma rsum_perm l m : Permutation l m -> rsum l = rsum m.
Proof. induction 1; cbn [rsum]; lra. Qed.
Lemma rsum_filter (f : elem -> bool) (w : elem -> R) l : (forall e, In e l -> f e = false -> w e = 0) -> rsum (map w (filter f l)) = rsum (map w l).
Proof.
  induction l as [|e l IH]; intros H; [reflexivity|]. cbn [filter map rsum]. pose proof (H e (or_introl eq_refl)) as Q. pose proof (IH (fun x X => H x (or_intror X))) as I. destruct (f e); cbn [map rsum]; [lra|]. rewrite (Q eq_refl). lra.
Qed.
Theorem all_counted pdf k g l x0 y0 j : proper g -> 0 < stDev k * relThreshold k -> row g j y0 -> (forall e, In e l -> close x0 y0 (stDev k * relThreshold k) e -> within g (ex e) (ey e) /\ row g j (ey e)) -> sums (weight pdf k x0 y0) (visited g l x0 y0 (stDev k * relThreshold k)) = sums (weight pdf k x0 y0) l.
Proof.
  intros P R J H. rewrite !sums_spec. assert (V : forall e, In e l -> existsb (fun c => eqcell (cell_of g e) c) (circle g x0 y0 (stDev k * relThreshold k)) = false -> weight pdf k x0 y0 e = 0).
  { intros e I F. unfold weight, lteR. cbv zeta. destruct (Rle_dec _ _) as [L|]; [|reflexivity]. exfalso. assert (C : close x0 y0 (stDev k * relThreshold k) e) by (unfold close; rewrite (Rmult_comm (stDev k)); exact L). destruct (H e I C) as (W & Q). pose proof (same_row g l x0 y0 _ e j P R I W C J Q) as S. apply (Permutation_in _ (visited_perm g l x0 y0 _)) in S. apply filter_In in S as (_ & S). congruence. }
  apply (f_equal2 pair).
  - rewrite (rsum_perm _ _ (Permutation_map _ (visited_perm g l x0 y0 (stDev k * relThreshold k)))). apply rsum_filter. intros e I F. rewrite (V e I F). ring.
  - rewrite (rsum_perm _ _ (Permutation_map _ (visited_perm g l x0 y0 (stDev k * relThreshold k)))). apply rsum_filter. exact V.
Qed.
