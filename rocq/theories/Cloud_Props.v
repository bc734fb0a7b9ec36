(** Properties C131-C135: random packings of spheres. *)
From Coq Require Import Reals List ZArith Bool.
From Verif Require Import Vec_Model Vec_Proofs Cloud_Model Cloud_Spec Cloud_Proofs2 Cloud_Proofs4 Cloud_Proofs5.
Import ListNotations.
Local Open Scope R_scope.

(** C131: spheres made by makeCloud do not overlap spheres before them.  Partial: see the refuted cases. *)
Theorem C131_apart_partial rnd f q s k n s' k' : periodic q = false -> makeCloud rnd f q s k = Returned n s' k' -> exists new, added apart (pack s) (pack s') new.
Proof. exact (cloud_apart rnd maxTry f q s k n s' k'). Qed.
Print Assumptions C131_apart_partial.
Example C131_apart_case : exists n s' k', makeCloud zeros 3 (plain (1/4) cube 1 false mzero) far 0 = Returned n s' k' /\ length (pack s') = 2%nat.
Proof. exact box_run. Qed.
Theorem C131_periodic_partial rnd f q s k n s' k' : periodic q = true -> mat_zero (hSize q) = true -> 0 <= vx (box q) -> 0 <= vy (box q) -> 0 <= vz (box q) ->
  makeCloud rnd f q s k = Returned n s' k' -> exists new, added (apart_periodic (diag (box q))) (pack s) (pack s') new.
Proof. exact (cloud_apart_box rnd maxTry f q s k n s' k'). Qed.
Print Assumptions C131_periodic_partial.
Example C131_periodic_case : exists n s' k', makeCloud zeros 3 (plain (1/4) cube 1 true mzero) middle 0 = Returned n s' k' /\ length (pack s') = 2%nat.
Proof. exact periodic_run. Qed.
Theorem C131_orthogonal_partial rnd f q s k n s' k' : in_unit rnd -> periodic q = true -> mat_zero (hSize q) = false -> orthogonal (hSize q) ->
  Forall (fun a => in_cell (mn q) (hSize q) (c a)) (pack s) ->
  makeCloud rnd f q s k = Returned n s' k' -> exists new, added (apart_periodic (hSize q)) (pack s) (pack s') new.
Proof. exact (cloud_apart_cell rnd maxTry f q s k n s' k'). Qed.
Print Assumptions C131_orthogonal_partial.
Example C131_orthogonal_case : exists n s' k', mat_zero mid = false /\ orthogonal mid /\ makeCloud two_fifths 4 (two_in mid) empty 0 = Returned n s' k' /\ length (pack s') = 2%nat.
Proof. exact right_angles. Qed.
Theorem C131_skewed_refuted : exists rnd q n s' k' a b, in_unit rnd /\ periodic q = true /\ det (hSize q) = 1 /\ makeCloud rnd 4 q empty 0 = Returned n s' k' /\
  pack s' = [a; b] /\ r a = 1/4 /\ r b = 1/4 /\ ~ apart_periodic (hSize q) a b.
Proof. exact skewed_touch. Qed.
Print Assumptions C131_skewed_refuted.
Theorem C131_image_refuted : exists rnd q n s' k' a, in_unit rnd /\ periodic q = true /\ mat_zero (hSize q) = true /\ box q = cube /\ makeCloud rnd 3 q empty 0 = Returned n s' k' /\ In a (pack s') /\ ~ apart_own (diag (box q)) a.
Proof. exact own_image. Qed.
Print Assumptions C131_image_refuted.

(** C132: spheres are in the box, centres in the cell.  Partial: spheres larger than the box are not. *)
Theorem C132_box_partial rnd f q s k n s' k' : in_unit rnd -> periodic q = false -> makeCloud rnd f q s k = Returned n s' k' ->
  exists kept new, pack s' = kept ++ new /\ (kept = pack s \/ kept = []) /\ Forall (in_box q) new.
Proof. exact (cloud_in_box rnd maxTry f q s k n s' k'). Qed.
Print Assumptions C132_box_partial.
Example C132_box_case : in_unit zeros /\ exists n s' k', makeCloud zeros 3 (plain (1/4) cube 1 false mzero) far 0 = Returned n s' k' /\ length (pack s') = 2%nat.
Proof. exact (conj zeros_unit box_run). Qed.
Theorem C132_cell_partial rnd f q s k n s' k' : in_unit rnd -> periodic q = true -> makeCloud rnd f q s k = Returned n s' k' ->
  exists kept new, pack s' = kept ++ new /\ (kept = pack s \/ kept = []) /\ Forall (fun a => in_cell (mn q) (period q) (c a)) new.
Proof. exact (cloud_in_cell rnd maxTry f q s k n s' k'). Qed.
Print Assumptions C132_cell_partial.
Example C132_cell_case : in_unit two_fifths /\ exists n s' k', mat_zero mid = false /\ orthogonal mid /\ makeCloud two_fifths 4 (two_in mid) empty 0 = Returned n s' k' /\ length (pack s') = 2%nat.
Proof. exact (conj two_fifths_unit right_angles). Qed.
Theorem C132_large_refuted : exists rnd q n s' k' a, in_unit rnd /\ periodic q = false /\ mn q = vzero /\ mx q = cube /\ makeCloud rnd 3 q empty 0 = Returned n s' k' /\ In a (pack s') /\ ~ between (vx (mn q)) (vx (mx q)) (vx (c a)) (r a).
Proof. exact outside_box. Qed.
Print Assumptions C132_large_refuted.

(** C133: the number returned is the number of spheres created, and former spheres are kept.  Partial: neither holds in
    general when the packing is not empty. *)
Theorem C133_count_partial rnd f q s k n s' k' : pack s = [] -> makeCloud rnd f q s k = Returned n s' k' ->
  n = Z.of_nat (length (pack s')) /\ ((0 <= num q)%Z -> (n <= num q)%Z) /\ ((0 < num q)%Z -> rMean q <= 0 -> n = num q).
Proof. exact (cloud_count rnd maxTry f q s k n s' k'). Qed.
Print Assumptions C133_count_partial.
Example C133_count_case : exists n s' k', volume number_only = 1 /\ makeCloud zeros 3 number_only empty 0 = Returned n s' k' /\ length (pack s') = 1%nat.
Proof. exact number_run. Qed.
Theorem C133_kept_partial rnd f q s k n s' k' : in_unit rnd -> 0 < rMean q -> 0 <= rRelFuzz q -> (distributeMass q = true -> rRelFuzz q < 1) -> makeCloud rnd f q s k = Returned n s' k' ->
  exists new, pack s' = pack s ++ new /\ Forall (fun a => rMean q * (1 - rRelFuzz q) <= r a <= rMean q * (1 + rRelFuzz q)) new /\ ((0 < num q)%Z -> decreasing (map r new)).
Proof. exact (cloud_rmean_radii rnd maxTry f q s k n s' k'). Qed.
Print Assumptions C133_kept_partial.
Example C133_kept_case : exists n s' k', makeCloud zeros 3 (plain (1/4) cube 1 true mzero) middle 0 = Returned n s' k' /\ length (pack s') = 2%nat.
Proof. exact periodic_run. Qed.
Theorem C133_count_refuted : exists rnd q s' k', in_unit rnd /\ makeCloud rnd 3 q far 0 = Returned 2 s' k' /\ num q = 1%Z /\ exists a, pack s' = pack far ++ [a].
Proof. exact count_former. Qed.
Print Assumptions C133_count_refuted.
Theorem C133_lost_refuted : exists rnd q s a s' k', in_unit rnd /\ pack s = [a] /\ (exists fuel, makeCloud rnd fuel q s 0 = Returned 1 s' k') /\ ~ In (c a) (map c (pack s')).
Proof. exact former_lost. Qed.
Print Assumptions C133_lost_refuted.

(** C134: the same seed gives the same packing.  Partial: only for the first call in a process; the same list of calls
    gives the same packings at any time. *)
Theorem C134_process_partial gen fuel d x l : seed x <> 0%Z -> calls gen fuel (map (later d) (x :: l)) None = calls gen fuel (x :: l) None.
Proof. exact (calls_first gen fuel d x l). Qed.
Print Assumptions C134_process_partial.
Example C134_process_case : seed (mkReq 5 one_ball empty 0) <> 0%Z.
Proof. discriminate. Qed.
Theorem C134_second_refuted gen z : z <> 0%Z -> gen z 0%nat <> gen z 3%nat -> exists l a b k1 k2,
  calls gen 3 [mkReq z one_ball empty 0; mkReq z one_ball empty 0] None = l /\ l = [Returned 1 a k1; Returned 1 b k2] /\ map c (pack a) <> map c (pack b).
Proof. exact (second_differs gen z). Qed.
Print Assumptions C134_second_refuted.
Theorem C134_ignored_refuted gen fuel z l pr : pr <> None -> calls gen fuel (map (reseeded z) l) pr = calls gen fuel l pr.
Proof. exact (calls_reseeded gen fuel z l pr). Qed.
Print Assumptions C134_ignored_refuted.
Example C134_second_case : (5 <> 0)%Z /\ two_fifths 0 <> two_fifths 3 /\ (Some (5, 0%nat))%Z <> None.
Proof. repeat split; try discriminate. unfold two_fifths. apply Rgt_not_eq. unfold Rdiv. apply Rmult_lt_0_compat; [apply Rlt_0_2|apply Rinv_0_lt_compat; now apply IZR_lt]. Qed.

(** C135: radii are those asked for.  Partial: see the refuted case. *)
Theorem C135_mean_partial rnd f q s k n s' k' : in_unit rnd -> 0 < rMean q -> 0 <= rRelFuzz q -> (distributeMass q = true -> rRelFuzz q < 1) -> makeCloud rnd f q s k = Returned n s' k' ->
  exists new, pack s' = pack s ++ new /\ Forall (fun a => rMean q * (1 - rRelFuzz q) <= r a <= rMean q * (1 + rRelFuzz q)) new /\ ((0 < num q)%Z -> decreasing (map r new)).
Proof. exact (cloud_rmean_radii rnd maxTry f q s k n s' k'). Qed.
Print Assumptions C135_mean_partial.
Theorem C135_number_partial rnd f q s k n s' k' : in_unit rnd -> rMean q <= 0 -> psdSizes q = [] -> (0 < num q)%Z -> 0 < volume q -> porosity q < 1 -> 0 <= rRelFuzz q -> (distributeMass q = true -> rRelFuzz q < 1) ->
  makeCloud rnd f q s k = Returned n s' k' ->
  exists kept new m e, pack s' = kept ++ new /\ (kept = pack s \/ kept = []) /\ Z.of_nat (length new) = num q /\
    poro q <= e < 1 /\ 0 < m /\ IZR (num q) * (4 / 3 * PI * m ^ 3 * (1 + rRelFuzz q ^ 2)) = volume q * (1 - e) /\
    Forall (fun a => m * (1 - rRelFuzz q) <= r a <= m * (1 + rRelFuzz q)) new /\ decreasing (map r new).
Proof. exact (cloud_num rnd maxTry f q s k n s' k'). Qed.
Print Assumptions C135_number_partial.
Example C135_number_case : exists n s' k', volume number_only = 1 /\ makeCloud zeros 3 number_only empty 0 = Returned n s' k' /\ length (pack s') = 1%nat.
Proof. exact number_run. Qed.
Theorem C135_psd_partial rnd f q s k n s' k' : in_unit rnd -> psdSizes q <> [] -> psd_ok q -> makeCloud rnd f q s k = Returned n s' k' ->
  exists kept new t, pack s' = kept ++ new /\ (kept = pack s \/ kept = []) /\ 0 < t <= 1 /\
    Forall (fun a => t * hd 0 (psdSizes q) <= 2 * r a <= t * last (psdSizes q) 0) new /\
    ((0 < num q)%Z -> decreasing (map r new) /\ Z.of_nat (length new) = num q).
Proof. exact (cloud_psd rnd maxTry f q s k n s' k'). Qed.
Print Assumptions C135_psd_partial.
Example C135_psd_case : psd_ok sizes /\ exists n s' k', makeCloud zeros 3 sizes empty 0 = Returned n s' k' /\ map r (pack s') = [7/32].
Proof. exact (conj sizes_ok sizes_run). Qed.
Theorem C135_defined_partial rnd f q s k : (forall k, 0 <= rnd k < 1) -> (psdSizes q = [] \/ psd_ok q) -> makeCloud rnd f q s k <> Undefined.
Proof. exact (cloud_defined rnd maxTry f q s k). Qed.
Print Assumptions C135_defined_partial.
Theorem C135_cumm_refuted : exists rnd q, in_unit rnd /\ length (psdSizes q) = length (psdCumm q) /\ num q = 1%Z /\ (forall fuel, makeCloud rnd (S (S fuel)) q empty 0 = Undefined).
Proof. exact outside_psd. Qed.
Print Assumptions C135_cumm_refuted.
