(** Properties C290-C292: averages of points in the plane *)
From Coq Require Import Reals List Bool ZArith Permutation Lia Lra.
From Verif Require Import Wavg_Model Wavg_Spec Wavg_Proofs.
Import ListNotations.

Local Open Scope R_scope.
(** C290. The data returned are all elements that were added, each once; *)
Theorem C290_data g l : proper g -> Permutation (data g l) l.
Proof. exact (all_data g l). Qed.
Print Assumptions C290_data.
Example C290_data_case : proper unit_grid.
Proof. unfold proper, within, unit_grid; cbn [lx ly sx sy nx ny ex ey]; repeat split; lra || lia. Qed.
(** those within the grid are in the cell around them; *)
Theorem C290_cell g e : proper g -> within g (ex e) (ey e) -> inGrid g (cell_of g e) = true /\ (let (i, j) := cell_of g e in lx g + sx g * IZR i <= ex e < lx g + sx g * IZR (i + 1) /\ ly g + sy g * IZR j <= ey e < ly g + sy g * IZR (j + 1)).
Proof. exact (own_cell g e). Qed.
Print Assumptions C290_cell.
Example C290_cell_case : proper unit_grid /\ within unit_grid (ex (mkE 1 1 7)) (ey (mkE 1 1 7)).
Proof. unfold proper, within, unit_grid; cbn [lx ly sx sy nx ny ex ey]; repeat split; lra || lia. Qed.
(** a point is added just if it is inside all inclusive and outside all exclusive polygons, otherwise nothing changes. *)
Theorem C290_clips clips l e : (snd (addPt clips l e) = true <-> (forall inside inclusive, In (inside, inclusive) clips -> inside (ex e) (ey e) = inclusive)) /\ (snd (addPt clips l e) = true -> fst (addPt clips l e) = l ++ [e]) /\ (snd (addPt clips l e) = false -> fst (addPt clips l e) = l).
Proof. exact (added clips l e). Qed.
Print Assumptions C290_clips.
Example C290_clips_case : snd (addPt [(fun x y => lteR x 1, true)] [] (mkE 0 0 7)) = true.
Proof. apply added. intros i b [[= <- <-] | []]. unfold lteR. cbn [ex]. destruct (Rle_dec 0 1); [reflexivity|lra]. Qed.
(** C291. No element is visited twice; *)
Theorem C291_once_partial g l x0 y0 r : exists rest, Permutation (visited g l x0 y0 r ++ rest) l.
Proof. exact (once g l x0 y0 r). Qed.
Print Assumptions C291_once_partial.

(** all elements of the circle in the row of cells of its centre are visited; *)
Theorem C291_row_partial g l x0 y0 r e j : proper g -> 0 < r -> In e l -> within g (ex e) (ey e) -> close x0 y0 r e -> row g j y0 -> row g j (ey e) -> In e (visited g l x0 y0 r).
Proof. exact (same_row g l x0 y0 r e j). Qed.
Print Assumptions C291_row_partial.
Example C291_row_case : close 0 0 1 (mkE (/ 2) (/ 2) 7) /\ row unit_grid 0 0 /\ row unit_grid 0 (/ 2).
Proof. unfold close, row, unit_grid; cbn [ex ey ly sy Z.add]. lra. Qed.
(** if those of the circle are all in that row, sums are those over all elements. *)
Theorem C291_sums_partial pdf k g l x0 y0 j : proper g -> 0 < stDev k * relThreshold k -> row g j y0 -> (forall e, In e l -> close x0 y0 (stDev k * relThreshold k) e -> within g (ex e) (ey e) /\ row g j (ey e)) -> sums (weight pdf k x0 y0) (visited g l x0 y0 (stDev k * relThreshold k)) = sums (weight pdf k x0 y0) l.
Proof. exact (all_counted pdf k g l x0 y0 j). Qed.
Print Assumptions C291_sums_partial.
Example C291_sums_case : 0 < stDev (construct (fun _ _ => 0) 1 3) * relThreshold (construct (fun _ _ => 0) 1 3).
Proof. cbn [stDev relThreshold construct]. lra. Qed.
(** C291. But an element of the next row, nearer than the radius, is left out, as x is moved instead of y. *)
Theorem C291_row_refuted : let e := mkE (1/2) (11/10) 7 in within unit_grid (ex e) (ey e) /\ within unit_grid (1/2) (9/10) /\ close (1/2) (9/10) (3/10) e /\ ~ In e (visited unit_grid [e] (1/2) (9/10) (3/10)).
Proof. exact (other_row_refuted). Qed.
Print Assumptions C291_row_refuted.

(** C291. Elements out of the grid are kept, but not found around their own position. *)
Theorem C291_outside_refuted : let e := mkE (-10) (1/2) 7 in In e (data unit_grid [e]) /\ close (-10) (1/2) 1 e /\ visited unit_grid [e] (-10) (1/2) 1 = [].
Proof. exact (outside_refuted). Qed.
Print Assumptions C291_outside_refuted.

(** C292. The average is between the bounds of values if one of the elements has weight, *)
Theorem C292_between_partial w l a b : (forall e, In e l -> 0 <= w e /\ a <= ev e <= b) -> (exists e, In e l /\ 0 < w e) -> exists m, average w l = Some m /\ a <= m <= b /\ m * rsum (map w l) = rsum (map (fun e => w e * ev e) l).
Proof. exact (between w l a b). Qed.
Print Assumptions C292_between_partial.
Example C292_between_case : average (fun _ => 1) [mkE 0 0 7] = Some 7.
Proof. destruct (between (fun _ => 1) [mkE 0 0 7] 7 7) as (m & E & B & _); [intros e [<- | []]; cbn [ev]; lra|exists (mkE 0 0 7); split; [left; reflexivity|lra]|]. rewrite E. f_equal. lra. Qed.
(** weights are the density up to the threshold and zero beyond, *)
Theorem C292_weight_partial pdf cdf sd thr x0 y0 e : weight pdf (construct cdf sd thr) x0 y0 e = if Rle_dec ((x0 - ex e) * (x0 - ex e) + (y0 - ey e) * (y0 - ey e)) (thr * sd * (thr * sd)) then pdf sd (sqrt ((x0 - ex e) * (x0 - ex e) + (y0 - ey e) * (y0 - ey e))) else 0.
Proof. exact (weighted pdf cdf sd thr x0 y0 e). Qed.
Print Assumptions C292_weight_partial.

(** and the area is that of the threshold if this is 3. *)
Theorem C292_area_partial cdf sd : area (construct cdf sd 3) = support cdf sd (relThreshold (construct cdf sd 3)).
Proof. exact (default_area cdf sd). Qed.
Print Assumptions C292_area_partial.

(** C292. Without elements near the point there is no average. *)
Theorem C292_none_refuted w : average w [] = None.
Proof. exact (far_refuted w). Qed.
Print Assumptions C292_none_refuted.

(** C292. The area does not follow the threshold given to the constructor, nor later changes of it or of the deviation; the density does not follow the deviation. *)
Theorem C292_stale_refuted cdf pdf sd thr s t : area (construct cdf sd thr) = support cdf sd 3 /\ area (stDev_set (construct cdf sd 3) s) = support cdf sd 3 /\ area (relThreshold_set (construct cdf sd 3) t) = support cdf sd 3 /\ weight pdf (stDev_set (construct cdf sd 3) s) 0 0 (mkE 0 0 1) = pdf sd 0.
Proof. exact (stale_refuted cdf pdf sd thr s t). Qed.
Print Assumptions C292_stale_refuted.

(** C292. So the area is not that of the circle of the threshold. *)
Theorem C292_area_refuted : exists cdf, support cdf 1 1 <> area (construct cdf 1 1).
Proof. exact (area_refuted). Qed.
Print Assumptions C292_area_refuted.

