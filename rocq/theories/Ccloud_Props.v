(** Properties of random packings of clumps: C142-C144. *)
From Coq Require Import Reals List ZArith Bool.
From Verif Require Import Vec_Model Cloud_Model Cloud_Spec Spack_Model Ccloud_Model Ccloud_Spec Ccloud_Proofs Ccloud_Proofs2.
Import ListNotations.
Local Open Scope R_scope.

(** * C142: clumps are in the box and do not overlap *)
Theorem C142_box_partial : forall rnd past fuel q s n s', makeClumpCloud rnd past fuel q s = CReturns n s' -> cperi q = false ->
  exists G, pack s' = pack s ++ concat G /\ length G = n /\ copies q G /\ Forall (Forall (inside q)) G /\ between_clumps clear G.
Proof.
  intros rnd past fuel q s n s' H P. destruct (make_spec _ _ _ _ _ _ _ H) as (G & (El & Ln & Co & Ins & Sp) & _). exists G. split; [exact El|]. split; [exact Ln|]. split; [exact Co|]. split; [exact (Ins P)|].
  intros i j A D a b L EA ED Ia Ib. apply (spread_clear q b a P). apply (Sp (fun T => False_ind _ (eq_true_false_abs _ T P)) i j A D); assumption.
Qed.
Print Assumptions C142_box_partial.
Theorem C142_periodic_partial : forall rnd past fuel q s n s', makeClumpCloud rnd past fuel q s = CReturns n s' -> cperi q = true ->
  vx (cmn q) < vx (cmx q) -> vy (cmn q) < vy (cmx q) -> vz (cmn q) < vz (cmx q) ->
  cellSize s' = vsub (cmx q) (cmn q) /\ exists G, pack s' = pack s ++ concat G /\ length G = n /\ copies q G /\ between_clumps (clear_periodic (cellSize s')) G.
Proof.
  intros rnd past fuel q s n s' H P X Y Z. destruct (make_spec _ _ _ _ _ _ _ H) as (G & (El & Ln & Co & _ & Sp) & Cs & _). rewrite P in Cs. split; [exact Cs|]. exists G. split; [exact El|]. split; [exact Ln|]. split; [exact Co|]. rewrite Cs.
  intros i j A D a b L EA ED Ia Ib. apply (spread_periodic q b a P). apply (Sp (fun _ => conj X (conj Y Z)) i j A D); assumption.
Qed.
Print Assumptions C142_periodic_partial.
Example C142_case : exists s', makeClumpCloud half (fun _ => None) 2 (box10 [ball 0 1] 1) empty = CReturns 1 s'.
Proof. exact (near_placed _). Qed.
(** spheres that were there before are not looked at *)
Theorem C142_existing_refuted : exists rnd past fuel q s s', makeClumpCloud rnd past fuel q s = CReturns 1 s' /\ cperi q = false /\ exists a b, pack s = [a] /\ pack s' = [a; b] /\ c a = c b /\ r a = 1 /\ r b = 1.
Proof. destruct (existing_ignored (fun _ => None)) as (s' & E & P). exists half, (fun _ => None), 2%nat, (box10 [ball 0 1] 1), occupied, s'. split; [exact E|]. split; [reflexivity|]. eexists _, _. split; [reflexivity|]. split; [exact P|]. repeat split. Qed.
Print Assumptions C142_existing_refuted.
(** nor are images of the clump itself; in a flat cell nothing is *)
Theorem C142_image_refuted : exists rnd past fuel q s', makeClumpCloud rnd past fuel q empty = CReturns 1 s' /\ cperi q = true /\ cellSize s' = V 1 1 1 /\ exists a, pack s' = [a] /\ ~ clear (image (diag (cellSize s')) (1, 0, 0)%Z a) a.
Proof. destruct (own_image (fun _ => None)) as (s' & E & _ & Cs & A). exists half, (fun _ => None), 2%nat, (cell1 1 1), s'. auto. Qed.
Print Assumptions C142_image_refuted.
Theorem C142_flat_refuted : exists rnd past fuel q s', makeClumpCloud rnd past fuel q empty = CReturns 2 s' /\ cperi q = true /\ exists a b, pack s' = [a; b] /\ c a = c b /\ r a = 1 /\ r b = 1.
Proof. destruct (flat_cell (fun _ => None)) as (s' & E & A). exists half, (fun _ => None), 3%nat, (cell1 0 2), s'. auto. Qed.
Print Assumptions C142_flat_refuted.

(** * C143: rigid copies of the given clumps are added *)
Theorem C143_copies_partial : forall rnd past fuel q s n s', makeClumpCloud rnd past fuel q s = CReturns n s' ->
  exists G, pack s' = pack s ++ concat G /\ length G = n /\ copies q G.
Proof. intros rnd past fuel q s n s' H. destruct (make_spec _ _ _ _ _ _ _ H) as (G & (El & Ln & Co & _) & _). exists G. auto. Qed.
Print Assumptions C143_copies_partial.
Example C143_case : exists s', makeClumpCloud half (fun _ => None) 2 (box10 [ball 0 1] 1) empty = CReturns 1 s'.
Proof. exact (near_placed _). Qed.
(** numbers of clumps that are there are given again *)
Theorem C143_numbers_refuted : exists rnd past fuel q s s', makeClumpCloud rnd past fuel q s = CReturns 1 s' /\ getClumps s = ([], [[0%nat]]) /\ getClumps s' = ([], [[0; 1]%nat]).
Proof.
  destruct (existing_ignored (fun _ => None)) as (s' & E & P). exists half, (fun _ => None), 2%nat, (box10 [ball 0 1] 1), occupied, s'. split; [exact E|]. split; [reflexivity|]. unfold getClumps. rewrite P. reflexivity.
Qed.
Print Assumptions C143_numbers_refuted.
(** a periodic packing is not marked as such *)
Theorem C143_flag_refuted : exists rnd past fuel q s', makeClumpCloud rnd past fuel q empty = CReturns 1 s' /\ cperi q = true /\ isPeriodic s' = false.
Proof. destruct (own_image (fun _ => None)) as (s' & E & P & _). exists half, (fun _ => None), 2%nat, (cell1 1 1), s'. auto. Qed.
Print Assumptions C143_flag_refuted.
(** a clump far from the origin is moved away instead of to the origin, and never placed *)
Theorem C143_far_refuted :
  (forall rnd past fuel n s, (forall k, 0 <= rnd k < 1) -> exists s', makeClumpCloud rnd past (S fuel) (box10 [ball 100 1] n) s = CReturns 0 s' /\ pack s' = pack s) /\
  (forall past, exists s', makeClumpCloud half past 2 (box10 [ball 0 1] 1) empty = CReturns 1 s') /\
  (forall g, recenter g = g <-> midPt (pack g) = vzero \/ pack g = []).
Proof. split; [intros; apply far_never; assumption|]. split; [exact near_placed|exact recentered]. Qed.
Print Assumptions C143_far_refuted.

(** * C144: the call returns *)
Theorem C144_returns_partial : forall rnd past fuel q s, (forall l, past l <> None) -> (forall k, 0 <= rnd k < 1) -> given q <> [] -> (0 <= cnum q)%Z -> (Z.to_nat (cnum q) < fuel)%nat ->
  exists n s', makeClumpCloud rnd past fuel q s = CReturns n s' /\ (Z.of_nat n <= cnum q)%Z.
Proof. exact make_returns. Qed.
Print Assumptions C144_returns_partial.
Example C144_case : (forall l : list sph, Some (mkSph vzero 0 0) <> None) /\ (forall k : nat, 0 <= half k < 1) /\ given (box10 [ball 0 1] 1) <> [] /\ (0 <= cnum (box10 [ball 0 1] 1))%Z.
Proof. split; [discriminate|]. split; [intros k; unfold half; split; Lra.lra|]. split; discriminate. Qed.
(** the sphere behind the last one is read *)
Theorem C144_behind_refuted : exists rnd q, (forall k, 0 <= rnd k < 1) /\ cperi q = false /\ cnum q = 2%Z /\ given q = [ball 1 1] /\
  forall past fuel, past [mkSph (V 5 7 5) 1 0] = None -> makeClumpCloud rnd past (S (S fuel)) q empty = CUndefined.
Proof. exact reads_behind. Qed.
Print Assumptions C144_behind_refuted.
(** no clumps: undefined; a clump without spheres: no end *)
Theorem C144_empty_refuted : (forall rnd past fuel q s, given q = [] -> cnum q <> 0%Z -> makeClumpCloud rnd past (S fuel) q s = CUndefined) /\
  (forall rnd past fuel s, (forall k, 0 <= rnd k < 1) -> makeClumpCloud rnd past fuel (box10 [empty] (-1)) s = CRunning).
Proof. split; [exact make_none_given|exact empty_runs]. Qed.
Print Assumptions C144_empty_refuted.
(** clumps are tried at positions in the box, and at all of them *)
Theorem C142_trial_partial : forall rnd q k, (forall k, 0 <= rnd k < 1) -> vx (cmn q) <= vx (cmx q) -> vy (cmn q) <= vy (cmx q) -> vz (cmn q) <= vz (cmx q) ->
  vx (cmn q) <= vx (position rnd q k) <= vx (cmx q) /\ vy (cmn q) <= vy (position rnd q k) <= vy (cmx q) /\ vz (cmn q) <= vz (position rnd q k) <= vz (cmx q).
Proof. exact trial_in. Qed.
Print Assumptions C142_trial_partial.
Theorem C142_everywhere_partial : forall q k p, vx (cmn q) <= vx p < vx (cmx q) -> vy (cmn q) <= vy p < vy (cmx q) -> vz (cmn q) <= vz p < vz (cmx q) -> exists rnd, (forall k, 0 <= rnd k < 1) /\ position rnd q k = p.
Proof. exact trial_any. Qed.
Print Assumptions C142_everywhere_partial.
Example C142_trial_case : (forall k : nat, 0 <= (fun _ => 0) k < 1) /\ vx (cmn (box10 [ball 0 1] 1)) <= vx (V 5 5 5) < vx (cmx (box10 [ball 0 1] 1)).
Proof. unfold box10. cbn [cmn cmx vzero vx]. split; [intros _; split; [apply Rle_refl|exact Rlt_0_1]|]. split; [apply (IZR_le 0 5)|apply (IZR_lt 5 10)]; reflexivity || discriminate. Qed.
