(** Properties of packings of spheres: C136-C141. *)
From Coq Require Import Reals List ZArith Bool Sorted Lra.
From Verif Require Import Vec_Model Cloud_Model Cloud_Spec Spack_Model Spack_Spec Spack_Proofs Spack_Proofs2 Spack_Proofs3 Spack_Proofs4.
Import ListNotations.
Local Open Scope R_scope.

(** * C136: a repeated packing is the same infinite packing *)
Theorem C136_repeat_partial : forall n m p s,
  (cellRepeat (n, m, p) s = Raises s /\ (cellSize s = vzero \/ (n <= 0)%Z \/ (m <= 0)%Z \/ (p <= 0)%Z)) \/
  (exists s', cellRepeat (n, m, p) s = Done s' /\
    cellSize s' = V (vx (cellSize s) * IZR n) (vy (cellSize s) * IZR m) (vz (cellSize s) * IZR p) /\
    Z.of_nat (length (pack s')) = (n * m * p * Z.of_nat (length (pack s)))%Z /\
    (forall x rad, occurs s' x rad <-> occurs s x rad) /\
    (loose s -> loose s') /\
    firstn (length (pack s)) (pack s') = pack s).
Proof.
  intros n m p s. destruct (repeat_raises n m p s) as [[s' E]|H]; [right|left; exact H]. exists s'. split; [exact E|].
  destruct (repeat_done _ _ _ _ _ E) as (_ & _ & _ & _ & Ec & _ & _ & Ep). split; [exact Ec|]. split; [exact (repeat_length _ _ _ _ _ E)|]. split; [intros x rad; exact (repeat_occurs _ _ _ _ _ x rad E)|]. split; [exact (repeat_loose _ _ _ _ _ E)|].
  rewrite Ep, firstn_app, Nat.sub_diag, firstn_all. cbn [firstn]. apply app_nil_r.
Qed.
Print Assumptions C136_repeat_partial.
Example C136_repeat_case : loose clumped /\ exists s', cellRepeat (2, 1, 1)%Z clumped = Done s' /\ length (pack s') = 2%nat.
Proof. split; [exact clumped_loose|exact repeat_run]. Qed.
(** copies belong to no clump *)
Theorem C136_clumps_refuted : exists s s', cellRepeat (2, 1, 1)%Z s = Done s' /\ map clumpId (pack s) = [7]%Z /\ map clumpId (pack s') = [7; -1]%Z.
Proof. destruct repeat_clumps_lost as (s' & E & M). exists clumped, s'. split; [exact E|]. split; [reflexivity|exact M]. Qed.
Print Assumptions C136_clumps_refuted.

(** * C137: filling a volume *)
Theorem C137_fill_partial : forall v s,
  0 < vx (cellSize s) -> 0 < vy (cellSize s) -> 0 < vz (cellSize s) -> 0 < vx v -> 0 < vy v -> 0 < vz v ->
  vx v / vx (cellSize s) <= 2147483647 -> vy v / vy (cellSize s) <= 2147483647 -> vz v / vz (cellSize s) <= 2147483647 ->
  exists n m p s', cellFill v s = Done s' /\ cellRepeat (n, m, p) s = Done s' /\
    0 <= vx (cellSize s') - vx v < vx (cellSize s) /\ 0 <= vy (cellSize s') - vy v < vy (cellSize s) /\ 0 <= vz (cellSize s') - vz v < vz (cellSize s).
Proof. exact fill_done. Qed.
Print Assumptions C137_fill_partial.
Example C137_fill_case : 0 < vx (cellSize clumped) /\ 0 < vy (cellSize clumped) /\ 0 < vz (cellSize clumped) /\ vx (V 2 3 (5/2)) / vx (cellSize clumped) <= 2147483647.
Proof. unfold clumped, unit_cell. cbn [cellSize vx vy vz]. lra. Qed.
(** the extent of the result can be smaller than the volume *)
Theorem C137_small_refuted : exists v s s' d, cellFill v s = Done s' /\ dim (pack s') = Some d /\ vx d < vx v.
Proof. destruct fill_small as (s' & d & H). exists unit_cell, clumped, s', d. exact H. Qed.
Print Assumptions C137_small_refuted.
(** a packing that is not periodic: undefined instead of the exception *)
Theorem C137_not_periodic_refuted : (forall v, cellFill v empty = Undef) /\ (exists s, cellSize s = V 1 0 1 /\ cellFill unit_cell s = Undef) /\ cellRepeat (1, 1, 1)%Z empty = Raises empty.
Proof.
  split; [exact fill_not_periodic|]. split; [exists (mkPack [one vzero (1/10) (-1)] (V 1 0 1) 1 true); split; [reflexivity|exact fill_flat]|].
  destruct (repeat_raises 1 1 1 empty) as [[s' E]|[E _]]; [|exact E]. exfalso. destruct (repeat_done _ _ _ _ _ E) as (_ & _ & _ & H & _). apply H. reflexivity.
Qed.
Print Assumptions C137_not_periodic_refuted.

(** * C138: distribution of sizes *)
Theorem C138_psd_partial : forall bins mass l, l <> [] -> (0 < bins)%Z -> (mass = true -> forall a, In a l -> 0 < r a) ->
  exists e cu lo hi, psd bins mass l = Distribution e cu /\ length e = S (Z.to_nat bins) /\ length cu = S (Z.to_nat bins) /\ lo < hi /\
    (forall a, In a l -> lo <= 2 * r a <= hi) /\
    ((exists x y, In x l /\ In y l /\ 2 * r x = lo /\ 2 * r y = hi) \/ (forall x, In x l -> 2 * r x - 1/2 = lo /\ 2 * r x + 1/2 = hi)) /\
    (forall i, (i <= Z.to_nat bins)%nat -> nth i e 0 = lo + INR i * (hi - lo) / IZR bins) /\
    (forall i, (i < Z.to_nat bins)%nat -> nth i cu 0 = fraction mass (below (nth i e 0)) l) /\
    nth (Z.to_nat bins) cu 0 = 1.
Proof. exact psd_spec. Qed.
Print Assumptions C138_psd_partial.
(** the documentation: the first list is the cumulative one; without bins: undefined *)
Theorem C138_order_refuted : (exists l first second, psd 1 false l = Distribution first second /\ first = [1; 3] /\ second = [0; 1]) /\ (forall l mass, l <> [] -> psd 0 mass l = BadSizes).
Proof. split; [exact psd_order|exact psd_no_bins]. Qed.
Print Assumptions C138_order_refuted.
Example C138_psd_case : exists l e cu, psd 1 false l = Distribution e cu /\ e = [1; 3] /\ cu = [0; 1].
Proof. exact psd_order. Qed.

(** * C139: transformations keep the shape *)
Theorem C139_moves_partial : forall s,
  (forall v, similar 1 (pack s) (pack (translate v s)) /\ translate (vopp v) (translate v s) = s /\ cellSize (translate v s) = cellSize s) /\
  (forall k, similar (Rabs k) (pack s) (pack (scale k s)) /\ midPt (pack (scale k s)) = midPt (pack s) /\ cellSize (scale k s) = smul k (cellSize s) /\ (k <> 0 -> scale (/ k) (scale k s) = s)) /\
  (forall axis angle, norm axis = 1 -> similar 1 (pack s) (pack (rotate axis angle s)) /\ cellSize (rotate axis angle s) = vzero) /\
  (forall q, qnorm2 q = 1 -> similar 1 (pack s) (pack (rotateAroundOrigin q s))) /\
  (forall q, qnorm2 q = 1 -> midPt (pack (rotate_by q s)) = midPt (pack s) -> pack (rotate_by (qconj q) (rotate_by q s)) = pack s) /\
  (forall k d, k <> 0 -> dim (pack s) = Some d -> vx d * vy d * vz d <> 0 -> relDensity (pack (scale k s)) = relDensity (pack s)).
Proof.
  intros s. split; [intros v; split; [apply translate_similar|split; [apply translate_back|reflexivity]]|]. split; [intros k; split; [apply scale_similar|split; [apply scale_mid|split; [reflexivity|apply scale_back]]]|].
  split; [intros axis angle H; split; [apply rotate_similar; exact H|reflexivity]|]. split; [intros q; apply rotate_origin_similar|]. split; [intros q; apply rotate_by_back|]. intros k d. apply scale_density.
Qed.
Print Assumptions C139_moves_partial.
Theorem C139_overlap : forall k l l' i j a b a' b', 0 < k -> similar k l l' -> nth_error l i = Some a -> nth_error l j = Some b -> nth_error l' i = Some a' -> nth_error l' j = Some b' -> (apart a b <-> apart a' b').
Proof. exact similar_apart. Qed.
Print Assumptions C139_overlap.
Theorem C139_box : forall l b, aabb l = Some b -> Forall (contains b) l /\ (forall b', Forall (contains b') l -> within b b').
Proof. exact aabb_smallest. Qed.
Print Assumptions C139_box.
Example C139_case : length (pack three) = 3%nat /\ similar 2 (pack three) (pack (scale (-2) three)).
Proof. split; [reflexivity|]. replace 2 with (Rabs (-2)) at 1 by (rewrite Rabs_left1; lra). apply scale_similar. Qed.
(** where spheres go *)
Theorem C139_places : forall s i a, nth_error (pack s) i = Some a ->
  (forall v, exists a', nth_error (pack (translate v s)) i = Some a' /\ c a' = vadd (c a) v) /\
  (forall k, exists a', nth_error (pack (scale k s)) i = Some a' /\ vsub (c a') (midPt (pack s)) = smul k (vsub (c a) (midPt (pack s)))) /\
  (forall axis angle, norm axis = 1 -> exists a', nth_error (pack (rotate axis angle s)) i = Some a' /\ vsub (c a') (midPt (pack s)) = turned axis angle (vsub (c a) (midPt (pack s)))) /\
  (forall axis angle, norm axis = 1 -> exists a', nth_error (pack (rotateAroundOrigin (angle_axis angle axis) s)) i = Some a' /\ c a' = turned axis angle (c a)).
Proof.
  intros s i a E. split; [intros v; exact (translate_at v s i a E)|]. split; [intros k; exact (scale_at k s i a E)|]. split; [intros axis angle H; exact (rotate_at axis angle s i a H E)|intros axis angle H; exact (origin_at axis angle s i a H E)].
Qed.
Print Assumptions C139_places.
Example C139_places_case : nth_error (pack three) 1 = Some (one (V 1 0 0) 1 (-1)) /\ turned (V 0 0 1) (PI / 2) (V 1 0 0) = V 0 1 0.
Proof. split; [reflexivity|]. unfold turned. rewrite cos_PI2, sin_PI2. unfold vadd, smul, cross, dot. cbn [vx vy vz]. f_equal; ring. Qed.
(** the density is the volume of the spheres by that of the box *)
Theorem C139_density : forall l d, dim l = Some d -> relDensity l = Some (total (fun a => 4 / 3 * PI * r a ^ 3) l / (vx d * vy d * vz d)).
Proof. exact density_value. Qed.
Print Assumptions C139_density.
(** an axis that is not a unit vector distorts, and the opposite rotation does not restore *)
Theorem C139_axis_refuted : exists s axis a b a' b', axis <> vzero /\ pack s = [a; b] /\ pack (rotate axis PI s) = [a'; b'] /\ norm (vsub (c a') (c b')) <> norm (vsub (c a) (c b)).
Proof. exact rotate_axis. Qed.
Print Assumptions C139_axis_refuted.
Theorem C139_back_refuted : exists s axis angle, norm axis = 1 /\ length (pack s) = 3%nat /\ map c (pack (rotate axis (- angle) (rotate axis angle s))) <> map c (pack s).
Proof. exact rotate_not_back. Qed.
Print Assumptions C139_back_refuted.
Theorem C139_flag_refuted : exists s, isPeriodic s = true /\ isPeriodic (rotate (V 0 0 1) 0 s) = true /\ cellSize (rotate (V 0 0 1) 0 s) = vzero.
Proof. exact rotate_periodic_flag. Qed.
Print Assumptions C139_flag_refuted.

(** * C140: lists *)
Theorem C140_lists_partial :
  (forall s s0, valid_clumps (pack s) -> exists s', fromList (map Elem (toList s)) s0 = Done s' /\ pack s' = pack s) /\
  (forall l s1 s2, match fromList l s1, fromList l s2 with Done a, Done b => pack a = pack b | Raises a, Raises b => pack a = pack b | _, _ => False end) /\
  (forall cs rs s, length cs = length rs -> exists s', fromLists cs rs s = Done s' /\ cellSize s' = vzero /\ map c (pack s') = cs /\ map r (pack s') = rs /\ Forall (fun a => clumpId a = (-1)%Z) (pack s')) /\
  (forall bodies sz s1, exists s', fromSimulation bodies (Some sz) s1 = s' /\ cellSize s' = sz /\ isPeriodic s' = true /\
     length (pack s') = length (filter (fun ob => match ob with Some b => match sphere b with Some _ => true | None => false end | None => false end) bodies)) /\
  (forall bodies cell s, (forall x rad k, In (x, rad, Some k) (spheres bodies) -> (0 <= k)%Z) -> toList (fromSimulation bodies cell s) = spheres bodies) /\
  (forall bodies cell s1 s2, pack (fromSimulation bodies cell s1) = pack (fromSimulation bodies cell s2)) /\
  (forall i s, getitem i s = None <-> (length (pack s) <= i)%nat) /\
  (forall i s t, getitem i s = Some t -> nth_error (toList s) i = Some t /\ exists t', nth_error (iterate s) i = Some t' /\ fst t' = fst t) /\
  (forall x rad s, toList (add x rad s) = toList s ++ [(x, rad, None)] /\ cellSize (add x rad s) = cellSize s).
Proof.
  split; [intros s s0 H; eexists; split; [exact (list_roundtrip s s0 H)|reflexivity]|]. split; [exact list_no_former|]. split; [exact lists_no_former|]. split; [exact simulation_periodic|]. split; [exact simulation_list|]. split; [exact simulation_pack|]. split; [exact getitem_range|].
  split; [intros i s t H; split; [exact (getitem_list i s t H)|exact (getitem_iterate i s t H)]|exact add_list].
Qed.
Print Assumptions C140_lists_partial.
Example C140_lists_case : valid_clumps (pack clumped) /\ toList clumped = [(vzero, 1/10, Some 7%Z)].
Proof. split; [repeat constructor; discriminate|reflexivity]. Qed.
(** what was there before shows *)
Theorem C140_stale_refuted :
  (exists l s s', fromList l s = Done s' /\ cellSize s' = unit_cell /\ exists s2, cellRepeat (2, 1, 1)%Z s' = Done s2) /\
  (forall bodies s, cellSize (fromSimulation bodies None s) = cellSize s /\ isPeriodic (fromSimulation bodies None s) = isPeriodic s) /\
  (forall l junk s', construct l junk = Done s' -> isPeriodic s' = snd junk /\ appliedPsdScaling s' = fst junk).
Proof. split; [exact list_stale_cell|]. split; [exact simulation_stale|exact construct_junk]. Qed.
Print Assumptions C140_stale_refuted.
(** calls that fail lose the packing *)
Theorem C140_lost_refuted :
  (exists l s s', fromList l s = Raises s' /\ pack s' <> pack s /\ length (pack s') = 1%nat) /\
  (forall cs rs s, length cs <> length rs -> exists s', fromLists cs rs s = Raises s' /\ pack s' = []).
Proof. split; [exact list_partly|exact lists_lost]. Qed.
Print Assumptions C140_lost_refuted.
Theorem C140_iteration_refuted : exists s i t, getitem i s = Some t /\ nth_error (iterate s) i <> Some t.
Proof. exact iterate_clump. Qed.
Print Assumptions C140_iteration_refuted.

(** * C141: clumps *)
Theorem C141_clumps : forall s, exists ks, StronglySorted Z.lt ks /\ (forall k, In k ks <-> (0 <= k)%Z /\ exists a, In a (pack s) /\ clumpId a = k) /\
  getClumps s = (positions (fun a => (clumpId a <? 0)%Z) (pack s), map (fun k => positions (fun a => (clumpId a =? k)%Z) (pack s)) ks).
Proof. exact clumps_spec. Qed.
Print Assumptions C141_clumps.
Theorem C141_partition : forall s, NoDup (fst (getClumps s) ++ concat (snd (getClumps s))) /\ (forall i, In i (fst (getClumps s) ++ concat (snd (getClumps s))) <-> (i < length (pack s))%nat) /\ Forall (fun g => g <> []) (snd (getClumps s)).
Proof. exact clumps_partition. Qed.
Print Assumptions C141_partition.
Theorem C141_has : forall s, hasClumps s = true <-> snd (getClumps s) <> [].
Proof. exact clumps_has. Qed.
Print Assumptions C141_has.
Example C141_case : getClumps (mkPack [mkSph vzero 1 5; mkSph vzero 1 (-1); mkSph vzero 1 2; mkSph vzero 1 5] vzero 1 false) = ([1], [[2]; [0; 3]])%nat.
Proof. reflexivity. Qed.
