(** Packings of spheres: lists and clumps. *)
From Coq Require Import Reals List ZArith Bool Lra Lia Psatz Sorted.
From Verif Require Import Vec_Model Vec_Proofs Cloud_Model Cloud_Spec Cloud_Proofs Spack_Model Spack_Spec Spack_Proofs Spack_Proofs2 Spack_Proofs3.
Import ListNotations.
Local Open Scope R_scope.

Lemma take_all l : forall acc, take (map Elem l) acc = (acc ++ map of_tuple l, true).
Proof. induction l as [|t l IH]; intros acc; cbn [map take]; [rewrite app_nil_r; reflexivity|]. rewrite IH, <- app_assoc. reflexivity. Qed.
Lemma of_as a : (-1 <= clumpId a)%Z -> of_tuple (asTuple a) = a.
Proof. destruct a as [x rad k]. unfold asTuple, of_tuple. cbn [c r clumpId]. intros H. destruct (Z.ltb_spec k 0); f_equal. lia. Qed.
Lemma list_roundtrip s s0 : valid_clumps (pack s) -> fromList (map Elem (toList s)) s0 = Done (mkPack (pack s) (cellSize s0) (appliedPsdScaling s0) (isPeriodic s0)).
Proof.
  intros H. unfold fromList. rewrite take_all. cbn [app]. do 2 f_equal. unfold toList. rewrite map_map. transitivity (map (fun x => x) (pack s)); [|apply map_id]. apply map_ext_in. intros a I. apply of_as. unfold valid_clumps in H. rewrite Forall_forall in H. apply H. exact I.
Qed.
Lemma take_prefix l : forall acc, exists n, fst (take l acc) = acc ++ map (fun e => match e with Elem t => of_tuple t | NotATuple => mkSph vzero 0 0 end) (firstn n l) /\ (snd (take l acc) = true -> firstn n l = l).
Proof.
  induction l as [|[t|] l IH]; intros acc; cbn [take].
  - exists O. cbn [firstn map fst snd]. rewrite app_nil_r. auto.
  - destruct (IH (acc ++ [of_tuple t])) as (n & A & B). exists (S n). cbn [firstn map]. rewrite A, <- app_assoc. split; [reflexivity|]. intros E. rewrite (B E). reflexivity.
  - exists O. cbn [firstn map fst snd]. rewrite app_nil_r. split; [reflexivity|discriminate].
Qed.
Lemma list_no_former l s1 s2 : match fromList l s1, fromList l s2 with Done a, Done b => pack a = pack b | Raises a, Raises b => pack a = pack b | _, _ => False end.
Proof. unfold fromList. destruct (take l []) as [p [|]]; reflexivity. Qed.
Lemma lists_no_former cs rs s : length cs = length rs -> exists s', fromLists cs rs s = Done s' /\ cellSize s' = vzero /\ map c (pack s') = cs /\ map r (pack s') = rs /\ Forall (fun a => clumpId a = (-1)%Z) (pack s').
Proof.
  intros E. unfold fromLists. rewrite E, Nat.eqb_refl. eexists. split; [reflexivity|]. cbn [cellSize pack]. split; [reflexivity|]. rewrite !map_map. cbn [c r]. split; [|split].
  - revert rs E. induction cs as [|x cs IH]; intros [|y rs] E; try discriminate; [reflexivity|]. cbn [combine map fst]. f_equal. apply IH. cbn [length] in E. lia.
  - revert rs E. induction cs as [|x cs IH]; intros [|y rs] E; try discriminate; [reflexivity|]. cbn [combine map snd]. f_equal. apply IH. cbn [length] in E. lia.
  - apply Forall_map. apply Forall_forall. reflexivity.
Qed.
Lemma simulation_periodic bodies sz s1 : exists s', fromSimulation bodies (Some sz) s1 = s' /\ cellSize s' = sz /\ isPeriodic s' = true /\
  length (pack s') = length (filter (fun ob => match ob with Some b => match sphere b with Some _ => true | None => false end | None => false end) bodies).
Proof.
  eexists. split; [reflexivity|]. cbn [fromSimulation cellSize isPeriodic pack]. split; [reflexivity|]. split; [reflexivity|]. induction bodies as [|[b|] l IH]; [reflexivity| |exact IH]. cbn [flat_map filter]. destruct (sphere b); [cbn [app length]; f_equal; exact IH|exact IH].
Qed.
Lemma simulation_pack bodies cell s1 s2 : pack (fromSimulation bodies cell s1) = pack (fromSimulation bodies cell s2).
Proof. destruct cell; reflexivity. Qed.
Lemma getitem_range i s : (getitem i s = None <-> (length (pack s) <= i)%nat).
Proof. unfold getitem. rewrite <- nth_error_None. destruct (nth_error (pack s) i); cbn [option_map]; split; intros; congruence. Qed.
Lemma getitem_iterate i s t : getitem i s = Some t -> exists t', nth_error (iterate s) i = Some t' /\ fst t' = fst t.
Proof. unfold getitem, iterate. destruct (nth_error (pack s) i) as [a|] eqn:E; [|discriminate]. intros [= <-]. exists (asTupleNoClump a). split; [apply map_nth_error; exact E|reflexivity]. Qed.
Lemma add_last x rad s : pack (add x rad s) = pack s ++ [mkSph x rad (-1)] /\ getitem (length (pack s)) (add x rad s) = Some (x, rad, None).
Proof. split; [reflexivity|]. unfold getitem, add. cbn [pack]. rewrite nth_error_app2 by lia. rewrite Nat.sub_diag. reflexivity. Qed.

(** ** clumps *)
Definition entry (vals : Z -> list nat) (k : Z) : Z * list nat := (k, vals k).
Lemma append_spec k i vals ks : StronglySorted Z.lt ks -> (~ In k ks -> vals k = []) ->
  let vals' := fun x => if (x =? k)%Z then vals k ++ [i] else vals x in
  exists ks', StronglySorted Z.lt ks' /\ (forall x, In x ks' <-> x = k \/ In x ks) /\ append_to k i (map (entry vals) ks) = map (entry vals') ks'.
Proof.
  intros Sk E vals'. assert (V : entry vals' k = (k, vals k ++ [i])) by (unfold entry, vals'; rewrite Z.eqb_refl; reflexivity).
  assert (V' : forall x, x <> k -> entry vals' x = (x, vals x)) by (intros x N; unfold entry, vals'; apply Z.eqb_neq in N; rewrite N; reflexivity). clearbody vals'.
  induction Sk as [|a ks Sk IH F]; cbn [map append_to].
  - exists [k]. split; [constructor; constructor|]. split; [intros x; cbn [In]; intuition|]. cbn [map]. rewrite V, E by (intros []). reflexivity.
  - unfold entry at 1. destruct (Z.eqb_spec k a) as [<-|N].
    + exists (k :: ks). split; [constructor; assumption|]. split; [intros x; cbn [In]; intuition|]. cbn [map]. rewrite V. f_equal. apply map_ext_in. intros x I. rewrite V'; [reflexivity|]. rewrite Forall_forall in F. specialize (F x I). lia.
    + destruct (Z.ltb_spec k a) as [L|L].
      * exists (k :: a :: ks). split; [constructor; [constructor; assumption|constructor; [exact L|eapply Forall_impl; [|exact F]; intros; lia]]|]. split; [intros x; cbn [In]; intuition|].
        cbn [map]. rewrite V. rewrite E; [|intros [->|I]; [lia|rewrite Forall_forall in F; specialize (F k I); lia]]. cbn [app]. f_equal. f_equal; [rewrite V' by lia; reflexivity|].
        apply map_ext_in. intros x I. rewrite V'; [reflexivity|]. rewrite Forall_forall in F. specialize (F x I). lia.
      * destruct IH as (ks' & S' & I' & E'); [intros I; apply E; intros [->|J]; [lia|contradiction]|]. exists (a :: ks'). split; [|split].
        -- constructor; [exact S'|]. apply Forall_forall. intros x I. apply I' in I as [->|I]; [lia|]. rewrite Forall_forall in F. apply F. exact I.
        -- intros x. cbn [In]. rewrite I'. intuition.
        -- cbn [map]. rewrite E'. f_equal. rewrite V' by lia. reflexivity.
Qed.
Definition picked (P : sph -> bool) (L : list (nat * sph)) : list nat := map fst (filter (fun x => P (snd x)) L).
Lemma picked_app P L i a : picked P (L ++ [(i, a)]) = picked P L ++ (if P a then [i] else []).
Proof. unfold picked. rewrite filter_app, map_app. cbn [filter snd]. destruct (P a); reflexivity. Qed.
Definition step (x : list nat * list (Z * list nat)) (ia : nat * sph) : list nat * list (Z * list nat) :=
  let '(alone, m) := x in let '(i, a) := ia in if (clumpId a <? 0)%Z then (alone ++ [i], m) else (alone, append_to (clumpId a) i m).
Definition grouped (L : list (nat * sph)) (x : list nat * list (Z * list nat)) : Prop :=
  fst x = picked (fun a => (clumpId a <? 0)%Z) L /\
  exists ks, StronglySorted Z.lt ks /\ (forall k, In k ks <-> (0 <= k)%Z /\ exists i a, In (i, a) L /\ clumpId a = k) /\
    snd x = map (entry (fun k => picked (fun a => (clumpId a =? k)%Z) L)) ks.
Lemma grouped_step L x i a : grouped L x -> grouped (L ++ [(i, a)]) (step x (i, a)).
Proof.
  intros [A (ks & Sk & I & E)]. destruct x as [alone m]. cbn [fst snd] in A, E. unfold step. unfold grouped. destruct (Z.ltb_spec (clumpId a) 0) as [N|N]; cbn [fst snd].
  - split; [rewrite picked_app, A, (proj2 (Z.ltb_lt _ _) N); reflexivity|]. exists ks. split; [exact Sk|]. split.
    + intros k. rewrite I. split; intros [K (j & b & Jb & Eb)]; split; try exact K; exists j, b; [split; [apply in_app_iff; left; exact Jb|exact Eb]|]. apply in_app_iff in Jb as [Jb|[Jb|[]]]; [auto|]. injection Jb as -> ->. lia.
    + rewrite E. apply map_ext_in. intros k Ik. unfold entry. rewrite picked_app. apply I in Ik as [K _]. replace (clumpId a =? k)%Z with false by (symmetry; apply Z.eqb_neq; lia). rewrite app_nil_r. reflexivity.
  - split; [rewrite picked_app, A, (proj2 (Z.ltb_ge _ _) N), app_nil_r; reflexivity|].
    destruct (append_spec (clumpId a) i (fun k => picked (fun b => (clumpId b =? k)%Z) L) ks Sk) as (ks' & S' & I' & E').
    { intros NI. unfold picked. replace (filter (fun x => (clumpId (snd x) =? clumpId a)%Z) L) with (@nil (nat * sph)); [reflexivity|]. symmetry. destruct (filter (fun x => (clumpId (snd x) =? clumpId a)%Z) L) as [|[j b] l'] eqn:F; [reflexivity|]. exfalso. apply NI. apply I. split; [exact N|].
      exists j, b. assert (J : In (j, b) (filter (fun x => (clumpId (snd x) =? clumpId a)%Z) L)) by (rewrite F; left; reflexivity). apply filter_In in J as [J1 J2]. apply Z.eqb_eq in J2. auto. }
    exists ks'. split; [exact S'|]. split.
    + intros k. rewrite I', I. split.
      * intros [->|[K (j & b & Jb & Eb)]]; [split; [exact N|]; exists i, a; split; [apply in_app_iff; right; left; reflexivity|reflexivity]|]. split; [exact K|]. exists j, b. split; [apply in_app_iff; left; exact Jb|exact Eb].
      * intros [K (j & b & Jb & Eb)]. apply in_app_iff in Jb as [Jb|[Jb|[]]]; [right; split; [exact K|exists j, b; auto]|]. injection Jb as -> ->. left. symmetry. exact Eb.
    + rewrite E, E'. apply map_ext. intros k. unfold entry. rewrite picked_app, (Z.eqb_sym (clumpId a) k). destruct (Z.eqb_spec k (clumpId a)) as [->|]; [reflexivity|rewrite app_nil_r; reflexivity].
Qed.
Lemma grouped_fold L : forall L0 x, grouped L0 x -> grouped (L0 ++ L) (fold_left step L x).
Proof. induction L as [|[i a] L IH]; intros L0 x G; [rewrite app_nil_r; exact G|]. cbn [fold_left]. replace (L0 ++ (i, a) :: L) with ((L0 ++ [(i, a)]) ++ L) by (rewrite <- app_assoc; reflexivity). apply IH. apply grouped_step. exact G. Qed.
Lemma combine_in {A} (l : list A) : forall n x, In x l <-> exists i, In (i, x) (combine (seq n (length l)) l).
Proof.
  induction l as [|a l IH]; intros n x; cbn [length seq combine In]; [firstorder|]. split.
  - intros [->|I]; [exists n; auto|]. apply (IH (S n)) in I as [i I]. exists i. auto.
  - intros [i [E|I]]; [injection E; auto|]. right. apply (IH (S n)). exists i. exact I.
Qed.
Lemma clumps_spec s : exists ks, StronglySorted Z.lt ks /\ (forall k, In k ks <-> (0 <= k)%Z /\ exists a, In a (pack s) /\ clumpId a = k) /\
  getClumps s = (positions (fun a => (clumpId a <? 0)%Z) (pack s), map (fun k => positions (fun a => (clumpId a =? k)%Z) (pack s)) ks).
Proof.
  unfold getClumps. fold step. assert (G0 : grouped [] ([], [])) by (split; [reflexivity|]; exists []; split; [constructor|]; split; [intros k; split; [intros []|intros [_ (i & a & [] & _)]]|reflexivity]).
  pose proof (grouped_fold (combine (seq 0 (length (pack s))) (pack s)) [] _ G0) as G. cbn [app] in G. change (fun x ia => _) with step. destruct (fold_left step (combine (seq 0 (length (pack s))) (pack s)) ([], [])) as [alone m].
  destruct G as [A (ks & Sk & I & E)]. cbn [fst snd] in A, E. exists ks. split; [exact Sk|]. split.
  - intros k. rewrite I. split; intros [K H]; split; try exact K.
    + destruct H as (i & a & Ia & Ea). exists a. split; [apply (combine_in (pack s) 0 a); exists i; exact Ia|exact Ea].
    + destruct H as (a & Ia & Ea). apply (combine_in (pack s) 0 a) in Ia as [i Ia]. exists i, a. auto.
  - rewrite A, E, map_map. reflexivity.
Qed.
Lemma clumps_has s : hasClumps s = true <-> snd (getClumps s) <> [].
Proof.
  destruct (clumps_spec s) as (ks & _ & I & E). rewrite E. cbn [snd]. unfold hasClumps. rewrite existsb_exists. split.
  - intros (a & Ia & Ha) N. apply Z.leb_le in Ha. apply map_eq_nil in N. assert (K : In (clumpId a) ks) by (apply I; split; [exact Ha|exists a; auto]). rewrite N in K. destruct K.
  - intros N. destruct ks as [|k ks]; [contradiction|]. destruct (proj1 (I k) (or_introl eq_refl)) as [K (a & Ia & Ea)]. exists a. split; [exact Ia|]. apply Z.leb_le. lia.
Qed.

(** ** calls that do not do what is expected *)
Definition one (x : vec) (rad : R) (k : Z) : sph := mkSph x rad k.
Definition unit_cell : vec := V 1 1 1.
Lemma unit_nonzero : vec_zero unit_cell = false.
Proof. unfold vec_zero, unit_cell. cbn [vx vy vz]. assert (H : is_zero 1 = false) by (apply is_zero_false; lra). rewrite H. reflexivity. Qed.
Definition clumped : spack := mkPack [one vzero (1/10) 7] unit_cell 1 true.
Lemma repeat_clumps_lost : exists s', cellRepeat (2, 1, 1)%Z clumped = Done s' /\ map clumpId (pack s') = [7; -1]%Z.
Proof. unfold cellRepeat, clumped. cbn [cellSize]. rewrite unit_nonzero. cbn [Z.leb Z.compare orb]. eexists. split; [reflexivity|]. reflexivity. Qed.
Lemma repeat_run : exists s', cellRepeat (2, 1, 1)%Z clumped = Done s' /\ length (pack s') = 2%nat.
Proof. destruct repeat_clumps_lost as (s' & E & M). exists s'. split; [exact E|]. rewrite <- (map_length clumpId), M. reflexivity. Qed.
Lemma norm_ge a b : 0 <= b -> b * b <= norm2 a -> b <= norm a.
Proof. intros P H. unfold norm. apply Rsqr_incr_0_var; [|apply sqrt_pos]. rewrite Rsqr_sqrt by apply norm2_pos. exact H. Qed.
Lemma clumped_loose : loose clumped.
Proof.
  unfold loose, clumped. cbn [pack cellSize]. split; [constructor; constructor|]. constructor; [|constructor]. intros k N. unfold apart. rewrite image_r, image_c. cbn [one r c].
  apply Rlt_le_trans with 1; [lra|]. apply norm_ge; [lra|]. destruct k as [[i j] l]. unfold offset, unit_cell, vzero, norm2, dot, vsub, vadd. cbn [vx vy vz].
  assert (H : (1 <= i * i + j * j + l * l)%Z). { assert (i <> 0 \/ j <> 0 \/ l <> 0)%Z by (destruct (Z.eq_dec i 0), (Z.eq_dec j 0), (Z.eq_dec l 0); subst; auto; contradiction). nia. }
  apply IZR_le in H. rewrite !plus_IZR, !mult_IZR in H. lra.
Qed.
Lemma int_eq x z : x - 1 < IZR z <= x -> Int_part x = z.
Proof. intros H. destruct (base_Int_part x) as [A B]. assert (A1 : (Int_part x < z + 1)%Z) by (apply lt_IZR; rewrite plus_IZR; lra). assert (A2 : (z < Int_part x + 1)%Z) by (apply lt_IZR; rewrite plus_IZR; lra). lia. Qed.
Lemma fill_small : exists s' d, cellFill unit_cell clumped = Done s' /\ dim (pack s') = Some d /\ vx d < vx unit_cell.
Proof.
  assert (F : fill_count 1 1 = Some 1%Z). { unfold fill_count. assert (H : is_zero 1 = false) by (apply is_zero_false; lra). rewrite H. unfold ceil. rewrite (int_eq (- (1 / 1)) (-1)) by lra. reflexivity. }
  unfold cellFill, clumped, unit_cell. cbn [cellSize vx vy vz]. rewrite F. unfold cellRepeat. cbn [cellSize]. fold unit_cell. rewrite unit_nonzero. cbn [Z.leb Z.compare orb]. eexists _, _. split; [reflexivity|]. split; [reflexivity|].
  change (others 1 1 1) with (@nil (Z * Z * Z)). unfold unit_cell, vsub, low, high, one, vzero. cbn [pack app flat_map map fold_left fst snd c r vx]. lra.
Qed.
Lemma fill_not_periodic v : cellFill v empty = Undef.
Proof. unfold cellFill, fill_count, empty. cbn [cellSize vzero vx vy vz]. assert (H : is_zero 0 = true) by (apply is_zero_true; reflexivity). rewrite H. reflexivity. Qed.
Lemma fill_flat : cellFill unit_cell (mkPack [one vzero (1/10) (-1)] (V 1 0 1) 1 true) = Undef.
Proof. unfold cellFill, fill_count. cbn [cellSize vx vy vz]. assert (H : is_zero 0 = true) by (apply is_zero_true; reflexivity). rewrite H. destruct (is_zero 1); [reflexivity|]. destruct (to_int _); reflexivity. Qed.
(** an axis that is not a unit vector distorts the packing *)
Lemma rotate_axis : exists s axis a b a' b', axis <> vzero /\ pack s = [a; b] /\ pack (rotate axis PI s) = [a'; b'] /\ norm (vsub (c a') (c b')) <> norm (vsub (c a) (c b)).
Proof.
  exists (mkPack [one vzero 1 (-1); one (V 1 0 0) 1 (-1)] vzero 1 false), (V 0 0 2). eexists _, _, _, _. split; [intros E; injection E as E; lra|]. split; [reflexivity|]. split; [reflexivity|].
  cbn [one c at_place]. set (m := midPt _). unfold angle_axis. rewrite cos_PI2, sin_PI2.
  replace (vsub (vadd (qrot {| qw := 0; qv := smul 1 (V 0 0 2) |} (vsub vzero m)) m) (vadd (qrot {| qw := 0; qv := smul 1 (V 0 0 2) |} (vsub (V 1 0 0) m)) m)) with (V 7 0 0).
  - assert (H : forall x, 0 <= x -> norm (V x 0 0) = x). { intros x X. unfold norm, norm2, dot. cbn [vx vy vz]. replace (x * x + 0 * 0 + 0 * 0) with (x * x) by ring. apply sqrt_square. exact X. }
    rewrite H by lra. replace (vsub vzero (V 1 0 0)) with (vopp (V 1 0 0)) by (unfold vsub, vopp, vzero; cbn [vx vy vz]; f_equal; ring). replace (norm (vopp (V 1 0 0))) with (norm (V 1 0 0)) by (unfold norm, norm2, dot, vopp; cbn [vx vy vz]; f_equal; ring). rewrite H by lra. lra.
  - generalize m. clear. intros [x y z]. unfold qrot, vsub, vadd, smul, cross, vzero. cbn [qw qv vx vy vz]. f_equal; ring.
Qed.
(** rotated and rotated back *)
Definition tilt : R := acos (3/5).
Definition three : spack := mkPack [one vzero 1 (-1); one (V 1 0 0) 1 (-1); one (V 0 1 0) 1 (-1)] vzero 1 false.
Lemma turn_z a v : qrot (angle_axis a (V 0 0 1)) v = V (cos a * vx v - sin a * vy v) (sin a * vx v + cos a * vy v) (vz v).
Proof.
  replace a with (2 * (a / 2)) at 2 3 4 5 by field. rewrite cos_2a, sin_2a. unfold angle_axis. pose proof (sin2_cos2 (a / 2)) as H. unfold Rsqr in H. set (C := cos (a / 2)) in *. set (T := sin (a / 2)) in *. clearbody C T. destruct v as [x y z].
  unfold qrot, vadd, smul, cross. cbn [qw qv vx vy vz]. f_equal; [| |ring].
  - transitivity (x * 1 - 2 * (T * T) * x - 2 * C * T * y); [ring|]. rewrite <- H. ring.
  - transitivity (y * 1 - 2 * (T * T) * y + 2 * C * T * x); [ring|]. rewrite <- H. ring.
Qed.
Ltac minmax := repeat match goal with
  | |- context [Rmin ?a ?b] => (rewrite (Rmin_left a b) by lra) || (rewrite (Rmin_right a b) by lra)
  | |- context [Rmax ?a ?b] => (rewrite (Rmax_left a b) by lra) || (rewrite (Rmax_right a b) by lra)
  end.
Lemma rotate_not_back : exists s axis angle, norm axis = 1 /\ length (pack s) = 3%nat /\ map c (pack (rotate axis (- angle) (rotate axis angle s))) <> map c (pack s).
Proof.
  assert (Cc : cos tilt = 3/5) by (apply cos_acos; lra).
  assert (Sc : sin tilt = 4/5). { unfold tilt. rewrite sin_acos by lra. unfold Rsqr. replace (1 - 3 / 5 * (3 / 5)) with (4/5 * (4/5)) by field. apply sqrt_square. lra. }
  exists three, (V 0 0 1), tilt. split; [unfold norm, norm2, dot; cbn [vx vy vz]; rewrite <- sqrt_1; f_equal; rewrite sqrt_1; ring|]. split; [reflexivity|].
  assert (M : midPt (pack three) = V (1/2) (1/2) 0). { unfold midPt, three, aabb, low, high, cwiseMin, cwiseMax, one, vzero, smul, vadd. cbn [pack fold_left fst snd c r vx vy vz]. minmax. f_equal; field. }
  assert (Q : forall x y z x' y' z', x = x' -> y = y' -> z = z' -> mkSph (V x y z) 1 (-1) = mkSph (V x' y' z') 1 (-1)) by congruence.
  assert (E : pack (rotate (V 0 0 1) tilt three) = [one (V (6/10) (-2/10) 0) 1 (-1); one (V (12/10) (6/10) 0) 1 (-1); one (V (-2/10) (4/10) 0) 1 (-1)]).
  { unfold rotate, rotate_by. rewrite M. unfold three. cbn [pack map]. rewrite !turn_z, Cc, Sc. unfold at_place, one, vadd, vsub, vzero. cbn [c r clumpId vx vy vz]. apply (f_equal2 cons); [apply Q; field|]. apply (f_equal2 cons); [apply Q; field|]. apply (f_equal2 cons); [apply Q; field|reflexivity]. }
  assert (M2 : midPt (pack (rotate (V 0 0 1) tilt three)) = V (1/2) (2/10) 0). { rewrite E. unfold midPt, aabb, low, high, cwiseMin, cwiseMax, one, smul, vadd. cbn [fold_left fst snd c r vx vy vz]. minmax. f_equal; field. }
  unfold rotate at 1, rotate_by. rewrite M2, E. cbn [pack map]. rewrite !turn_z, cos_neg, sin_neg, Cc, Sc. unfold at_place, one, three, vadd, vsub, vzero. cbn [pack map c vx vy vz]. intros H. injection H as H _. lra.
Qed.
Lemma rotate_periodic_flag : exists s, isPeriodic s = true /\ isPeriodic (rotate (V 0 0 1) 0 s) = true /\ cellSize (rotate (V 0 0 1) 0 s) = vzero.
Proof. exists clumped. repeat split. Qed.
(** the documentation's order of the two lists *)
Lemma psd_order : exists l e cu, psd 1 false l = Distribution e cu /\ e = [1; 3] /\ cu = [0; 1].
Proof.
  exists [one vzero (1/2) (-1); one vzero (3/2) (-1)]. destruct (psd_spec 1 false [one vzero (1/2) (-1); one vzero (3/2) (-1)]) as (e & cu & lo & hi & E & Le & Lc & LH & In_ & Ex & Ed & Cu & C1); [discriminate|lia|discriminate|].
  exists e, cu. split; [exact E|]. change (Z.to_nat 1) with 1%nat in *.
  assert (B : lo = 1 /\ hi = 3).
  { pose proof (In_ _ (or_introl eq_refl)) as A1. pose proof (In_ _ (or_intror (or_introl eq_refl))) as A2. cbn [one r] in A1, A2.
    destruct Ex as [(x & y & Ix & Iy & Hx & Hy)|H].
    - destruct Ix as [<-|[<-|[]]], Iy as [<-|[<-|[]]]; cbn [one r] in *; lra.
    - pose proof (H _ (or_introl eq_refl)) as B1. pose proof (H _ (or_intror (or_introl eq_refl))) as B2. cbn [one r] in B1, B2. lra. }
  destruct B as [-> ->]. destruct e as [|e0 [|e1 [|]]]; try discriminate. destruct cu as [|c0 [|c1 [|]]]; try discriminate. split.
  - pose proof (Ed 0%nat ltac:(lia)) as H0. pose proof (Ed 1%nat ltac:(lia)) as H1. cbn [nth INR] in H0, H1. f_equal; [lra|]. f_equal. lra.
  - cbn [nth] in C1. pose proof (Cu 0%nat ltac:(lia)) as H0. pose proof (Ed 0%nat ltac:(lia)) as He. cbn [nth INR] in H0, He. f_equal; [|f_equal; exact C1]. rewrite H0. unfold fraction. cbn [filter]. unfold below. cbn [one r].
    assert (B1 : ltb (2 * (1/2)) e0 = false) by (apply ltb_false; lra). assert (B2 : ltb (2 * (3/2)) e0 = false) by (apply ltb_false; lra). rewrite B1, B2. cbn [total fold_right]. unfold Rdiv. ring.
Qed.
Lemma psd_no_bins l mass : l <> [] -> psd 0 mass l = BadSizes.
Proof. intros N. destruct l as [|a l]; [contradiction|]. unfold psd. destruct (range a l). reflexivity. Qed.
(** former data *)
Lemma list_stale_cell : exists l s s', fromList l s = Done s' /\ cellSize s' = unit_cell /\ exists s2, cellRepeat (2, 1, 1)%Z s' = Done s2.
Proof.
  exists [Elem (vzero, 1, None)], clumped. eexists. split; [reflexivity|]. split; [reflexivity|]. unfold cellRepeat. cbn [cellSize clumped]. rewrite unit_nonzero. cbn [Z.leb Z.compare orb]. eexists. reflexivity.
Qed.
Lemma list_partly : exists l s s', fromList l s = Raises s' /\ pack s' <> pack s /\ length (pack s') = 1%nat.
Proof. exists [Elem (V 5 5 5, 1, None); NotATuple], clumped. eexists. split; [reflexivity|]. split; [|reflexivity]. cbn [pack app clumped of_tuple]. intros E. injection E as E. lra. Qed.
Lemma lists_lost cs rs s : length cs <> length rs -> exists s', fromLists cs rs s = Raises s' /\ pack s' = [].
Proof. intros H. unfold fromLists. apply Nat.eqb_neq in H. rewrite H. eexists. split; reflexivity. Qed.
Lemma simulation_stale bodies s : cellSize (fromSimulation bodies None s) = cellSize s /\ isPeriodic (fromSimulation bodies None s) = isPeriodic s.
Proof. split; reflexivity. Qed.
Lemma construct_junk l junk s' : construct l junk = Done s' -> isPeriodic s' = snd junk /\ appliedPsdScaling s' = fst junk.
Proof. unfold construct, fromList. destruct (take l []) as [p [|]]; [|discriminate]. intros [= <-]. auto. Qed.
Lemma iterate_clump : exists s i t, getitem i s = Some t /\ nth_error (iterate s) i <> Some t.
Proof. exists clumped, 0%nat. eexists. split; [reflexivity|]. cbn. intros H. discriminate. Qed.
Lemma getitem_list i s t : getitem i s = Some t -> nth_error (toList s) i = Some t.
Proof. unfold getitem, toList. destruct (nth_error (pack s) i) as [a|] eqn:E; [|discriminate]. intros [= <-]. apply map_nth_error. exact E. Qed.
Lemma add_list x rad s : toList (add x rad s) = toList s ++ [(x, rad, None)] /\ cellSize (add x rad s) = cellSize s.
Proof. split; [|reflexivity]. unfold toList, add. cbn [pack]. rewrite map_app. reflexivity. Qed.

(** ** groups are a partition *)
Lemma NoDup_app_intro {A} (l l' : list A) : NoDup l -> NoDup l' -> (forall x, In x l -> In x l' -> False) -> NoDup (l ++ l').
Proof.
  intros N N' D. induction N as [|a l Na N IH]; cbn [app]; [exact N'|]. constructor; [|apply IH; intros x I; apply D; right; exact I]. rewrite in_app_iff. intros [I|I]; [contradiction|]. apply (D a); [left; reflexivity|exact I].
Qed.
Lemma numbered_in {A} (l : list A) : forall n i a, In (i, a) (combine (seq n (length l)) l) <-> (n <= i)%nat /\ nth_error l (i - n) = Some a.
Proof.
  induction l as [|b l IH]; intros n i a; cbn [length seq combine In].
  - split; [intros []|]. intros [_ H]. destruct (i - n)%nat; discriminate.
  - rewrite IH. split.
    + intros [E|[L H]]; [injection E as -> ->; split; [lia|]; rewrite Nat.sub_diag; reflexivity|]. split; [lia|]. replace (i - n)%nat with (S (i - S n)) by lia. exact H.
    + intros [L H]. destruct (Nat.eq_dec n i) as [->|N]; [left; rewrite Nat.sub_diag in H; injection H as ->; reflexivity|right]. split; [lia|]. replace (i - n)%nat with (S (i - S n)) in H by lia. exact H.
Qed.
Lemma positions_in P l i : In i (positions P l) <-> exists a, nth_error l i = Some a /\ P a = true.
Proof.
  unfold positions. rewrite in_map_iff. split.
  - intros ([j a] & <- & I). apply filter_In in I as [I Pa]. apply numbered_in in I as [_ I]. rewrite Nat.sub_0_r in I. exists a. auto.
  - intros (a & E & Pa). exists (i, a). split; [reflexivity|]. apply filter_In. split; [apply numbered_in; split; [lia|]; rewrite Nat.sub_0_r; exact E|exact Pa].
Qed.
Lemma positions_nodup P l : NoDup (positions P l).
Proof.
  unfold positions. generalize 0%nat. induction l as [|a l IH]; intros n; cbn [length seq combine filter]; [constructor|]. destruct (P (snd (n, a))); cbn [map fst]; [|apply IH]. constructor; [|apply IH].
  intros I. apply in_map_iff in I as ([j b] & E & I). cbn [fst] in E. subst j. apply filter_In in I as [I _]. apply numbered_in in I as [I _]. lia.
Qed.
Lemma nodup_concat {A} (f : Z -> list A) ks : NoDup ks -> (forall k, NoDup (f k)) -> (forall k k' x, In x (f k) -> In x (f k') -> k = k') -> NoDup (concat (map f ks)).
Proof.
  intros N F D. induction N as [|k ks Nk N IH]; cbn [map concat]; [constructor|]. apply NoDup_app_intro; [apply F|exact IH|]. intros x I J. apply in_concat in J as (l & Il & Jx). apply in_map_iff in Il as (k' & <- & Ik'). rewrite (D k k' x I Jx) in Nk. contradiction.
Qed.
Lemma clumps_partition s : NoDup (fst (getClumps s) ++ concat (snd (getClumps s))) /\ (forall i, In i (fst (getClumps s) ++ concat (snd (getClumps s))) <-> (i < length (pack s))%nat) /\ Forall (fun g => g <> []) (snd (getClumps s)).
Proof.
  destruct (clumps_spec s) as (ks & Sk & I & E). rewrite E. cbn [fst snd].
  assert (Nk : NoDup ks). { clear I E. induction Sk as [|k ks Sk IH F]; constructor; [|exact IH]. intros J. rewrite Forall_forall in F. specialize (F k J). lia. }
  split; [|split].
  - apply NoDup_app_intro; [apply positions_nodup| |].
    + apply nodup_concat; [exact Nk|intros; apply positions_nodup|]. intros k k' x A B. apply positions_in in A as (a & A1 & A2). apply positions_in in B as (b & B1 & B2). apply Z.eqb_eq in A2, B2. congruence.
    + intros x A B. apply in_concat in B as (l & Il & B). apply in_map_iff in Il as (k & <- & Ik). apply I in Ik as [K _]. apply positions_in in A as (a & A1 & A2). apply positions_in in B as (b & B1 & B2). apply Z.eqb_eq in B2. apply Z.ltb_lt in A2. rewrite A1 in B1. injection B1 as <-. lia.
  - intros i. rewrite in_app_iff. split.
    + intros [A|A]; [|apply in_concat in A as (l & Il & A); apply in_map_iff in Il as (k & <- & Ik)]; apply positions_in in A as (a & A1 & A2); apply nth_error_Some; congruence.
    + intros L. destruct (nth_error (pack s) i) as [a|] eqn:Ei; [|apply nth_error_None in Ei; lia]. destruct (Z.ltb_spec (clumpId a) 0) as [N|N].
      * left. apply positions_in. exists a. split; [exact Ei|]. apply Z.ltb_lt. exact N.
      * right. apply in_concat. eexists. split; [apply in_map; apply I; split; [exact N|exists a; split; [apply nth_error_In with i; exact Ei|reflexivity]]|]. apply positions_in. exists a. split; [exact Ei|apply Z.eqb_refl].
  - apply Forall_forall. intros g G. apply in_map_iff in G as (k & <- & Ik). apply I in Ik as [K (a & Ia & Ea)]. apply In_nth_error in Ia as [i Ei]. intros N. assert (J : In i (positions (fun a => (clumpId a =? k)%Z) (pack s))) by (apply positions_in; exists a; split; [exact Ei|apply Z.eqb_eq; exact Ea]). rewrite N in J. destruct J.
Qed.

(** ** where spheres go *)
Lemma rodrigues a angle v : norm2 a = 1 -> qrot (angle_axis angle a) v = turned a angle v.
Proof.
  intros H. unfold turned. replace angle with (2 * (angle / 2)) at 2 3 4 by field. rewrite cos_2a, sin_2a. unfold angle_axis. pose proof (sin2_cos2 (angle / 2)) as Q. unfold Rsqr in Q. set (C := cos (angle / 2)) in *. set (T := sin (angle / 2)) in *. clearbody C T.
  assert (Q' : C * C = 1 - T * T) by lra. rewrite Q'. destruct v as [x y z], a as [p q r0]. unfold norm2, dot in H. cbn [vx vy vz] in H. assert (H' : p * p = 1 - q * q - r0 * r0) by lra.
  unfold qrot, vadd, smul, cross, dot. cbn [qw qv vx vy vz]. f_equal; ring [H'].
Qed.
Lemma translate_at v s i a : nth_error (pack s) i = Some a -> exists a', nth_error (pack (translate v s)) i = Some a' /\ c a' = vadd (c a) v.
Proof. intros E. eexists. split; [unfold translate; cbn [pack]; apply map_nth_error; exact E|reflexivity]. Qed.
Lemma rotate_at axis angle s i a : norm axis = 1 -> nth_error (pack s) i = Some a -> exists a', nth_error (pack (rotate axis angle s)) i = Some a' /\ vsub (c a') (midPt (pack s)) = turned axis angle (vsub (c a) (midPt (pack s))).
Proof.
  intros H E. eexists. split; [unfold rotate, rotate_by; cbn [pack]; apply map_nth_error; exact E|]. cbn [at_place c]. rewrite rodrigues by (rewrite <- norm_sq, H; ring). generalize (turned axis angle (vsub (c a) (midPt (pack s)))). generalize (midPt (pack s)). clear. intros m t. vring.
Qed.
Lemma origin_at axis angle s i a : norm axis = 1 -> nth_error (pack s) i = Some a -> exists a', nth_error (pack (rotateAroundOrigin (angle_axis angle axis) s)) i = Some a' /\ c a' = turned axis angle (c a).
Proof. intros H E. eexists. split; [unfold rotateAroundOrigin; cbn [pack]; apply map_nth_error; exact E|]. cbn [at_place c]. apply rodrigues. rewrite <- norm_sq, H. ring. Qed.
Lemma scale_at k s i a : nth_error (pack s) i = Some a -> exists a', nth_error (pack (scale k s)) i = Some a' /\ vsub (c a') (midPt (pack s)) = smul k (vsub (c a) (midPt (pack s))).
Proof. intros E. eexists. split; [rewrite scale_pack; apply map_nth_error; exact E|]. unfold scaled, affine. cbn [c]. generalize (c a) (midPt (pack s)). clear. intros. vring. Qed.
Lemma simulation_list bodies cell s : (forall x rad k, In (x, rad, Some k) (spheres bodies) -> (0 <= k)%Z) -> toList (fromSimulation bodies cell s) = spheres bodies.
Proof.
  intros V. unfold toList. assert (E : pack (fromSimulation bodies cell s) = pack (fromSimulation bodies None s)) by (destruct cell; reflexivity). rewrite E. clear E. cbn [fromSimulation pack].
  induction bodies as [|[[x [rad|] k]|] l IH]; [reflexivity| | |]; cbn [flat_map sphere spheres pos member app map] in *; try (apply IH; exact V). f_equal; [|apply IH; intros y rd j I; apply (V y rd j); right; exact I].
  unfold asTuple. cbn [c r clumpId]. destruct k as [k|]; [|reflexivity]. assert (K : (0 <= k)%Z) by (apply (V x rad k); left; reflexivity). destruct (Z.ltb_spec k 0); [lia|reflexivity].
Qed.
Lemma density_value l d : dim l = Some d -> relDensity l = Some (total (fun a => 4 / 3 * PI * r a ^ 3) l / (vx d * vy d * vz d)).
Proof.
  intros H. unfold relDensity. rewrite H. cbn [option_map]. f_equal. unfold Rdiv. f_equal.
  assert (G : forall x, fold_left (fun v a => v + r a ^ 3) l x * (4 / 3 * PI) = x * (4 / 3 * PI) + total (fun a => 4 / 3 * PI * r a ^ 3) l); [|unfold Rdiv in G; rewrite G; ring].
  clear H. induction l as [|a l IH]; intros x; cbn [fold_left]; unfold total; cbn [fold_right]; [ring|]. fold (total (fun a => 4 / 3 * PI * r a ^ 3) l). rewrite IH. ring.
Qed.
