(** Random packings: seeds; calls that do not do what is expected. *)
From Coq Require Import Reals List ZArith Bool Lra Lia Psatz Sorted.
From Verif Require Import Vec_Model Vec_Proofs Cloud_Model Cloud_Spec Cloud_Proofs Cloud_Proofs2 Cloud_Proofs3 Cloud_Proofs4.
Import ListNotations.
Local Open Scope R_scope.

Lemma z0 : is_zero 0 = true. Proof. apply is_zero_true. reflexivity. Qed.
Lemma nz x : x <> 0 -> is_zero x = false. Proof. apply is_zero_false. Qed.
Lemma mzero_zero : mat_zero mzero = true. Proof. unfold mat_zero, mzero, vec_zero, vzero. cbn [r0 r1 r2 vx vy vz]. rewrite !z0. reflexivity. Qed.
(** mean radius [a], box from 0 to [b] *)
Definition plain (a : R) (b : vec) (n : Z) (per : bool) (h : mat) : params := mkParams vzero b a 0 n per (13/20) [] [] false h.
Lemma plain_box a b n per h : box (plain a b n per h) = b. Proof. unfold box, plain. cbn [mx mn]. destruct b as [x y z]. unfold vsub, vzero. cbn [vx vy vz]. f_equal; ring. Qed.
Lemma plain_prepare a b n per : 0 < a -> prepare (plain a b n per mzero) = (Some (mkPlan b false (diag b) RDIST_RMEAN a [] []), None).
Proof.
  intros A. apply ltb_true in A. unfold prepare. rewrite plain_box. unfold period. rewrite plain_box. change (hSize (plain a b n per mzero)) with mzero. rewrite mzero_zero. cbn [negb]. rewrite andb_false_r.
  cbn [plain rMean psdSizes length Nat.eqb negb]. rewrite A. reflexivity.
Qed.
Lemma plain_prepare_h a b n h : 0 < a -> mat_zero h = false -> det h <> 0 -> prepare (plain a b n true h) = (Some (mkPlan b true h RDIST_RMEAN a [] []), None).
Proof.
  intros A Z D. apply ltb_true in A. unfold prepare. rewrite plain_box. unfold volume. unfold period. rewrite plain_box. unfold plain. cbn [hSize]. rewrite Z. rewrite (nz _ D). cbn [andb rMean psdSizes length Nat.eqb negb]. rewrite A. reflexivity.
Qed.
Lemma plain_radius a b n per h p x : how p = RDIST_RMEAN -> mean p = a -> radius (plain a b n per h) p x = Some a.
Proof. intros H M. unfold radius. rewrite H, M. cbn [plain distributeMass rRelFuzz]. f_equal. ring. Qed.
Section Rnd.
Variable rnd : nat -> R.
Lemma place_first t q p l rad k x k' : (0 < t)%nat -> draw rnd q p rad k = (x, k') -> overlaps q p l x rad = false -> place rnd t q p l rad k = (Some x, k').
Proof. intros T D O. destruct t as [|t]; [lia|]. cbn [place]. rewrite D, O. reflexivity. Qed.
Lemma place_never q p l rad : (forall k, overlaps q p l (fst (draw rnd q p rad k)) rad = true) -> forall t k, exists k', place rnd t q p l rad k = (None, k').
Proof.
  intros H. induction t as [|t IH]; intros k; [exists k; reflexivity|]. cbn [place]. specialize (H k). destruct (draw rnd q p rad k) as [x k1]. cbn [fst] in H. rewrite H. apply IH.
Qed.
Lemma maxTry_pos : (0 < maxTry)%nat. Proof. unfold maxTry. lia. Qed.
(** one sphere in a box *)
Lemma one_sphere_mt mt a b l per f : (0 < mt)%nat -> 0 < a -> vx b <> 0 -> vy b <> 0 -> vz b <> 0 -> forall s k x k', pack s = l -> forall q, q = plain a b 1 per mzero ->
  draw rnd q (mkPlan b false (diag b) RDIST_RMEAN a [] []) a k = (x, k') ->
  overlaps q (mkPlan b false (diag b) RDIST_RMEAN a [] []) l x a = false ->
  attempts rnd (S (S (S f))) mt q s k = Returned (Z.of_nat (length (l ++ [mkSph x a (-1)]))) (mkPack (l ++ [mkSph x a (-1)]) (if per then b else cellSize s) (appliedPsdScaling s) per) k'.
Proof.
  intros MT A X Y Z s k x k' L q Q D O. cbn [attempts]. rewrite Q at 1. rewrite (plain_prepare a b 1 per A).
  assert (V : is_zero (volume q) = false).
  { apply nz. unfold volume, period. rewrite Q, plain_box. unfold plain. cbn [hSize]. rewrite mzero_zero. replace (det (diag b)) with (vx b * vy b * vz b) by (clear; destruct b as [b1 b2 b3]; unfold det, diag, dot, cross; cbn [r0 r1 r2 vx vy vz]; ring).
    apply Rmult_integral_contrapositive_currified; [apply Rmult_integral_contrapositive_currified|]; assumption. }
  assert (Pe : periodic q = per) by (rewrite Q; reflexivity). assert (N : num q = 1%Z) by (rewrite Q; reflexivity).
  assert (Ra : forall y, radius q (mkPlan b false (diag b) RDIST_RMEAN a [] []) y = Some a) by (intros y; rewrite Q; apply plain_radius; reflexivity).
  rewrite Pe, V. cbn [hSizeFound negb how andb size].
  assert (Sp : forall l', l' = l -> spheres rnd (S (S f)) mt q (mkPlan b false (diag b) RDIST_RMEAN a [] []) 0 l' k = AllPlaced (l ++ [mkSph x a (-1)]) k').
  { intros l' ->. cbn [spheres]. rewrite N. cbn [more Z.of_nat Z.ltb Z.compare orb]. rewrite Ra. rewrite (place_first _ _ _ _ _ _ _ _ MT D O). cbn [more Z.of_nat Z.ltb Z.compare orb Pos.of_succ_nat Pos.compare Pos.compare_cont]. reflexivity. }
  destruct per; cbn [andb]; rewrite Sp by (cbn [pack]; exact L); reflexivity.
Qed.
Lemma one_sphere a b l per f : 0 < a -> vx b <> 0 -> vy b <> 0 -> vz b <> 0 -> forall s k x k', pack s = l -> forall q, q = plain a b 1 per mzero ->
  draw rnd q (mkPlan b false (diag b) RDIST_RMEAN a [] []) a k = (x, k') ->
  overlaps q (mkPlan b false (diag b) RDIST_RMEAN a [] []) l x a = false ->
  makeCloud rnd (S (S (S f))) q s k = Returned (Z.of_nat (length (l ++ [mkSph x a (-1)]))) (mkPack (l ++ [mkSph x a (-1)]) (if per then b else cellSize s) (appliedPsdScaling s) per) k'.
Proof. unfold makeCloud. apply one_sphere_mt. exact maxTry_pos. Qed.
Lemma attempt_retry f mt q s k p i l k' : prepare q = (Some p, None) -> periodic q = false -> (0 <? num q)%Z = true -> how p = RDIST_NUM ->
  spheres rnd f mt q p 0 (pack s) k = NoPlace i l k' -> attempts rnd (S f) mt q s k = attempts rnd f mt (again q) (mkPack [] (cellSize s) (appliedPsdScaling s) false) k'.
Proof. intros P E N W H. cbn [attempts]. rewrite P, E, N, W. cbn [andb pack]. rewrite H. reflexivity. Qed.
Lemma attempt_done f mt q s k p l k' : prepare q = (Some p, None) -> periodic q = false ->
  spheres rnd f mt q p 0 (pack s) k = AllPlaced l k' -> attempts rnd (S f) mt q s k = Returned (Z.of_nat (length l)) (mkPack l (cellSize s) (appliedPsdScaling s) false) k'.
Proof. intros P E H. cbn [attempts]. rewrite P, E. cbn [andb pack]. rewrite H. reflexivity. Qed.
Lemma attempt_given f mt q s k p l k' : prepare q = (Some p, None) -> hSizeFound p = true ->
  spheres rnd f mt q p 0 (pack s) k = AllPlaced l k' -> attempts rnd (S f) mt q s k = Returned (Z.of_nat (length l)) (mkPack l (cellSize s) (appliedPsdScaling s) (periodic q)) k'.
Proof. intros P E H. cbn [attempts]. rewrite P, E. cbn [negb]. rewrite andb_false_r. cbn [pack]. rewrite H. reflexivity. Qed.
End Rnd.

(** a fixed generator *)
Definition zeros : nat -> R := fun _ => 0.
Lemma zeros_unit : in_unit zeros. Proof. intros k. unfold zeros. lra. Qed.
Definition cube : vec := V 1 1 1.

(** periodic: a sphere that touches its own image *)
Lemma own_image : exists rnd q n s' k' a, in_unit rnd /\ periodic q = true /\ mat_zero (hSize q) = true /\ box q = cube /\ makeCloud rnd 3 q empty 0 = Returned n s' k' /\ In a (pack s') /\ ~ apart_own (diag (box q)) a.
Proof.
  exists zeros, (plain 1 cube 1 true mzero). eexists _, _, _. exists (mkSph vzero 1 (-1)).
  split; [exact zeros_unit|]. split; [reflexivity|]. split; [exact mzero_zero|]. split; [apply plain_box|]. split.
  - apply (one_sphere zeros 1 cube [] true 0) with (x := vzero) (k' := 3%nat); try (cbn [cube vx vy vz]; lra); try reflexivity.
    unfold draw. cbn [plain periodic negb cell mn]. f_equal. unfold zeros, diag, cube, mulv, dot, vadd, vzero. cbn [r0 r1 r2 vx vy vz]. f_equal; ring.
  - cbn [pack app]. split; [left; reflexivity|]. rewrite plain_box. intros H. specialize (H (1, 0, 0)%Z ltac:(discriminate)). unfold apart, image in H. cbn [r c] in H.
    replace (norm _) with 1 in H; [lra|]. unfold norm, norm2, diag, cube, mulv, dot, vadd, vsub, vzero. cbn [r0 r1 r2 vx vy vz]. symmetry. transitivity (sqrt 1); [f_equal; ring|apply sqrt_1].
Qed.
(** a sphere that does not fit in the box *)
Lemma outside_box : exists rnd q n s' k' a, in_unit rnd /\ periodic q = false /\ mn q = vzero /\ mx q = cube /\ makeCloud rnd 3 q empty 0 = Returned n s' k' /\ In a (pack s') /\ ~ between (vx (mn q)) (vx (mx q)) (vx (c a)) (r a).
Proof.
  exists zeros, (plain 1 cube 1 false mzero). eexists _, _, _. exists (mkSph cube 1 (-1)).
  split; [exact zeros_unit|]. split; [reflexivity|]. split; [reflexivity|]. split; [reflexivity|]. split.
  - apply (one_sphere zeros 1 cube [] false 0) with (x := cube) (k' := 3%nat); try (cbn [cube vx vy vz]; lra); try reflexivity.
    unfold draw. cbn [plain periodic negb mn size cube vx vy vz vzero]. unfold coordinate. rewrite (nz 1) by lra. unfold zeros, cube. f_equal. f_equal; ring.
  - cbn [pack app]. split; [left; reflexivity|]. unfold between. cbn [plain mn mx cube vzero vx c r]. lra.
Qed.
(** the number returned counts former spheres *)
Definition far : spack := mkPack [mkSph (V 10 0 0) 1 (-1)] vzero 1 false.
Lemma count_former : exists rnd q s' k', in_unit rnd /\ makeCloud rnd 3 q far 0 = Returned 2 s' k' /\ num q = 1%Z /\ exists a, pack s' = pack far ++ [a].
Proof.
  exists zeros, (plain (1/4) cube 1 false mzero). eexists _, _. split; [exact zeros_unit|]. split; [|split; [reflexivity|]].
  - apply (one_sphere zeros (1/4) cube (pack far) false 0) with (x := V (1/4) (1/4) (1/4)) (k' := 3%nat); try (cbn [cube vx vy vz]; lra); try reflexivity.
    + unfold draw. cbn [plain periodic negb mn size cube vx vy vz vzero]. unfold coordinate. rewrite (nz 1) by lra. unfold zeros. f_equal. f_equal; field.
    + unfold overlaps, far. cbn [pack existsb c r]. rewrite orb_false_r. apply leb_false. unfold gap. cbn [plain periodic negb]. unfold norm2, dot, vsub. cbn [vx vy vz]. lra.
  - eexists. reflexivity.
Qed.
(** a second attempt forgets former spheres *)
Definition number_only : params := mkParams vzero cube (-1) 0 1 false (13/20) [] [] false mzero.
Lemma number_volume q : mn q = vzero -> mx q = cube -> hSize q = mzero -> volume q = 1.
Proof. intros A B C. unfold volume, period, box. rewrite A, B, C, mzero_zero. unfold vsub, cube, vzero, det, diag, dot, cross. cbn [r0 r1 r2 vx vy vz]. ring. Qed.
Lemma number_mean q : mn q = vzero -> mx q = cube -> hSize q = mzero -> rRelFuzz q = 0 -> num q = 1%Z -> porosity q < 1 -> exists m, mean_radius q = Some m /\ 0 < m.
Proof.
  intros A B C D E F. unfold mean_radius. rewrite (number_volume q A B C). rewrite (nz 1) by lra. cbn [negb]. eexists. split; [reflexivity|]. apply cbrt_pos. rewrite D, E.
  assert (0 < 1 - poro q) by (unfold poro; destruct (leb (porosity q) 0); lra). pose proof PI_RGT_0. apply Rdiv_lt_0_compat; lra.
Qed.
Lemma number_prepare q m : mn q = vzero -> mx q = cube -> hSize q = mzero -> num q = 1%Z -> rMean q = -1 -> psdSizes q = [] -> mean_radius q = Some m -> prepare q = (Some (mkPlan cube false (diag cube) RDIST_NUM m [] []), None).
Proof.
  intros A B C D E F G. unfold prepare. rewrite C, mzero_zero. cbn [negb]. rewrite andb_false_r, E, F, D, G. assert (L : ltb 0 (-1) = false) by (apply ltb_false; lra). rewrite L.
  assert (Bx : box q = cube) by (unfold box; rewrite A, B; unfold vsub, cube, vzero; cbn [vx vy vz]; f_equal; ring). unfold period. rewrite C, mzero_zero, Bx. reflexivity.
Qed.
Lemma zeros_draw q m k : mn q = vzero -> periodic q = false -> exists k', draw zeros q (mkPlan cube false (diag cube) RDIST_NUM m [] []) m k = (V m m m, k').
Proof.
  intros A B. eexists. unfold draw. rewrite A, B. cbn [negb size cube vzero vx vy vz]. unfold coordinate. rewrite (nz 1) by lra. unfold zeros, cube. f_equal. f_equal; ring.
Qed.
Lemma number_radius q p m x : how p = RDIST_NUM -> mean p = m -> rRelFuzz q = 0 -> distributeMass q = false -> radius q p x = Some m.
Proof. intros A B C D. unfold radius. rewrite A, B, C, D. f_equal. ring. Qed.
Lemma former_lost : exists rnd q s a s' k', in_unit rnd /\ pack s = [a] /\ (exists fuel, makeCloud rnd fuel q s 0 = Returned 1 s' k') /\ ~ In (c a) (map c (pack s')).
Proof.
  destruct (number_mean number_only) as (m & E1 & M1); try reflexivity; [unfold number_only; cbn [porosity]; lra|].
  destruct (number_mean (again number_only)) as (m2 & E2 & M2); try reflexivity; [unfold again, poro, number_only; cbn [porosity]; destruct (leb (13 / 20) 0); lra|].
  set (p1 := mkPlan cube false (diag cube) RDIST_NUM m [] []). set (p2 := mkPlan cube false (diag cube) RDIST_NUM m2 [] []).
  pose proof (number_prepare number_only m eq_refl eq_refl eq_refl eq_refl eq_refl eq_refl E1) as P1. fold p1 in P1.
  pose proof (number_prepare (again number_only) m2 eq_refl eq_refl eq_refl eq_refl eq_refl eq_refl E2) as P2. fold p2 in P2.
  set (s0 := mkPack [mkSph vzero m (-1)] vzero 1 false).
  assert (O : forall k, overlaps number_only p1 (pack s0) (fst (draw zeros number_only p1 m k)) m = true).
  { intros k. destruct (zeros_draw number_only m k eq_refl eq_refl) as (k1 & D). fold p1 in D. rewrite D. cbn [fst]. unfold overlaps, s0. cbn [pack existsb c r]. rewrite orb_false_r. apply leb_true.
    unfold gap. cbn [number_only periodic negb]. unfold norm2, dot, vsub, vzero. cbn [vx vy vz]. pose proof (Rle_0_sqr m) as Sq. unfold Rsqr in Sq. lra. }
  destruct (place_never zeros number_only p1 (pack s0) m O maxTry 0) as (k1 & Pl).
  destruct (zeros_draw (again number_only) m2 k1 eq_refl eq_refl) as (k2 & D2). fold p2 in D2.
  exists zeros, number_only, s0, (mkSph vzero m (-1)). eexists _, _. split; [exact zeros_unit|]. split; [reflexivity|]. split.
  - exists 4%nat. unfold makeCloud. generalize maxTry Pl maxTry_pos. clear Pl. intros mt Pl MT.
    assert (S1 : spheres zeros 3 mt number_only p1 0 (pack s0) 0 = NoPlace 0 (pack s0) k1).
    { cbn [spheres]. change (num number_only) with 1%Z. cbn [more Z.of_nat Z.ltb Z.compare orb]. rewrite (number_radius number_only p1 m _ eq_refl eq_refl eq_refl eq_refl). rewrite Pl. reflexivity. }
    rewrite (attempt_retry zeros 3 mt number_only s0 0 p1 0 _ k1 P1 eq_refl eq_refl eq_refl S1).
    assert (S2 : spheres zeros 2 mt (again number_only) p2 0 [] k1 = AllPlaced [mkSph (V m2 m2 m2) m2 (-1)] k2).
    { cbn [spheres]. change (num (again number_only)) with 1%Z. cbn [more Z.of_nat Z.ltb Z.compare orb]. rewrite (number_radius (again number_only) p2 m2 _ eq_refl eq_refl eq_refl eq_refl).
      rewrite (place_first zeros mt (again number_only) p2 [] m2 k1 _ _ MT D2 eq_refl). reflexivity. }
    apply (attempt_done zeros 2 mt (again number_only) (mkPack [] vzero 1 false) k1 p2 _ k2 P2 eq_refl S2).
  - cbn [pack map c]. intros [E|[]]. injection E as E _ _. lra.
Qed.

(** cumulative values that do not end with 1 *)
Definition half_psd : params := mkParams vzero cube (-1) 0 1 false (13/20) [1; 2] [0; 1/2] false mzero.
Lemma outside_psd : exists rnd q, in_unit rnd /\ length (psdSizes q) = length (psdCumm q) /\ num q = 1%Z /\ (forall fuel, makeCloud rnd (S (S fuel)) q empty 0 = Undefined).
Proof.
  exists zeros, half_psd. split; [exact zeros_unit|]. split; [reflexivity|]. split; [reflexivity|]. intros f. unfold makeCloud. generalize maxTry. intros mt.
  assert (P : exists p, prepare half_psd = (Some p, None) /\ how p = RDIST_PSD /\ cumm p = [0; 1/2]).
  { eexists. unfold prepare. change (hSize half_psd) with mzero. rewrite mzero_zero. cbn [negb]. rewrite andb_false_r. cbn [half_psd rMean num psdSizes psdCumm length Nat.eqb negb Nat.leb hd distributeMass Z.ltb Z.compare Pos.compare Pos.compare_cont andb].
    assert (L : ltb 0 (-1) = false) by (apply ltb_false; lra). rewrite L, z0. cbn [negb andb]. assert (I : increasing [1; 2] = true /\ increasing [0; 1/2] = true).
    { unfold increasing, pairs. cbn [tl combine forallb fst snd]. split; rewrite andb_true_r; apply leb_true; lra. }
    destruct I as [-> ->]. cbn [negb orb]. split; [reflexivity|]. split; reflexivity. }
  destruct P as (p & P & W & C). cbn [attempts]. rewrite P. cbn [half_psd periodic andb]. fold half_psd.
  assert (O : spheres zeros (S f) mt half_psd p 0 [] 0 = Outside).
  { cbn [spheres]. change (num half_psd) with 1%Z. cbn [more Z.of_nat Z.ltb Z.compare orb]. unfold radius. rewrite W, C. unfold psdGetPiece, rank_rand. change (num half_psd) with 1%Z. cbn [upper INR].
    assert (A : leb 0 ((1 - 0 + 1 / 2) / (1 + 1)) = true) by (apply leb_true; lra). assert (B : leb (1/2) ((1 - 0 + 1 / 2) / (1 + 1)) = true) by (apply leb_true; lra). rewrite A, B. reflexivity. }
  cbn [pack empty]. change (mkParams _ _ _ _ _ _ _ _ _ _ _) with half_psd. rewrite O. reflexivity.
Qed.

(** ** seeds *)
Lemma calls_later gen fuel d l : forall pr, pr <> None -> calls gen fuel (map (later d) l) pr = calls gen fuel l pr.
Proof.
  induction l as [|x l IH]; intros pr N; [reflexivity|]. cbn [map calls]. destruct pr as [[sd k]|]; [|contradiction]. unfold call. cbn [later clock seed args before].
  f_equal. apply IH. discriminate.
Qed.
Lemma calls_first gen fuel d x l : seed x <> 0%Z -> calls gen fuel (map (later d) (x :: l)) None = calls gen fuel (x :: l) None.
Proof.
  intros N. cbn [map calls]. unfold call. cbn [later clock seed args before]. apply Z.eqb_neq in N. rewrite N. f_equal. apply calls_later. discriminate.
Qed.
Lemma calls_reseeded gen fuel z l : forall pr, pr <> None -> calls gen fuel (map (reseeded z) l) pr = calls gen fuel l pr.
Proof.
  induction l as [|x l IH]; intros pr N; [reflexivity|]. cbn [map calls]. destruct pr as [[sd k]|]; [|contradiction]. unfold call. cbn [reseeded clock seed args before].
  f_equal. apply IH. discriminate.
Qed.
(** the second call does not give what the first one did *)
Definition one_ball : params := plain (1/4) cube 1 false mzero.
Lemma second_differs gen z : z <> 0%Z -> gen z 0%nat <> gen z 3%nat -> exists l a b k1 k2, calls gen 3 [mkReq z one_ball empty 0; mkReq z one_ball empty 0] None = l /\ l = [Returned 1 a k1; Returned 1 b k2] /\ map c (pack a) <> map c (pack b).
Proof.
  intros Z G. assert (D : forall k, exists y w, draw (gen z) one_ball (mkPlan cube false (diag cube) RDIST_RMEAN (1/4) [] []) (1/4) k = (V (0 + ((1 - 2 * (1/4)) * gen z k + 1/4)) y w, S (S (S k)))).
  { intros k. eexists _, _. unfold draw. cbn [one_ball plain periodic negb mn size cube vzero vx vy vz]. unfold coordinate. rewrite (nz 1) by lra. reflexivity. }
  assert (O : forall k, exists y w, makeCloud (gen z) 3 one_ball empty k = Returned 1 (mkPack [mkSph (V (0 + ((1 - 2 * (1/4)) * gen z k + 1/4)) y w) (1/4) (-1)] (cellSize empty) (appliedPsdScaling empty) false) (S (S (S k)))).
  { intros k. destruct (D k) as (y & w & E). exists y, w. apply (one_sphere (gen z) (1/4) cube [] false 0) with (x := V (0 + ((1 - 2 * (1/4)) * gen z k + 1/4)) y w) (k' := S (S (S k))); try (cbn [cube vx vy vz]; lra); try reflexivity. exact E. }
  destruct (O 0%nat) as (y & w & E). destruct (O 3%nat) as (y2 & w2 & E2). eexists _, _, _, _, _. split; [reflexivity|]. apply Z.eqb_neq in Z. cbn [calls]. unfold call. cbn [seed clock args before]. rewrite Z.
  rewrite E. cbn [rank_after]. rewrite E2. split; [reflexivity|].
  cbn [pack map c]. intros H. injection H as H _ _. apply G. lra.
Qed.

(** ** a skewed cell *)
Definition skewed : mat := M (V 1 1 0) (V 0 1 0) (V 0 0 1).
Definition two_fifths (k : nat) : R := match k with O | S O => 2/5 | _ => 0 end.
Lemma skewed_det : det skewed = 1. Proof. unfold skewed, det, dot, cross. cbn [r0 r1 r2 vx vy vz]. ring. Qed.
(** two spheres in a cell of volume 1 *)
Definition two_in (H : mat) : params := plain (1/4) vzero 2 true H.
Definition two_plan (H : mat) : plan := mkPlan vzero true H RDIST_RMEAN (1/4) [] [].
Definition first_of (H : mat) : sph := mkSph (mulv H (V (2/5) (2/5) 0)) (1/4) (-1).
Definition second_of : sph := mkSph vzero (1/4) (-1).
Lemma vadd_0_r v : vadd v vzero = v. Proof. destruct v as [x y z]. unfold vadd, vzero. cbn [vx vy vz]. f_equal; ring. Qed.
Lemma vsub_0_r v : vsub v vzero = v. Proof. destruct v as [x y z]. unfold vsub, vzero. cbn [vx vy vz]. f_equal; ring. Qed.
Lemma mulv_0 H : mulv H (V 0 0 0) = vzero. Proof. destruct H as [[a b d] [e f g] [h i j]]. unfold mulv, dot, vzero. cbn [r0 r1 r2 vx vy vz]. f_equal; ring. Qed.
Lemma two_run H : mat_zero H = false -> det H = 1 -> 1/4 < norm2 (mulv H (V (2/5) (2/5) 0)) ->
  makeCloud two_fifths 4 (two_in H) empty 0 = Returned 2 (mkPack [first_of H; second_of] (cellSize empty) (appliedPsdScaling empty) true) 6.
Proof.
  intros Z D B. unfold makeCloud. generalize maxTry maxTry_pos. intros mt MT.
  assert (D1 : draw two_fifths (two_in H) (two_plan H) (1/4) 0 = (c (first_of H), 3%nat)).
  { unfold draw. cbn [two_in plain periodic negb cell two_plan mn two_fifths first_of c]. rewrite vadd_0_r. reflexivity. }
  assert (D2 : draw two_fifths (two_in H) (two_plan H) (1/4) 3 = (c second_of, 6%nat)).
  { unfold draw. cbn [two_in plain periodic negb cell two_plan mn two_fifths second_of c]. rewrite vadd_0_r, mulv_0. reflexivity. }
  assert (G : gap (two_in H) (two_plan H) (c second_of) (c (first_of H)) = c (first_of H)).
  { unfold gap. change (periodic (two_in H)) with true. change (hSizeFound (two_plan H)) with true. cbn [negb two_plan cell first_of second_of c].
    rewrite vsub_0_r. rewrite <- mulv_mmul, minv_l, mulv_id by lra. cbn [vx vy vz]. assert (N : nearest (2/5) = 2/5).
    { unfold nearest. assert (S5 : sign (2/5) = 1) by (unfold sign; assert (L : ltb 0 (2/5) = true) by (apply ltb_true; lra); assert (L2 : ltb (2/5) 0 = false) by (apply ltb_false; lra); rewrite L, L2; reflexivity). rewrite S5.
      assert (L : ltb (Rabs (2/5)) (Rabs (2/5 - 1)) = true) by (apply ltb_true; rewrite Rabs_pos_eq, Rabs_left by lra; lra). rewrite L. reflexivity. }
    assert (N0 : nearest 0 = 0).
    { unfold nearest. assert (S5 : sign 0 = 0) by (unfold sign; assert (L : ltb 0 0 = false) by (apply ltb_false; lra); rewrite ?L; reflexivity). rewrite S5. destruct (ltb _ _); ring. }
    rewrite N, N0. reflexivity. }
  apply (attempt_given two_fifths 3 mt (two_in H) empty 0 (two_plan H) [first_of H; second_of] 6); [apply plain_prepare_h; [lra|exact Z|lra]|reflexivity|].
  cbn [spheres]. change (num (two_in H)) with 2%Z. cbn [more Z.of_nat Z.ltb Z.compare orb Pos.of_succ_nat Pos.compare Pos.compare_cont Pos.succ].
  assert (Ra : forall y, radius (two_in H) (two_plan H) y = Some (1/4)) by (intros y; apply plain_radius; reflexivity). rewrite Ra.
  cbn [pack empty]. rewrite (place_first two_fifths mt (two_in H) (two_plan H) [] (1/4) 0 _ _ MT D1 eq_refl). rewrite Ra. change ([] ++ [mkSph (c (first_of H)) (1/4) (-1)]) with [first_of H].
  rewrite (place_first two_fifths mt (two_in H) (two_plan H) [first_of H] (1/4) 3 _ _ MT D2); [reflexivity|].
  unfold overlaps. cbn [existsb]. rewrite orb_false_r. apply leb_false. rewrite G. cbn [first_of c r]. lra.
Qed.
Lemma two_fifths_unit : in_unit two_fifths. Proof. intros [|[|k]]; unfold two_fifths; lra. Qed.
Lemma one_zero : is_zero 1 = false. Proof. apply nz. lra. Qed.
Lemma skewed_touch : exists rnd q n s' k' a b, in_unit rnd /\ periodic q = true /\ det (hSize q) = 1 /\ makeCloud rnd 4 q empty 0 = Returned n s' k' /\
  pack s' = [a; b] /\ r a = 1/4 /\ r b = 1/4 /\ ~ apart_periodic (hSize q) a b.
Proof.
  assert (Z : mat_zero skewed = false) by (unfold mat_zero, skewed, vec_zero; cbn [r0 r1 r2 vx vy vz]; rewrite one_zero; reflexivity).
  exists two_fifths, (two_in skewed). eexists _, _, _. exists (first_of skewed), second_of.
  split; [exact two_fifths_unit|]. split; [reflexivity|]. split; [exact skewed_det|]. split.
  - apply two_run; [exact Z|exact skewed_det|]. unfold norm2, skewed, mulv, dot. cbn [r0 r1 r2 vx vy vz]. lra.
  - cbn [pack]. split; [reflexivity|]. split; [reflexivity|]. split; [reflexivity|]. intros H. specialize (H (-1, 0, 0)%Z). unfold apart, image in H. cbn [first_of second_of c r] in H.
    change (hSize (two_in skewed)) with skewed in H. revert H. apply Rle_not_lt. unfold norm. apply Rsqr_incr_0_var; [|lra]. rewrite Rsqr_sqrt.
    + unfold norm2, skewed, mulv, dot, vadd, vsub, vzero, Rsqr. cbn [r0 r1 r2 vx vy vz]. lra.
    + unfold norm2, skewed, mulv, dot, vadd, vsub, vzero. cbn [r0 r1 r2 vx vy vz]. lra.
Qed.

(** ** runs that succeed *)
Lemma right_angles : exists n s' k', mat_zero mid = false /\ orthogonal mid /\ makeCloud two_fifths 4 (two_in mid) empty 0 = Returned n s' k' /\ length (pack s') = 2%nat.
Proof.
  assert (Z : mat_zero mid = false) by (unfold mat_zero, mid, diag, vec_zero; cbn [r0 r1 r2 vx vy vz]; rewrite one_zero; reflexivity).
  eexists _, _, _. split; [exact Z|]. split; [unfold orthogonal, mid, diag, dot, col0, col1, col2; cbn [r0 r1 r2 vx vy vz]; lra|]. split; [apply two_run; [exact Z| |]|reflexivity].
  - unfold mid, diag, det, dot, cross. cbn [r0 r1 r2 vx vy vz]. ring.
  - unfold norm2, mid, diag, mulv, dot. cbn [r0 r1 r2 vx vy vz]. lra.
Qed.
Definition middle : spack := mkPack [mkSph (V (1/2) (1/2) (1/2)) (1/4) (-1)] vzero 1 false.
Lemma int_part_eq x z : x - 1 < IZR z <= x -> Int_part x = z.
Proof. intros H. destruct (base_Int_part x) as [A B]. assert (A1 : (Int_part x < z + 1)%Z) by (apply lt_IZR; rewrite plus_IZR; lra). assert (A2 : (z < Int_part x + 1)%Z) by (apply lt_IZR; rewrite plus_IZR; lra). lia. Qed.
Lemma half_wrap : wrap_axis 1 0 (1/2) = 1/2.
Proof.
  unfold wrap_axis, cellWrapRel. rewrite one_zero.
  replace ((0 - 1 / 2) / (1 / 2 + 1 - 1 / 2)) with (-(1/2)) by field. replace ((1 / 2 - 0) / (0 + 1 - 0)) with (1/2) by field.
  rewrite (int_part_eq (-(1/2)) (-1)) by lra. rewrite (int_part_eq (1/2) 0) by lra. rewrite Rmin_left by lra. lra.
Qed.
Lemma periodic_run : exists n s' k', makeCloud zeros 3 (plain (1/4) cube 1 true mzero) middle 0 = Returned n s' k' /\ length (pack s') = 2%nat.
Proof.
  eexists _, _, _. split.
  - apply (one_sphere zeros (1/4) cube (pack middle) true 0) with (x := vzero) (k' := 3%nat); try (cbn [cube vx vy vz]; lra); try reflexivity.
    + unfold draw. cbn [plain periodic negb cell mn]. f_equal. unfold zeros, diag, cube, mulv, dot, vadd, vzero. cbn [r0 r1 r2 vx vy vz]. f_equal; ring.
    + unfold overlaps, middle. cbn [pack existsb c r]. rewrite orb_false_r. apply leb_false. unfold gap. cbn [plain periodic negb hSizeFound size cube vzero vx vy vz]. rewrite half_wrap.
      unfold norm2, dot. cbn [vx vy vz]. lra.
  - reflexivity.
Qed.
Lemma box_run : exists n s' k', makeCloud zeros 3 (plain (1/4) cube 1 false mzero) far 0 = Returned n s' k' /\ length (pack s') = 2%nat.
Proof.
  eexists _, _, _. split.
  - apply (one_sphere zeros (1/4) cube (pack far) false 0) with (x := V (1/4) (1/4) (1/4)) (k' := 3%nat); try (cbn [cube vx vy vz]; lra); try reflexivity.
    + unfold draw. cbn [plain periodic negb mn size cube vx vy vz vzero]. unfold coordinate. rewrite (nz 1) by lra. unfold zeros. f_equal. f_equal; field.
    + unfold overlaps, far. cbn [pack existsb c r]. rewrite orb_false_r. apply leb_false. unfold gap. cbn [plain periodic negb]. unfold norm2, dot, vsub. cbn [vx vy vz]. lra.
  - reflexivity.
Qed.
Lemma number_run : exists n s' k', volume number_only = 1 /\ makeCloud zeros 3 number_only empty 0 = Returned n s' k' /\ length (pack s') = 1%nat.
Proof.
  destruct (number_mean number_only) as (m & E1 & M1); try reflexivity; [unfold number_only; cbn [porosity]; lra|].
  pose proof (number_prepare number_only m eq_refl eq_refl eq_refl eq_refl eq_refl eq_refl E1) as P1. destruct (zeros_draw number_only m 0 eq_refl eq_refl) as (k2 & D2).
  eexists _, _, _. split; [apply number_volume; reflexivity|]. split; [|shelve]. unfold makeCloud. generalize maxTry maxTry_pos. intros mt MT.
  apply (attempt_done zeros 2 mt number_only empty 0 _ [mkSph (V m m m) m (-1)] k2 P1 eq_refl).
  cbn [spheres]. change (num number_only) with 1%Z. cbn [more Z.of_nat Z.ltb Z.compare orb]. rewrite (number_radius number_only (mkPlan cube false (diag cube) RDIST_NUM m [] []) m _ eq_refl eq_refl eq_refl eq_refl).
  cbn [pack empty]. rewrite (place_first zeros mt number_only _ [] m 0 _ _ MT D2 eq_refl). reflexivity.
  Unshelve. reflexivity.
Qed.
Definition sizes : params := mkParams vzero cube (-1) 0 1 false (13/20) [1/4; 1/2] [0; 1] false mzero.
Lemma sizes_ok : psd_ok sizes.
Proof.
  unfold psd_ok. cbn [sizes psdCumm psdSizes hd last porosity distributeMass]. split; [reflexivity|]. split; [reflexivity|]. split; [repeat (apply Forall_cons; [lra|]); apply Forall_nil|].
  split; [|split; [lra|discriminate]]. unfold room. rewrite (number_volume sizes eq_refl eq_refl eq_refl). rewrite ?one_zero. cbn [negb]. lra.
Qed.
Lemma sizes_run : exists n s' k', makeCloud zeros 3 sizes empty 0 = Returned n s' k' /\ map r (pack s') = [7/32].
Proof.
  assert (P : exists p, prepare sizes = (Some p, None) /\ how p = RDIST_PSD /\ cumm p = [0; 1] /\ psdRadii p = [1/2 * (1/4); 1/2 * (1/2)] /\ size p = box sizes).
  { eexists. unfold prepare. change (hSize sizes) with mzero. rewrite mzero_zero. cbn [negb]. rewrite andb_false_r. cbn [sizes rMean num psdSizes psdCumm length Nat.eqb negb Nat.leb hd distributeMass Z.ltb Z.compare Pos.compare Pos.compare_cont andb].
    assert (L : ltb 0 (-1) = false) by (apply ltb_false; lra). rewrite L, z0. cbn [negb andb]. assert (I : increasing [1/4; 1/2] = true /\ increasing [0; 1] = true).
    { unfold increasing, pairs. cbn [tl combine forallb fst snd]. split; rewrite andb_true_r; apply leb_true; lra. }
    destruct I as [-> ->]. cbn [negb orb]. split; [reflexivity|]. repeat (split; [reflexivity|]). reflexivity. }
  destruct P as (p & P & W & C & Rd & Sz).
  assert (Bx : box sizes = cube) by (unfold box, sizes; cbn [mx mn]; unfold vsub, cube, vzero; cbn [vx vy vz]; f_equal; ring). rewrite Bx in Sz.
  assert (D : exists x k', draw zeros sizes p (7/32) 0 = (x, k')) by (destruct (draw zeros sizes p (7/32) 0) as [x k']; eauto). destruct D as (x & k' & D).
  eexists _, _, _. split; [|shelve]. unfold makeCloud. generalize maxTry maxTry_pos. intros mt MT.
  apply (attempt_done zeros 2 mt sizes empty 0 p [mkSph x (7/32) (-1)] k' P eq_refl).
  assert (Ra : radius sizes p (rank_rand sizes 0) = Some (7/32)).
  { unfold radius. rewrite W, C, Rd. unfold rank_rand. change (num sizes) with 1%Z. unfold psdGetPiece. cbn [upper INR].
    assert (A : leb 0 ((1 - 0 + 1 / 2) / (1 + 1)) = true) by (apply leb_true; lra). assert (B : leb 1 ((1 - 0 + 1 / 2) / (1 + 1)) = false) by (apply leb_false; lra). rewrite A, B. cbn [nth_error sizes distributeMass]. f_equal. field. }
  cbn [spheres]. change (num sizes) with 1%Z. cbn [more Z.of_nat Z.ltb Z.compare orb]. rewrite Ra. cbn [pack empty]. rewrite (place_first zeros mt sizes p [] (7/32) 0 _ _ MT D eq_refl). reflexivity.
  Unshelve. reflexivity.
Qed.
