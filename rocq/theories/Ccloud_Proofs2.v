(** Random packings of clumps: when the call returns, and calls that do not do what is expected. *)
From Coq Require Import Reals List ZArith Bool Lra Lia Psatz.
From Verif Require Import Vec_Model Vec_Proofs Cloud_Model Cloud_Spec Cloud_Proofs Cloud_Proofs2 Spack_Model Spack_Spec Spack_Proofs Spack_Proofs2 Spack_Proofs4 Pred_Proofs.
From Verif Require Import Ccloud_Model Ccloud_Spec Ccloud_Proofs.
Import ListNotations.
Local Open Scope R_scope.

(** ** the call returns *)
Lemma scan_not_wild {A} (f : A -> verdict) l : (forall a, f a <> Wild) -> scan f l <> Wild.
Proof. intros H. induction l as [|a l IH]; cbn [scan]; [discriminate|]. specialize (H a). destruct (f a); [exact IH|discriminate|congruence]. Qed.
Lemma test_not_wild past q l infos C pos rad : (forall l, past l <> None) -> test past q l infos C pos rad <> Wild.
Proof.
  intros P. assert (A : forall d i, against past d l C pos rad i <> Wild).
  { intros d i. unfold against. destruct (below_opt (d pos (center i)) ((rad + irad i) ^ 2)); [|discriminate]. destruct (existsb _ C); [|discriminate]. apply scan_not_wild. intros s. apply scan_not_wild. intros id. unfold read. specialize (P l).
    destruct (nth_error l id) as [t|]; [destruct (below_opt (d (c s) (c t)) _); discriminate|]. destruct (past l) as [t|]; [destruct (below_opt (d (c s) (c t)) _); discriminate|congruence]. }
  unfold test. destruct (negb (cperi q)); [destruct (outside q pos rad && _); [discriminate|]|]; apply scan_not_wild; intros i; apply A.
Qed.
Lemma tries_not_crash rnd past q l infos s : (forall l, past l <> None) -> forall n k, tries rnd past n q l infos s k <> Crash.
Proof. intros P. induction n as [|n IH]; intros k; cbn [tries]; [discriminate|]. pose proof (test_not_wild past q l infos (copy rnd q s k) (position rnd q k) (boundRad s) P) as T. destruct (test past q l infos (copy rnd q s k) (position rnd q k) (boundRad s)); [discriminate|apply IH|congruence]. Qed.
Lemma choose_in x n : 0 <= x < 1 -> (0 < n)%nat -> (choose x n < n)%nat.
Proof.
  intros X N. unfold choose. destruct (base_Int_part (x * INR n)) as [A B]. assert (P : 0 < INR n) by (apply lt_0_INR; exact N). assert (U : x * INR n < INR n) by (apply Rlt_le_trans with (1 * INR n); [apply Rmult_lt_compat_r; lra|lra]).
  assert (L : (Int_part (x * INR n) < Z.of_nat n)%Z) by (apply lt_IZR; rewrite <- INR_IZR_INZ; lra). assert (G : 0 <= x * INR n) by (apply Rmult_le_pos; lra). assert (L2 : (-1 < Int_part (x * INR n))%Z) by (apply lt_IZR; lra). lia.
Qed.
Lemma loop_returns rnd past q att : (forall l, past l <> None) -> (forall k, 0 <= rnd k < 1) -> given q <> [] -> (0 <= cnum q)%Z -> forall fuel n l infos k, (Z.to_nat (cnum q) < fuel + n)%nat -> (n <= Z.to_nat (cnum q))%nat ->
  exists m l', loop rnd past fuel att q n l infos k = LReturns m l' /\ (n <= m <= Z.to_nat (cnum q))%nat.
Proof.
  intros P U G C. induction fuel as [|f IH]; intros n l infos k F N; [lia|]. cbn [loop]. destruct ((Z.of_nat n <? cnum q)%Z || (cnum q <? 0)%Z) eqn:E; [|exists n, l; split; [reflexivity|lia]].
  apply orb_true_iff in E as [E|E]; apply Z.ltb_lt in E; [|lia]. assert (L : (choose (rnd k) (length (given q)) < length (map recenter (given q)))%nat) by (rewrite map_length; apply choose_in; [apply U|destruct (given q); [contradiction|cbn [length]; lia]]).
  apply nth_error_Some in L. destruct (nth_error (map recenter (given q)) (choose (rnd k) (length (given q)))) as [s|]; [|congruence]. pose proof (tries_not_crash rnd past q l infos s P att (S k)) as T. destruct (tries rnd past att q l infos s (S k)) as [D pos k'| |]; [|exists n, l; split; [reflexivity|lia]|congruence].
  destruct (IH (S n) (l ++ map (numbered n) D) (infos ++ [mkInfo pos (boundRad s) (length l) (length l + length D)]) k') as (m & l' & E' & M); [lia|lia|]. exists m, l'. split; [exact E'|lia].
Qed.
Lemma make_returns rnd past fuel q s : (forall l, past l <> None) -> (forall k, 0 <= rnd k < 1) -> given q <> [] -> (0 <= cnum q)%Z -> (Z.to_nat (cnum q) < fuel)%nat -> exists n s', makeClumpCloud rnd past fuel q s = CReturns n s' /\ (Z.of_nat n <= cnum q)%Z.
Proof.
  intros P U G C F. destruct (loop_returns rnd past q (S maxTries) P U G C fuel 0 (pack s) [] 0 ltac:(lia) ltac:(lia)) as (m & l' & E & M). unfold makeClumpCloud. rewrite E. eexists _, _. split; [reflexivity|lia].
Qed.
Lemma make_none_given rnd past fuel q s : given q = [] -> cnum q <> 0%Z -> makeClumpCloud rnd past (S fuel) q s = CUndefined.
Proof. intros G N. unfold makeClumpCloud. generalize (S maxTries). intros a. cbn [loop]. rewrite G. cbn [map]. assert (E : (Z.of_nat 0 <? cnum q)%Z || (cnum q <? 0)%Z = true) by (apply orb_true_iff; rewrite !Z.ltb_lt; lia). rewrite E. destruct (choose _ _); reflexivity. Qed.

(** ** one turn *)
Lemma loop_step rnd past f a q n l infos k s : (Z.of_nat n <? cnum q)%Z || (cnum q <? 0)%Z = true -> nth_error (map recenter (given q)) (choose (rnd k) (length (given q))) = Some s ->
  test past q l infos (copy rnd q s (S k)) (position rnd q (S k)) (boundRad s) = Free ->
  loop rnd past (S f) (S a) q n l infos k = loop rnd past f (S a) q (S n) (l ++ map (numbered n) (copy rnd q s (S k))) (infos ++ [mkInfo (position rnd q (S k)) (boundRad s) (length l) (length l + length (copy rnd q s (S k)))]) (7 + S k).
Proof. intros H1 H2 H3. cbn [loop]. rewrite H1, H2. cbn [tries]. rewrite H3. reflexivity. Qed.
Lemma loop_wild rnd past f a q n l infos k s : (Z.of_nat n <? cnum q)%Z || (cnum q <? 0)%Z = true -> nth_error (map recenter (given q)) (choose (rnd k) (length (given q))) = Some s ->
  test past q l infos (copy rnd q s (S k)) (position rnd q (S k)) (boundRad s) = Wild -> loop rnd past (S f) (S a) q n l infos k = LUndefined.
Proof. intros H1 H2 H3. cbn [loop]. rewrite H1, H2. cbn [tries]. rewrite H3. reflexivity. Qed.
Lemma loop_end rnd past f a q n l infos k : (Z.of_nat n <? cnum q)%Z || (cnum q <? 0)%Z = false -> loop rnd past (S f) a q n l infos k = LReturns n l.
Proof. intros H. cbn [loop]. rewrite H. reflexivity. Qed.
Definition half (k : nat) : R := 1 / 2.
Lemma choose_half (rnd : nat -> R) k : rnd k = 1/2 -> choose (rnd k) 1 = 0%nat.
Proof. intros ->. unfold choose. rewrite (int_eq (1/2 * INR 1) 0); [reflexivity|]. cbn [INR]. lra. Qed.
Lemma half_orientation (rnd : nat -> R) k : rnd (3 + k)%nat = 1/2 -> rnd (4 + k)%nat = 1/2 -> rnd (5 + k)%nat = 1/2 -> rnd (6 + k)%nat = 1/2 -> orientation rnd k = Q (1/2) (V (1/2) (1/2) (1/2)).
Proof.
  intros A B D E. unfold orientation. rewrite A, B, D, E. unfold qnormalize. assert (N : qnorm2 (Q (1/2) (V (1/2) (1/2) (1/2))) = 1) by (unfold qnorm2, norm2, dot; cbn [qw qv vx vy vz]; field). rewrite N, sqrt_1, Rinv_1. unfold qscale, smul. cbn [qw qv vx vy vz]. f_equal; [ring|f_equal; ring].
Qed.
Definition ball (x : R) (rad : R) : spack := mkPack [mkSph (V x 0 0) rad (-1)] vzero 1 false.
Lemma recenter_ball x rad : recenter (ball x rad) = ball (2 * x) rad.
Proof. unfold recenter, ball, translate, midPt, aabb, low, high, at_place, vadd, smul. cbn [pack fold_left fst snd map c r clumpId cellSize appliedPsdScaling isPeriodic vx vy vz]. do 3 f_equal. f_equal; field. Qed.
Lemma bound_ball x rad : 0 <= x -> 0 <= rad -> boundRad (ball x rad) = x + rad.
Proof.
  intros X Y. unfold boundRad, ball. cbn [pack fold_left c r]. assert (N : norm (V x 0 0) = x). { unfold norm, norm2, dot. cbn [vx vy vz]. replace (x * x + 0 * 0 + 0 * 0) with (x * x) by ring. apply sqrt_square. exact X. } rewrite N. apply Rmax_right. lra.
Qed.
Lemma copy_ball rnd q x rad k : orientation rnd k = Q (1/2) (V (1/2) (1/2) (1/2)) -> copy rnd q (ball x rad) k = [mkSph (vadd (V 0 x 0) (position rnd q k)) rad (-1)].
Proof.
  intros H. unfold copy, ball, translate, rotateAroundOrigin, at_place. cbn [pack map c r clumpId]. rewrite H. do 3 f_equal. unfold qrot, vadd, smul, cross. cbn [qw qv vx vy vz]. f_equal; field.
Qed.
Definition box10 (clumps : list spack) (n : Z) : cargs := mkArgs vzero (V 10 10 10) clumps false n.
Lemma position10 rnd l n k : position rnd (box10 l n) k = V (10 * rnd k) (10 * rnd (1 + k)%nat) (10 * rnd (2 + k)%nat).
Proof. unfold position, box10, vzero. cbn [cmn cmx vx vy vz]. f_equal; ring. Qed.
Ltac inbox := unfold outside, box10, vzero; cbn [cmn cmx vx vy vz c r]; repeat match goal with |- context [leb ?a ?b] => (replace (leb a b) with true by (symmetry; apply leb_true; lra)) || (replace (leb a b) with false by (symmetry; apply leb_false; lra)) end; reflexivity.

(** spheres that are already there are not looked at, and their numbers of clumps are given again *)
Definition occupied : spack := mkPack [mkSph (V 5 5 5) 1 0] vzero 1 false.
Lemma existing_ignored past : exists s', makeClumpCloud half past 2 (box10 [ball 0 1] 1) occupied = CReturns 1 s' /\ pack s' = [mkSph (V 5 5 5) 1 0; mkSph (V 5 5 5) 1 0].
Proof.
  assert (O : forall k, orientation half k = Q (1/2) (V (1/2) (1/2) (1/2))) by (intros k; apply half_orientation; reflexivity).
  assert (E : recenter (ball 0 1) = ball 0 1) by (rewrite recenter_ball; f_equal; ring).
  unfold makeClumpCloud. generalize maxTries. intros a. rewrite (loop_step _ _ _ _ _ _ _ _ _ (ball 0 1)); [|reflexivity| |].
  - rewrite copy_ball by apply O. rewrite position10. rewrite loop_end by reflexivity. eexists. split; [reflexivity|]. unfold half, vadd, numbered. cbn [pack occupied app map c r vx vy vz Z.of_nat]. do 3 f_equal. f_equal; lra.
  - cbn [box10 given length map]. rewrite choose_half by reflexivity. cbn [nth_error]. f_equal. exact E.
  - rewrite copy_ball by apply O. rewrite position10, bound_ball by lra. unfold test. cbn [box10 cperi negb]. fold (box10 [ball 0 1] 1). assert (X : outside (box10 [ball 0 1] 1) (V (10 * half 1) (10 * half (1 + 1)%nat) (10 * half (2 + 1)%nat)) (0 + 1) = false) by (unfold half; inbox). rewrite X. reflexivity.
Qed.
(** the sphere behind the last one is read *)
Definition numbers (k : nat) : R := if (k =? 11)%nat then 1 / 4 else 1 / 2.
Lemma numbers_other k : k <> 11%nat -> numbers k = 1/2. Proof. intros H. unfold numbers. apply Nat.eqb_neq in H. rewrite H. reflexivity. Qed.
Lemma below_yes d y : d < y -> below_opt (Some d) y = true. Proof. intros H. cbn [below_opt]. apply ltb_true. exact H. Qed.
Lemma below_no d y : y <= d -> below_opt (Some d) y = false. Proof. intros H. cbn [below_opt]. apply ltb_false. exact H. Qed.
Lemma reads_behind : exists rnd q, (forall k, 0 <= rnd k < 1) /\ cperi q = false /\ cnum q = 2%Z /\ given q = [ball 1 1] /\ forall past fuel, past [mkSph (V 5 7 5) 1 0] = None -> makeClumpCloud rnd past (S (S fuel)) q empty = CUndefined.
Proof.
  exists numbers, (box10 [ball 1 1] 2). split; [intros k; unfold numbers; destruct (k =? 11)%nat; lra|]. split; [reflexivity|]. split; [reflexivity|]. split; [reflexivity|]. intros past fuel P.
  assert (O1 : orientation numbers 1 = Q (1/2) (V (1/2) (1/2) (1/2))) by (apply half_orientation; apply numbers_other; lia). assert (O9 : orientation numbers 9 = Q (1/2) (V (1/2) (1/2) (1/2))) by (apply half_orientation; apply numbers_other; lia).
  assert (E : recenter (ball 1 1) = ball 2 1) by (rewrite recenter_ball; f_equal; ring).
  assert (P1 : position numbers (box10 [ball 1 1] 2) 1 = V 5 5 5) by (rewrite position10, !numbers_other by lia; f_equal; lra).
  assert (P9 : position numbers (box10 [ball 1 1] 2) 9 = V 5 5 (5/2)) by (rewrite position10; rewrite (numbers_other 9), (numbers_other (1 + 9)) by lia; unfold numbers; cbn [Nat.eqb Nat.add]; f_equal; lra).
  assert (Bd : boundRad (ball 2 1) = 3) by (rewrite bound_ball by lra; lra).
  assert (G : forall k, numbers k = 1/2 -> nth_error (map recenter (given (box10 [ball 1 1] 2))) (choose (numbers k) (length (given (box10 [ball 1 1] 2)))) = Some (ball 2 1)) by (intros k H; cbn [box10 given length map]; rewrite choose_half by exact H; cbn [nth_error]; f_equal; exact E).
  assert (C1 : copy numbers (box10 [ball 1 1] 2) (ball 2 1) 1 = [mkSph (V 5 7 5) 1 (-1)]) by (rewrite (copy_ball _ _ _ _ _ O1), P1; unfold vadd; cbn [vx vy vz]; do 2 f_equal; f_equal; lra).
  assert (C9 : copy numbers (box10 [ball 1 1] 2) (ball 2 1) 9 = [mkSph (V 5 7 (5/2)) 1 (-1)]) by (rewrite (copy_ball _ _ _ _ _ O9), P9; unfold vadd; cbn [vx vy vz]; do 2 f_equal; f_equal; lra).
  unfold makeClumpCloud. generalize maxTries. intros a. rewrite (loop_step _ _ _ _ _ _ _ _ _ (ball 2 1)); [|reflexivity|apply G; apply numbers_other; lia|].
  - rewrite C1, P1, Bd. cbn [empty pack app map length Nat.add]. change (numbered 0 (mkSph (V 5 7 5) 1 (-1))) with (mkSph (V 5 7 5) 1 0).
    rewrite (loop_wild _ _ _ _ _ _ _ _ _ (ball 2 1)); [reflexivity|reflexivity|apply G; apply numbers_other; lia|]. rewrite C9, P9, Bd. unfold test. cbn [box10 cperi negb]. fold (box10 [ball 1 1] 2).
    assert (X1 : existsb (fun s => outside (box10 [ball 1 1] 2) (c s) (r s)) [mkSph (V 5 7 (5/2)) 1 (-1)] = false) by (cbn [existsb]; inbox). rewrite X1, andb_false_r.
    cbn [scan]. unfold against. cbn [center irad minId maxId existsb c r]. unfold plain. rewrite below_yes by (unfold norm2, dot, vsub; cbn [vx vy vz]; lra). rewrite below_yes by (unfold norm2, dot, vsub; cbn [vx vy vz]; lra). cbn [orb Nat.sub seq scan]. unfold read. cbn [nth_error c r]. rewrite below_no by (unfold norm2, dot, vsub; cbn [vx vy vz]; lra). rewrite P. reflexivity.
  - rewrite C1, P1, Bd. unfold test. cbn [box10 cperi negb]. fold (box10 [ball 1 1] 2). assert (X : outside (box10 [ball 1 1] 2) (V 5 5 5) 3 = false) by inbox. rewrite X. reflexivity.
Qed.
(** a clump that is given far from the origin is never placed *)
Lemma far_hit rnd past q k l : (forall k, 0 <= rnd k < 1) -> q = box10 [ball 100 1] (cnum q) -> test past q l [] (copy rnd q (ball 200 1) k) (position rnd q k) (boundRad (ball 200 1)) = Hit.
Proof.
  intros U Eq. rewrite bound_ball by lra. unfold test. assert (P : cperi q = false) by (rewrite Eq; reflexivity). rewrite P. cbn [negb].
  assert (Cm : cmn q = vzero /\ cmx q = V 10 10 10) by (rewrite Eq; split; reflexivity). destruct Cm as [Cn Cx].
  assert (X : outside q (position rnd q k) (200 + 1) = true). { destruct (outside q (position rnd q k) (200 + 1)) eqn:O; [reflexivity|]. apply outside_false in O as [[A B] _]. rewrite Cn, Cx in *. cbn [vzero vx] in *. lra. }
  rewrite X. cbn [andb]. destruct (existsb (fun s => outside q (c s) (r s)) (copy rnd q (ball 200 1) k)) eqn:O; [reflexivity|exfalso].
  destruct (copy_spec rnd q (ball 200 1) k) as (o & Un & F). cbn [ball pack] in F. revert O F. generalize (copy rnd q (ball 200 1) k). intros D O F. inversion F as [|x y l1 l2 [Hr Hc] F' E1 E2]. subst x l1 D. inversion F'. subst l2. cbn [existsb] in O. apply orb_false_iff in O as [O _]. apply outside_false in O. rewrite Cn, Cx, Hr in O. cbn [vzero vx vy vz r] in O.
  assert (N : norm2 (qrot o (V 200 0 0)) = 40000) by (rewrite qrot_norm by exact Un; unfold norm2, dot; cbn [vx vy vz]; lra). cbn [c] in Hc. remember (qrot o (V 200 0 0)) as v eqn:Ev.
  pose proof (U k) as U0. pose proof (U (1 + k)%nat) as U1. pose proof (U (2 + k)%nat) as U2. rewrite Eq in Hc. rewrite position10 in Hc. rewrite Hc in O. unfold between, vadd in O. cbn [vx vy vz] in O. destruct v as [x' y' z']. unfold norm2, dot in N. cbn [vx vy vz] in *.
  assert (Sq : forall t, -10 <= t <= 10 -> t * t <= 100) by (intros t T; nra). pose proof (Sq x' ltac:(lra)). pose proof (Sq y' ltac:(lra)). pose proof (Sq z' ltac:(lra)). lra.
Qed.
Lemma far_never rnd past fuel n s : (forall k, 0 <= rnd k < 1) -> exists s', makeClumpCloud rnd past (S fuel) (box10 [ball 100 1] n) s = CReturns 0 s' /\ pack s' = pack s.
Proof.
  intros U. unfold makeClumpCloud. generalize (S maxTries). intros a. set (q := box10 [ball 100 1] n). cbn [loop]. destruct ((Z.of_nat 0 <? cnum q)%Z || (cnum q <? 0)%Z); [|eexists; split; [reflexivity|reflexivity]].
  assert (E : recenter (ball 100 1) = ball 200 1) by (rewrite recenter_ball; f_equal; ring).
  assert (G : nth_error (map recenter (given q)) (choose (rnd 0%nat) (length (given q))) = Some (ball 200 1)).
  { pose proof (choose_in (rnd 0%nat) 1 (U 0%nat) ltac:(lia)) as L. unfold q. cbn [box10 given length map]. destruct (choose (rnd 0%nat) 1); [|lia]. cbn [nth_error]. f_equal. exact E. }
  rewrite G. assert (T : forall a k, tries rnd past a q (pack s) [] (ball 200 1) k = GaveUp). { clear a. induction a as [|a IH]; intros k; [reflexivity|]. cbn [tries]. rewrite far_hit; [apply IH|exact U|reflexivity]. }
  rewrite T. eexists. split; [reflexivity|reflexivity].
Qed.
Lemma near_placed past : exists s', makeClumpCloud half past 2 (box10 [ball 0 1] 1) empty = CReturns 1 s'.
Proof.
  assert (O : forall k, orientation half k = Q (1/2) (V (1/2) (1/2) (1/2))) by (intros k; apply half_orientation; reflexivity).
  assert (E : recenter (ball 0 1) = ball 0 1) by (rewrite recenter_ball; f_equal; ring).
  unfold makeClumpCloud. generalize maxTries. intros a. rewrite (loop_step _ _ _ _ _ _ _ _ _ (ball 0 1)); [|reflexivity| |].
  - rewrite loop_end by reflexivity. eexists. reflexivity.
  - cbn [box10 given length map]. rewrite choose_half by reflexivity. cbn [nth_error]. f_equal. exact E.
  - rewrite copy_ball by apply O. rewrite position10, bound_ball by lra. unfold test. cbn [box10 cperi negb]. fold (box10 [ball 0 1] 1). assert (X : outside (box10 [ball 0 1] 1) (V (10 * half 1) (10 * half (1 + 1)%nat) (10 * half (2 + 1)%nat)) (0 + 1) = false) by (unfold half; inbox). rewrite X. reflexivity.
Qed.
(** periodic: images of one clump, flat cells *)
Definition cell1 (z : R) (n : Z) : cargs := mkArgs vzero (V 1 1 z) [ball 0 1] true n.
Lemma own_image past : exists s', makeClumpCloud half past 2 (cell1 1 1) empty = CReturns 1 s' /\ isPeriodic s' = false /\ cellSize s' = V 1 1 1 /\ exists a, pack s' = [a] /\ ~ clear (image (diag (cellSize s')) (1, 0, 0)%Z a) a.
Proof.
  assert (O : forall k, orientation half k = Q (1/2) (V (1/2) (1/2) (1/2))) by (intros k; apply half_orientation; reflexivity).
  assert (E : recenter (ball 0 1) = ball 0 1) by (rewrite recenter_ball; f_equal; ring).
  assert (Cs : vsub (V 1 1 1) vzero = V 1 1 1) by (unfold vsub, vzero; cbn [vx vy vz]; f_equal; ring).
  unfold makeClumpCloud. generalize maxTries. intros a. rewrite (loop_step _ _ _ _ _ _ _ _ _ (ball 0 1)); [|reflexivity| |reflexivity].
  - rewrite copy_ball by apply O. rewrite loop_end by reflexivity. eexists. split; [reflexivity|]. split; [reflexivity|]. cbn [cell1 cperi cmx cmn cellSize pack]. split; [exact Cs|]. eexists. split; [reflexivity|]. rewrite Cs. unfold clear. rewrite image_r, image_c. unfold numbered. cbn [c r]. intros H.
    set (p := position half (cell1 1 1) 1) in H. assert (N : norm (vsub (vadd (vadd (V 0 0 0) p) (offset (V 1 1 1) (1, 0, 0)%Z)) (vadd (V 0 0 0) p)) = 1).
    { clearbody p. destruct p as [x y z]. unfold norm, norm2, dot, vsub, vadd, offset. cbn [vx vy vz]. transitivity (sqrt 1); [f_equal; ring|apply sqrt_1]. }
    rewrite N in H. lra.
  - cbn [cell1 given length map]. rewrite choose_half by reflexivity. cbn [nth_error]. f_equal. exact E.
Qed.
Lemma flat_cell past : exists s', makeClumpCloud half past 3 (cell1 0 2) empty = CReturns 2 s' /\ exists a b, pack s' = [a; b] /\ c a = c b /\ r a = 1 /\ r b = 1.
Proof.
  assert (O : forall k, orientation half k = Q (1/2) (V (1/2) (1/2) (1/2))) by (intros k; apply half_orientation; reflexivity).
  assert (E : recenter (ball 0 1) = ball 0 1) by (rewrite recenter_ball; f_equal; ring).
  assert (G : forall k, nth_error (map recenter (given (cell1 0 2))) (choose (half k) (length (given (cell1 0 2)))) = Some (ball 0 1)) by (intros k; cbn [cell1 given length map]; rewrite choose_half by reflexivity; cbn [nth_error]; f_equal; exact E).
  unfold makeClumpCloud. generalize maxTries. intros a. rewrite (loop_step _ _ _ _ _ _ _ _ _ (ball 0 1)); [|reflexivity|apply G|reflexivity]. rewrite (loop_step _ _ _ _ _ _ _ _ _ (ball 0 1)); [|reflexivity|apply G|].
  - rewrite !copy_ball by apply O. rewrite loop_end by reflexivity. eexists. split; [reflexivity|]. eexists _, _. split; [reflexivity|]. split; [reflexivity|split; reflexivity].
  - assert (N : forall x y, periPtDistSq (vsub (cmx (cell1 0 2)) (cmn (cell1 0 2))) x y = None).
    { intros x y. unfold periPtDistSq. assert (Z : is_zero (vz (vsub (cmx (cell1 0 2)) (cmn (cell1 0 2)))) = true) by (apply is_zero_true; unfold vsub, cell1, vzero; cbn [cmx cmn vz]; ring). rewrite Z, !orb_true_r. reflexivity. }
    unfold test. change (cperi (cell1 0 2)) with true. cbn [negb app scan]. unfold against. rewrite N. reflexivity.
Qed.
(** a clump without spheres *)
Lemma empty_runs rnd past fuel s : (forall k, 0 <= rnd k < 1) -> makeClumpCloud rnd past fuel (box10 [empty] (-1)) s = CRunning.
Proof.
  intros U. unfold makeClumpCloud. generalize maxTries. intros a. set (q := box10 [empty] (-1)). assert (H : forall fuel n l infos k, loop rnd past fuel (S a) q n l infos k = LRunning); [|rewrite H; reflexivity].
  clear fuel. induction fuel as [|f IH]; intros n l infos k; [reflexivity|]. rewrite (loop_step _ _ _ _ _ _ _ _ _ empty); [apply IH|apply orb_true_r| |].
  - pose proof (choose_in (rnd k) 1 (U k) ltac:(lia)) as L. unfold q. cbn [box10 given length map]. destruct (choose (rnd k) 1); [reflexivity|lia].
  - change (copy rnd q empty (S k)) with (@nil sph). unfold test. change (cperi q) with false. cbn [negb existsb]. rewrite andb_false_r. clear. induction infos as [|i l' IH]; [reflexivity|]. cbn [scan]. unfold against at 1. cbn [existsb]. destruct (below_opt _ _); exact IH.
Qed.
Lemma recentered g : recenter g = g <-> midPt (pack g) = vzero \/ pack g = [].
Proof.
  unfold recenter, translate. destruct g as [p cs ap pe]. cbn [pack cellSize appliedPsdScaling isPeriodic]. split.
  - intros H. destruct p as [|a p]; [right; reflexivity|left]. injection H as H _. cbn [map] in H. remember (midPt (a :: p)) as m. destruct a as [[x y z] rad k], m as [u v w]. unfold at_place, vadd in H. cbn [c r clumpId vx vy vz] in H. injection H as H1 H2 H3. unfold vzero. f_equal; lra.
  - intros [H|H]; [|rewrite H; reflexivity]. rewrite H. f_equal. transitivity (map (fun x => x) p); [|apply map_id]. apply map_ext. intros [x rad k]. unfold at_place. cbn [c r clumpId]. rewrite vadd_0_r. reflexivity.
Qed.
(** ** trial positions *)
Lemma trial_in rnd q k : (forall k, 0 <= rnd k < 1) -> vx (cmn q) <= vx (cmx q) -> vy (cmn q) <= vy (cmx q) -> vz (cmn q) <= vz (cmx q) ->
  vx (cmn q) <= vx (position rnd q k) <= vx (cmx q) /\ vy (cmn q) <= vy (position rnd q k) <= vy (cmx q) /\ vz (cmn q) <= vz (position rnd q k) <= vz (cmx q).
Proof.
  intros U X Y Z. assert (A : forall u m n, 0 <= u < 1 -> m <= n -> m <= u * (n - m) + m <= n).
  { intros u m n [U0 U1] L. assert (0 <= u * (n - m)) by (apply Rmult_le_pos; lra). assert (u * (n - m) <= 1 * (n - m)) by (apply Rmult_le_compat_r; lra). lra. }
  unfold position. cbn [vx vy vz]. split; [apply A; [apply U|exact X]|]. split; apply A; (apply U || assumption).
Qed.
Lemma trial_any q k p : vx (cmn q) <= vx p < vx (cmx q) -> vy (cmn q) <= vy p < vy (cmx q) -> vz (cmn q) <= vz p < vz (cmx q) -> exists rnd, (forall k, 0 <= rnd k < 1) /\ position rnd q k = p.
Proof.
  intros X Y Z. assert (A : forall x m n, m <= x < n -> 0 <= (x - m) / (n - m) < 1 /\ (x - m) / (n - m) * (n - m) + m = x).
  { intros x m n [L0 L1]. split; [split|field; lra].
    - apply Rmult_le_pos; [lra|left; apply Rinv_0_lt_compat; lra].
    - apply Rmult_lt_reg_r with (n - m); [lra|]. replace ((x - m) / (n - m) * (n - m)) with (x - m) by (field; lra). lra. }
  destruct (A _ _ _ X) as [X1 X2]. destruct (A _ _ _ Y) as [Y1 Y2]. destruct (A _ _ _ Z) as [Z1 Z2].
  exists (fun i => if (i =? k)%nat then (vx p - vx (cmn q)) / (vx (cmx q) - vx (cmn q)) else if (i =? 1 + k)%nat then (vy p - vy (cmn q)) / (vy (cmx q) - vy (cmn q)) else (vz p - vz (cmn q)) / (vz (cmx q) - vz (cmn q))).
  split; [intros i; destruct (i =? k)%nat; [exact X1|]; destruct (i =? 1 + k)%nat; assumption|].
  unfold position. rewrite Nat.eqb_refl. replace (1 + k =? k)%nat with false by (symmetry; apply Nat.eqb_neq; lia). rewrite Nat.eqb_refl. replace (2 + k =? k)%nat with false by (symmetry; apply Nat.eqb_neq; lia). replace (2 + k =? 1 + k)%nat with false by (symmetry; apply Nat.eqb_neq; lia). rewrite X2, Y2, Z2. destruct p as [p1 p2 p3]. reflexivity.
Qed.
