From Coq Require Import Reals List ZArith Bool Lra Lia.
From Verif Require Import Vec_Model Vec_Proofs Rigid_Model Law_Model Shape_Model Shape_Spec Shape_Proofs Shape_Proofs2 Shape_Proofs3.
Local Open Scope R_scope.

(** ** facets made of vertices *)
Lemma id_centered a b k : vsub (vsub b k) (vsub a k) = vsub b a. Proof. vring. Qed.
Lemma centered_edge v i : edge (centered v) i = edge v i.
Proof. unfold edge, centered. apply id_centered. Qed.
Lemma id_back a k i : vsub a (vadd a (smul k i)) = smul (- k) i. Proof. vring. Qed.
Lemma id_c0 x y a b c : vadd (smul x (vsub c a)) (smul y (vsub b a)) = vsub (smul y (vsub b a)) (smul x (vsub a c)). Proof. vring. Qed.
Lemma id_c1 b a k i : vsub b (vadd a (smul k i)) = vsub (vsub b a) (smul k i). Proof. vring. Qed.
Lemma norm_flip a b : norm (vsub a b) = norm (vsub b a).
Proof. unfold norm. f_equal. vring. Qed.
Lemma make_incentre v f p : makeFacet v = Some (f, p) -> postLoad (centered v) = Some f /\ at_incentre f /\ p = inscribedCircleCenter (v 0%nat) (v 1%nat) (v 2%nat).
Proof.
  unfold makeFacet. destruct (postLoad (centered v)) as [g|] eqn:E; [|discriminate]. intros H. injection H as <- <-. split; [reflexivity|]. split; [|reflexivity]. apply postLoad_facts in E. rename E into F.
  pose proof (p_pos _ _ F) as PP. pose proof (f_icr _ _ F) as IC. unfold p_of in PP, IC. rewrite !centered_edge in PP, IC. pose proof (fun i I => f_plane _ _ F i I) as PL. pose proof (fun i I => ne_edge _ _ F i I) as NE. pose proof (fun i I => ne_height _ _ F i I) as NH. pose proof (fun i I => f_len _ _ F i I) as LE.
  assert (W : forall i, vert g i = centered v i) by (intros i; rewrite (f_vert _ _ F); reflexivity).
  assert (C : forall n, dot n (inscribedCircleCenter (v 0%nat) (v 1%nat) (v 2%nat)) = dot n (v 0%nat) + / (norm (edge v 0) + norm (edge v 1) + norm (edge v 2)) * (norm (edge v 2) * dot n (edge v 0) - norm (edge v 0) * dot n (edge v 2))).
  { intros n. unfold inscribedCircleCenter. rewrite (norm_flip (v 2%nat) (v 0%nat)), id_c0. rewrite dot_add_r, dot_smul_r, dot_sub_r, !dot_smul_r. unfold edge. cbn [nx]. reflexivity. }
  assert (E1 : v 1%nat = vadd (v 0%nat) (edge v 0)) by apply id_end. assert (E2 : v 2%nat = vadd (v 1%nat) (edge v 1)) by apply id_end.
  pose proof (PL 0%nat ltac:(lia)) as P0. pose proof (PL 2%nat ltac:(lia)) as P2. rewrite centered_edge, dot_sym in P0, P2.
  pose proof (LE 0%nat ltac:(lia)) as L0. pose proof (LE 1%nat ltac:(lia)) as L1. pose proof (LE 2%nat ltac:(lia)) as L2. rewrite centered_edge in L0, L1, L2.
  pose proof (NE 0%nat ltac:(lia)) as N0. pose proof (NE 1%nat ltac:(lia)) as N1. pose proof (NE 2%nat ltac:(lia)) as N2. rewrite centered_edge in N0, N1, N2.
  pose proof (NH 0%nat ltac:(lia)) as H0. pose proof (NH 1%nat ltac:(lia)) as H1. pose proof (NH 2%nat ltac:(lia)) as H2. cbn [nx] in H0, H1, H2. rewrite !centered_edge in H0, H1, H2.
  assert (S3 : forall n, dot n (edge v 0) + dot n (edge v 1) + dot n (edge v 2) = 0). { intros n. unfold edge. cbn [nx]. rewrite !dot_sub_r. ring. }
  split.
  - rewrite W. unfold centered. rewrite dot_sub_r, C, P0, P2. ring.
  - intros i I. rewrite W. unfold centered. rewrite dot_sub_r, C, IC. destruct i as [|[|[|i]]]; [| | |lia].
    + pose proof (S3 (ne g 0)) as S0. rewrite N0 in S0 |- *. replace (dot (ne g 0) (edge v 2)) with (2 * farea g / norm (edge v 0)) by lra. field. split; lra.
    + rewrite E1 at 1. rewrite dot_add_r. pose proof (S3 (ne g 1)) as S0. rewrite H1. replace (dot (ne g 1) (edge v 0)) with (2 * farea g / norm (edge v 1)) by lra. field. split; lra.
    + rewrite E2 at 1. rewrite E1 at 1. rewrite !dot_add_r. pose proof (S3 (ne g 2)) as S0. rewrite N2, H2. replace (dot (ne g 2) (edge v 1)) with (2 * farea g / norm (edge v 2)) by lra. field. split; lra.
Qed.
(** the moved facet is the given triangle *)
Lemma id_centre s t w a b c k : s + t + w = 1 -> vadd k (vadd (vadd (smul s (vsub a k)) (smul t (vsub b k))) (smul w (vsub c k))) = vadd (vadd (smul s a) (smul t b)) (smul w c).
Proof. intros E. replace s with (1 - t - w) by lra. vring. Qed.
Lemma make_same v x : moved (inscribedCircleCenter (v 0%nat) (v 1%nat) (v 2%nat)) qid (triangle (centered v)) x <-> triangle v x.
Proof.
  split.
  - intros [y [[s [t [w [S0 [T0 [W0 [E ->]]]]]]] ->]]. rewrite qrot_id. exists s, t, w. split; [exact S0|]. split; [exact T0|]. split; [exact W0|]. split; [exact E|]. unfold centered. apply id_centre, E.
  - intros [s [t [w [S0 [T0 [W0 [E ->]]]]]]]. eexists. split; [exists s, t, w; split; [exact S0|]; split; [exact T0|]; split; [exact W0|]; split; [exact E|reflexivity]|]. rewrite qrot_id. symmetry. unfold centered. apply id_centre, E.
Qed.
Lemma data v f : postLoad v = Some f ->
  vert f = v /\ norm2 (fnormal f) = 1 /\ cross (vsub (v 1%nat) (v 0%nat)) (vsub (v 2%nat) (v 1%nat)) = smul (2 * farea f) (fnormal f) /\ 0 < farea f /\
  icr f * (norm (vsub (v 1%nat) (v 0%nat)) + norm (vsub (v 2%nat) (v 1%nat)) + norm (vsub (v 0%nat) (v 2%nat))) = 2 * farea f /\
  (forall i, (i < 3)%nat -> norm2 (ne f i) = 1 /\ dot (ne f i) (fnormal f) = 0 /\ dot (ne f i) (vsub (v (nx i)) (v i)) = 0 /\ dot (ne f i) (vsub (v (pv i)) (v i)) < 0 /\ vl f i = norm (v i)) /\
  (forall x, triangle v x <-> dot (fnormal f) (vsub x (v 0%nat)) = 0 /\ forall i, (i < 3)%nat -> dot (ne f i) (vsub x (v i)) <= 0).
Proof.
  intros E. apply postLoad_facts in E. rename E into F. split; [apply (f_vert _ _ F)|]. split; [apply (f_unit _ _ F)|]. split; [apply (f_normal _ _ F)|]. split; [apply (area_pos _ _ F)|]. split.
  { rewrite (f_icr _ _ F). unfold p_of, edge. cbn [nx]. pose proof (p_pos _ _ F) as P. unfold p_of, edge in P. cbn [nx] in P. field. lra. } split.
  - intros i I. split; [apply (ne_unit v f F i I)|]. split; [apply (ne_plane v f F i I)|]. split; [apply (ne_edge v f F i I)|]. split; [|apply (f_vl _ _ F)]. rewrite dot_sub_r, (ne_third v f F i I). pose proof (height_pos v f F i I). lra.
  - intros x. split.
    + intros T. split; [rewrite dot_sub_r, (plane_all v f F x T); ring|]. intros i I. rewrite dot_sub_r. pose proof (inside_edges v f F x i I T). lra.
    + intros [P H]. apply (edges_inside v f F); [rewrite dot_sub_r in P; lra|]. intros i I. specialize (H i I). rewrite dot_sub_r in H. lra.
Qed.
Lemma none_iff v : postLoad v = None <-> cross (vsub (v 1%nat) (v 0%nat)) (vsub (v 2%nat) (v 1%nat)) = vzero.
Proof.
  unfold postLoad. cbv zeta. unfold edge. cbn [nx]. destruct (Req_EM_T _ 0) as [Z|Z]; split; intros H; [apply norm_zero, Z|reflexivity|discriminate|]. exfalso. apply Z. rewrite H. unfold norm, norm2, dot, vzero. cbn [vx vy vz]. replace (0 * 0 + 0 * 0 + 0 * 0) with 0 by ring. apply sqrt_0.
Qed.

(** ** world coordinates *)
Lemma local_back q p c : qnorm2 q = 1 -> vsub c p = qrot q (mulv (transpose (qmat q)) (vsub c p)).
Proof. intros Q. rewrite <- qmat_conj, <- qrot_mat, qrot_conj_r by exact Q. reflexivity. Qed.
Lemma id_world c p y : vsub c (vadd p y) = vsub (vsub c p) y. Proof. vring. Qed.
Lemma world_diff q p c y : qnorm2 q = 1 -> vsub c (vadd p (qrot q y)) = qrot q (vsub (mulv (transpose (qmat q)) (vsub c p)) y).
Proof. intros Q. rewrite id_world, qrot_sub, <- (local_back q p c Q). reflexivity. Qed.
Lemma world_distance q p c y : qnorm2 q = 1 -> distance c (vadd p (qrot q y)) = distance (mulv (transpose (qmat q)) (vsub c p)) y.
Proof. intros Q. unfold distance, norm. rewrite world_diff, qrot_norm by exact Q. reflexivity. Qed.
Lemma world_nearest q p c S y : qnorm2 q = 1 -> nearest S (mulv (transpose (qmat q)) (vsub c p)) y -> nearest (moved p q S) c (vadd p (qrot q y)).
Proof.
  intros Q [I N]. split; [exists y; split; [exact I|reflexivity]|]. intros z (w & W & ->). rewrite !world_distance by exact Q. apply N, W.
Qed.
Lemma precompute_fields dt g s1 s2 n nw a b c : let h := precompute dt g s1 s2 n nw a b c in normal h = n /\ contactPoint h = contactPoint g /\ penetrationDepth h = penetrationDepth g /\ radius1 h = radius1 g /\ radius2 h = radius2 g.
Proof. cbv zeta. unfold precompute. cbn [normal contactPoint penetrationDepth radius1 radius2]. repeat split. Qed.
(** what is said of a contact with the nearest point x *)
Lemma finish_describes q p c y n r dt g s1 s2 nw a b avoid : qnorm2 q = 1 -> norm2 n = 1 ->
  let cl := mulv (transpose (qmat q)) (vsub c p) in
  vsub cl y = smul (distance cl y) n -> penetrationDepth g = r - distance cl y -> contactPoint g = vsub c (smul (r - 1/2 * (r - distance cl y)) (mulv (qmat q) n)) ->
  describes c (vadd p (qrot q y)) r (precompute dt g s1 s2 (mulv (qmat q) n) nw a b avoid).
Proof.
  intros Q N cl E D C. destruct (precompute_fields dt g s1 s2 (mulv (qmat q) n) nw a b avoid) as (P1 & P2 & P3 & _). cbv zeta in P1, P2, P3. unfold describes. rewrite P1, P2, P3, (world_distance q p c y Q). fold cl. split; [exact D|]. split; [rewrite <- qrot_mat, qrot_norm by exact Q; exact N|]. split.
  - rewrite (world_diff q p c y Q). fold cl. rewrite E, qrot_smul, qrot_mat. reflexivity.
  - rewrite D. exact C.
Qed.
Lemma unit_dir w : norm w <> 0 -> norm2 (smul (/ norm w) w) = 1 /\ w = smul (norm w) (smul (/ norm w) w).
Proof. intros N. split; [apply unit_of, N|]. destruct w as [a b c]. unfold smul. cbn [vx vy vz]. f_equal; field; exact N. Qed.
Theorem facet_sphere_spec dt v f r s1 s2 shift2 shiftVel force isReal old : postLoad v = Some f -> at_incentre f -> qnorm2 (ori s1) = 1 -> 0 < r ->
  let c := vadd (pos s2) shift2 in
  exists x, nearest (moved (pos s1) (ori s1) (triangle v)) c x /\ snd (facet_sphere dt 0 f r s1 s2 shift2 shiftVel force isReal old) = 0 /\
  match fst (facet_sphere dt 0 f r s1 s2 shift2 shiftVel force isReal old) with
  | NoContact => isReal = false /\ r <= distance c x
  | Contact g => describes c x r g /\ (isReal = true \/ distance c x < r)
  | ZeroDistance => distance c x = 0
  end.
Proof.
  intros E A Q R0 c. apply postLoad_facts in E. rename E into F. unfold facet_sphere. cbv zeta. fold c. set (cl := mulv (transpose (qmat (ori s1))) (vsub c (pos s1))). remember (dot (fnormal f) cl) as L0.
  assert (RS : (if Rlt_dec (icr f - r * 0) 0 then true else false) = false). { destruct (Rlt_dec _ 0) as [X|_]; [|reflexivity]. exfalso. pose proof (icr_pos v f F). lra. } rewrite RS. replace (icr f - r * 0) with (icr f) by ring. replace (r * 0) with 0 by ring.
  set (n := if Rlt_dec L0 0 then vopp (fnormal f) else fnormal f). set (L := if Rlt_dec L0 0 then - L0 else L0).
  assert (LA : L = Rabs L0). { unfold L. destruct (Rlt_dec L0 0) as [X|X]; [rewrite Rabs_left by exact X; reflexivity|]. rewrite Rabs_right; [reflexivity|lra]. }
  assert (LN : smul L n = smul L0 (fnormal f)). { unfold L, n. destruct (Rlt_dec L0 0); [|reflexivity]. destruct (fnormal f) as [a1 a2 a3]. unfold smul, vopp. cbn [vx vy vz]. f_equal; ring. }
  assert (UN : norm2 n = 1). { rewrite <- (f_unit _ _ F). unfold n. destruct (Rlt_dec L0 0); [|reflexivity]. destruct (fnormal f) as [a1 a2 a3]. unfold norm2, dot, vopp. cbn [vx vy vz]. ring. }
  assert (CP : vsub cl (smul L n) = flat f cl). { rewrite LN, HeqL0. reflexivity. } rewrite CP. clear RS.
  assert (FD : distance cl (flat f cl) = L) by (rewrite (flat_distance v f cl F), <- HeqL0; symmetry; exact LA).
  destruct (Rlt_le_dec (dot (ne f (farthest f (flat f cl))) (flat f cl)) (icr f)) as [B|B].
  - pose proof (face_nearest v f cl F A B) as NR. exists (vadd (pos s1) (qrot (ori s1) (flat f cl))). split; [apply world_nearest; assumption|]. assert (DW : distance c (vadd (pos s1) (qrot (ori s1) (flat f cl))) = L) by (rewrite world_distance by exact Q; exact FD). rewrite DW.
    destruct ((if Rlt_dec r L then true else false) && negb isReal && negb force)%bool eqn:EX.
    { cbn [fst snd]. split; [reflexivity|]. apply andb_prop in EX as [EX _]. apply andb_prop in EX as [EX ER]. destruct isReal; [discriminate|]. split; [reflexivity|]. destruct (Rlt_dec r L); [lra|discriminate]. }
    destruct (Rlt_dec _ (icr f)) as [_|X]; [|contradiction]. cbn [fst snd]. split; [reflexivity|]. rewrite (norm_unit n UN), Rinv_1, smul_1.
    destruct ((if Rlt_dec 0 (r - L) then true else false) || isReal)%bool eqn:DP.
    + split; [|apply orb_prop in DP as [DP|DP]; [right; destruct (Rlt_dec 0 (r - L)); [lra|discriminate]|left; exact DP]]. apply (finish_describes (ori s1) (pos s1) c (flat f cl) n); fold cl.
      * exact Q.
      * exact UN.
      * rewrite FD. rewrite <- CP. generalize (smul L n). clear. intros w. destruct cl as [a1 a2 a3], w as [w1 w2 w3]. unfold vsub. cbn [vx vy vz]. f_equal; ring.
      * cbn [penetrationDepth]. rewrite FD. reflexivity.
      * cbn [contactPoint]. rewrite FD. reflexivity.
    + apply orb_false_elim in DP as [DP ER]. split; [exact ER|]. destruct (Rlt_dec 0 (r - L)); [discriminate|lra].
  - destruct (rim_nearest v f cl F A B) as (y & RM & NR). exists (vadd (pos s1) (qrot (ori s1) y)). split; [apply world_nearest; assumption|]. assert (DW : distance c (vadd (pos s1) (qrot (ori s1) y)) = norm (vsub cl y)) by (rewrite world_distance by exact Q; reflexivity). rewrite DW.
    assert (LB : L <= norm (vsub cl y)). { rewrite LA, HeqL0. apply (above v f cl y F A). apply NR. }
    destruct ((if Rlt_dec r L then true else false) && negb isReal && negb force)%bool eqn:EX.
    { cbn [fst snd]. split; [reflexivity|]. apply andb_prop in EX as [EX _]. apply andb_prop in EX as [EX ER]. destruct isReal; [discriminate|]. split; [reflexivity|]. destruct (Rlt_dec r L); [lra|discriminate]. }
    destruct (Rlt_dec (dot (ne f (farthest f (flat f cl))) (flat f cl)) (icr f)) as [X|_]; [lra|]. rewrite RM. destruct (Req_EM_T (norm (vsub cl y)) 0) as [Z|Z]; cbn [fst snd]; (split; [reflexivity|]); [exact Z|]. destruct (unit_dir (vsub cl y) Z) as [U1 U2].
    destruct ((if Rlt_dec 0 (r - norm (vsub cl y)) then true else false) || isReal)%bool eqn:DP.
    + split; [|apply orb_prop in DP as [DP|DP]; [right; destruct (Rlt_dec 0 _) in DP; [lra|discriminate]|left; exact DP]]. apply (finish_describes (ori s1) (pos s1) c y); fold cl; [exact Q|exact U1|exact U2|reflexivity|reflexivity].
    + apply orb_false_elim in DP as [DP ER]. split; [exact ER|]. destruct (Rlt_dec 0 _) in DP; [discriminate|lra].
Qed.
