From Coq Require Import Reals List ZArith Bool Lra Lia.
From Verif Require Import Vec_Model Vec_Proofs Rigid_Model Law_Model Shape_Model Shape_Spec Shape_Proofs Shape_Proofs2 Shape_Proofs3 Shape_Proofs4 Shape_Proofs5.
Local Open Scope R_scope.

(** ** contacts are not missed by bounding boxes *)
Lemma facet_seen dt v f r s1 s2 shift2 shiftVel force old g k factor : postLoad v = Some f -> at_incentre f -> qnorm2 (ori s1) = 1 -> 0 < r -> factor <= 0 \/ 1 <= factor ->
  facet_sphere dt 0 f r s1 s2 shift2 shiftVel force false old = (Contact g, k) -> overlap (facet_aabb (fun x => x) f (pos s1) (ori s1)) (sphere_aabb factor r (vadd (pos s2) shift2)).
Proof.
  intros E A Q R0 FA H. destruct (facet_sphere_spec dt v f r s1 s2 shift2 shiftVel force false old E A Q R0) as (x & NR & _ & S). rewrite H in S. cbn [fst] in S. destruct S as [_ [S|S]]; [discriminate|]. exists x. split.
  - destruct (facet_box (fun x => x) mid f (pos s1) (ori s1) (fun x => eq_sym (mulv_id x))) as [B _]. apply B. exists x. split; [|reflexivity]. rewrite (f_vert _ _ (postLoad_facts _ _ E)). apply NR.
  - apply sphere_box; [lra|exact FA|lra].
Qed.
Lemma box_seen dt e r s1 s2 shift2 shiftVel old g factor b : 0 <= vx e -> 0 <= vy e -> 0 <= vz e -> qnorm2 (ori s1) = 1 -> 0 < r -> factor <= 0 \/ 1 <= factor ->
  box_sphere dt e r s1 s2 shift2 shiftVel false false old = Contact g -> box_aabb false e (pos s1) (ori s1) = Some b -> overlap b (sphere_aabb factor r (vadd (pos s2) shift2)).
Proof.
  intros X Y Z Q R0 FA H B. destruct (box_box e _ _ b X Y Z B) as [BB _]. set (c := vadd (pos s2) shift2). set (cl := mulv (transpose (qmat (ori s1))) (vsub c (pos s1))).
  assert (CW : c = vadd (pos s1) (qrot (ori s1) cl)) by (unfold cl; rewrite <- local_back by exact Q; apply id_end).
  assert (DC : in_cuboid e cl \/ ~ in_cuboid e cl). { unfold in_cuboid. destruct (Rle_dec (Rabs (vx cl)) (vx e)); destruct (Rle_dec (Rabs (vy cl)) (vy e)); destruct (Rle_dec (Rabs (vz cl)) (vz e)); tauto. }
  destruct DC as [DC|DC].
  - exists c. split; [apply BB; exists cl; split; assumption|]. apply sphere_box; [lra|exact FA|]. unfold distance, norm. replace (norm2 (vsub c c)) with 0; [rewrite sqrt_0; lra|]. clearbody c. clear. destruct c as [a1 a2 a3]. unfold norm2, dot, vsub. cbn [vx vy vz]. ring.
  - destruct (box_outside dt e r s1 s2 shift2 shiftVel false false old X Y Z Q R0) as (x & NR & S).
    + fold c. intros (y & Hy & E). apply DC. replace cl with y; [exact Hy|]. unfold cl. rewrite E, <- qmat_conj, <- qrot_mat. replace (vsub (vadd (pos s1) (qrot (ori s1) y)) (pos s1)) with (qrot (ori s1) y) by (generalize (qrot (ori s1) y), (pos s1); clear; intros [a1 a2 a3] [b1 b2 b3]; unfold vsub, vadd; cbn [vx vy vz]; f_equal; ring). rewrite qrot_conj_l by exact Q. reflexivity.
    + rewrite H in S. destruct S as [_ [S|[S|S]]]; [discriminate|discriminate|]. exists x. split; [apply BB; apply NR|apply sphere_box; [lra|exact FA|exact S]].
Qed.
Lemma inside_unshifted dt e r s1 s2 shiftVel force isReal old : qnorm2 (ori s1) = 1 -> 0 < r -> moved (pos s1) (ori s1) (in_cuboid e) (pos s2) ->
  exists x g, nearest (moved (pos s1) (ori s1) (not_inside e)) (pos s2) x /\ moved (pos s1) (ori s1) (in_cuboid e) x /\ box_sphere dt e r s1 s2 vzero shiftVel force isReal old = Contact g /\ describes_inside (pos s2) x r g.
Proof.
  intros Q R0 IN. assert (V0 : forall a, vadd a vzero = a) by vring. destruct (box_inside dt e r s1 s2 vzero shiftVel force isReal old Q R0) as (x & g & NR & XI & E & D & U & P & C); [rewrite V0; exact IN|]. rewrite V0 in NR, D, P. rewrite (V0 (contactPoint g)), (V0 (pos s2)) in C. exists x, g. split; [exact NR|]. split; [exact XI|]. split; [exact E|]. split; [exact D|]. split; [exact U|]. split; [exact P|exact C].
Qed.
(** ** the facets of the examples *)
Lemma norm_is v k : 0 <= k -> norm2 v = k * k -> norm v = k.
Proof. intros K E. unfold norm. rewrite E. apply sqrt_square, K. Qed.
Lemma facts345 o v : (forall i, (i < 3)%nat -> v i = vadd o (tri345 i)) -> exists f, postLoad v = Some f /\ fnormal f = V 0 0 1 /\ ne f 0 = V 0 (-1) 0 /\ ne f 1 = V (4/5) (3/5) 0 /\ ne f 2 = V (-1) 0 0 /\ icr f = 1 /\ farea f = 6.
Proof.
  intros H. assert (E0 : edge v 0 = V 3 0 0) by (unfold edge; cbn [nx]; rewrite !H by lia; unfold tri345; destruct o as [o1 o2 o3]; unfold vsub, vadd; cbn [vx vy vz]; f_equal; ring). assert (E1 : edge v 1 = V (-3) 4 0) by (unfold edge; cbn [nx]; rewrite !H by lia; unfold tri345; destruct o as [o1 o2 o3]; unfold vsub, vadd; cbn [vx vy vz]; f_equal; ring). assert (E2 : edge v 2 = V 0 (-4) 0) by (unfold edge; cbn [nx]; rewrite !H by lia; unfold tri345; destruct o as [o1 o2 o3]; unfold vsub, vadd; cbn [vx vy vz]; f_equal; ring).
  assert (CR : cross (edge v 0) (edge v 1) = V 0 0 12) by (rewrite E0, E1; unfold cross; cbn [vx vy vz]; f_equal; ring).
  destruct (postLoad v) as [f|] eqn:PL. 2:{ exfalso. apply none_iff in PL. change (cross (edge v 0) (edge v 1) = vzero) in PL. rewrite CR in PL. unfold vzero in PL. injection PL. lra. }
  exists f. split; [reflexivity|]. apply postLoad_facts in PL. rename PL into F. assert (N12 : norm (V 0 0 12) = 12) by (apply norm_is; [lra|unfold norm2, dot; cbn [vx vy vz]; ring]). assert (AR : farea f = 6) by (rewrite (f_area _ _ F), CR, N12; lra).
  assert (NN : fnormal f = V 0 0 1). { pose proof (f_normal _ _ F) as N. rewrite CR, AR in N. destruct (fnormal f) as [a b c]. unfold smul in N. cbn [vx vy vz] in N. injection N. intros. f_equal; lra. }
  assert (L0 : norm (edge v 0) = 3) by (rewrite E0; apply norm_is; [lra|unfold norm2, dot; cbn [vx vy vz]; ring]). assert (L1 : norm (edge v 1) = 5) by (rewrite E1; apply norm_is; [lra|unfold norm2, dot; cbn [vx vy vz]; ring]). assert (L2 : norm (edge v 2) = 4) by (rewrite E2; apply norm_is; [lra|unfold norm2, dot; cbn [vx vy vz]; ring]).
  split; [exact NN|]. split; [|split; [|split; [|split; [|exact AR]]]].
  - rewrite (f_ne _ _ F) by lia. rewrite L0, NN, E0. unfold cross, smul. cbn [vx vy vz]. f_equal; field.
  - rewrite (f_ne _ _ F) by lia. rewrite L1, NN, E1. unfold cross, smul. cbn [vx vy vz]. f_equal; field.
  - rewrite (f_ne _ _ F) by lia. rewrite L2, NN, E2. unfold cross, smul. cbn [vx vy vz]. f_equal; field.
  - rewrite (f_icr _ _ F), AR. unfold p_of. rewrite L0, L1, L2. field.
Qed.
Lemma centred345 : exists f, postLoad tri345c = Some f /\ at_incentre f /\ fnormal f = V 0 0 1 /\ ne f 0 = V 0 (-1) 0 /\ ne f 1 = V (4/5) (3/5) 0 /\ ne f 2 = V (-1) 0 0 /\ icr f = 1.
Proof.
  destruct (facts345 (V (-1) (-1) 0) tri345c) as (f & E & N & N0 & N1 & N2 & IC & _).
  { intros i I. destruct i as [|[|[|i]]]; [| | |lia]; unfold tri345c, tri345, vadd; cbn [vx vy vz]; f_equal; ring. }
  exists f. split; [exact E|]. split; [|auto]. pose proof (f_vert _ _ (postLoad_facts _ _ E)) as FV. split; rewrite ?FV.
  - rewrite N. unfold dot, tri345c. cbn [vx vy vz]. ring.
  - intros i I. rewrite IC. destruct i as [|[|[|i]]]; [| | |lia]; rewrite ?N0, ?N1, ?N2; unfold dot, tri345c; cbn [vx vy vz]; field.
Qed.
Ltac decide_lt := match goal with |- context [Rlt_dec ?a ?b] => destruct (Rlt_dec a b); try (exfalso; lra) end.
Lemma local_rest p c : mulv (transpose (qmat (ori (at_rest p)))) (vsub (vadd (pos (at_rest c)) vzero) (pos (at_rest p))) = vsub c p.
Proof. unfold at_rest. cbn [ori pos]. destruct p as [p1 p2 p3], c as [c1 c2 c3]. unfold mulv, transpose, qmat, qid, vsub, vadd, vzero, dot, col0, col1, col2. cbn [vx vy vz r0 r1 r2 qw qv]. f_equal; ring. Qed.
Lemma sqrt_is x k : 0 <= k -> x = k * k -> sqrt x = k.
Proof. intros K ->. apply sqrt_square, K. Qed.
Lemma farthest_is f cp b0 b1 b2 m : dot (ne f 0) cp = b0 -> dot (ne f 1) cp = b1 -> dot (ne f 2) cp = b2 ->
  (m = 0%nat /\ b1 <= b0 /\ b2 <= b0) \/ (m = 1%nat /\ b0 < b1 /\ b2 <= b1) -> farthest f cp = m.
Proof.
  intros B0 B1 B2 H. unfold farthest. cbv zeta. rewrite B0, B1. destruct H as [(-> & H1 & H2)|(-> & H1 & H2)].
  - destruct (Rlt_dec b0 b1); [lra|]. rewrite B0, B2. destruct (Rlt_dec b0 b2); [lra|reflexivity].
  - destruct (Rlt_dec b0 b1); [|lra]. rewrite B1, B2. destruct (Rlt_dec b1 b2); [lra|reflexivity].
Qed.
(** origin at a vertex *)
Lemma off_centre : exists f, postLoad tri345 = Some f /\ triangle tri345 (V 1 1 0) /\
  facet_sphere 1 0 f (1/4) (at_rest vzero) (at_rest (V 1 1 0)) vzero vzero false false None = (NoContact, 0).
Proof.
  destruct (facts345 vzero tri345) as (f & E & N & N0 & N1 & N2 & IC & _). { intros i _. destruct (tri345 i) as [a b c]. unfold vadd, vzero. cbn [vx vy vz]. f_equal; ring. }
  exists f. split; [exact E|]. split. { exists (5/12), (1/3), (1/4). repeat (split; [lra|]). unfold tri345, vadd, smul. cbn [vx vy vz]. f_equal; field. }
  unfold facet_sphere. cbv zeta. rewrite local_rest. replace (vsub (V 1 1 0) vzero) with (V 1 1 0) by (unfold vsub, vzero; cbn [vx vy vz]; f_equal; ring). rewrite N, IC. replace (dot (V 0 0 1) (V 1 1 0)) with 0 by (unfold dot; cbn [vx vy vz]; ring). destruct (Rlt_dec 0 0) as [X|_]; [lra|]. replace (vsub (V 1 1 0) (smul 0 (V 0 0 1))) with (V 1 1 0) by (unfold vsub, smul; cbn [vx vy vz]; f_equal; ring). replace (1 - 1/4 * 0) with 1 by ring. replace (1/4 * 0) with 0 by ring. destruct (Rlt_dec (1/4) 0) as [X|_]; [lra|]. destruct (Rlt_dec 1 0) as [X|_]; [lra|]. cbn [andb].
  assert (M : farthest f (V 1 1 0) = 1%nat). { apply (farthest_is f _ (-1) (7/5) (-1)); [rewrite N0|rewrite N1|rewrite N2|right; split; [reflexivity|lra]]; unfold dot; cbn [vx vy vz]; field. } rewrite M, N1. replace (dot (V (4/5) (3/5) 0) (V 1 1 0)) with (7/5) by (unfold dot; cbn [vx vy vz]; field). destruct (Rlt_dec (7/5) 1) as [X|_]; [lra|].
  assert (RM : rim f 0 1 (V 1 1 0) 1 = Rim (V (17/25) (19/25) 0)). { unfold rim. cbv zeta. cbn [nx pv]. rewrite N0, N1, N2. replace (dot (V (4/5) (3/5) 0) (V 1 1 0)) with (7/5) by (unfold dot; cbn [vx vy vz]; field). replace (vadd (V 1 1 0) (smul (1 - 7/5) (V (4/5) (3/5) 0))) with (V (17/25) (19/25) 0) by (unfold vadd, smul; cbn [vx vy vz]; f_equal; field). unfold dot. cbn [vx vy vz]. decide_lt. decide_lt. reflexivity. } rewrite RM.
  assert (NW : norm (vsub (V 1 1 0) (V (17/25) (19/25) 0)) = 2/5) by (apply norm_is; [lra|unfold norm2, dot, vsub; cbn [vx vy vz]; field]). rewrite NW. destruct (Req_EM_T (2/5) 0) as [X|_]; [lra|]. destruct (Rlt_dec 0 (1/4 - 2/5)) as [X|_]; [lra|]. reflexivity.
Qed.
(** asking for a contact has no effect *)
Lemma forced dt v f r s1 s2 shift2 shiftVel isReal old : postLoad v = Some f -> at_incentre f -> qnorm2 (ori s1) = 1 -> 0 < r -> fst (facet_sphere dt 0 f r s1 s2 shift2 shiftVel true isReal old) = NoContact <-> fst (facet_sphere dt 0 f r s1 s2 shift2 shiftVel false isReal old) = NoContact.
Proof.
  intros E A Q R0. destruct (facet_sphere_spec dt v f r s1 s2 shift2 shiftVel true isReal old E A Q R0) as (x & [X1 X2] & _ & S). destruct (facet_sphere_spec dt v f r s1 s2 shift2 shiftVel false isReal old E A Q R0) as (y & [Y1 Y2] & _ & T). pose proof (X2 y Y1) as D1. pose proof (Y2 x X1) as D2. split; intros H; rewrite H in *.
  - destruct S as [-> S]. destruct (fst (facet_sphere dt 0 f r s1 s2 shift2 shiftVel false false old)) as [|g|]; [reflexivity| |exfalso; lra]. destruct T as [_ [T|T]]; [discriminate|lra].
  - destruct T as [-> T]. destruct (fst (facet_sphere dt 0 f r s1 s2 shift2 shiftVel true false old)) as [|g|]; [reflexivity| |exfalso; lra]. destruct S as [_ [S|S]]; [discriminate|lra].
Qed.
Lemma forced_far : exists f, postLoad tri345c = Some f /\ at_incentre f /\ fst (facet_sphere 1 0 f 1 (at_rest vzero) (at_rest (V 0 0 2)) vzero vzero true false None) = NoContact.
Proof.
  destruct centred345 as (f & E & A & N & _). exists f. split; [exact E|]. split; [exact A|]. apply (forced 1 tri345c f 1 (at_rest vzero) (at_rest (V 0 0 2)) vzero vzero false None E A); [unfold at_rest, qid, qnorm2, norm2, dot; cbn [ori qw qv vx vy vz]; unfold vzero; cbn [vx vy vz]; ring|lra|].
  unfold facet_sphere. cbv zeta. rewrite local_rest, N. replace (dot (V 0 0 1) (vsub (V 0 0 2) vzero)) with 2 by (unfold dot, vsub, vzero; cbn [vx vy vz]; ring). destruct (Rlt_dec 2 0) as [X|_]; [lra|]. destruct (Rlt_dec 1 2) as [_|X]; [|lra]. reflexivity.
Qed.
(** center on an edge *)
Lemma on_edge : exists f, postLoad tri345c = Some f /\ at_incentre f /\ triangle tri345c (V 0 (-1) 0) /\ fst (facet_sphere 1 0 f 1 (at_rest vzero) (at_rest (V 0 (-1) 0)) vzero vzero false false None) = ZeroDistance.
Proof.
  destruct centred345 as (f & E & A & N & N0 & N1 & N2 & IC). exists f. split; [exact E|]. split; [exact A|]. split. { exists (2/3), (1/3), 0. repeat (split; [lra|]). unfold tri345c, vadd, smul. cbn [vx vy vz]. f_equal; field. }
  unfold facet_sphere. cbv zeta. rewrite local_rest. replace (vsub (V 0 (-1) 0) vzero) with (V 0 (-1) 0) by (unfold vsub, vzero; cbn [vx vy vz]; f_equal; ring). rewrite N, IC. replace (dot (V 0 0 1) (V 0 (-1) 0)) with 0 by (unfold dot; cbn [vx vy vz]; ring). destruct (Rlt_dec 0 0) as [X|_]; [lra|]. replace (vsub (V 0 (-1) 0) (smul 0 (V 0 0 1))) with (V 0 (-1) 0) by (unfold vsub, smul; cbn [vx vy vz]; f_equal; ring). replace (1 - 1 * 0) with 1 by ring. replace (1 * 0) with 0 by ring. destruct (Rlt_dec 1 0) as [X|_]; [lra|]. cbn [andb].
  assert (M : farthest f (V 0 (-1) 0) = 0%nat). { apply (farthest_is f _ 1 (-3/5) 0); [rewrite N0|rewrite N1|rewrite N2|left; split; [reflexivity|lra]]; unfold dot; cbn [vx vy vz]; field. } rewrite M, N0. replace (dot (V 0 (-1) 0) (V 0 (-1) 0)) with 1 by (unfold dot; cbn [vx vy vz]; ring). destruct (Rlt_dec 1 1) as [X|_]; [lra|].
  assert (RM : rim f 0 1 (V 0 (-1) 0) 0 = Rim (V 0 (-1) 0)). { unfold rim. cbv zeta. cbn [nx pv]. rewrite N0, N1, N2. replace (dot (V 0 (-1) 0) (V 0 (-1) 0)) with 1 by (unfold dot; cbn [vx vy vz]; ring). replace (vadd (V 0 (-1) 0) (smul (1 - 1) (V 0 (-1) 0))) with (V 0 (-1) 0) by (unfold vadd, smul; cbn [vx vy vz]; f_equal; ring). unfold dot. cbn [vx vy vz]. decide_lt. decide_lt. reflexivity. } rewrite RM.
  assert (NW : norm (vsub (V 0 (-1) 0) (V 0 (-1) 0)) = 0) by (apply norm_is; [lra|unfold norm2, dot, vsub; cbn [vx vy vz]; ring]). rewrite NW. destruct (Req_EM_T 0 0) as [_|X]; [reflexivity|contradiction].
Qed.
(** what is left of shrinkFactor *)
Lemma shrink_kept dt k f r s1 s2 shift2 shiftVel force isReal old : r * k <= icr f -> snd (facet_sphere dt k f r s1 s2 shift2 shiftVel force isReal old) = k.
Proof.
  intros H. unfold facet_sphere. cbv zeta. destruct (_ && negb isReal && negb force)%bool; [reflexivity|]. destruct (Rlt_dec (icr f - r * k) 0) as [X|_]; [lra|]. destruct (Rlt_dec _ (icr f - r * k)); [reflexivity|]. destruct (rim _ _ _ _ _); [|reflexivity]. destruct (Req_EM_T _ 0); reflexivity.
Qed.
Lemma shrink_lost dt k f r s1 s2 shift2 shiftVel force isReal old : icr f < r * k -> isReal = true \/ force = true -> snd (facet_sphere dt k f r s1 s2 shift2 shiftVel force isReal old) = 0.
Proof.
  intros H RF. unfold facet_sphere. cbv zeta. assert (B : forall b, (b && negb isReal && negb force)%bool = false) by (intros b; destruct RF as [-> | ->]; destruct b; cbn; try reflexivity; destruct isReal; reflexivity). rewrite B. destruct (Rlt_dec (icr f - r * k) 0) as [_|X]; [|lra]. destruct (Rlt_dec _ (icr f)); [reflexivity|]. destruct (rim _ _ _ _ _); [|reflexivity]. destruct (Req_EM_T _ 0); reflexivity.
Qed.
(** ** moving vertices *)
Lemma stale f v : let f' := fst (setNewVertices f v) in fnormal f' = fnormal f /\ ne f' = ne f /\ icr f' = icr f /\ vl f' = vl f /\ forall i, vert f' i = centered v i.
Proof. cbv zeta. unfold setNewVertices. cbn [fst fnormal ne icr vl vert]. repeat split. Qed.
Lemma stale_normal : exists f p v, makeFacet tri345 = Some (f, p) /\ dot (fnormal (fst (setNewVertices f v))) (edge (vert (fst (setNewVertices f v))) 1) <> 0.
Proof.
  destruct (makeFacet tri345) as [[f p]|] eqn:E.
  - exists f, p, (fun i => match i with O => V 0 0 0 | 1%nat => V 1 0 0 | _ => V 0 0 1 end). split; [reflexivity|]. apply make_incentre in E as (E & _ & _). apply postLoad_facts in E. rename E into F. unfold setNewVertices. cbn [fst fnormal vert]. rewrite centered_edge. unfold edge. cbn [nx]. intros Z.
    pose proof (f_normal _ _ F) as N. rewrite !centered_edge in N. pose proof (area_pos _ _ F) as AP. unfold edge, tri345 in N. cbn [nx] in N. destruct (fnormal f) as [a b c]. unfold cross, smul, vsub in N. cbn [vx vy vz] in N. injection N as N1 N2 N3. unfold dot, vsub in Z. cbn [vx vy vz] in Z.
    assert (a = 0). { apply (Rmult_eq_reg_l (2 * farea f)); lra. } assert (c = 0) by lra. rewrite H0 in N3. lra.
  - exfalso. unfold makeFacet in E. destruct (postLoad (centered tri345)) eqn:P; [discriminate|]. apply none_iff in P. change (cross (edge (centered tri345) 0) (edge (centered tri345) 1) = vzero) in P. rewrite !centered_edge in P. unfold edge, tri345 in P. cbn [nx] in P. unfold cross, vsub, vzero in P. cbn [vx vy vz] in P. injection P as P1 P2 P3. lra.
Qed.
(** ** a shifted copy *)
Lemma inside_shifted : exists dt e r s1 s2 shift2 g, moved (pos s1) (ori s1) (in_cuboid e) (vadd (pos s2) shift2) /\ 0 < r /\ box_sphere dt e r s1 s2 shift2 vzero false false None = Contact g /\ forall x, ~ describes_inside (vadd (pos s2) shift2) x r g.
Proof.
  assert (IN : moved (pos (at_rest vzero)) (ori (at_rest vzero)) (in_cuboid (V 1 1 1)) (vadd (pos (at_rest (V (-10) 0 0))) (V 10 0 0))). { exists vzero. split; [unfold in_cuboid, vzero; cbn [vx vy vz]; rewrite Rabs_R0; lra|]. unfold at_rest. cbn [pos ori]. rewrite qrot_id. unfold vadd, vzero. cbn [vx vy vz]. f_equal; ring. }
  destruct (box_inside 1 (V 1 1 1) 1 (at_rest vzero) (at_rest (V (-10) 0 0)) (V 10 0 0) vzero false false None) as (x & g & _ & _ & E & D & U & P & C); [unfold at_rest, qid, qnorm2, norm2, dot; cbn [ori qw qv vx vy vz]; unfold vzero; cbn [vx vy vz]; ring|lra|exact IN|].
  exists 1, (V 1 1 1), 1, (at_rest vzero), (at_rest (V (-10) 0 0)), (V 10 0 0), g. split; [exact IN|]. split; [lra|]. split; [exact E|]. intros y (D' & _ & P' & C').
  set (c := vadd (pos (at_rest (V (-10) 0 0))) (V 10 0 0)) in *. assert (DD : distance c y = distance c x) by lra. rewrite DD, <- P in P'. assert (y = x) as ->. { clearbody c. destruct x as [x1 x2 x3], y as [y1 y2 y3], c as [c1 c2 c3]. unfold vsub in P'. cbn [vx vy vz] in P'. injection P'. intros. f_equal; lra. }
  rewrite <- C' in C. destruct (contactPoint g) as [p1 p2 p3]. unfold vadd in C. cbn [vx vy vz] in C. injection C. intros. lra.
Qed.
