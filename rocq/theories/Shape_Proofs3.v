From Coq Require Import Reals List ZArith Bool Lra Lia.
From Verif Require Import Vec_Model Vec_Proofs Rigid_Model Law_Model Shape_Model Shape_Spec Shape_Proofs Shape_Proofs2.
Local Open Scope R_scope.

Lemma id_v0 s t w a b c : s + t + w = 1 -> vsub (vadd (vadd (smul s a) (smul t b)) (smul w c)) a = vsub (smul t (vsub b a)) (smul w (vsub a c)).
Proof. intros E. replace s with (1 - t - w) by lra. vring. Qed.
Lemma id_v1 s t w a b c : s + t + w = 1 -> vsub (vadd (vadd (smul s a) (smul t b)) (smul w c)) b = vsub (smul w (vsub c b)) (smul s (vsub b a)).
Proof. intros E. replace t with (1 - s - w) by lra. vring. Qed.
Lemma id_v2 s t w a b c : s + t + w = 1 -> vsub (vadd (vadd (smul s a) (smul t b)) (smul w c)) c = vsub (smul s (vsub a c)) (smul t (vsub c b)).
Proof. intros E. replace w with (1 - s - t) by lra. vring. Qed.
Lemma from_corner v y i : (i < 3)%nat -> triangle v y -> exists a b, 0 <= a /\ 0 <= b /\ vsub y (v i) = vsub (smul a (edge v i)) (smul b (edge v (pv i))).
Proof.
  intros I [s [t [w [S0 [T0 [W0 [E ->]]]]]]]. destruct i as [|[|[|i]]]; [| | |lia]; unfold edge; cbn [nx pv].
  - exists t, w. split; [exact T0|]. split; [exact W0|]. apply id_v0, E.
  - exists w, s. split; [exact W0|]. split; [exact S0|]. apply id_v1, E.
  - exists s, t. split; [exact S0|]. split; [exact T0|]. apply id_v2, E.
Qed.
Lemma corner_in v i : (i < 3)%nat -> triangle v (v i).
Proof.
  intros I. destruct i as [|[|[|i]]]; [| | |lia].
  - exists 1, 0, 0. repeat (split; [lra|]). destruct (v 0%nat), (v 1%nat), (v 2%nat). unfold vadd, smul. cbn [Vec_Model.vx Vec_Model.vy Vec_Model.vz]. f_equal; ring.
  - exists 0, 1, 0. repeat (split; [lra|]). destruct (v 0%nat), (v 1%nat), (v 2%nat). unfold vadd, smul. cbn [Vec_Model.vx Vec_Model.vy Vec_Model.vz]. f_equal; ring.
  - exists 0, 0, 1. repeat (split; [lra|]). destruct (v 0%nat), (v 1%nat), (v 2%nat). unfold vadd, smul. cbn [Vec_Model.vx Vec_Model.vy Vec_Model.vz]. f_equal; ring.
Qed.
Lemma farthest_lt f cp : (farthest f cp < 3)%nat.
Proof. unfold farthest. cbv zeta. destruct (Rlt_dec _ _); destruct (Rlt_dec _ _); lia. Qed.
Lemma farthest_max f cp i : (i < 3)%nat -> dot (ne f i) cp <= dot (ne f (farthest f cp)) cp.
Proof.
  intros I. unfold farthest. cbv zeta. destruct (Rlt_dec (dot (ne f 0) cp) (dot (ne f 1) cp)); destruct (Rlt_dec _ (dot (ne f 2) cp)); destruct i as [|[|[|i]]]; try lia; lra.
Qed.
Lemma id_proj k n c y : vsub c y = vadd (vsub (vsub c (smul k n)) y) (smul k n).
Proof. vring. Qed.
Lemma id_split c p y : vsub y c = vsub (vsub y p) (vsub c p). Proof. vring. Qed.

(** the facet around its incentre *)
Definition flat (f : facet) (cl : vec) : vec := vsub cl (smul (dot (fnormal f) cl) (fnormal f)).
Lemma flat_plane v f cl : facts v f -> dot (fnormal f) (flat f cl) = 0.
Proof. intros F. unfold flat. rewrite dot_sub_r, dot_smul_r. fold (norm2 (fnormal f)). rewrite (f_unit _ _ F). ring. Qed.
Lemma incentre_plane v f y : facts v f -> at_incentre f -> triangle v y -> dot (fnormal f) y = 0.
Proof. intros F [A _] T. rewrite (plane_all v f F y T). rewrite (f_vert _ _ F) in A. exact A. Qed.
Lemma incentre_out v f i : facts v f -> at_incentre f -> (i < 3)%nat -> dot (ne f i) (v i) = icr f.
Proof. intros F [_ A] I. rewrite <- (A i I), (f_vert _ _ F). reflexivity. Qed.
(** angles seen from the foot are those seen from the point *)
Lemma flat_angle v f cl p y : facts v f -> at_incentre f -> dot (fnormal f) p = 0 -> triangle v y -> dot (vsub cl p) (vsub y p) = dot (vsub (flat f cl) p) (vsub y p).
Proof.
  intros F A P T. rewrite (id_proj (dot (fnormal f) cl) (fnormal f) cl p). fold (flat f cl). rewrite dot_add_l, dot_smul_l, (dot_sub_r (fnormal f)), (incentre_plane v f y F A T), P. ring.
Qed.
Lemma flat_distance v f cl : facts v f -> distance cl (flat f cl) = Rabs (dot (fnormal f) cl).
Proof.
  intros F. unfold distance, flat. replace (vsub cl (vsub cl (smul (dot (fnormal f) cl) (fnormal f)))) with (smul (dot (fnormal f) cl) (fnormal f)) by (generalize (dot (fnormal f) cl), (fnormal f); clear; intros k [n1 n2 n3]; destruct cl as [c1 c2 c3]; unfold vsub, smul; cbn [vx vy vz]; f_equal; ring).
  unfold norm. rewrite norm2_smul, (f_unit _ _ F), Rmult_1_r. apply sqrt_Rsqr_abs.
Qed.
Lemma above v f cl y : facts v f -> at_incentre f -> triangle v y -> Rabs (dot (fnormal f) cl) <= distance cl y.
Proof.
  intros F A T. rewrite <- (flat_distance v f cl F). apply obtuse. unfold flat. replace (vsub cl (vsub cl (smul (dot (fnormal f) cl) (fnormal f)))) with (smul (dot (fnormal f) cl) (fnormal f)) by (generalize (dot (fnormal f) cl), (fnormal f); clear; intros k [n1 n2 n3]; destruct cl as [c1 c2 c3]; unfold vsub, smul; cbn [vx vy vz]; f_equal; ring).
  rewrite dot_smul_l, dot_sub_r, (incentre_plane v f y F A T). fold (flat f cl). rewrite (flat_plane v f cl F). lra.
Qed.
Lemma face_nearest v f cl : facts v f -> at_incentre f -> dot (ne f (farthest f (flat f cl))) (flat f cl) < icr f -> nearest (triangle v) cl (flat f cl).
Proof.
  intros F A B. split.
  - apply (edges_inside v f F).
    + rewrite (flat_plane v f cl F), (incentre_plane v f _ F A (corner_in v 0%nat ltac:(lia))). reflexivity.
    + intros i I. rewrite (incentre_out v f i F A I). pose proof (farthest_max f (flat f cl) i I). lra.
  - intros y T. rewrite (flat_distance v f cl F). apply (above v f); assumption.
Qed.
Lemma unit_edge v f i : facts v f -> (i < 3)%nat -> norm2 (smul (/ norm (edge v i)) (edge v i)) = 1.
Proof. intros F I. apply unit_of. pose proof (f_len _ _ F i I). lra. Qed.
Lemma edge_flat v f i : facts v f -> (i < 3)%nat -> dot (smul (/ norm (edge v i)) (edge v i)) (fnormal f) = 0.
Proof. intros F I. rewrite dot_smul_l, (f_plane _ _ F i I). ring. Qed.
Lemma corner_vector v f i : facts v f -> at_incentre f -> (i < 3)%nat -> vl f i <> 0 /\ smul (vl f i - 0) (vu f i) = v i.
Proof.
  intros F A I. rewrite (f_vl _ _ F), (f_vu _ _ F). assert (N : norm (v i) <> 0). { intros Z. apply norm_zero in Z. pose proof (incentre_out v f i F A I) as D. rewrite Z in D. pose proof (icr_pos v f F). unfold dot, vzero in D. cbn [vx vy vz] in D. lra. }
  split; [exact N|]. destruct (v i) as [a1 a2 a3]. unfold smul. cbn [vx vy vz]. f_equal; field; exact N.
Qed.
Lemma id_foot cp p s w : vsub (vadd cp (smul s w)) p = vadd (vsub cp p) (smul s w). Proof. vring. Qed.
Lemma id_minus a s w : vadd a (smul (- s) w) = vsub a (smul s w). Proof. vring. Qed.
Lemma times_pos k x : 0 < k -> 0 < k * x -> 0 < x.
Proof. intros K H. apply Rnot_le_lt. intros X. assert (0 <= k * (- x)) by (apply Rmult_le_pos; lra). lra. Qed.
Lemma times_nonneg k x : 0 < k -> 0 <= k * x -> 0 <= x.
Proof. intros K H. apply Rnot_lt_le. intros X. assert (0 < k * (- x)) by (apply Rmult_lt_0_compat; lra). lra. Qed.
(** beyond edge m; the corner where edges m and j meet *)
Lemma beyond_corner v f m j k cp : facts v f -> (m < 3)%nat -> (j < 3)%nat -> dot (fnormal f) cp = 0 -> dot (fnormal f) (v k) = 0 ->
  dot (ne f m) (v k) = icr f -> dot (ne f j) (v k) = icr f -> icr f <= dot (ne f m) cp -> dot (ne f j) cp <= dot (ne f m) cp ->
  icr f < dot (vadd cp (smul (icr f - dot (ne f m) cp) (ne f m))) (ne f j) ->
  0 < dot (vsub cp (v k)) (edge v m) * dot (ne f j) (edge v m) /\ dot (vsub cp (v k)) (edge v j) * dot (ne f j) (edge v m) <= 0.
Proof.
  intros F M J P PK KM KJ S0 SM B. set (D := vsub cp (v k)). assert (DN : dot D (fnormal f) = 0) by (unfold D; rewrite dot_sub_l, (dot_sym cp), (dot_sym (v k)), P, PK; ring).
  pose proof (corner _ _ (fnormal f) D (unit_edge v f m F M) (unit_edge v f j F J) (f_unit _ _ F) (edge_flat v f m F M) (edge_flat v f j F J) DN) as C. cbv zeta in C. rewrite <- (f_ne _ _ F m M), <- (f_ne _ _ F j J) in C.
  assert (Dm : dot D (ne f m) = dot (ne f m) cp - icr f) by (unfold D; rewrite dot_sub_l, (dot_sym cp), (dot_sym (v k)), KM; reflexivity). assert (Dj : dot D (ne f j) = dot (ne f j) cp - icr f) by (unfold D; rewrite dot_sub_l, (dot_sym cp), (dot_sym (v k)), KJ; reflexivity). rewrite Dm, Dj in C.
  destruct C as [C1 C2].
  - lra.
  - lra.
  - rewrite dot_sub_l, dot_smul_l, Dj. rewrite dot_add_l, dot_smul_l, (dot_sym cp) in B. lra.
  - rewrite !dot_smul_r in C1, C2. pose proof (f_len _ _ F m M) as Lm. pose proof (f_len _ _ F j J) as Lj. apply Rinv_0_lt_compat in Lm. apply Rinv_0_lt_compat in Lj. split.
    + apply (times_pos (/ norm (edge v m) * / norm (edge v m))); [apply Rmult_lt_0_compat; exact Lm|]. replace (/ norm (edge v m) * / norm (edge v m) * (dot D (edge v m) * dot (ne f j) (edge v m))) with (/ norm (edge v m) * dot D (edge v m) * (/ norm (edge v m) * dot (ne f j) (edge v m))) by ring. exact C1.
    + cut (0 <= - (dot D (edge v j) * dot (ne f j) (edge v m))); [lra|]. apply (times_nonneg (/ norm (edge v j) * / norm (edge v m))); [apply Rmult_lt_0_compat; assumption|]. replace (/ norm (edge v j) * / norm (edge v m) * - (dot D (edge v j) * dot (ne f j) (edge v m))) with (- (/ norm (edge v j) * dot D (edge v j) * (/ norm (edge v m) * dot (ne f j) (edge v m)))) by ring. lra.
Qed.
Lemma rim_nearest v f cl : facts v f -> at_incentre f -> icr f <= dot (ne f (farthest f (flat f cl))) (flat f cl) ->
  exists p, rim f 0 (icr f) (flat f cl) (farthest f (flat f cl)) = Rim p /\ nearest (triangle v) cl p.
Proof.
  intros F A B. pose proof (flat_plane v f cl F) as P. pose proof (farthest_lt f (flat f cl)) as M. pose proof (fun i I => farthest_max f (flat f cl) i I) as MX. remember (farthest f (flat f cl)) as m. pose proof (flat_angle v f cl) as FA. remember (flat f cl) as cp.
  pose proof (fun i I => incentre_plane v f _ F A (corner_in v i I)) as PV. pose proof (fun i I => incentre_out v f i F A I) as IO. unfold rim. cbv zeta. remember (vadd cp (smul (icr f - dot (ne f m) cp) (ne f m))) as q.
  destruct (Rlt_dec (icr f) (dot q (ne f (pv m)))) as [C1|C1]; [|destruct (Rlt_dec (icr f) (dot q (ne f (nx m)))) as [C2|C2]].
  - destruct (corner_vector v f m F A M) as [NZ E]. destruct (Req_EM_T (vl f m) 0) as [Z|_]; [contradiction|]. rewrite E. exists (v m). split; [reflexivity|]. split; [apply corner_in; exact M|]. intros y T. apply obtuse. rewrite (FA (v m) y F A (PV m M) T).
    rewrite Heqq in C1. destruct (beyond_corner v f m (pv m) m cp F M (pv_lt m) P (PV m M) (IO m M)) as [X Y]; [|exact B|apply MX, pv_lt|exact C1|].
    + rewrite <- (IO (pv m) (pv_lt m)). rewrite <- (ne_next v f F (pv m) (pv_lt m)), nx_pv by exact M. reflexivity.
    + pose proof (ne_height v f F (pv m) (pv_lt m)) as H. rewrite nx_pv in H by exact M. pose proof (height_pos v f F (pv m) (pv_lt m)) as HP. rewrite H in X, Y. remember (2 * farea f / norm (edge v (pv m))) as h.
      assert (X' : 0 < - dot (vsub cp (v m)) (edge v m)) by (apply (times_pos h); lra). assert (Y' : 0 <= dot (vsub cp (v m)) (edge v (pv m))) by (apply (times_nonneg h); lra).
      destruct (from_corner v y m M T) as (a & b & A0 & B0 & ->). rewrite dot_sub_r, !dot_smul_r. assert (0 <= a * - dot (vsub cp (v m)) (edge v m)) by (apply Rmult_le_pos; lra). assert (0 <= b * dot (vsub cp (v m)) (edge v (pv m))) by (apply Rmult_le_pos; lra). lra.
  - pose proof (nx_lt m) as K. destruct (corner_vector v f (nx m) F A K) as [NZ E]. destruct (Req_EM_T (vl f (nx m)) 0) as [Z|_]; [contradiction|]. rewrite E. exists (v (nx m)). split; [reflexivity|]. split; [apply corner_in; exact K|]. intros y T. apply obtuse. rewrite (FA (v (nx m)) y F A (PV _ K) T).
    rewrite Heqq in C2. destruct (beyond_corner v f m (nx m) (nx m) cp F M K P (PV _ K)) as [X Y]; [rewrite (ne_next v f F m M); apply IO, M|apply IO, K|exact B|apply MX, K|exact C2|].
    assert (H : dot (ne f (nx m)) (edge v m) = 2 * farea f / norm (edge v (nx m))). { pose proof (ne_third v f F (nx m) K) as T3. rewrite pv_nx in T3 by exact M. unfold edge at 1. rewrite dot_sub_r, T3. ring. }
    pose proof (height_pos v f F (nx m) K) as HP. rewrite H in X, Y. remember (2 * farea f / norm (edge v (nx m))) as h.
    assert (X' : 0 < dot (vsub cp (v (nx m))) (edge v m)) by (apply (times_pos h); lra). assert (Y' : 0 <= - dot (vsub cp (v (nx m))) (edge v (nx m))) by (apply (times_nonneg h); lra).
    destruct (from_corner v y (nx m) K T) as (a & b & A0 & B0 & ->). rewrite pv_nx by exact M. rewrite dot_sub_r, !dot_smul_r. assert (0 <= a * - dot (vsub cp (v (nx m))) (edge v (nx m))) by (apply Rmult_le_pos; lra). assert (0 <= b * dot (vsub cp (v (nx m))) (edge v m)) by (apply Rmult_le_pos; lra). lra.
  - exists q. split; [reflexivity|]. assert (Q : dot (fnormal f) q = 0). { rewrite Heqq, dot_add_r, dot_smul_r, P, (dot_sym (fnormal f)), (ne_plane v f F m M). ring. } assert (QM : dot (ne f m) q = icr f). { rewrite Heqq, dot_add_r, dot_smul_r. fold (norm2 (ne f m)). rewrite (ne_unit v f F m M). ring. } split.
    + apply (edges_inside v f F); [rewrite Q, (PV 0%nat ltac:(lia)); reflexivity|]. intros i I. rewrite (IO i I). apply Rnot_lt_le in C1, C2. rewrite dot_sym in C1, C2. destruct (Nat.eq_dec i m) as [E|E]; [rewrite E, QM; lra|]. destruct (Nat.eq_dec i (pv m)) as [E'|E']; [rewrite E'; exact C1|]. destruct (Nat.eq_dec i (nx m)) as [E''|E'']; [rewrite E''; exact C2|]. exfalso. destruct m as [|[|[|m]]]; cbn [nx pv] in *; lia.
    + intros y T. apply obtuse. rewrite (FA q y F A Q T). replace (vsub cp q) with (smul (dot (ne f m) cp - icr f) (ne f m)).
      * rewrite dot_smul_l, dot_sub_r, QM. pose proof (inside_edges v f F y m M T) as IE. rewrite (IO m M) in IE. assert (0 <= (dot (ne f m) cp - icr f) * - (dot (ne f m) y - icr f)) by (apply Rmult_le_pos; lra). lra.
      * rewrite Heqq. generalize (dot (ne f m) cp), (icr f), (ne f m). clear. intros a b [w1 w2 w3]. destruct cp as [c1 c2 c3]. unfold vsub, vadd, smul. cbn [vx vy vz]. f_equal; ring.
Qed.
