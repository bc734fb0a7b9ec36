(** Proofs about predicates of volumes. *)
From Coq Require Import List Bool Reals Lra.
From Verif Require Import Vec_Model Vec_Proofs Pred_Model Pred_Spec.
Import ListNotations.
Local Open Scope R_scope.

Lemma le_true a b : le a b = true <-> a <= b. Proof. unfold le. destruct (Rle_dec a b); split; congruence || lra. Qed.
Lemma lt_true a b : lt a b = true <-> a < b. Proof. unfold lt. destruct (Rlt_dec a b); split; congruence || lra. Qed.
Lemma lt_false a b : lt a b = false <-> b <= a. Proof. unfold lt. destruct (Rlt_dec a b); split; congruence || lra. Qed.
Lemma sqr_pos x : 0 <= x * x. Proof. exact (Rle_0_sqr x). Qed.
Lemma norm_pos v : 0 <= norm v. Proof. apply sqrt_pos. Qed.
Lemma sq_le a b : 0 <= b -> a * a <= b * b -> a <= b.
Proof. intros B H. destruct (Rle_lt_dec a b) as [L|L]; [exact L|]. assert (b * b < a * a) by (apply Rmult_le_0_lt_compat; lra). lra. Qed.
Lemma le_sq a b : 0 <= a -> a <= b -> a * a <= b * b. Proof. intros. apply Rmult_le_compat; lra. Qed.
Lemma cauchy a b : dot a b * dot a b <= norm2 a * norm2 b.
Proof. pose proof (norm2_pos (cross a b)) as H. rewrite lagrange in H. lra. Qed.
Lemma dot_le a b : dot a b <= norm a * norm b.
Proof. apply sq_le; [apply Rmult_le_pos; apply norm_pos|]. replace (norm a * norm b * (norm a * norm b)) with (norm a * norm a * (norm b * norm b)) by ring. rewrite !norm_sq. apply cauchy. Qed.
Lemma norm_triangle a b : norm (vadd a b) <= norm a + norm b.
Proof.
  pose proof (norm_pos a). pose proof (norm_pos b). apply sq_le; [lra|]. rewrite norm_sq. replace (norm2 (vadd a b)) with (norm2 a + norm2 b + 2 * dot a b) by vring. pose proof (dot_le a b). rewrite <- (norm_sq a), <- (norm_sq b). lra.
Qed.
Lemma norm_opp a : norm (vopp a) = norm a. Proof. unfold norm. f_equal. vring. Qed.
Lemma norm_smul k a : norm (smul k a) = Rabs k * norm a.
Proof. unfold norm. replace (norm2 (smul k a)) with (Rsqr k * norm2 a) by (unfold Rsqr; vring). rewrite sqrt_mult; [|apply Rle_0_sqr|apply norm2_pos]. rewrite sqrt_Rsqr_abs. reflexivity. Qed.
Lemma norm_zero v : norm v = 0 -> v = vzero. Proof. intros H. apply norm2_zero. rewrite <- norm_sq, H. ring. Qed.
Lemma norm_nz v : v <> vzero -> 0 < norm v. Proof. intros H. destruct (norm_pos v) as [L|E]; [exact L|]. exfalso. apply H, norm_zero. lra. Qed.
Lemma norm2_nz v : v <> vzero -> 0 < norm2 v. Proof. intros H. rewrite <- norm_sq. pose proof (norm_nz v H). apply Rmult_lt_0_compat; assumption. Qed.
Lemma normalized_unit v : v <> vzero -> norm (normalized v) = 1.
Proof. intros H. unfold normalized. rewrite norm_smul. pose proof (norm_nz v H). rewrite Rabs_right; [field; lra|]. apply Rle_ge, Rlt_le, Rinv_0_lt_compat. assumption. Qed.
Lemma vsub_nz a b : a <> b -> vsub b a <> vzero.
Proof. intros H E. apply H. destruct a as [x y z], b as [x' y' z']. injection E as E1 E2 E3. f_equal; lra. Qed.
Lemma norm_cross_unit v n : norm n = 1 -> norm (cross v n) <= norm v.
Proof. intros N. apply sq_le; [apply norm_pos|]. rewrite !norm_sq, lagrange, <- (norm_sq n), N. pose proof (sqr_pos (dot v n)). lra. Qed.
Lemma coord_le v : Rabs (vx v) <= norm v /\ Rabs (vy v) <= norm v /\ Rabs (vz v) <= norm v.
Proof.
  assert (G : forall x, x * x <= norm2 v -> Rabs x <= norm v). { intros x H. apply sq_le; [apply norm_pos|]. rewrite norm_sq. replace (Rabs x * Rabs x) with (x * x); [exact H|]. change (Rsqr x = Rsqr (Rabs x)). apply Rsqr_abs. }
  unfold norm2, dot in G. pose proof (sqr_pos (vx v)). pose proof (sqr_pos (vy v)). pose proof (sqr_pos (vz v)). repeat split; apply G; lra.
Qed.

(** ** constraints *)
Definition lipschitz (f : vec -> R) : Prop := forall p q, f q <= f p + distance p q.
Lemma distance_sym p q : distance p q = distance q p. Proof. unfold distance. rewrite <- norm_opp. f_equal. vring. Qed.
Lemma lip_dot n c k : norm n = 1 -> lipschitz (fun p => dot (vsub p c) n - k).
Proof.
  intros N p q. replace (dot (vsub q c) n) with (dot (vsub p c) n + dot (vsub q p) n) by vring. pose proof (dot_le (vsub q p) n) as D. rewrite N in D. fold (distance q p) in D. rewrite (distance_sym q p) in D. lra.
Qed.
Lemma lip_norm c r : lipschitz (fun p => norm (vsub p c) - r).
Proof. intros p q. pose proof (norm_triangle (vsub p c) (vsub q p)) as T. replace (vadd (vsub p c) (vsub q p)) with (vsub q c) in T by vring. fold (distance q p) in T. rewrite (distance_sym q p) in T. lra. Qed.
Lemma lip_cross c n r : norm n = 1 -> lipschitz (fun p => norm (cross (vsub p c) n) - r).
Proof.
  intros N p q. pose proof (norm_triangle (cross (vsub p c) n) (cross (vsub q p) n)) as T. replace (vadd (cross (vsub p c) n) (cross (vsub q p) n)) with (cross (vsub q c) n) in T by vring. pose proof (norm_cross_unit (vsub q p) n N) as K. fold (distance q p) in K. rewrite (distance_sym q p) in K. lra.
Qed.
Definition axis (c1 c2 : vec) : vec := normalized (vsub c2 c1).
Definition constraints (s : solid) : list (vec -> R) :=
  match s with
  | Sphere c r => [fun p => norm (vsub p c) - r]
  | Box mn mx => [fun p => dot (vsub p mn) (V (-1) 0 0) - 0; fun p => dot (vsub p mx) (V 1 0 0) - 0; fun p => dot (vsub p mn) (V 0 (-1) 0) - 0; fun p => dot (vsub p mx) (V 0 1 0) - 0; fun p => dot (vsub p mn) (V 0 0 (-1)) - 0; fun p => dot (vsub p mx) (V 0 0 1) - 0]
  | Para o a b c => let x := vsub a o in let y := vsub b o in let z := vsub c o in
      [fun p => dot (vsub p o) (para_out y z) - 0; fun p => dot (vsub p a) (vopp (para_out y z)) - 0; fun p => dot (vsub p o) (para_out z x) - 0; fun p => dot (vsub p b) (vopp (para_out z x)) - 0; fun p => dot (vsub p o) (para_out x y) - 0; fun p => dot (vsub p c) (vopp (para_out x y)) - 0]
  | Cyl c1 c2 r => [fun p => dot (vsub p c1) (vopp (axis c1 c2)) - 0; fun p => dot (vsub p c1) (axis c1 c2) - norm (vsub c2 c1); fun p => norm (cross (vsub p c1) (axis c1 c2)) - r]
  | _ => []
  end.
Definition primitive (s : solid) : Prop := match s with Sphere _ _ | Box _ _ | Para _ _ _ _ | Cyl _ _ _ => True | _ => False end.
Lemma para_nz o a b c : 0 < dot (vsub a o) (cross (vsub b o) (vsub c o)) ->
  cross (vsub b o) (vsub c o) <> vzero /\ cross (vsub c o) (vsub a o) <> vzero /\ cross (vsub a o) (vsub b o) <> vzero.
Proof.
  set (x := vsub a o). set (y := vsub b o). set (z := vsub c o). intros H. repeat split; intros E.
  - rewrite E in H. replace (dot x vzero) with 0 in H by vring. lra.
  - replace (dot x (cross y z)) with (dot y (cross z x)) in H by (clear; vring). rewrite E in H. replace (dot y vzero) with 0 in H by (clear; vring). lra.
  - replace (dot x (cross y z)) with (dot z (cross x y)) in H by (clear; vring). rewrite E in H. replace (dot z vzero) with 0 in H by (clear; vring). lra.
Qed.
Lemma norm_e x y z : x * x + y * y + z * z = 1 -> norm (V x y z) = 1.
Proof. intros H. unfold norm, norm2, dot. cbn [vx vy vz]. rewrite H. apply sqrt_1. Qed.
Lemma out_unit y z : cross y z <> vzero -> norm (para_out y z) = 1 /\ norm (vopp (para_out y z)) = 1.
Proof. intros H. unfold para_out. rewrite !norm_opp. split; apply normalized_unit; exact H. Qed.
Lemma constraints_lip s f : proper s -> In f (constraints s) -> lipschitz f.
Proof.
  destruct s as [c r|mn mx|o a b c|c1 c2 r|c1 c2 r a|c abc|c e n ap|A B|A B|A B|A B]; cbn [proper constraints]; intros P H; try contradiction H.
  - destruct H as [<-|[]]. apply lip_norm.
  - cbn [In] in H. repeat (destruct H as [<-|H]; [apply lip_dot, norm_e; lra|]). destruct H.
  - destruct (para_nz o a b c P) as (N1 & N2 & N3). destruct (out_unit _ _ N1), (out_unit _ _ N2), (out_unit _ _ N3). cbn [In] in H. repeat (destruct H as [<-|H]; [apply lip_dot; assumption|]). destruct H.
  - assert (U : norm (axis c1 c2) = 1) by (apply normalized_unit, vsub_nz, P). destruct H as [<-|[<-|[<-|[]]]]; [apply lip_dot; rewrite norm_opp; exact U|apply lip_dot; exact U|apply lip_cross; exact U].
Qed.

(** ** what [inside] tests *)
Lemma negb_lt a b : negb (lt a b) = true <-> b <= a. Proof. rewrite negb_true_iff. apply lt_false. Qed.
Lemma along_axis c1 c2 p : c1 <> c2 -> along c1 c2 p * norm (vsub c2 c1) = dot (vsub p c1) (axis c1 c2).
Proof.
  intros H. pose proof (norm_nz _ (vsub_nz _ _ H)) as N. unfold along, axis, normalized. set (d := vsub c2 c1) in *. set (ht := norm d) in *. replace (dot (vsub p c1) (smul (/ ht) d)) with ((dot p d - dot c1 d) * / ht) by (clearbody ht d; clear; vring). field. lra.
Qed.
Lemma axis_cross c1 c2 p : c1 <> c2 -> axisDist c1 c2 p = norm (cross (vsub p c1) (axis c1 c2)).
Proof.
  intros H. pose proof (norm_nz _ (vsub_nz _ _ H)) as N. unfold axisDist, axis, normalized. set (d := vsub c2 c1) in *. replace (cross (vsub p c1) (vsub p c2)) with (vopp (cross (vsub p c1) d)) by (unfold d; clear; vring). rewrite norm_opp.
  replace (cross (vsub p c1) (smul (/ norm d) d)) with (smul (/ norm d) (cross (vsub p c1) d)) by (generalize (/ norm d); generalize d; clear; intros; vring). rewrite norm_smul, Rabs_right by (apply Rle_ge, Rlt_le, Rinv_0_lt_compat; exact N). unfold Rdiv. ring.
Qed.
Lemma no_axis_false c1 c2 : c1 <> c2 -> no_axis c1 c2 = false.
Proof. intros H. unfold no_axis. pose proof (norm_nz _ (vsub_nz _ _ H)). destruct (Req_EM_T _ 0); [lra|reflexivity]. Qed.
Lemma inside_constraints s p pad : primitive s -> proper s -> inside s p pad = true <-> Forall (fun f => f p <= - pad) (constraints s).
Proof.
  destruct s as [c r|mn mx|o a b c|c1 c2 r|c1 c2 r a|c abc|c e n ap|A B|A B|A B|A B]; cbn [primitive proper constraints inside]; intros T P; try contradiction; rewrite ?Forall_cons_iff, ?Forall_nil_iff.
  - rewrite le_true. split; [intros H; split; [lra|constructor]|intros (H & _); lra].
  - rewrite !andb_true_iff, !le_true. unfold dot, vsub. cbn [vx vy vz]. split; intros H; repeat split; lra.
  - rewrite !andb_true_iff, !negb_lt, !Rminus_0_r. tauto.
  - rewrite (no_axis_false _ _ P), (along_axis _ _ _ P), (axis_cross _ _ _ P). replace (dot (vsub p c1) (vopp (axis c1 c2))) with (- dot (vsub p c1) (axis c1 c2)) by (generalize (axis c1 c2); clear; intros; vring).
    destruct (lt (dot (vsub p c1) (axis c1 c2)) (0 + pad)) eqn:L1; cbn [orb]; [apply lt_true in L1; split; [discriminate|intros; lra]|apply lt_false in L1].
    destruct (lt (norm (vsub c2 c1) - pad) (dot (vsub p c1) (axis c1 c2))) eqn:L2; [apply lt_true in L2; split; [discriminate|intros; lra]|apply lt_false in L2].
    destruct (lt (r - pad) (norm (cross (vsub p c1) (axis c1 c2)))) eqn:L3; [apply lt_true in L3; split; [discriminate|intros; lra]|apply lt_false in L3]. split; [intros _; repeat split; lra|reflexivity].
Qed.

(** ** points of the solids *)
Lemma fraction t v : 0 < v -> (0 <= t /\ t <= v) <-> between 0 (t / v) 1.
Proof.
  intros P. assert (E : t / v * v = t) by (field; lra). unfold between. split; intros (H1 & H2).
  - split; [apply Rmult_le_pos; [exact H1|apply Rlt_le, Rinv_0_lt_compat, P]|]. apply (Rmult_le_reg_r v); [exact P|]. rewrite E. lra.
  - apply (Rmult_le_compat_r v) in H1; [|lra]. apply (Rmult_le_compat_r v) in H2; [|lra]. rewrite E in *. lra.
Qed.
Lemma scaled_le k a b : 0 < k -> k * a <= k * b -> a <= b. Proof. intros. apply (Rmult_le_reg_l k); assumption. Qed.
Lemma out_le v y z : cross y z <> vzero -> dot v (para_out y z) = - (/ norm (cross y z)) * dot v (cross y z).
Proof. intros _. unfold para_out, normalized. generalize (/ norm (cross y z)). generalize (cross y z). clear. intros. vring. Qed.
Lemma holds_para o a b c p : 0 < dot (vsub a o) (cross (vsub b o) (vsub c o)) -> holds (Para o a b c) p <-> inside (Para o a b c) p 0 = true.
Proof.
  intros P. rewrite (inside_constraints (Para o a b c) p 0 I P). cbn [holds constraints]. destruct (para_nz o a b c P) as (N1 & N2 & N3). rewrite !Forall_cons_iff. assert (Forall (fun f : vec -> R => f p <= - 0) [] <-> True) as -> by (split; auto).
  set (x := vsub a o) in *. set (y := vsub b o) in *. set (z := vsub c o) in *. assert (Ea : vsub p a = vsub (vsub p o) x) by (unfold x; clear; vring). assert (Eb : vsub p b = vsub (vsub p o) y) by (unfold y; clear; vring). assert (Ec : vsub p c = vsub (vsub p o) z) by (unfold z; clear; vring). rewrite Ea, Eb, Ec. set (w := vsub p o).
  assert (O : forall v u t, dot v (vopp (para_out u t)) = - dot v (para_out u t)) by (clear; intros v u t; generalize (para_out u t); intros; vring). rewrite !O. rewrite !(out_le _ _ _ N1), !(out_le _ _ _ N2), !(out_le _ _ _ N3).
  pose proof (Rinv_0_lt_compat _ (norm_nz _ N1)) as K1. pose proof (Rinv_0_lt_compat _ (norm_nz _ N2)) as K2. pose proof (Rinv_0_lt_compat _ (norm_nz _ N3)) as K3. set (k1 := / norm (cross y z)) in *. set (k2 := / norm (cross z x)) in *. set (k3 := / norm (cross x y)) in *.
  assert (Dx : forall u t v, dot (vsub u t) v = dot u v - dot t v) by (clear; vring). rewrite !Dx. assert (V2 : dot y (cross z x) = dot x (cross y z)) by (clear; vring). assert (V3 : dot z (cross x y) = dot x (cross y z)) by (clear; vring). rewrite V2, V3. set (vol := dot x (cross y z)) in *.
  assert (G0 : forall k t, 0 < k -> (- k * t - 0 <= - 0 <-> 0 <= t)). { intros k t K. split; intros H; [destruct (Rle_lt_dec 0 t) as [L|L]; [exact L|]; assert (k * t < k * 0) by (apply Rmult_lt_compat_l; assumption); lra|]. assert (0 <= k * t) by (apply Rmult_le_pos; lra). lra. }
  assert (G1 : forall k t, 0 < k -> (- (- k * (t - vol)) - 0 <= - 0 <-> t <= vol)). { intros k t K. split; intros H; [destruct (Rle_lt_dec t vol) as [L|L]; [exact L|]; assert (k * 0 < k * (t - vol)) by (apply Rmult_lt_compat_l; lra); lra|]. assert (0 <= k * (vol - t)) by (apply Rmult_le_pos; lra). lra. }
  assert (C : forall t, (0 <= t /\ t <= vol) <-> between 0 (t / vol) 1) by (intros t; apply fraction; exact P).
  replace (- (- k1 * dot w (cross y z) - - k1 * vol)) with (- (- k1 * (dot w (cross y z) - vol))) by ring. replace (- (- k2 * dot w (cross z x) - - k2 * vol)) with (- (- k2 * (dot w (cross z x) - vol))) by ring. replace (- (- k3 * dot w (cross x y) - - k3 * vol)) with (- (- k3 * (dot w (cross x y) - vol))) by ring.
  rewrite (G0 k1), (G0 k2), (G0 k3), ?(G1 k1), ?(G1 k2), ?(G1 k3) by assumption.
  assert (W : smul vol w = vadd (smul (dot w (cross y z)) x) (vadd (smul (dot w (cross z x)) y) (smul (dot w (cross x y)) z))) by (unfold vol; clearbody x y z w; clear; vring).
  split.
  - intros (i & j & k & (I1 & I2) & (J1 & J2) & (L1 & L2) & E). assert (Ew : w = vadd (smul i x) (vadd (smul j y) (smul k z))) by (unfold w; rewrite E; clearbody x y z; clear; vring).
    assert (E1 : dot w (cross y z) = i * vol) by (rewrite Ew; unfold vol; clearbody x y z; clear; vring). assert (E2 : dot w (cross z x) = j * vol) by (rewrite Ew; unfold vol; clearbody x y z; clear; vring). assert (E3 : dot w (cross x y) = k * vol) by (rewrite Ew; unfold vol; clearbody x y z; clear; vring). rewrite E1, E2, E3.
    assert (B : forall t, 0 <= t -> t <= 1 -> 0 <= t * vol /\ t * vol <= vol) by (intros t T1 T2; split; [apply Rmult_le_pos; lra|replace vol with (1 * vol) at 2 by ring; apply Rmult_le_compat_r; lra]). destruct (B i I1 I2), (B j J1 J2), (B k L1 L2). repeat split; assumption.
  - intros (H1 & H2 & H3 & H4 & H5 & H6 & _). exists (dot w (cross y z) / vol), (dot w (cross z x) / vol), (dot w (cross x y) / vol). split; [apply C; auto|]. split; [apply C; auto|]. split; [apply C; auto|].
    assert (Ew : w = smul (/ vol) (smul vol w)) by (clearbody w; destruct w as [a1 a2 a3]; unfold smul; cbn [vx vy vz]; f_equal; field; lra). rewrite W in Ew. transitivity (vadd o w); [unfold w; clear; vring|]. f_equal. rewrite Ew at 1. unfold Rdiv. generalize (dot w (cross y z)) (dot w (cross z x)) (dot w (cross x y)) (/ vol). clearbody x y z. clear. intros. vring.
Qed.
Lemma beside_parts c1 c2 p : c1 <> c2 -> let d := vsub c2 c1 in let ht := norm d in
  forall t w, beside c1 c2 t w p <-> t = dot (vsub p c1) (axis c1 c2) / ht /\ w = vsub (vsub p c1) (smul (dot (vsub p c1) (axis c1 c2)) (axis c1 c2)).
Proof.
  intros H d ht t w. pose proof (norm_nz _ (vsub_nz _ _ H)) as N. fold d in N. fold ht in N. assert (Hd : dot d d = ht * ht) by (unfold ht; rewrite norm_sq; reflexivity). assert (Ax : axis c1 c2 = smul (/ ht) d) by reflexivity. rewrite Ax. unfold beside. fold d. set (v := vsub p c1).
  assert (Dv : dot v (smul (/ ht) d) = dot v d / ht) by (unfold Rdiv; generalize (/ ht); clearbody v d; clear; intros; vring). rewrite Dv.
  split.
  - intros (E & O). assert (Ev : v = vadd (smul t d) w) by (unfold v; rewrite E; clearbody d; clear; vring). assert (Et : dot v d = t * (ht * ht)). { rewrite Ev. transitivity (t * dot d d + dot w d); [clear; vring|]. rewrite Hd, O. ring. }
    rewrite Et. assert (T : t * (ht * ht) / ht / ht = t) by (field; lra). split; [symmetry; exact T|]. replace (smul (t * (ht * ht) / ht) (smul (/ ht) d)) with (smul t d). { rewrite Ev. clear. vring. } { clear - N. destruct d as [a b c]. unfold smul. cbn [vx vy vz]. f_equal; field; lra. }
  - intros (-> & ->). split.
    + transitivity (vadd c1 v); [unfold v; clear; vring|]. set (s := dot v d). replace (smul (s / ht) (smul (/ ht) d)) with (smul (s / ht / ht) d) by (unfold Rdiv; generalize (/ ht); clear; intros; vring). generalize (s / ht / ht). clear. clearbody v d. intros. vring.
    + transitivity (dot v d - dot v d / ht * / ht * dot d d); [generalize (dot v d / ht) (/ ht); clear; clearbody v d; intros; vring|]. rewrite Hd. field. lra.
Qed.
Lemma beside_norm c1 c2 p : c1 <> c2 -> norm (vsub (vsub p c1) (smul (dot (vsub p c1) (axis c1 c2)) (axis c1 c2))) = norm (cross (vsub p c1) (axis c1 c2)).
Proof.
  intros H. assert (U : norm2 (axis c1 c2) = 1) by (rewrite <- norm_sq; unfold axis; rewrite (normalized_unit _ (vsub_nz _ _ H)); ring). unfold norm. f_equal. rewrite lagrange, U. set (v := vsub p c1). set (n := axis c1 c2) in *. transitivity (norm2 v - 2 * (dot v n * dot v n) + dot v n * dot v n * norm2 n); [generalize v n; clear; vring|]. rewrite U. ring.
Qed.
Lemma holds_cyl c1 c2 r p : c1 <> c2 -> holds (Cyl c1 c2 r) p <-> inside (Cyl c1 c2 r) p 0 = true.
Proof.
  intros P. rewrite (inside_constraints (Cyl c1 c2 r) p 0 I P). cbn [holds constraints]. rewrite !Forall_cons_iff. assert (Forall (fun f : vec -> R => f p <= - 0) [] <-> True) as -> by (split; auto). pose proof (beside_parts c1 c2 p P) as Bp. cbn zeta in Bp. pose proof (norm_nz _ (vsub_nz _ _ P)) as N. pose proof (beside_norm c1 c2 p P) as Bn.
  replace (dot (vsub p c1) (vopp (axis c1 c2))) with (- dot (vsub p c1) (axis c1 c2)) by (generalize (axis c1 c2); clear; intros; vring). set (s := dot (vsub p c1) (axis c1 c2)) in *. set (ht := norm (vsub c2 c1)) in *.
  pose proof (fraction s ht N) as C.
  split.
  - intros (t & w & Ht & Hb & Hw). apply Bp in Hb. destruct Hb as (-> & ->). rewrite Bn in Hw. apply C in Ht. repeat split; lra.
  - intros (H1 & H2 & H3 & _). exists (s / ht), (vsub (vsub p c1) (smul s (axis c1 c2))). split; [apply C; lra|]. split; [apply Bp; auto|]. rewrite Bn. lra.
Qed.
Lemma holds_primitive s p : primitive s -> proper s -> holds s p <-> inside s p 0 = true.
Proof.
  destruct s as [c r|mn mx|o a b c|c1 c2 r|c1 c2 r a|c abc|c e n ap|A B|A B|A B|A B]; cbn [primitive]; intros T P; try contradiction.
  - cbn [holds inside]. rewrite le_true. unfold distance. split; lra.
  - cbn [holds inside]. rewrite !andb_true_iff, !le_true. unfold between. split; intros H; repeat split; lra.
  - apply holds_para, P.
  - apply holds_cyl, P.
Qed.

(** ** padding *)
Lemma prim_in s p pad q : primitive s -> proper s -> inside s p pad = true -> distance p q <= pad -> holds s q.
Proof.
  intros T P H D. apply (holds_primitive s q T P), (inside_constraints s q 0 T P). apply (inside_constraints s p pad T P) in H. rewrite Forall_forall in *. intros f Hf. specialize (H f Hf). pose proof (constraints_lip s f P Hf p q). lra.
Qed.
Lemma prim_out s p pad q : primitive s -> proper s -> holds s q -> distance p q <= pad -> inside s p (- pad) = true.
Proof.
  intros T P H D. apply (inside_constraints s p (- pad) T P). apply (holds_primitive s q T P), (inside_constraints s q 0 T P) in H. rewrite Forall_forall in *. intros f Hf. specialize (H f Hf). pose proof (constraints_lip s f P Hf q p) as L. rewrite (distance_sym q p) in L. lra.
Qed.
Lemma padding s : simple s -> proper s -> forall p pad q, distance p q <= pad -> (inside s p pad = true -> holds s q) /\ (holds s q -> inside s p (- pad) = true).
Proof.
  assert (G : forall s, primitive s -> proper s -> forall p pad q, distance p q <= pad -> (inside s p pad = true -> holds s q) /\ (holds s q -> inside s p (- pad) = true)).
  { intros t T P p pad q D. split; intros H; [eapply prim_in; eassumption|eapply prim_out; eassumption]. }
  induction s as [c r|mn mx|o a b c|c1 c2 r|c1 c2 r a|c abc|c e n ap|A IHA B IHB|A IHA B IHB|A IHA B IHB|A IHA B IHB]; cbn [simple]; intros S P; try contradiction; try (apply G; [exact I|exact P]);
    destruct S as (SA & SB); destruct P as (PA & PB); intros p pad q D; specialize (IHA SA PA p pad q D); specialize (IHB SB PB p pad q D); destruct IHA as (A1 & A2), IHB as (B1 & B2); cbn [inside holds].
  - rewrite !orb_true_iff. tauto.
  - rewrite !andb_true_iff. tauto.
  - rewrite Ropp_involutive, !andb_true_iff, !negb_true_iff. split; intros (H1 & H2); split; auto.
    + intros H. apply B2 in H. congruence.
    + destruct (inside B p pad) eqn:E; [|reflexivity]. destruct (H2 (B1 eq_refl)).
Qed.
