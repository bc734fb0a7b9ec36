(** Random packings of clumps: what is placed. *)
From Coq Require Import Reals List ZArith Bool Lra Lia Psatz.
From Verif Require Import Vec_Model Vec_Proofs Cloud_Model Cloud_Spec Cloud_Proofs Cloud_Proofs2 Spack_Model Spack_Spec Spack_Proofs Spack_Proofs2 Pred_Proofs.
From Verif Require Import Ccloud_Model Ccloud_Spec.
Import ListNotations.
Local Open Scope R_scope.

Lemma scan_free {A} (f : A -> verdict) l : scan f l = Free -> forall a, In a l -> f a = Free.
Proof. induction l as [|b l IH]; intros H a I; [destruct I|]. cbn [scan] in H. destruct (f b) eqn:E; try discriminate. destruct I as [<-|I]; [exact E|apply IH; assumption]. Qed.
Lemma below_some v y : below_opt (Some v) y = false -> y <= v.
Proof. cbn [below_opt]. intros H. apply ltb_false. exact H. Qed.
Lemma sq_norm_ge v y : y ^ 2 <= norm2 v -> y <= norm v.
Proof. intros H. apply Rle_trans with (Rabs y); [apply Rle_abs|]. unfold norm. rewrite <- sqrt_Rsqr_abs. apply sqrt_le_1_alt. unfold Rsqr. lra. Qed.
Lemma norm_lt_sq v y : norm v < y -> norm2 v < y ^ 2.
Proof. intros H. rewrite <- norm_sq. pose proof (sqrt_pos (norm2 v)) as P. fold (norm v) in P. replace (y ^ 2) with (y * y) by ring. apply Rmult_le_0_lt_compat; assumption. Qed.

Section Test.
Variable past : list sph -> option sph.
(** a distance over the translations in K *)
Variable dist2 : vec -> vec -> option R.
Variable K : vec -> Prop.
Hypothesis dist_some : forall a b, exists d, dist2 a b = Some d /\ forall o, K o -> d <= norm2 (vsub (vadd a o) b).

Definition bounded (i : info) (C : list sph) : Prop := forall t, In t C -> norm (vsub (c t) (center i)) + r t <= irad i.
Lemma far_not a b o y : K o -> below_opt (dist2 a b) (y ^ 2) = false -> y <= norm (vsub (vadd a o) b).
Proof. intros Ko H. destruct (dist_some a b) as (d & E & D). rewrite E in H. apply below_some in H. apply sq_norm_ge. specialize (D o Ko). lra. Qed.
Lemma dist_tri a b x : norm (vsub a b) <= norm (vsub a x) + norm (vsub x b).
Proof. replace (vsub a b) with (vadd (vsub a x) (vsub x b)) by (generalize a b x; clear; intros; vring). apply norm_triangle. Qed.
Lemma norm_swap a b : norm (vsub a b) = norm (vsub b a).
Proof. unfold norm. f_equal. generalize a b. clear. intros [x y z] [x' y' z']. unfold norm2, dot, vsub. cbn [vx vy vz]. ring. Qed.
Lemma against_free l C pos rad i D : against past dist2 l C pos rad i = Free -> (forall s, In s C -> norm (vsub (c s) pos) + r s <= rad) -> bounded i D -> maxId i = (minId i + length D)%nat ->
  (forall j t, nth_error D j = Some t -> nth_error l (minId i + j) = Some t) -> forall s t o, K o -> In s C -> In t D -> r s + r t <= norm (vsub (vadd (c s) o) (c t)).
Proof.
  intros H Bc Bd Ml Nt s t o Ko Is It. apply Rnot_lt_le. intros L. unfold against in H. specialize (Bc s Is). specialize (Bd t It).
  destruct (below_opt (dist2 pos (center i)) ((rad + irad i) ^ 2)) eqn:E1.
  - destruct (existsb (fun s => below_opt (dist2 (c s) (center i)) ((r s + irad i) ^ 2)) C) eqn:E2.
    + apply (scan_free _ _) with (a := s) in H; [|exact Is]. apply In_nth_error in It as [j Ej]. assert (J : (j < length D)%nat) by (apply nth_error_Some; congruence).
      apply (scan_free _ _) with (a := (minId i + j)%nat) in H; [|apply in_seq; lia]. unfold read in H. rewrite (Nt j t Ej) in H.
      destruct (below_opt (dist2 (c s) (c t)) ((r s + r t) ^ 2)) eqn:E3; [discriminate|]. pose proof (far_not _ _ o _ Ko E3). lra.
    + assert (N : below_opt (dist2 (c s) (center i)) ((r s + irad i) ^ 2) = false).
      { destruct (below_opt (dist2 (c s) (center i)) ((r s + irad i) ^ 2)) eqn:E3; [|reflexivity]. assert (X : existsb (fun s => below_opt (dist2 (c s) (center i)) ((r s + irad i) ^ 2)) C = true) by (apply existsb_exists; exists s; auto). congruence. }
      pose proof (far_not _ _ o _ Ko N) as F. pose proof (dist_tri (vadd (c s) o) (center i) (c t)) as T. lra.
  - pose proof (far_not _ _ o _ Ko E1) as F. pose proof (dist_tri (vadd pos o) (center i) (vadd (c s) o)) as T. pose proof (dist_tri (vadd (c s) o) (center i) (c t)) as T2.
    assert (Sw : norm (vsub (vadd pos o) (vadd (c s) o)) = norm (vsub (c s) pos)). { rewrite norm_swap. f_equal. generalize (c s) pos o. clear. intros. vring. }
    rewrite Sw in T. lra.
Qed.
End Test.

(** ** a copy *)
Lemma rot_identity o v : qnorm2 o = 0 -> qrot o v = v.
Proof.
  intros H. destruct o as [w [x y z]]. unfold qnorm2, norm2, dot in H. cbn [qw qv vx vy vz] in H.
  pose proof (Rle_0_sqr w) as A. pose proof (Rle_0_sqr x) as B. pose proof (Rle_0_sqr y) as D. pose proof (Rle_0_sqr z) as E. unfold Rsqr in *.
  assert (w = 0) by (apply Rsqr_0_uniq; unfold Rsqr; lra). assert (x = 0) by (apply Rsqr_0_uniq; unfold Rsqr; lra). assert (y = 0) by (apply Rsqr_0_uniq; unfold Rsqr; lra). assert (z = 0) by (apply Rsqr_0_uniq; unfold Rsqr; lra). subst.
  destruct v as [p q s]. unfold qrot, vadd, smul, cross. cbn [qw qv vx vy vz]. f_equal; ring.
Qed.
Lemma normalized o : exists u, qnorm2 u = 1 /\ forall v, qrot (qnormalize o) v = qrot u v.
Proof.
  destruct (Req_dec (qnorm2 o) 0) as [Z|N].
  - exists qid. split; [unfold qid, qnorm2, norm2, dot, vzero; cbn [qw qv vx vy vz]; ring|]. intros v. rewrite qrot_id. apply rot_identity. unfold qnormalize, qscale. rewrite Z, sqrt_0.
    assert (I : qnorm2 (Q (/ 0 * qw o) (smul (/ 0) (qv o))) = (/ 0 * / 0) * qnorm2 o) by (destruct o as [w [x y z]]; unfold qnorm2, norm2, dot, smul; cbn [qw qv vx vy vz]; ring). rewrite I, Z. ring.
  - exists (qnormalize o). split; [|reflexivity]. unfold qnormalize. assert (P : 0 < qnorm2 o). { destruct o as [w [x y z]]. unfold qnorm2, norm2, dot in *. cbn [qw qv vx vy vz] in *. pose proof (Rle_0_sqr w). pose proof (Rle_0_sqr x). pose proof (Rle_0_sqr y). pose proof (Rle_0_sqr z). unfold Rsqr in *. lra. }
    assert (I : forall k, qnorm2 (qscale k o) = k * k * qnorm2 o) by (intros k; destruct o as [w [x y z]]; unfold qnorm2, qscale, norm2, dot, smul; cbn [qw qv vx vy vz]; ring). rewrite I. pose proof (sqrt_lt_R0 _ P) as Sq. transitivity (/ sqrt (qnorm2 o) * / sqrt (qnorm2 o) * (sqrt (qnorm2 o) * sqrt (qnorm2 o))); [rewrite sqrt_sqrt by lra; reflexivity|field; lra].
Qed.
Lemma bound_fold l : forall m, m <= fold_left (fun m a => Rmax m (norm (c a) + r a)) l m /\ forall a, In a l -> norm (c a) + r a <= fold_left (fun m a => Rmax m (norm (c a) + r a)) l m.
Proof.
  induction l as [|b l IH]; intros m; cbn [fold_left]; [split; [lra|intros a []]|]. destruct (IH (Rmax m (norm (c b) + r b))) as [A B]. pose proof (Rmax_l m (norm (c b) + r b)). pose proof (Rmax_r m (norm (c b) + r b)). split; [lra|]. intros a [<-|I]; [lra|apply B; exact I].
Qed.
Lemma copy_spec rnd q s k : exists o, qnorm2 o = 1 /\ Forall2 (fun a b => r b = r a /\ c b = vadd (qrot o (c a)) (position rnd q k)) (pack s) (copy rnd q s k).
Proof.
  destruct (normalized (Q (rnd (3 + k)%nat) (V (rnd (4 + k)%nat) (rnd (5 + k)%nat) (rnd (6 + k)%nat)))) as (o & U & E). exists o. split; [exact U|]. unfold copy, translate, rotateAroundOrigin. cbn [pack]. rewrite map_map. fold (orientation rnd k) in E.
  induction (pack s) as [|a l IH]; cbn [map]; constructor; [|exact IH]. split; [reflexivity|]. cbn [at_place c]. rewrite E. reflexivity.
Qed.
Lemma copy_bounded rnd q s k a : In a (copy rnd q s k) -> norm (vsub (c a) (position rnd q k)) + r a <= boundRad s.
Proof.
  destruct (copy_spec rnd q s k) as (o & U & F). intros I. assert (X : exists b, In b (pack s) /\ r a = r b /\ c a = vadd (qrot o (c b)) (position rnd q k)).
  { clear U. induction F as [|x y l l' H F IH]; [destruct I|]. destruct I as [<-|I]; [exists x; split; [left; reflexivity|exact H]|]. destruct (IH I) as (b & Ib & Hb). exists b. split; [right; exact Ib|exact Hb]. }
  destruct X as (b & Ib & -> & ->). replace (vsub (vadd (qrot o (c b)) (position rnd q k)) (position rnd q k)) with (qrot o (c b)) by (generalize (qrot o (c b)); generalize (position rnd q k); clear; intros; vring).
  rewrite norm_qrot by exact U. unfold boundRad. apply (proj2 (bound_fold (pack s) 0)). exact Ib.
Qed.
Lemma copy_congruent rnd q s k g : In g (given q) -> recenter g = s -> congruent (pack g) (copy rnd q s k).
Proof.
  intros I <-. destruct (copy_spec rnd q (recenter g) k) as (o & U & F). exists o, (vadd (qrot o (midPt (pack g))) (position rnd q k)). split; [exact U|]. assert (Ep : pack (recenter g) = map (fun a => at_place a (vadd (c a) (midPt (pack g)))) (pack g)) by reflexivity. rewrite Ep in F. clear Ep. revert F. generalize (midPt (pack g)) (copy rnd q (recenter g) k) (position rnd q k). intros m C x. revert C.
  induction (pack g) as [|a l IH]; intros C F; cbn [map] in F; inversion F as [|u b l1 l2 H F' E1 E2]; subst; constructor; [|apply IH; exact F']. destruct H as [H1 H2]. split; [exact H1|]. rewrite H2. cbn [at_place c]. rewrite qrot_lin. generalize (qrot o (c a)) (qrot o m) x. clear. intros. vring.
Qed.

(** ** the invariant *)
Definition tracks (p0 : list sph) (G : list (list sph)) (infos : list info) : Prop :=
  length infos = length G /\ forall i C inf, nth_error G i = Some C -> nth_error infos i = Some inf ->
    minId inf = (length p0 + length (concat (firstn i G)))%nat /\ maxId inf = (minId inf + length C)%nat /\ bounded inf C.
Lemma concat_at (p0 : list sph) G i C j t : nth_error G i = Some C -> nth_error C j = Some t -> nth_error (p0 ++ concat G) (length p0 + length (concat (firstn i G)) + j) = Some t.
Proof.
  intros Ei Ej. apply nth_error_split in Ei as (A & B & -> & <-). rewrite firstn_app, Nat.sub_diag, firstn_all. cbn [firstn]. rewrite app_nil_r, concat_app. cbn [concat].
  rewrite nth_error_app2 by lia. rewrite nth_error_app2 by lia. replace (length p0 + length (concat A) + j - length p0 - length (concat A))%nat with j by lia. rewrite nth_error_app1; [exact Ej|]. apply nth_error_Some. congruence.
Qed.
Lemma nth_snoc {A} (l : list A) x i y : nth_error (l ++ [x]) i = Some y -> nth_error l i = Some y \/ (i = length l /\ y = x).
Proof.
  intros H. destruct (lt_dec i (length l)) as [L|L]; [left; rewrite nth_error_app1 in H by exact L; exact H|right]. rewrite nth_error_app2 in H by lia. destruct (i - length l)%nat as [|n] eqn:E; [split; [lia|cbn in H; congruence]|]. cbn [nth_error] in H. destruct n; discriminate.
Qed.
Lemma firstn_le {A} (l l' : list A) i : (i <= length l)%nat -> firstn i (l ++ l') = firstn i l.
Proof. intros H. rewrite firstn_app. replace (i - length l)%nat with O by lia. cbn [firstn]. apply app_nil_r. Qed.
Lemma tracks_snoc p0 G infos C inf : tracks p0 G infos -> minId inf = length (p0 ++ concat G) -> maxId inf = (minId inf + length C)%nat -> bounded inf C -> tracks p0 (G ++ [C]) (infos ++ [inf]).
Proof.
  intros [L T] Mi Ma B. split; [rewrite !app_length; cbn [length]; lia|]. intros i D x ED Ex. apply nth_snoc in ED as [ED|[-> ->]].
  - assert (I : (i < length G)%nat) by (apply nth_error_Some; congruence). apply nth_snoc in Ex as [Ex|[-> ->]]; [|lia]. rewrite firstn_le by lia. apply T; assumption.
  - apply nth_snoc in Ex as [Ex|[_ ->]]; [assert (length G < length infos)%nat by (apply nth_error_Some; congruence); lia|]. rewrite firstn_le by lia. rewrite firstn_all. rewrite app_length in Mi. auto.
Qed.
Definition offsets (q : cargs) (o : vec) : Prop := if cperi q then exists k, o = offset (vsub (cmx q) (cmn q)) k else o = vzero.
Definition spread (q : cargs) (a b : sph) : Prop := forall o, offsets q o -> r a + r b <= norm (vsub (vadd (c a) o) (c b)).
Definition wide (q : cargs) : Prop := cperi q = true -> vx (cmn q) < vx (cmx q) /\ vy (cmn q) < vy (cmx q) /\ vz (cmn q) < vz (cmx q).
Definition good (q : cargs) (p0 : list sph) (n : nat) (l : list sph) (G : list (list sph)) : Prop :=
  l = p0 ++ concat G /\ length G = n /\ copies q G /\ (cperi q = false -> Forall (Forall (inside q)) G) /\ (wide q -> between_clumps (spread q) G).

Lemma outside_false q x rad : outside q x rad = false -> between (vx (cmn q)) (vx (cmx q)) (vx x) rad /\ between (vy (cmn q)) (vy (cmx q)) (vy x) rad /\ between (vz (cmn q)) (vz (cmx q)) (vz x) rad.
Proof.
  unfold outside. intros H. apply negb_false_iff in H. repeat (apply andb_true_iff in H as [H ?]). repeat match goal with E : leb _ _ = true |- _ => apply leb_true in E end. unfold between. lra.
Qed.
Lemma norm_le_rad_x x y rad b : norm (vsub x y) + rad <= b -> Rabs (vx x - vx y) + rad <= b /\ Rabs (vy x - vy y) + rad <= b /\ Rabs (vz x - vz y) + rad <= b.
Proof.
  intros H. assert (A : forall t, t * t <= norm2 (vsub x y) -> Rabs t <= norm (vsub x y)) by (intros t Ht; unfold norm; rewrite <- sqrt_Rsqr_abs; apply sqrt_le_1_alt; exact Ht).
  assert (E : norm2 (vsub x y) = (vx x - vx y) * (vx x - vx y) + (vy x - vy y) * (vy x - vy y) + (vz x - vz y) * (vz x - vz y)) by reflexivity.
  pose proof (Rle_0_sqr (vx x - vx y)). pose proof (Rle_0_sqr (vy x - vy y)). pose proof (Rle_0_sqr (vz x - vz y)). unfold Rsqr in *.
  pose proof (A (vx x - vx y) ltac:(lra)). pose proof (A (vy x - vy y) ltac:(lra)). pose proof (A (vz x - vz y) ltac:(lra)). lra.
Qed.
Lemma test_inside past q l infos C pos rad : cperi q = false -> test past q l infos C pos rad = Free -> (forall s, In s C -> norm (vsub (c s) pos) + r s <= rad) -> Forall (inside q) C.
Proof.
  intros P H B. unfold test in H. rewrite P in H. cbn [negb] in H. apply Forall_forall. intros s Is. destruct (outside q pos rad) eqn:O.
  - destruct (existsb (fun s => outside q (c s) (r s)) C) eqn:E; cbn [andb] in H; [discriminate|]. assert (X : outside q (c s) (r s) = false). { destruct (outside q (c s) (r s)) eqn:E2; [|reflexivity]. assert (Y : existsb (fun s => outside q (c s) (r s)) C = true) by (apply existsb_exists; exists s; auto). congruence. }
    exact (outside_false _ _ _ X).
  - apply outside_false in O. specialize (B s Is). apply norm_le_rad_x in B. unfold inside, between in *.
    pose proof (Rle_abs (vx (c s) - vx pos)). pose proof (Rle_abs (vy (c s) - vy pos)). pose proof (Rle_abs (vz (c s) - vz pos)).
    pose proof (Rle_abs (- (vx (c s) - vx pos))) as A1. pose proof (Rle_abs (- (vy (c s) - vy pos))) as A2. pose proof (Rle_abs (- (vz (c s) - vz pos))) as A3. rewrite Rabs_Ropp in A1, A2, A3. lra.
Qed.
Lemma plain_some a b : exists d, plain a b = Some d /\ forall o, o = vzero -> d <= norm2 (vsub (vadd a o) b).
Proof. eexists. split; [reflexivity|]. intros o ->. rewrite vadd_0_r. lra. Qed.
Lemma peri_some cs a b : 0 < vx cs -> 0 < vy cs -> 0 < vz cs -> exists d, periPtDistSq cs a b = Some d /\ forall o, (exists k, o = offset cs k) -> d <= norm2 (vsub (vadd a o) b).
Proof.
  intros X Y Z. unfold periPtDistSq. assert (N : forall t, 0 < t -> is_zero t = false) by (intros t T; apply is_zero_false; lra). rewrite !N by assumption. cbn [orb]. eexists. split; [reflexivity|].
  intros o [[[i j] k] ->]. assert (W : forall s x y n, 0 < s -> 0 <= Rmin (cellWrapRel x y (y + s)) (cellWrapRel y x (x + s)) <= Rabs (x + s * IZR n - y)).
  { intros s x y n P. pose proof (wrap_axis_min s x y n ltac:(lra)) as H. unfold wrap_axis in H. rewrite N in H by exact P. rewrite (Rmult_comm s). exact H. }
  rewrite !norm2_xyz. unfold offset, vsub, vadd. cbn [vx vy vz]. apply Rplus_le_compat; [apply Rplus_le_compat|].
  - apply Cloud_Proofs2.sq_le; apply (W (vx cs) (vx a) (vx b) i X).
  - apply Cloud_Proofs2.sq_le; apply (W (vy cs) (vy a) (vy b) j Y).
  - apply Cloud_Proofs2.sq_le; apply (W (vz cs) (vz a) (vz b) k Z).
Qed.
Lemma test_spread past q l infos C pos rad p0 G : wide q -> test past q l infos C pos rad = Free -> (forall s, In s C -> norm (vsub (c s) pos) + r s <= rad) -> l = p0 ++ concat G -> tracks p0 G infos ->
  forall i D s t, nth_error G i = Some D -> In s C -> In t D -> spread q s t.
Proof.
  intros W H B El [Len T] i D s t Ei Is It. unfold spread, offsets. assert (I : (i < length infos)%nat) by (rewrite Len; apply nth_error_Some; congruence). apply nth_error_Some in I. destruct (nth_error infos i) as [inf|] eqn:Ef; [clear I|congruence].
  destruct (T i D inf Ei Ef) as (Mi & Ma & Bd). assert (Nt : forall j x, nth_error D j = Some x -> nth_error l (minId inf + j) = Some x) by (intros j x Ej; rewrite El, Mi; apply concat_at with D; assumption).
  assert (If : In inf infos) by (apply nth_error_In with i; exact Ef). unfold test in H. destruct (cperi q) eqn:P; cbn [negb] in H; intros o Ko.
  - destruct (W P) as (Wx & Wy & Wz). apply (scan_free _ _) with (a := inf) in H; [|exact If].
    apply (against_free past (periPtDistSq (vsub (cmx q) (cmn q))) (fun o => exists k, o = offset (vsub (cmx q) (cmn q)) k)) with (l := l) (C := C) (pos := pos) (rad := rad) (i := inf) (D := D); try assumption.
    intros a b. apply peri_some; unfold vsub; cbn [vx vy vz]; lra.
  - destruct (outside q pos rad && existsb (fun s => outside q (c s) (r s)) C); [discriminate|]. apply (scan_free _ _) with (a := inf) in H; [|exact If].
    apply (against_free past plain (fun o => o = vzero)) with (l := l) (C := C) (pos := pos) (rad := rad) (i := inf) (D := D); try assumption. intros a b. apply plain_some.
Qed.
Lemma tries_spec rnd past q l infos s : forall n k C pos k', tries rnd past n q l infos s k = Placed C pos k' -> exists k0, C = copy rnd q s k0 /\ pos = position rnd q k0 /\ test past q l infos C pos (boundRad s) = Free.
Proof.
  induction n as [|n IH]; intros k C pos k' H; [discriminate|]. cbn [tries] in H. destruct (test past q l infos (copy rnd q s k) (position rnd q k) (boundRad s)) eqn:E; [|exact (IH _ _ _ _ H)|discriminate]. injection H as <- <- _. exists k. auto.
Qed.
Lemma forall2_map {A B C} (P : A -> C -> Prop) (f : B -> C) l l' : Forall2 (fun a b => P a (f b)) l l' -> Forall2 P l (map f l').
Proof. induction 1; cbn [map]; constructor; assumption. Qed.
Lemma good_step q p0 n l G C : good q p0 n l G -> (exists g, In g (given q) /\ congruent (pack g) C) -> (cperi q = false -> Forall (inside q) C) ->
  (wide q -> forall i D s t, nth_error G i = Some D -> In s C -> In t D -> spread q s t) -> good q p0 (S n) (l ++ map (numbered n) C) (G ++ [map (numbered n) C]).
Proof.
  intros (El & Ln & Co & Ins & Sp) (g & Ig & o & x & U & F) In_ Ap. split; [rewrite concat_app, El, app_assoc; cbn [concat]; rewrite app_nil_r; reflexivity|]. split; [rewrite app_length; cbn [length]; lia|]. split; [|split].
  - intros i D ED. apply nth_snoc in ED as [ED|[-> ->]]; [exact (Co i D ED)|]. rewrite Ln. split; [apply Forall_map; apply Forall_forall; reflexivity|]. exists g. split; [exact Ig|]. exists o, x. split; [exact U|]. apply forall2_map. exact F.
  - intros P. apply Forall_app. split; [exact (Ins P)|]. constructor; [|constructor]. apply Forall_map. exact (In_ P).
  - intros W i j A D a b L EA ED Ia Ib. apply nth_snoc in ED as [ED|[-> ->]].
    + apply nth_snoc in EA as [EA|[-> ->]]; [exact (Sp W i j A D a b L EA ED Ia Ib)|]. assert (j < length G)%nat by (apply nth_error_Some; congruence). lia.
    + apply nth_snoc in EA as [EA|[E _]]; [|lia]. apply in_map_iff in Ib as (b' & <- & Ib). exact (Ap W i A b' a EA Ib Ia).
Qed.
Lemma given_choice q x s : nth_error (map recenter (given q)) x = Some s -> exists g, In g (given q) /\ recenter g = s.
Proof. intros H. apply nth_error_In, in_map_iff in H as (g & E & I). exists g. auto. Qed.
Lemma loop_spec rnd past q p0 att : forall fuel n l infos k G m l', good q p0 n l G -> tracks p0 G infos -> loop rnd past fuel att q n l infos k = LReturns m l' -> exists G', good q p0 m l' G'.
Proof.
  induction fuel as [|f IH]; intros n l infos k G m l' Gd T H; [discriminate|]. cbn [loop] in H. destruct ((Z.of_nat n <? cnum q)%Z || (cnum q <? 0)%Z); [|injection H as <- <-; exists G; exact Gd].
  destruct (nth_error (map recenter (given q)) (choose (rnd k) (length (given q)))) as [s|] eqn:Es; [|discriminate]. destruct (tries rnd past att q l infos s (S k)) as [C pos k'| |] eqn:Et; [|injection H as <- <-; exists G; exact Gd|discriminate].
  apply given_choice in Es as (g & Ig & Eg). apply tries_spec in Et as (k0 & -> & -> & Tf).
  assert (B : forall a, In a (copy rnd q s k0) -> norm (vsub (c a) (position rnd q k0)) + r a <= boundRad s) by (intros a; apply copy_bounded).
  refine (IH _ _ _ _ _ _ _ (good_step q p0 n l G (copy rnd q s k0) Gd _ _ _) _ H).
  - exists g. split; [exact Ig|apply copy_congruent; assumption].
  - intros P. exact (test_inside past q l infos _ _ _ P Tf B).
  - intros W i D a t. destruct Gd as (El & _). exact (test_spread past q l infos _ _ _ p0 G W Tf B El T i D a t).
  - apply tracks_snoc; [exact T| | |]; destruct Gd as (El & _); cbn [minId maxId center irad].
    + rewrite El. reflexivity.
    + rewrite map_length. reflexivity.
    + intros t It. apply in_map_iff in It as (b & <- & Ib). exact (B b Ib).
Qed.
Lemma start_good q p0 : good q p0 0 p0 [].
Proof. split; [cbn [concat]; rewrite app_nil_r; reflexivity|]. split; [reflexivity|]. split; [intros i C E; destruct i; discriminate|]. split; [constructor|]. intros W i j A D a b L EA. destruct i; discriminate. Qed.
Lemma start_tracks p0 : tracks p0 [] []. Proof. split; [reflexivity|]. intros i C inf E. destruct i; discriminate. Qed.
Lemma make_spec rnd past fuel q s n s' : makeClumpCloud rnd past fuel q s = CReturns n s' -> exists G, good q (pack s) n (pack s') G /\ cellSize s' = (if cperi q then vsub (cmx q) (cmn q) else cellSize s) /\ isPeriodic s' = isPeriodic s.
Proof.
  unfold makeClumpCloud. destruct (loop rnd past fuel (S maxTries) q 0 (pack s) [] 0) as [m l| |] eqn:E; try discriminate. intros [= <- <-]. destruct (loop_spec rnd past q (pack s) (S maxTries) fuel 0 (pack s) [] 0 [] m l (start_good q (pack s)) (start_tracks (pack s)) E) as [G Gd]. exists G. cbn [pack cellSize isPeriodic]. auto.
Qed.
Lemma spread_clear q a b : cperi q = false -> (spread q a b <-> clear a b).
Proof. intros P. unfold spread, offsets, clear. rewrite P. split; [intros H; specialize (H vzero eq_refl); rewrite vadd_0_r in H; exact H|]. intros H o ->. rewrite vadd_0_r. exact H. Qed.
Lemma spread_periodic q a b : cperi q = true -> spread q a b -> clear_periodic (vsub (cmx q) (cmn q)) a b.
Proof. intros P H k. unfold spread, offsets in H. rewrite P in H. unfold clear. rewrite image_r, image_c. apply H. exists k. reflexivity. Qed.
