(** Concrete solids, and solids for which predicates fail. *)
From Coq Require Import List Bool Reals Lra.
From Verif Require Import Vec_Model Vec_Proofs Pred_Model Pred_Spec Pred_Proofs Pred_Proofs2.
Import ListNotations.
Local Open Scope R_scope.

Lemma le_intro a b : a <= b -> le a b = true. Proof. apply le_true. Qed.
Lemma le_no a b : b < a -> le a b = false. Proof. intros H. unfold le. destruct (Rle_dec a b); [lra|reflexivity]. Qed.
Lemma lt_intro a b : a < b -> lt a b = true. Proof. apply lt_true. Qed.
Lemma lt_no a b : b <= a -> lt a b = false. Proof. intros H. unfold lt. destruct (Rlt_dec a b); [lra|reflexivity]. Qed.
Lemma norm_x x : norm (V x 0 0) = Rabs x.
Proof. unfold norm, norm2, dot. cbn [vx vy vz]. replace (x * x + 0 * 0 + 0 * 0) with (Rsqr x) by (unfold Rsqr; ring). apply sqrt_Rsqr_abs. Qed.
Lemma norm_bound v r : 0 <= r -> norm2 v <= r * r -> norm v <= r.
Proof. intros R0 H. unfold norm. rewrite <- (sqrt_square r) by exact R0. apply sqrt_le_1_alt, H. Qed.

(** ** an ellipsoid: shrinking the axes is not shrinking the solid *)
Definition egg : solid := Ell vzero (V 2 1 1).
Lemma egg_proper : proper egg. Proof. cbn. lra. Qed.
Lemma egg_fits : fits egg (1 / 2). Proof. cbn. lra. Qed.
Lemma egg_bulge : inside egg (V (6 / 5) (3 / 10) 0) (1 / 2) = true /\ distance (V (6 / 5) (3 / 10) 0) (V (3 / 2) (7 / 10) 0) <= 1 / 2 /\ ~ holds egg (V (3 / 2) (7 / 10) 0).
Proof.
  split; [apply inside_ell; unfold vzero, sq; cbn [vx vy vz]; lra|]. split; [apply norm_bound; [lra|]; unfold norm2, dot, vsub; cbn [vx vy vz]; lra|]. cbn [egg holds]. unfold vzero, sq. cbn [vx vy vz]. lra.
Qed.
(** ** symmetric difference: the second solid is shrunk instead of enlarged *)
Definition lens : solid := Sym (Sphere vzero 2) (Sphere (V (3 / 2) 0 0) 1).
Lemma lens_proper : proper lens. Proof. cbn. auto. Qed.
Lemma lens_overlap : inside lens vzero 1 = true /\ distance vzero (V 1 0 0) <= 1 /\ ~ holds lens (V 1 0 0).
Proof.
  unfold lens. cbn [inside holds]. unfold distance, vzero, vsub. cbn [vx vy vz]. rewrite !Rminus_0_r, !norm_x. rewrite (le_intro (Rabs 0) (2 - 1)) by (rewrite Rabs_R0; lra). rewrite (le_no (Rabs (0 - 3 / 2))) by (rewrite Rabs_left; lra). split; [reflexivity|].
  replace (0 - 1) with (- (1)) by ring. rewrite Rabs_Ropp, Rabs_R1. split; [lra|]. intros [(_ & H)|(H & _)]; apply H; [rewrite Rabs_left; lra|lra].
Qed.
(** ** a notch: the distance of the wrong edge is used below the notch *)
Definition slit : solid := Notch vzero (V 0 0 1) (V 0 1 0) 1.
Lemma unit_z : normalized (V 0 0 1) = V 0 0 1.
Proof. unfold normalized. assert (E : norm (V 0 0 1) = 1) by (unfold norm, norm2, dot; cbn [vx vy vz]; replace (0 * 0 + 0 * 0 + 1 * 1) with 1 by ring; apply sqrt_1). rewrite E, Rinv_1. vring. Qed.
Lemma unit_y : normalized (V 0 1 0) = V 0 1 0.
Proof. unfold normalized. assert (E : norm (V 0 1 0) = 1) by (unfold norm, norm2, dot; cbn [vx vy vz]; replace (0 * 0 + 1 * 1 + 0 * 0) with 1 by ring; apply sqrt_1). rewrite E, Rinv_1. vring. Qed.
Lemma slit_frame : normalized (vsub (V 0 1 0) (smul (dot (V 0 0 1) (V 0 1 0)) (V 0 0 1))) = V 0 1 0.
Proof. replace (vsub (V 0 1 0) (smul (dot (V 0 0 1) (V 0 1 0)) (V 0 0 1))) with (V 0 1 0) by vring. apply unit_y. Qed.
Lemma slit_below : inside slit (V 0 (- 3 / 5) 0) 1 = true /\ distance (V 0 (- 3 / 5) 0) (V (- 1 / 10) (- 2 / 5) 0) <= 1 /\ ~ holds slit (V (- 1 / 10) (- 2 / 5) 0).
Proof.
  unfold slit. cbn [inside holds]. rewrite unit_z, slit_frame. unfold dot, cross, vsub, vzero. cbn [vx vy vz]. split; [|split].
  - rewrite le_no by lra. rewrite le_no by lra. rewrite le_no by lra. rewrite lt_no by lra. rewrite lt_no by lra. rewrite lt_intro by lra. apply le_intro. rewrite <- sqrt_1 at 1. apply sqrt_le_1_alt. lra.
  - apply norm_bound; [lra|]. unfold norm2, dot, vsub. cbn [vx vy vz]. lra.
  - intros H. apply H. lra.
Qed.
(** ** hyperboloid *)
Definition waist : solid := Hyp (V 0 0 (-1)) (V 0 0 1) 2 1.
Lemma waist_proper : proper waist. Proof. cbn [waist proper]. split; [intros E; injection E; lra|lra]. Qed.

(** ** a solid of every simple kind: a tube with a box cut out of it, joined with a parallelepiped *)
Definition tube : solid := Union (Diff (Cyl vzero (V 4 0 0) 2) (Box (V 3 (-1) (-1)) (V 5 1 1))) (Inter (Sphere (V 0 0 5) 3) (Para (V 0 0 5) (V 1 0 5) (V 0 1 5) (V 0 0 6))).
Lemma tube_proper : simple tube /\ proper tube.
Proof. split; [cbn [tube simple]; tauto|]. cbn [tube proper]. split; split; [unfold vzero; intros E; injection E; lra|exact I|exact I|]. vgoal. lra. Qed.
Lemma tube_inside : inside tube (V 1 0 0) 1 = true.
Proof.
  assert (P : V 0 0 0 <> V 4 0 0) by (intros E; injection E; lra). assert (H4 : norm (V 4 0 0) = 4) by (rewrite norm_x; apply Rabs_right; lra).
  unfold tube. cbn [inside]. apply orb_true_iff. left. apply andb_true_iff. split.
  - unfold vzero. rewrite (no_axis_false _ _ P). unfold along, axisDist. replace (vsub (V 4 0 0) (V 0 0 0)) with (V 4 0 0) by vring. rewrite H4. replace (cross (vsub (V 1 0 0) (V 0 0 0)) (vsub (V 1 0 0) (V 4 0 0))) with (V 0 0 0) by vring. rewrite norm_x, Rabs_R0. unfold dot. cbn [vx vy vz].
    rewrite lt_no by lra. rewrite lt_no by lra. cbn [orb]. rewrite lt_no by lra. reflexivity.
  - cbn [vx vy vz]. rewrite (le_no (3 + - (1)) 1) by lra. reflexivity.
Qed.

(** ** bounding boxes: [pad] larger than the axes *)
Definition ball : solid := Ell vzero (V 1 1 1).
Lemma ball_proper : proper ball. Proof. cbn. lra. Qed.
Lemma ball_outside : inside ball (V (3 / 2) 0 0) 3 = true /\ ~ in_box (aabb ball) (V (3 / 2) 0 0).
Proof. split; [apply inside_ell; unfold vzero, sq; cbn [vx vy vz]; lra|]. cbn. unfold between. lra. Qed.
(** ** left-handed parallelepipeds contain nothing *)
Lemma left_handed o a b c : dot (vsub a o) (cross (vsub b o) (vsub c o)) < 0 -> forall p pad, 0 <= pad -> inside (Para o a b c) p pad = false.
Proof.
  intros H p pad P. cbn [inside]. set (x := vsub a o) in *. set (y := vsub b o) in *. set (z := vsub c o) in *. set (n := para_out y z).
  destruct (negb (lt (- pad) (dot (vsub p o) n))) eqn:E1; [|reflexivity]. destruct (negb (lt (- pad) (dot (vsub p a) (vopp n)))) eqn:E2; [|reflexivity]. exfalso.
  apply negb_true_iff, lt_false in E1. apply negb_true_iff, lt_false in E2. assert (K : dot x n = dot (vsub p o) n + dot (vsub p a) (vopp n)) by (unfold x; generalize n; clear; intros; vring).
  assert (N : 0 < norm (cross y z)). { apply norm_nz. intros E. rewrite E in H. replace (dot x vzero) with 0 in H by (generalize x; clear; intros; vring). lra. }
  assert (L : dot x n = - (/ norm (cross y z) * dot x (cross y z))) by (unfold n, para_out, normalized; generalize (cross y z) (/ norm (cross y z)) x; clear; intros; vring).
  assert (0 < / norm (cross y z) * - dot x (cross y z)) by (apply Rmult_lt_0_compat; [apply Rinv_0_lt_compat, N|lra]). lra.
Qed.
Lemma corner o a b c : holds (Para o a b c) o.
Proof. cbn [holds]. exists 0, 0, 0. unfold between. repeat split; try lra. vring. Qed.
Definition mirrored : solid := Para vzero (V 0 1 0) (V 1 0 0) (V 0 0 1).
Lemma mirrored_empty : (forall p pad, 0 <= pad -> inside mirrored p pad = false) /\ holds mirrored vzero.
Proof. split; [apply left_handed; vgoal; lra|apply corner]. Qed.
(** ** a cylinder without length contains everything *)
Lemma flat_cylinder c r p pad : inside (Cyl c c r) p pad = true.
Proof. cbn [inside]. assert (E : no_axis c c = true) by (unfold no_axis; rewrite vsub_self; destruct (Req_EM_T (norm vzero) 0) as [_|N]; [reflexivity|]; exfalso; apply N; unfold norm; replace (norm2 vzero) with 0 by vring; apply sqrt_0). rewrite E. reflexivity. Qed.
Lemma flat_cylinder_holds c r : ~ holds (Cyl c c r) (vadd c (V (Rabs r + 1) 0 0)).
Proof.
  cbn [holds]. intros (t & w & _ & (E & _) & W). assert (w = V (Rabs r + 1) 0 0). { destruct c as [x y z], w as [u v k]. unfold vadd, vsub, smul in E. cbn [vx vy vz] in E. injection E as E1 E2 E3. f_equal; lra. }
  subst w. rewrite norm_x in W. pose proof (Rabs_pos r). rewrite Rabs_right in W by lra. pose proof (Rle_abs r). lra.
Qed.
