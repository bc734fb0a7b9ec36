(** Bubbles and elastic contacts *)
From Coq Require Import Reals List Bool Lra Lia.
From Verif Require Import Vec_Model Vec_Proofs Bubb_Model Bubb_Spec.
Local Open Scope R_scope.

Lemma gtR_t a b : b < a -> gtR a b = true. Proof. intros H. unfold gtR. destruct (Rlt_dec b a); [reflexivity|contradiction]. Qed.
Lemma gtR_f a b : a <= b -> gtR a b = false. Proof. intros H. unfold gtR. destruct (Rlt_dec b a); [lra|reflexivity]. Qed.
Lemma geR_t a b : b <= a -> geR a b = true. Proof. intros H. unfold geR. destruct (Rle_dec b a); [reflexivity|contradiction]. Qed.
Lemma geR_f a b : a < b -> geR a b = false. Proof. intros H. unfold geR. destruct (Rle_dec b a); [lra|reflexivity]. Qed.
Lemma quot_some a b : b <> 0 -> quot a b = Some (a / b). Proof. intros H. unfold quot, isZ. destruct (Req_EM_T b 0); [contradiction|reflexivity]. Qed.
Lemma quot_none a b : b = 0 -> quot a b = None. Proof. intros H. unfold quot, isZ. destruct (Req_EM_T b 0); [reflexivity|contradiction]. Qed.
Lemma quot_ext a b c d : a = c -> b = d -> quot a b = quot c d. Proof. intros -> ->. reflexivity. Qed.

(** ** C286: elastic contacts *)
Lemma harm a b : 0 < a -> 0 < b -> 2 * (a * b) / (a + b) = harmonic a b.
Proof. intros A B. unfold harmonic. field. split; [|split]; lra. Qed.
Theorem stiffness Ea Eb r1 r2 : 0 < Ea -> 0 < Eb -> 0 < r1 -> 0 < r2 -> norm_kn Ea Eb (Some (r1, r2)) = Some (harmonic (Ea * r1) (Eb * r2)).
Proof.
  intros A B P Q. unfold norm_kn, radii. rewrite !gtR_t by assumption. pose proof (Rmult_lt_0_compat _ _ A P). pose proof (Rmult_lt_0_compat _ _ B Q). rewrite quot_some by lra. f_equal. rewrite <- harm by assumption. f_equal. ring.
Qed.
Theorem stiffness_flat Ea Eb r : 0 < Ea -> 0 < Eb -> 0 < r -> norm_kn Ea Eb (Some (r, 0)) = Some (harmonic (Ea * r) (Eb * r)) /\ norm_kn Ea Eb (Some (0, r)) = Some (harmonic (Ea * r) (Eb * r)).
Proof.
  intros A B P. unfold norm_kn, radii. rewrite (gtR_t r 0) by assumption. rewrite (gtR_f 0 0) by lra. pose proof (Rmult_lt_0_compat _ _ A P). pose proof (Rmult_lt_0_compat _ _ B P). rewrite quot_some by lra. rewrite <- harm by assumption. split; f_equal; f_equal; ring.
Qed.
Theorem stiffness_other Ea Eb : 0 < Ea -> 0 < Eb -> norm_kn Ea Eb None = Some (harmonic Ea Eb).
Proof. intros A B. unfold norm_kn. rewrite quot_some by lra. f_equal. rewrite <- harm by assumption. f_equal. ring. Qed.
Theorem either_order Ea Eb Va Vb r1 r2 : 0 < r1 -> 0 < r2 -> norm_kn Ea Eb (Some (r1, r2)) = norm_kn Eb Ea (Some (r2, r1)) /\ norm_kn Ea Eb None = norm_kn Eb Ea None /\ normshear Ea Eb Va Vb (Some (r1, r2)) = normshear Eb Ea Vb Va (Some (r2, r1)) /\ normshear Ea Eb Va Vb None = normshear Eb Ea Vb Va None.
Proof.
  intros P Q. unfold norm_kn, normshear, radii. rewrite !gtR_t by assumption. repeat split; try (apply (f_equal2 pair); [|try reflexivity]); apply quot_ext; ring.
Qed.
Theorem shear Ea Eb Va Vb r1 r2 : 0 < Ea -> 0 < Eb -> 0 < Va -> 0 < Vb -> 0 < r1 -> 0 < r2 -> normshear Ea Eb Va Vb (Some (r1, r2)) = (Some (harmonic (Ea * r1) (Eb * r2)), Some (harmonic (Ea * r1 * Va) (Eb * r2 * Vb))).
Proof.
  intros A B C D P Q. unfold normshear, radii. rewrite !gtR_t by assumption. pose proof (Rmult_lt_0_compat _ _ A P) as X. pose proof (Rmult_lt_0_compat _ _ B Q) as Y. pose proof (Rmult_lt_0_compat _ _ X C). pose proof (Rmult_lt_0_compat _ _ Y D). rewrite !quot_some by lra. rewrite <- !harm by assumption. apply (f_equal2 pair); f_equal; f_equal; ring.
Qed.
Theorem other_refuted : normshear 1 1 (/ 2) (/ 2) None = (Some (/ 2), Some 0) /\ norm_kn 1 1 None = Some 1.
Proof. unfold normshear, norm_kn. rewrite !quot_some by lra. split; [apply (f_equal2 pair); [f_equal; field|reflexivity]|f_equal; field]. Qed.

(** ** C287: the curve *)
Lemma ln_pct pct : 0 < pct < 1 -> ln (pct / 4) < - 1.
Proof.
  intros P. assert (E : pct / 4 < exp (-1)). { replace (-1) with (- (1)) by lra. rewrite exp_Ropp. pose proof exp_le_3 as H. pose proof (exp_pos 1) as H0. apply Rlt_le_trans with (/ 4); [lra|]. apply Rinv_le_contravar; lra. }
  rewrite <- (ln_exp (-1)). apply ln_increasing; [lra|exact E].
Qed.
Theorem curve pct c1 r : 0 < pct < 1 -> 0 < c1 -> 0 < r -> exists k, computeCoeffs pct c1 r = Some k /\ Dmax k < 0 /\ chan c1 r (Dmax k) (pct * c1 * r) /\ extension k (Dmax k) = pct * c1 * r /\ 0 < start k /\
  derivable_pt_lim (extension k) (Dmax k) (c1 / (ln (pct * c1 * r / (4 * c1 * r)) + 1)) /\ (forall s s', s < s' -> extension k s' < extension k s).
Proof.
  intros P C Q. pose proof (ln_pct pct P) as L. set (g := ln (pct / 4)) in *. assert (F : 0 < pct * c1 * r) by (apply Rmult_lt_0_compat; [apply Rmult_lt_0_compat; lra|exact Q]). assert (PR : 0 < pct * r) by (apply Rmult_lt_0_compat; lra).
  unfold computeCoeffs. fold g. cbv zeta. rewrite (quot_some c1 (g + 1)) by lra. rewrite (quot_some _ (pct * c1 * r)) by lra. eexists. split; [reflexivity|]. unfold extension. cbn [Dmax coeffA coeffB start]. set (B := c1 / (g + 1) / (pct * c1 * r)). set (D := pct * r * g).
  assert (BN : B < 0). { unfold B. apply Rmult_lt_reg_r with (pct * c1 * r); [exact F|]. unfold Rdiv at 1. rewrite Rmult_assoc, Rinv_l, Rmult_1_r, Rmult_0_l by lra. assert (I : / (g + 1) < 0) by (apply Rinv_lt_0_compat; lra). unfold Rdiv. pose proof (Rmult_lt_0_compat c1 (- / (g + 1)) C ltac:(lra)). lra. }
  assert (E : pct * c1 * r / (4 * c1 * r) = pct / 4) by (field; lra). split; [|split; [|split; [|split; [|split]]]].
  - unfold D. pose proof (Rmult_lt_0_compat (pct * r) (- g) PR ltac:(lra)). lra.
  - unfold chan. rewrite E. fold g. unfold D. ring.
  - field. apply Rgt_not_eq, exp_pos.
  - lra.
  - rewrite E. fold g. set (A := pct * c1 * r / exp (B * D)).
    assert (V : c1 / (g + 1) = A * (exp (B * D) * (B * 1))). { unfold A, B at 3. field. split; [lra|]. split; [lra|]. split; [lra|]. split; [lra|]. apply Rgt_not_eq, exp_pos. }
    rewrite V. apply (derivable_pt_lim_scal (fun s => exp (B * s)) A D (exp (B * D) * (B * 1))). apply (derivable_pt_lim_comp (fun s => B * s) exp D (B * 1) (exp (B * D))); [apply (derivable_pt_lim_scal (fun s => s) B D 1); apply derivable_pt_lim_id|apply derivable_pt_lim_exp].
  - intros s s' S. apply Rmult_lt_compat_l; [apply Rdiv_lt_0_compat; [exact F|apply exp_pos]|]. apply exp_increasing. pose proof (Rmult_lt_0_compat (- B) (s' - s) ltac:(lra) ltac:(lra)). lra.
Qed.
Theorem falling_refuted c1 r : 0 < c1 -> 0 < r -> exists k, computeCoeffs 4 c1 r = Some k /\ Dmax k = 0 /\ (forall s s', s < s' -> extension k s < extension k s').
Proof.
  intros C Q. assert (F : 0 < 4 * c1 * r) by (apply Rmult_lt_0_compat; lra). unfold computeCoeffs. replace (4 / 4) with 1 by lra. rewrite ln_1. cbv zeta. rewrite (quot_some c1 (0 + 1)) by lra. rewrite quot_some by lra. eexists. split; [reflexivity|]. cbn [Dmax]. split; [ring|]. unfold extension. cbn [coeffA coeffB]. intros s s' S.
  apply Rmult_lt_compat_l; [apply Rdiv_lt_0_compat; [exact F|apply exp_pos]|]. apply exp_increasing. apply Rmult_lt_compat_l; [|exact S]. apply Rdiv_lt_0_compat; [|exact F]. apply Rdiv_lt_0_compat; lra.
Qed.
Theorem singular_refuted c1 r : computeCoeffs (4 * exp (-1)) c1 r = None.
Proof. unfold computeCoeffs. replace (4 * exp (-1) / 4) with (exp (-1)) by lra. rewrite ln_exp. cbv zeta. rewrite quot_none by lra. reflexivity. Qed.

(** ** C288: iterations *)
Lemma iterate_inv sep c1 c2 ret new res : iterate sep c1 c2 ret = Some (new, res) -> 0 < ret /\ ln (ret * c2) + 1 <> 0 /\
  (res = None /\ 0 <= new \/ res = Some (Rabs (new - ret) / ret) /\ 0 < new /\ new = ret + (sep * c1 - ret * ln (ret * c2)) / (ln (ret * c2) + 1)).
Proof.
  unfold iterate. intros H. unfold gtR in H. destruct (Rlt_dec 0 ret) as [P|]; [|discriminate H]. cbv zeta in H. unfold quot, isZ in H. destruct (Req_EM_T (ln (ret * c2) + 1) 0) as [|N]; [discriminate H|]. split; [exact P|]. split; [exact N|].
  set (q := (sep * c1 - ret * ln (ret * c2)) / (ln (ret * c2) + 1)) in *. unfold geR in H. destruct (Rle_dec (ret + q) 0) as [L|L]; injection H as <- <-.
  - left. split; [reflexivity|]. pose proof (Rabs_pos (ret + q)). lra.
  - right. split; [reflexivity|]. split; [lra|reflexivity].
Qed.
Theorem positive n tol sep c1 c2 : 0 < tol -> forall ret f, newton n tol sep c1 c2 ret = Force f -> 0 < f /\ exists r, 0 < r /\ ln (r * c2) + 1 <> 0 /\ f = r + (sep * c1 - r * ln (r * c2)) / (ln (r * c2) + 1) /\ Rabs (f - r) <= tol * r.
Proof.
  intros T. induction n as [|n IH]; intros ret f H; cbn [newton] in H; destruct (iterate sep c1 c2 ret) as [[new res]|] eqn:E; try discriminate H.
  unfold gtR in H. destruct (Rlt_dec tol (match res with Some x => x | None => tol * 2 end)) as [|L]; [exact (IH new f H)|]. injection H as ->. destruct (iterate_inv _ _ _ _ _ _ E) as (P & N & [(-> & _) | (-> & Q & V)]); [lra|]. split; [exact Q|]. exists ret. split; [exact P|]. split; [exact N|]. split; [exact V|].
  apply Rnot_lt_le in L. apply Rmult_le_reg_r with (/ ret); [apply Rinv_0_lt_compat; exact P|]. rewrite Rmult_assoc, Rinv_r, Rmult_1_r by lra. exact L.
Qed.
Theorem steady n tol sep c1 r f : 0 <= tol -> 0 < f -> chan c1 r sep f -> ln (f * (1 / (4 * c1 * r))) + 1 <> 0 -> newton (S n) tol sep c1 (1 / (4 * c1 * r)) f = Force f.
Proof.
  intros T P C N. unfold chan in C. assert (E : f / (4 * c1 * r) = f * (1 / (4 * c1 * r))) by (unfold Rdiv; ring). rewrite E in C. cbn [newton]. unfold iterate. rewrite (gtR_t f 0) by exact P. cbv zeta. rewrite quot_some by exact N. rewrite C. replace ((f * ln (f * (1 / (4 * c1 * r))) - f * ln (f * (1 / (4 * c1 * r)))) / (ln (f * (1 / (4 * c1 * r))) + 1)) with 0 by (field; exact N). rewrite Rplus_0_r. rewrite geR_f by exact P. rewrite gtR_f; [reflexivity|]. replace (f - f) with 0 by ring. rewrite Rabs_R0. unfold Rdiv. rewrite Rmult_0_l. exact T.
Qed.
(** started at the force with vertical tangent *)
Theorem vertical_refuted n tol sep c1 r : 0 < c1 -> 0 < r -> newton n tol sep c1 (1 / (4 * c1 * r)) (4 * c1 * r * exp (-1)) = NotANumber.
Proof.
  intros C P. assert (F : 0 < 4 * c1 * r) by (apply Rmult_lt_0_compat; lra). assert (I : iterate sep c1 (1 / (4 * c1 * r)) (4 * c1 * r * exp (-1)) = None).
  { unfold iterate. rewrite gtR_t by (apply Rmult_lt_0_compat; [exact F|apply exp_pos]). cbv zeta. replace (4 * c1 * r * exp (-1) * (1 / (4 * c1 * r))) with (exp (-1)) by (field; lra). rewrite ln_exp, quot_none by lra. reflexivity. }
  destruct n; cbn [newton]; rewrite I; reflexivity.
Qed.

Theorem deep iter tol sep c1 r f k : sep < Dmax k -> computeForce iter tol sep c1 r f k = Force (extension k sep).
Proof. intros D. unfold computeForce. rewrite geR_f by exact D. reflexivity. Qed.
Theorem shallow iter tol sep c1 r f0 k f : 0 < tol -> Dmax k <= sep -> computeForce iter tol sep c1 r f0 k = Force f -> 0 < f /\ exists x, 0 < x /\ ln (x / (4 * c1 * r)) + 1 <> 0 /\ f = x + (sep * c1 - x * ln (x / (4 * c1 * r))) / (ln (x / (4 * c1 * r)) + 1) /\ Rabs (f - x) <= tol * x.
Proof.
  intros T D H. unfold computeForce in H. rewrite geR_t in H by exact D. destruct (positive _ _ _ _ _ T _ _ H) as (P & x & X). split; [exact P|]. exists x. assert (E : x / (4 * c1 * r) = x * (1 / (4 * c1 * r))) by (unfold Rdiv; ring). rewrite E. exact X.
Qed.
Theorem shallow_steady iter tol sep c1 r f k : 0 <= tol -> Dmax k <= sep -> 0 < f -> chan c1 r sep f -> ln (f / (4 * c1 * r)) + 1 <> 0 -> computeForce iter tol sep c1 r f k = Force f.
Proof.
  intros T D P C N. unfold computeForce. rewrite geR_t by exact D. apply steady; try assumption. assert (E : f / (4 * c1 * r) = f * (1 / (4 * c1 * r))) by (unfold Rdiv; ring). rewrite <- E. exact N.
Qed.

(** ** C289: the law *)
Theorem removed iter tol l b fresh r1 r2 un : go iter tol l b fresh r1 r2 un = None <-> un <= 0.
Proof.
  unfold go. destruct (geR 0 un) eqn:G; unfold geR in G; destruct (Rle_dec un 0) as [H|H]; try discriminate G; split; try (intros; exact H); try (intros; reflexivity); try (intros K; contradiction).
  cbv zeta. destruct fresh; [destruct (computeCoeffs _ _ _)|]; discriminate.
Qed.
Lemma newton_set n : forall tol sep c c2 ret, newton n tol sep c c2 ret <> Unset.
Proof. induction n as [|n IH]; intros; cbn [newton]; destruct (iterate sep c c2 ret) as [[new res]|]; try discriminate. destruct (gtR _ tol); [apply IH|discriminate]. Qed.
Lemma compute_set iter tol sep c ra f k : computeForce iter tol sep c ra f k <> Unset.
Proof. unfold computeForce. destruct (geR sep (Dmax k)); [apply newton_set|discriminate]. Qed.
Lemma go_made iter tol l b r1 r2 un l' b' o : made l b -> go iter tol l b false r1 r2 un = Some (l', b', o) -> o <> Unset /\ made l' b' /\ l' = l /\ rAvg b' = rAvg b /\ saved_Dmax b' = saved_Dmax b /\ lost b' = lost b.
Proof.
  intros (M1 & M2) H. unfold go in H. destruct (geR 0 un); [discriminate H|]. cbv zeta in H. injection H as <- <- E.
  set (b2 := match o with Force f => mkBub f (rAvg b) (saved_Dmax b) (lost b) | _ => b end) in *. rewrite E. split; [|].
  - rewrite <- E. destruct (geR (- un) (saved_Dmax b)); [destruct (c1 l) as [c|]; [apply compute_set|contradiction M1; reflexivity]|destruct (lost b) as [[A B]|]; [apply compute_set|contradiction M2; reflexivity]].
  - fold b2. assert (Q : rAvg b2 = rAvg b /\ saved_Dmax b2 = saved_Dmax b /\ lost b2 = lost b) by (unfold b2; destruct o; repeat split). destruct Q as (Q1 & Q2 & Q3). split; [split; [exact M1|rewrite Q3; exact M2]|]. split; [reflexivity|]. split; [exact Q1|]. split; assumption.
Qed.
Theorem always_set iter tol r1 r2 us : forall l b, made l b -> ~ In Unset (history iter tol l b r1 r2 us).
Proof.
  induction us as [|u us IH]; intros l b M; [intros []|]. cbn [history]. destruct (go iter tol l b false r1 r2 u) as [[[l' b'] o]|] eqn:E; [|intros []]. destruct (go_made _ _ _ _ _ _ _ _ _ _ M E) as (O & M' & _). intros [H | H]; [contradiction|exact (IH l' b' M' H)].
Qed.
Theorem fresh_made iter tol l b r1 r2 un l' b' o : go iter tol l b true r1 r2 un = Some (l', b', o) -> computeCoeffs (pctMaxForce l) (2 * PI * surfaceTension l) (/ 2 * (r1 + r2)) <> None -> o <> Unset /\ made l' b'.
Proof.
  intros H K. unfold go in H. destruct (geR 0 un); [discriminate H|]. cbv zeta in H. destruct (computeCoeffs (pctMaxForce l) (2 * PI * surfaceTension l) (/ 2 * (r1 + r2))) as [k|]; [|contradiction K; reflexivity]. cbn [saved_Dmax c1 lost rAvg fN] in H. injection H as <- <- E. split.
  - rewrite <- E. destruct (geR (- un) (Dmax k)); apply compute_set.
  - split; [discriminate|]. destruct o; rewrite E; discriminate.
Qed.
Theorem step_deep iter tol l b r1 r2 un A B : 0 < un -> lost b = Some (A, B) -> - un < saved_Dmax b -> go iter tol l b false r1 r2 un = Some (l, mkBub (A * exp (B * - un)) (rAvg b) (saved_Dmax b) (lost b), Force (A * exp (B * - un))).
Proof. intros U E D. unfold go. rewrite (geR_f 0 un) by exact U. cbv zeta. rewrite (geR_f (- un)) by exact D. rewrite E. rewrite deep by exact D. reflexivity. Qed.
Theorem step_shallow iter tol l b r1 r2 un c : 0 < un -> c1 l = Some c -> saved_Dmax b <= - un -> 0 <= tol -> 0 < fN b -> chan c (rAvg b) (- un) (fN b) -> ln (fN b / (4 * c * rAvg b)) + 1 <> 0 -> go iter tol l b false r1 r2 un = Some (l, b, Force (fN b)).
Proof.
  intros U E D T P C N. unfold go. rewrite (geR_f 0 un) by exact U. cbv zeta. rewrite (geR_t (- un)) by exact D. rewrite E. rewrite shallow_steady by assumption. destruct b as [f ra d lo]. reflexivity.
Qed.
Theorem new_contact iter tol l b r1 r2 un k : 0 < un -> computeCoeffs (pctMaxForce l) (2 * PI * surfaceTension l) (/ 2 * (r1 + r2)) = Some k -> - un < Dmax k -> exists l' b', go iter tol l b true r1 r2 un = Some (l', b', Force (extension k (- un))).
Proof. intros U E D. unfold go. rewrite (geR_f 0 un) by exact U. cbv zeta. rewrite E. cbn [saved_Dmax c1 lost rAvg fN]. rewrite (geR_f (- un)) by exact D. rewrite deep by exact D. eexists. eexists. reflexivity. Qed.
Theorem reload_refuted iter tol l b r1 r2 un : 0 < un -> let (l', b') := reload l b in exists b2, go iter tol l' b' false r1 r2 un = Some (l', b2, Unset).
Proof.
  intros U. unfold reload, go. rewrite geR_f by exact U. cbv zeta. cbn [saved_Dmax c1 lost]. destruct (geR (- un) (saved_Dmax b)); eexists; reflexivity.
Qed.
Theorem balance f normal cp p1 p2 : vadd (fst (fst (apply f normal cp p1 p2))) (fst (snd (apply f normal cp p1 p2))) = vzero /\
  vadd (vadd (snd (fst (apply f normal cp p1 p2))) (cross p1 (fst (fst (apply f normal cp p1 p2))))) (vadd (snd (snd (apply f normal cp p1 p2))) (cross p2 (fst (snd (apply f normal cp p1 p2))))) = vzero.
Proof. unfold apply. cbv zeta. cbn [fst snd]. generalize (smul f normal) as F. intros F. unfold vadd, vopp, vsub, cross, vzero. cbn [vx vy vz]. split; f_equal; ring. Qed.
