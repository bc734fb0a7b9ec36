From Coq Require Import Reals List ZArith Bool Lra Lia.
From Verif Require Import Vec_Model Vec_Proofs Rigid_Model Rigid_Spec Law_Model Law_Spec Law_Proofs Pred_Proofs Lud_Model Lud_Spec.
Import ListNotations.
Local Open Scope R_scope.

(** ** C250 *)
Lemma inv0_pos x : 0 < x -> inv0 x = / x.
Proof. intros H. unfold inv0. destruct (Req_EM_T x 0); [lra|]. unfold Rdiv. ring. Qed.
Lemma reduced_pos a b : 0 < a -> 0 < b -> reduced a b = 2 * (a * b) / (a + b).
Proof. intros A B. unfold reduced. rewrite (inv0_pos a A), (inv0_pos b B). assert (P : 0 < / a + / b) by (apply Rplus_lt_0_compat; apply Rinv_0_lt_compat; assumption). rewrite (inv0_pos _ P). field. repeat split; lra. Qed.
Lemma reduced_sym a b : reduced a b = reduced b a. Proof. unfold reduced. rewrite Rplus_comm. reflexivity. Qed.
Lemma reduced_mean a b : 0 < a -> 0 < b -> harmonic a b (reduced a b) /\ Rmin a b <= reduced a b <= Rmax a b /\ reduced a b = reduced b a.
Proof.
  intros A B. split; [|split; [|apply reduced_sym]].
  - unfold harmonic. rewrite reduced_pos by assumption. field. repeat split; lra.
  - rewrite reduced_pos by assumption. assert (S : 0 < a + b) by lra.
    assert (L : forall m, m * (a + b) <= 2 * (a * b) -> m <= 2 * (a * b) / (a + b)) by (intros m H; apply Rmult_le_reg_r with (a + b); [exact S|]; replace (2 * (a * b) / (a + b) * (a + b)) with (2 * (a * b)) by (field; lra); exact H).
    assert (U : forall m, 2 * (a * b) <= m * (a + b) -> 2 * (a * b) / (a + b) <= m) by (intros m H; apply Rmult_le_reg_r with (a + b); [exact S|]; replace (2 * (a * b) / (a + b) * (a + b)) with (2 * (a * b)) by (field; lra); exact H).
    destruct (Rle_dec a b) as [H|H].
    + rewrite Rmin_left, Rmax_right by lra. assert (a * a <= a * b) by (apply Rmult_le_compat_l; lra). assert (a * b <= b * b) by (apply Rmult_le_compat_r; lra). split; [apply L; lra|apply U; lra].
    + rewrite Rmin_right, Rmax_left by lra. assert (b * b <= a * b) by (apply Rmult_le_compat_r; lra). assert (a * b <= a * a) by (apply Rmult_le_compat_l; lra). split; [apply L; lra|apply U; lra].
Qed.
Lemma reduced_zero a : 0 < a -> reduced 0 a = 2 * a /\ Rmax 0 a < reduced 0 a.
Proof. intros A. assert (E : reduced 0 a = 2 * a). { unfold reduced. unfold inv0 at 2. destruct (Req_EM_T 0 0) as [_|]; [|contradiction]. rewrite Rplus_0_l, (inv0_pos a A). rewrite inv0_pos by (apply Rinv_0_lt_compat; exact A). rewrite Rinv_inv. reflexivity. } rewrite E. split; [reflexivity|]. rewrite Rmax_right; lra. Qed.
Lemma zero_refuted : reduced 0 1 = 2. Proof. destruct (reduced_zero 1); lra. Qed.
(** ** C251 *)
Lemma reduced_less a b a' b' : 0 < a -> 0 < b -> a < a' -> b < b' -> reduced a b < reduced a' b'.
Proof.
  intros A B HA HB. rewrite !reduced_pos by lra. apply Rmult_lt_reg_r with ((a + b) * (a' + b')); [apply Rmult_lt_0_compat; lra|]. replace (2 * (a * b) / (a + b) * ((a + b) * (a' + b'))) with (2 * (a * b * a' + a * b * b')) by (field; lra). replace (2 * (a' * b') / (a' + b') * ((a + b) * (a' + b'))) with (2 * (a' * b' * a + a' * b' * b)) by (field; lra).
  assert (AA : 0 < a * a') by (apply Rmult_lt_0_compat; lra). assert (BB : 0 < b * b') by (apply Rmult_lt_0_compat; lra). assert (a * a' * b < a * a' * b') by (apply Rmult_lt_compat_l; assumption). assert (b * b' * a < b * b' * a') by (apply Rmult_lt_compat_l; assumption). lra.
Qed.
Lemma ip2_accepts m1 m2 r1 r2 : positive_mat m1 -> positive_mat m2 -> lk1 m1 < lkp m1 -> lk1 m2 < lkp m2 -> 0 < r1 -> 0 < r2 ->
  exists p, ip2 m1 m2 (Some r1) (Some r2) = LPhys p /\ sound p /\ harmonic (lk1 m1) (lk1 m2) (k1 p) /\ harmonic (lkp m1) (lkp m2) (kp p) /\ DeltMax p = 0 /\ DeltNull p = Some 0 /\ lshear p = vzero /\
    DeltPNull p = reduced (lPhi m1) (lPhi m2) * (2 * (r1 * r2) / (r1 + r2)).
Proof.
  intros (A1 & A2 & A3 & A4) (B1 & B2 & B3 & B4) HA HB R1 R2. unfold ip2, radii. cbv zeta. pose proof (reduced_less _ _ _ _ A1 B1 HA HB) as L. destruct (Rle_dec _ _) as [N|_]; [exfalso; lra|]. eexists. split; [reflexivity|].
  assert (P1 : 0 < reduced (lk1 m1) (lk1 m2)) by (rewrite reduced_pos by assumption; apply Rdiv_lt_0_compat; [assert (0 < lk1 m1 * lk1 m2) by (apply Rmult_lt_0_compat; assumption)|]; lra). assert (P3 : 0 < reduced (lPhi m1) (lPhi m2)) by (rewrite reduced_pos by assumption; apply Rdiv_lt_0_compat; [assert (0 < lPhi m1 * lPhi m2) by (apply Rmult_lt_0_compat; assumption)|]; lra).
  assert (P4 : 0 <= reduced (lkc m1) (lkc m2)). { unfold reduced, inv0. destruct (Req_EM_T (lkc m1) 0) as [Z1|Z1], (Req_EM_T (lkc m2) 0) as [Z2|Z2]; (destruct (Req_EM_T _ 0) as [Z|Z]; [lra|]); apply Rmult_le_pos; try lra; apply Rlt_le, Rdiv_lt_0_compat; try lra.
    - rewrite Rplus_0_l in *. apply Rdiv_lt_0_compat; lra. - rewrite Rplus_0_r in *. apply Rdiv_lt_0_compat; lra. - apply Rplus_lt_0_compat; apply Rdiv_lt_0_compat; lra. }
  assert (RR : 0 < r1 * r2) by (apply Rmult_lt_0_compat; assumption).
  pose proof (proj1 (reduced_mean _ _ A1 B1)) as H1. pose proof (proj1 (reduced_mean _ _ A2 B2)) as H2.
  remember (reduced (lk1 m1) (lk1 m2)) as K1. remember (reduced (lkp m1) (lkp m2)) as KP. remember (reduced (lPhi m1) (lPhi m2)) as F. clear HeqK1 HeqKP HeqF.
  assert (X : 0 < F * (2 * (r1 * r2) / (r1 + r2))) by (apply Rmult_lt_0_compat; [exact P3|apply Rdiv_lt_0_compat; lra]).
  assert (E1 : F * 2 * r1 * r2 / (r1 + r2) = F * (2 * (r1 * r2) / (r1 + r2))) by (field; lra). assert (E2 : KP / (KP - K1) * F * 2 * r1 * r2 / (r1 + r2) = KP / (KP - K1) * (F * (2 * (r1 * r2) / (r1 + r2)))) by (field; split; lra).
  cbn [k1 kp DeltMax DeltNull lshear DeltPNull]. split; [|split; [exact H1|]; split; [exact H2|]; split; [reflexivity|]; split; [reflexivity|]; split; [reflexivity|exact E1]].
  unfold sound. cbn [k1 kp kc DeltMax DeltNull DeltPMax DeltPNull]. rewrite E1, E2. remember (F * (2 * (r1 * r2) / (r1 + r2))) as Y. split; [exact P1|]. split; [exact L|]. split; [exact P4|]. split; [apply Rmult_lt_0_compat; [apply Rdiv_lt_0_compat; lra|exact X]|]. split; [field; split; lra|]. split; [lra|]. exists 0. split; [reflexivity|]. lra.
Qed.
Lemma ip2_rejects m1 m2 s1 s2 : s1 <> None \/ s2 <> None -> (ip2 m1 m2 s1 s2 = LThrows <-> reduced (lkp m1) (lkp m2) <= reduced (lk1 m1) (lk1 m2)).
Proof. intros H. unfold ip2. assert (E : exists a b, radii s1 s2 = Some (a, b)) by (destruct s1, s2; cbn [radii]; eauto; destruct H; contradiction). destruct E as (a & b & ->). cbv zeta. destruct (Rle_dec _ _); split; intros Q; try reflexivity; try assumption; try discriminate; contradiction. Qed.
Lemma reject_refuted : let m1 := mkLM 0 1 0 0 0 1 0 in let m2 := mkLM 3 4 0 0 0 1 0 in lk1 m1 < lkp m1 /\ lk1 m2 < lkp m2 /\ ip2 m1 m2 (Some 1) (Some 1) = LThrows.
Proof. cbv zeta. cbn [lk1 lkp]. split; [lra|]. split; [lra|]. apply ip2_rejects; [left; discriminate|]. cbn [lk1 lkp]. rewrite (proj1 (reduced_zero 3 ltac:(lra))), (reduced_pos 1 4) by lra. lra. Qed.
Lemma null_refuted m1 m2 : ip2 m1 m2 None None = LNull. Proof. reflexivity. Qed.
(** ** hysteresis of sound contacts *)
Lemma unloading_range p : sound p -> forall M, 0 <= M -> k1 p <= unloading (k1 p) (kp p) (DeltPMax p) M <= kp p.
Proof.
  intros (A & B & _ & P & _) M H. unfold unloading. split; [|apply Rmin_l]. apply Rmin_glb; [lra|]. assert (0 <= (kp p - k1 p) * (M / DeltPMax p)); [|lra]. apply Rmult_le_pos; [lra|]. apply Rmult_le_pos; [exact H|]. left. apply Rinv_0_lt_compat. exact P.
Qed.
Lemma stiffness2_spec p : sound p -> stiffness2 p = Some (unloading (k1 p) (kp p) (DeltPMax p) (DeltMax p)) /\ stiffness1 p (stiffness2 p) = k1 p.
Proof.
  intros S. pose proof (unloading_range p S) as U. destruct S as (A & B & _ & P & _ & M & _). specialize (U (DeltMax p) M). assert (E : stiffness2 p = Some (unloading (k1 p) (kp p) (DeltPMax p) (DeltMax p))).
  { unfold stiffness2. destruct (Req_EM_T (DeltPMax p) 0); [exfalso; lra|]. cbv zeta. f_equal. unfold unloading. replace ((kp p - k1 p) * DeltMax p / DeltPMax p) with ((kp p - k1 p) * (DeltMax p / DeltPMax p)) by (field; lra). remember (DeltMax p / DeltPMax p) as q.
    destruct (Rle_dec 1 q) as [Q|Q]; [destruct (Rlt_dec (kp p) (kp p)); [lra|]; assert ((kp p - k1 p) * 1 <= (kp p - k1 p) * q) by (apply Rmult_le_compat_l; lra); rewrite Rmin_left by lra; reflexivity|].
    assert ((kp p - k1 p) * q <= (kp p - k1 p) * 1) by (apply Rmult_le_compat_l; lra). destruct (Rlt_dec _ _); [exfalso; lra|]. rewrite Rmin_right by lra. reflexivity. }
  split; [exact E|]. rewrite E. unfold stiffness1. destruct (Rlt_dec _ _); [exfalso; lra|reflexivity].
Qed.
Lemma unloading_strict p M : sound p -> 0 < M -> k1 p < unloading (k1 p) (kp p) (DeltPMax p) M.
Proof. intros (A & B & _ & P & _) H. unfold unloading. apply Rmin_glb_lt; [exact B|]. assert (0 < (kp p - k1 p) * (M / DeltPMax p)); [|lra]. apply Rmult_lt_0_compat; [lra|]. apply Rdiv_lt_0_compat; assumption. Qed.
Lemma plastic_spec K1 k D PN : 0 < K1 <= k -> 0 <= D -> 0 <= PN -> exists n, plastic K1 (Some k) D PN = Some n /\ 0 <= n <= D /\ n <= PN /\ n = Rmin ((1 - K1 / k) * D) PN /\ k * n <= (k - K1) * D.
Proof.
  intros (A & B) H P. unfold plastic. destruct (Req_EM_T k 0); [exfalso; lra|]. cbv zeta. assert (Q : 0 <= 1 - K1 / k <= 1). { assert (0 < K1 / k) by (apply Rdiv_lt_0_compat; lra). assert (K1 / k <= 1); [|lra]. apply Rmult_le_reg_r with k; [lra|]. replace (K1 / k * k) with K1 by (field; lra). lra. }
  assert (X : 0 <= (1 - K1 / k) * D <= D). { split; [apply Rmult_le_pos; lra|]. assert ((1 - K1 / k) * D <= 1 * D) by (apply Rmult_le_compat_r; lra). lra. }
  assert (Y : k * ((1 - K1 / k) * D) = (k - K1) * D) by (field; lra).
  destruct (Rlt_dec PN ((1 - K1 / k) * D)) as [L|L]; eexists; (split; [reflexivity|]).
  - split; [lra|]. split; [lra|]. split; [rewrite Rmin_right; lra|]. rewrite <- Y. apply Rmult_le_compat_l; lra.
  - split; [lra|]. split; [lra|]. split; [rewrite Rmin_left; lra|lra].
Qed.
Lemma unloading_0 K1 KP PM : K1 < KP -> unloading K1 KP PM 0 = K1.
Proof. intros H. unfold unloading, Rdiv. rewrite Rmult_0_l, Rmult_0_r, Rplus_0_r. apply Rmin_right. lra. Qed.
Lemma pnull_pos p : sound p -> 0 < DeltPNull p.
Proof. intros (A & B & _ & P & -> & _). apply Rmult_lt_0_compat; [|exact P]. assert (k1 p / kp p < 1); [|lra]. apply Rmult_lt_reg_r with (kp p); [lra|]. replace (k1 p / kp p * kp p) with (k1 p) by (field; lra). lra. Qed.
(** one step *)
Lemma hysteresis_step p D : sound p -> 0 <= D ->
  exists f q, hysteresis p D = Some (f, q) /\ sound q /\ same_contact p q /\ DeltPrev q = D /\ k2 q = Some (unloading (k1 p) (kp p) (DeltPMax p) (DeltMax p)) /\ lshear q = lshear p /\
    (D < DeltPMax p -> f <= k1 p * D) /\ f <= kp p * D /\ (D < DeltPrev p -> - (kc p * D) <= f).
Proof.
  intros S HD. pose proof (stiffness2_spec p S) as (E2 & E1). pose proof (unloading_range p S (DeltMax p)) as UR. pose proof (unloading_strict p (DeltMax p) S) as US. pose proof (pnull_pos p S) as PN. pose proof S as (A & B & C & P & EP & M & n & EN & NR & NP). specialize (UR M).
  unfold hysteresis. cbv zeta. rewrite E1, E2. pose proof (unloading_0 (k1 p) (kp p) (DeltPMax p) B) as U0. remember (unloading (k1 p) (kp p) (DeltPMax p) (DeltMax p)) as k.
  assert (DN : exists dm dn, (if (if Rlt_dec (DeltMax p) D then true else false) then D else DeltMax p) = dm /\ (if (if Rlt_dec (DeltMax p) D then true else false) then plastic (k1 p) (Some k) D (DeltPNull p) else DeltNull p) = Some dn /\ D <= dm /\ 0 <= dn <= dm /\ dn <= DeltPNull p /\ (k = k1 p -> k1 p * D <= k * (D - dn))).
  { destruct (Rlt_dec (DeltMax p) D) as [G|G].
    - destruct (plastic_spec (k1 p) k D (DeltPNull p)) as (x & X1 & X2 & X3 & X4 & X5); [lra|lra|lra|]. exists D, x. split; [reflexivity|]. split; [exact X1|]. split; [lra|]. split; [lra|]. split; [lra|]. intros ->. lra.
    - exists (DeltMax p), n. split; [reflexivity|]. split; [exact EN|]. split; [lra|]. split; [lra|]. split; [lra|]. intros EK. destruct (Rle_lt_or_eq_dec 0 (DeltMax p) M) as [L|L]; [specialize (US L); lra|]. assert (n = 0) by lra. assert (D = 0) by lra. subst. lra. }
  destruct DN as (dm & dn & -> & -> & DM & R1 & R2 & KK). unfold branch.
  assert (T : k * (D - dn) <= kp p * D). { apply Rle_trans with (k * D); [apply Rmult_le_compat_l; lra|apply Rmult_le_compat_r; lra]. }
  assert (KD : k1 p * D <= kp p * D) by (apply Rmult_le_compat_r; lra). assert (CD : 0 <= kc p * D) by (apply Rmult_le_pos; lra). assert (K1D : 0 <= k1 p * D) by (apply Rmult_le_pos; lra). assert (KPD : 0 <= kp p * D) by (apply Rmult_le_pos; lra).
  assert (SC : forall x y z w, same_contact p (mkLP (k1 p) (kp p) (kc p) (lks_ p) (G0 p) (ltan p) x y z (DeltPMax p) (DeltPNull p) w (lshear p))) by (intros; unfold same_contact; cbn [k1 kp kc lks_ G0 ltan DeltPMax DeltPNull]; auto 10).
  assert (SS : forall x y z w, 0 <= y -> 0 <= z <= y -> z <= DeltPNull p -> sound (mkLP (k1 p) (kp p) (kc p) (lks_ p) (G0 p) (ltan p) x y (Some z) (DeltPMax p) (DeltPNull p) w (lshear p))).
  { intros x y z w Y Z1 Z2. unfold sound. cbn [k1 kp kc DeltMax DeltNull DeltPMax DeltPNull]. split; [exact A|]. split; [exact B|]. split; [exact C|]. split; [exact P|]. split; [exact EP|]. split; [exact Y|]. exists z. auto. }
  destruct (Rle_dec (k1 p * D) (k * (D - dn))) as [B1|B1].
  - eexists. eexists. split; [reflexivity|]. split; [apply SS; lra|]. split; [apply SC|]. split; [reflexivity|]. split; [reflexivity|]. split; [reflexivity|]. destruct (Rlt_dec D (DeltPMax p)); split; lra.
  - destruct (Rlt_dec (- kc p * D) (k * (D - dn))) as [B2|B2].
    + eexists. eexists. split; [reflexivity|]. split; [apply SS; lra|]. split; [apply SC|]. split; [reflexivity|]. split; [reflexivity|]. split; [reflexivity|]. split; lra.
    + destruct (Rlt_dec (D - DeltPrev p) 0) as [B3|B3].
      * destruct (Req_EM_T (k - k1 p) 0) as [Z|Z]; [exfalso; apply B1, KK; lra|]. assert (M0 : 0 <= D * (k + kc p) / (k - k1 p)) by (apply Rmult_le_pos; [apply Rmult_le_pos; lra|left; apply Rinv_0_lt_compat; lra]).
        destruct (plastic_spec (k1 p) k (D * (k + kc p) / (k - k1 p)) (DeltPNull p)) as (x & X1 & X2 & X3 & _ & _); [lra|lra|lra|]. cbv zeta. rewrite X1. eexists. eexists. split; [reflexivity|]. split; [apply SS; lra|]. split; [apply SC|]. split; [reflexivity|]. split; [reflexivity|]. split; [reflexivity|]. split; lra.
      * eexists. eexists. split; [reflexivity|]. split; [apply SS; lra|]. split; [apply SC|]. split; [reflexivity|]. split; [reflexivity|]. split; [reflexivity|]. split; lra.
Qed.
Lemma same_contact_trans p q r : same_contact p q -> same_contact q r -> same_contact p r.
Proof. unfold same_contact. intuition congruence. Qed.
(** C253: bounds for all histories *)
Lemma history p ds : sound p -> nonneg ds -> exists fs q, response p ds = Some (fs, q) /\ sound q /\ same_contact p q /\
  Forall2 (fun d f => (d < DeltPMax p -> f <= k1 p * d) /\ f <= kp p * d) ds fs.
Proof.
  revert p. induction ds as [|d ds IH]; intros p S N.
  - exists [], p. split; [reflexivity|]. split; [exact S|]. split; [unfold same_contact; auto 10|constructor].
  - inversion N as [|? ? N1 N2]; subst. destruct (hysteresis_step p d S N1) as (f & q & E & SQ & SC & _ & _ & _ & F1 & F2 & _). destruct (IH q SQ N2) as (fs & r & R & SR & SC' & F). exists (f :: fs), r. cbn [response]. rewrite E, R. split; [reflexivity|]. split; [exact SR|]. split; [apply same_contact_trans with q; assumption|]. constructor; [auto|].
    destruct SC as (Ek & EK & _ & _ & _ & _ & EP & _). rewrite Ek, EK, EP. exact F.
Qed.
Lemma unload_limit p D f q : sound p -> 0 <= D -> hysteresis p D = Some (f, q) -> D < DeltPrev p -> - (kc p * D) <= f.
Proof. intros S H E L. destruct (hysteresis_step p D S H) as (f' & q' & E' & _ & _ & _ & _ & _ & _ & _ & F). rewrite E in E'. injection E' as <- _. auto. Qed.
(** C252: first loading *)
Lemma virgin_step p D : sound p -> DeltMax p < D -> D < DeltPMax p -> exists q, hysteresis p D = Some (k1 p * D, q) /\ sound q /\ same_contact p q /\ DeltMax q = D.
Proof.
  intros S G L. pose proof S as (A & B & C & P & EP & M & n & EN & NR & NP). assert (HD : 0 <= D) by lra. destruct (hysteresis_step p D S HD) as (f & q & E & SQ & SC & _). rewrite E. assert (X : f = k1 p * D /\ DeltMax q = D).
  { unfold hysteresis in E. cbv zeta in E. pose proof (stiffness2_spec p S) as (E2 & E1). rewrite E1, E2 in E. pose proof (unloading_range p S (DeltMax p) M) as UR. pose proof (pnull_pos p S) as PN. remember (unloading (k1 p) (kp p) (DeltPMax p) (DeltMax p)) as k. destruct (Rlt_dec (DeltMax p) D) as [_|]; [|exfalso; lra].
    destruct (plastic_spec (k1 p) k D (DeltPNull p)) as (x & X1 & X2 & X3 & X4 & X5); [lra|lra|lra|]. rewrite X1 in E. unfold branch in E. assert (T : k1 p * D <= k * (D - x)) by lra. destruct (Rle_dec (k1 p * D) (k * (D - x))) as [_|]; [|contradiction]. destruct (Rlt_dec D (DeltPMax p)) as [_|]; [|contradiction]. injection E as <- <-. split; reflexivity. }
  destruct X as (-> & X). exists q. auto.
Qed.
Lemma virgin p ds : sound p -> rising (DeltMax p) ds -> Forall (fun d => d < DeltPMax p) ds -> exists q, response p ds = Some (map (fun d => k1 p * d) ds, q).
Proof.
  revert p. induction ds as [|d ds IH]; intros p S R F; [exists p; reflexivity|]. cbn [rising] in R. destruct R as (R1 & R2). inversion F as [|? ? F1 F2]; subst. destruct (virgin_step p d S R1 F1) as (q & E & SQ & SC & DM). rewrite <- DM in R2. destruct SC as (Ek & _ & _ & _ & _ & _ & EP & _). rewrite EP in F2. destruct (IH q SQ R2 F2) as (r & R). exists r. cbn [response map]. rewrite E, R, Ek. reflexivity.
Qed.
(** C252: beyond the plastic limit, once the limit has been reached before *)
Lemma limit_step p D : sound p -> DeltPMax p <= DeltMax p -> DeltMax p < D -> exists q, hysteresis p D = Some (kp p * (D - DeltPNull p), q) /\ sound q /\ same_contact p q /\ DeltMax q = D.
Proof.
  intros S L G. pose proof S as (A & B & C & P & EP & M & n & EN & NR & NP). assert (HD : 0 <= D) by lra. destruct (hysteresis_step p D S HD) as (f & q & E & SQ & SC & _). rewrite E. assert (X : f = kp p * (D - DeltPNull p) /\ DeltMax q = D).
  { unfold hysteresis in E. cbv zeta in E. pose proof (stiffness2_spec p S) as (E2 & E1). rewrite E1, E2 in E. pose proof (pnull_pos p S) as PN. assert (U : unloading (k1 p) (kp p) (DeltPMax p) (DeltMax p) = kp p).
    { unfold unloading. apply Rmin_left. assert (Q : 1 <= DeltMax p / DeltPMax p) by (apply Rmult_le_reg_r with (DeltPMax p); [exact P|]; replace (DeltMax p / DeltPMax p * DeltPMax p) with (DeltMax p) by (field; lra); lra). assert ((kp p - k1 p) * 1 <= (kp p - k1 p) * (DeltMax p / DeltPMax p)) by (apply Rmult_le_compat_l; lra). lra. }
    rewrite U in E. destruct (Rlt_dec (DeltMax p) D) as [_|]; [|exfalso; lra]. destruct (plastic_spec (k1 p) (kp p) D (DeltPNull p)) as (x & X1 & X2 & X3 & X4 & X5); [lra|lra|lra|].
    assert (XE : x = DeltPNull p). { rewrite X4. apply Rmin_right. rewrite EP. apply Rmult_le_compat_l; [|lra]. assert (k1 p / kp p <= 1); [|lra]. apply Rmult_le_reg_r with (kp p); [lra|]. replace (k1 p / kp p * kp p) with (k1 p) by (field; lra). lra. }
    rewrite X1 in E. unfold branch in E. assert (T : k1 p * D <= kp p * (D - x)) by lra. destruct (Rle_dec (k1 p * D) (kp p * (D - x))) as [_|]; [|contradiction]. destruct (Rlt_dec D (DeltPMax p)) as [|_]; [exfalso; lra|]. injection E as <- <-. rewrite XE. split; reflexivity. }
  destruct X as (-> & X). exists q. auto.
Qed.
(** C254: between the limits, the contact is elastic *)
Lemma elastic_step p D n : sound p -> DeltNull p = Some n -> 0 <= D <= DeltMax p -> let k := unloading (k1 p) (kp p) (DeltPMax p) (DeltMax p) in - (kc p * D) < k * (D - n) < k1 p * D ->
  exists q, hysteresis p D = Some (k * (D - n), q) /\ same_contact p q /\ DeltMax q = DeltMax p /\ DeltNull q = Some n.
Proof.
  intros S EN (D0 & DM) k (L1 & L2). destruct (hysteresis_step p D S D0) as (f & q & E & _ & SC & _). rewrite E. assert (X : f = k * (D - n) /\ DeltMax q = DeltMax p /\ DeltNull q = Some n).
  { unfold hysteresis in E. cbv zeta in E. pose proof (stiffness2_spec p S) as (E2 & E1). rewrite E1, E2 in E. destruct (Rlt_dec (DeltMax p) D) as [|_]; [exfalso; lra|]. rewrite EN in E. unfold branch in E. fold k in E. destruct (Rle_dec _ _) as [|_]; [exfalso; lra|]. destruct (Rlt_dec _ _) as [_|]; [|exfalso; lra]. injection E as <- <-. split; [reflexivity|]. split; reflexivity. }
  destruct X as (-> & X1 & X2). exists q. auto.
Qed.
Lemma reversible ds : forall p n, sound p -> DeltNull p = Some n -> let k := unloading (k1 p) (kp p) (DeltPMax p) (DeltMax p) in
  Forall (fun D => 0 <= D <= DeltMax p /\ - (kc p * D) < k * (D - n) < k1 p * D) ds -> exists q, response p ds = Some (map (fun D => k * (D - n)) ds, q).
Proof.
  induction ds as [|d ds IH]; intros p n S EN k F; [exists p; reflexivity|]. inversion F as [|? ? (F1 & F2) F3]; subst. destruct (elastic_step p d n S EN F1 F2) as (q & E & SC & DM & DN). assert (SQ : sound q) by (destruct (hysteresis_step p d S (proj1 F1)) as (f' & q' & E' & SQ & _); rewrite E in E'; injection E' as _ <-; exact SQ).
  pose proof SC as (Ek & EK & EC & _ & _ & _ & EP & _). specialize (IH q n SQ DN). cbv zeta in IH. rewrite <- Ek, <- EK, <- EC, <- EP, DM in IH. destruct (IH F3) as (r & R). exists r. cbn [response map]. rewrite E. fold k in R. rewrite R. reflexivity.
Qed.
