From Coq Require Import Reals List ZArith Bool Lra Lia Ratan.
From Verif Require Import Vec_Model Vec_Proofs Rigid_Spec Law_Model Law_Spec Law_Proofs Wire_Model Wire_Spec Wire_Proofs.
Import ListNotations.
Local Open Scope R_scope.

(** ** C259: the curve of the table *)
Lemma slopes_spec l : forall a, falling (fst a) l -> exists r, slopes a l = Some r /\ map fst r = l /\ lines a r.
Proof.
  induction l as [|q l IH]; intros a F; [exists []; repeat split|]. cbn [falling] in F. destruct F as (F1 & F2). destruct (IH q F2) as (r & E & M & Li). cbn [slopes]. cbv zeta. destruct (Req_EM_T (- fst q + fst a) 0); [exfalso; lra|]. rewrite E. eexists. split; [reflexivity|]. cbn [map fst lines snd]. rewrite M. split; [reflexivity|]. split; [field; lra|exact Li].
Qed.
Lemma falling_table t : forall e l dl A, 0 < l -> growing e t -> falling (- e * l - dl) (map (fun q => (- fst q * l - dl, - snd q * A)) t).
Proof.
  induction t as [|q t IH]; intros e l dl A L G; [exact I|]. cbn [growing] in G. destruct G as (G1 & G2). cbn [map falling fst]. split; [|apply IH; assumption]. assert (e * l < fst q * l) by (apply Rmult_lt_compat_r; assumption). lra.
Qed.
Lemma falling_weaken l x y : falling x l -> x <= y -> falling y l.
Proof. destruct l; [trivial|]. cbn [falling]. intros (A & B) H. split; [lra|exact B]. Qed.
Lemma table iter th m1 m2 i1 i2 r1 r2 depth u A e0 s0 t tw : choose m1 m2 i1 i2 = (A, (e0, s0) :: t, tw) -> tw = false \/ wtype m1 <> 0%nat -> let l0 := r1 + r2 - depth in let dl := shift m1 m2 l0 u in
  0 <= dl -> 0 < l0 + dl -> growing 0 ((e0, s0) :: t) -> (wtype m1 = 2%nat -> 0 < lamF m1 <= 1) -> (wtype m2 = 2%nat -> 0 < lamF m2 <= 1) ->
  exists p, ip2 iter th m1 m2 i1 i2 r1 r2 depth u = WMade p /\ first p = (0, 0) /\ plastD p = 0 /\ initD p = depth /\ twisted p = tw /\ dL p = dl /\ (linked p = true <-> (iter < th)%Z) /\ nForce p = vzero /\
    wkn p = s0 * A / (e0 * (l0 + dl)) /\ rest p <> [] /\ falling 0 (points p) /\ lines (0, 0) (rest p) /\ last_u p = - (fst (last ((e0, s0) :: t) (0, 0)) * (l0 + dl)) - dl /\
    forall e s, In (e, s) ((e0, s0) :: t) -> curve (0, 0) (points p) (- (e * (l0 + dl)) - dl) = - (s * A).
Proof.
  intros CH TW l0 dl D0 L G T1 T2. unfold ip2. rewrite CH. fold l0. fold dl. cbv zeta. assert (SH : wtype m1 <> 2%nat -> wtype m2 <> 2%nat -> dl = 0) by (intros X1 X2; unfold dl, shift; destruct (Nat.eqb_spec (wtype m1) 2); [contradiction|]; destruct (Nat.eqb_spec (wtype m2) 2); [contradiction|reflexivity]). clearbody dl. clearbody l0. cbn [map fst snd]. pose proof G as G0. cbn [growing fst] in G. destruct G as (G1 & G2).
  remember (l0 + dl) as l. assert (EL : 0 < e0 * l) by (apply Rmult_lt_0_compat; assumption). destruct (Req_EM_T (- e0 * l - dl + dl) 0); [exfalso; lra|].
  assert (BT : (if (tw && (wtype m1 =? 0)%nat)%bool then bertrand m1 l A (- s0 * A / (- e0 * l - dl + dl)) (- e0 * l - dl, - s0 * A) (map (fun e => (- fst e * l - dl, - snd e * A)) t) else Some (- s0 * A / (- e0 * l - dl + dl), (- e0 * l - dl, - s0 * A) :: map (fun e => (- fst e * l - dl, - snd e * A)) t)) = Some (- s0 * A / (- e0 * l - dl + dl), (- e0 * l - dl, - s0 * A) :: map (fun e => (- fst e * l - dl, - snd e * A)) t)).
  { destruct TW as [->|X]; [reflexivity|]. destruct (Nat.eqb_spec (wtype m1) 0); [contradiction|]. rewrite andb_false_r. reflexivity. } rewrite BT. clear BT.
  assert (K : - s0 * A / (- e0 * l - dl + dl) = s0 * A / (e0 * l)) by (field; split; [|]; lra || (split; lra) || (intros Z; rewrite Z in EL; lra)).
  rewrite K. set (p0 := (- e0 * l - dl, - s0 * A)). set (tl := map (fun e => (- fst e * l - dl, - snd e * A)) t). assert (FT : falling (fst p0) tl) by (apply falling_table; assumption).
  assert (LA : last (map (fun e => - fst e * l - dl) ((e0, s0) :: t)) 0 = - (fst (last ((e0, s0) :: t) (0, 0)) * l) - dl).
  { clear. generalize (e0, s0). induction t as [|x t IH]; intros y; [cbn; ring|]. change (last (map (fun e => - fst e * l - dl) (y :: x :: t)) 0) with (last (map (fun e => - fst e * l - dl) (x :: t)) 0). rewrite IH. reflexivity. }
  assert (EX : exists k0 pts, extra m1 m2 (s0 * A / (e0 * l)) dl (p0 :: tl) = Some (k0, pts) /\ exists q0 tl', pts = q0 :: tl' /\ fst q0 < 0 /\ k0 * (fst q0 - 0) = snd q0 - 0 /\ falling (fst q0) tl' /\ (pts = p0 :: tl \/ tl' = p0 :: tl)).
  { assert (ADD : forall m, 0 < lamF m <= 1 -> exists k0 pts, (let u := - dl + lamF m * (fst p0 + dl) in let f := snd p0 * lamF m in if Req_EM_T u 0 then None else Some (f / u, if Rlt_dec (lamF m) 1 then (u, f) :: p0 :: tl else p0 :: tl)) = Some (k0, pts) /\ exists q0 tl', pts = q0 :: tl' /\ fst q0 < 0 /\ k0 * (fst q0 - 0) = snd q0 - 0 /\ falling (fst q0) tl' /\ (pts = p0 :: tl \/ tl' = p0 :: tl)).
    { intros m (M1 & M2). cbv zeta. assert (P0 : fst p0 + dl = - (e0 * l)) by (unfold p0; cbn [fst]; ring). rewrite P0. assert (LL : 0 < lamF m * (e0 * l)) by (apply Rmult_lt_0_compat; assumption). destruct (Req_EM_T _ 0); [exfalso; lra|]. destruct (Rlt_dec (lamF m) 1) as [X|X].
      - eexists. eexists. split; [reflexivity|]. eexists. eexists. split; [reflexivity|]. cbn [fst snd falling]. split; [lra|]. split; [field; lra|]. split; [|right; reflexivity]. split; [|exact FT]. assert (fst p0 = - (e0 * l) - dl) by lra. assert (lamF m * (e0 * l) < 1 * (e0 * l)) by (apply Rmult_lt_compat_r; assumption). lra.
      - assert (E1 : lamF m = 1) by lra. eexists. eexists. split; [reflexivity|]. exists p0, tl. split; [reflexivity|]. rewrite E1. split; [lra|]. split; [|split; [exact FT|left; reflexivity]]. assert (E2 : fst p0 = - dl + 1 * - (e0 * l)) by lra. rewrite <- E2. field. lra. }
    unfold extra. destruct (Nat.eqb_spec (wtype m1) 2) as [X1|X1]; [exact (ADD m1 (T1 X1))|]. destruct (Nat.eqb_spec (wtype m2) 2) as [X2|X2]; [exact (ADD m2 (T2 X2))|]. specialize (SH X1 X2). eexists. eexists. split; [reflexivity|]. exists p0, tl. split; [reflexivity|]. unfold p0. cbn [fst snd]. split; [lra|]. split; [|split; [exact FT|left; reflexivity]]. rewrite SH. field. split; [|]; intros Z; rewrite Z in EL; lra. }
  destruct EX as (k0 & pts & EX & q0 & tl' & EP & Q1 & Q2 & Q3 & Q4). rewrite EX, EP. destruct (slopes_spec tl' q0 Q3) as (r & ES & MR & LI). rewrite ES. eexists. split; [reflexivity|]. cbn [first plastD initD twisted dL linked nForce wkn rest]. unfold points. cbn [rest map fst]. rewrite MR.
  assert (FA : falling 0 (q0 :: tl')) by (cbn [falling]; auto). assert (SUB : forall q, In q (p0 :: tl) -> In q (q0 :: tl')) by (intros q I; destruct Q4 as [Q|Q]; [rewrite <- EP, Q; exact I|right; rewrite Q; exact I]).
  split; [reflexivity|]. split; [reflexivity|]. split; [reflexivity|]. split; [reflexivity|]. split; [reflexivity|]. split; [apply Z.ltb_lt|]. split; [reflexivity|]. split; [reflexivity|]. split; [discriminate|]. split; [exact FA|]. split; [split; [exact Q2|exact LI]|]. split.
  - unfold last_u. cbn [rest first fst]. rewrite <- LA. assert (MP : map pu ((q0, k0) :: r) = map fst (q0 :: tl')) by (cbn [map]; f_equal; rewrite <- MR; rewrite map_map; reflexivity). rewrite MP. assert (MT : map (fun e => - fst e * l - dl) ((e0, s0) :: t) = map fst (p0 :: tl)) by (unfold tl; cbn [map]; f_equal; rewrite map_map; reflexivity). rewrite MT. destruct Q4 as [Q|Q]; [rewrite <- EP, Q; reflexivity|rewrite Q; reflexivity].
  - intros e s I. replace (- (e * l) - dl) with (fst (- e * l - dl, - s * A)) by (cbn [fst]; ring). replace (- (s * A)) with (snd (- e * l - dl, - s * A)) by (cbn [snd]; ring). apply curve_point; [exact FA|]. apply SUB. change (p0 :: tl) with (map (fun e => (- fst e * l - dl, - snd e * A)) ((e0, s0) :: t)). apply (in_map (fun e => (- fst e * l - dl, - snd e * A)) _ (e, s)). exact I.
Qed.
(** what is chosen *)
Lemma chosen_same m1 m2 i1 i2 : wmid m1 = wmid m2 -> choose m1 m2 i1 i2 = (if wtwist m1 && (Z.abs (i1 - i2) =? 1)%Z && ((wtype m1 =? 1)%nat || (wtype m1 =? 2)%nat) then was m1 * 2 else was m1, if wtwist m1 && (Z.abs (i1 - i2) =? 1)%Z && ((wtype m1 =? 1)%nat || (wtype m1 =? 2)%nat) then wcurveDT m1 else wcurve m1, wtwist m1 && (Z.abs (i1 - i2) =? 1)%Z).
Proof. intros E. unfold choose. rewrite E, Z.eqb_refl. destruct (wtwist m1 && _)%bool; [destruct (_ || _)%bool; reflexivity|reflexivity]. Qed.
Lemma chosen_other m1 m2 i1 i2 : wmid m1 <> wmid m2 -> choose m1 m2 i1 i2 = (if Rle_dec (wdiam m1) (wdiam m2) then (was m1, wcurve m1, false) else (was m2, wcurve m2, false)).
Proof. intros E. unfold choose. destruct (Z.eqb_spec (wmid m1) (wmid m2)); [contradiction|reflexivity]. Qed.
(** ** double twist of type 0: points out of order *)
Lemma den_pos x v : 0 <= v -> 0 < 48 * cos (atan x) * (41/9 * (1 + v) + 17/4 * (tan (atan x) * tan (atan x))).
Proof.
  intros V. pose proof (atan_bound x) as (B1 & B2). assert (C : 0 < cos (atan x)) by (apply cos_gt_0; lra). assert (0 <= tan (atan x) * tan (atan x)) by apply Rle_0_sqr. apply Rmult_lt_0_compat; [|lra]. apply Rmult_lt_0_compat; lra.
Qed.
Lemma twist_refuted : growing 0 (wcurve twine) /\ accepted twine = true /\ exists p, ip2 0 1 twine twine 1 2 (1/2) (1/2) 0 0 = WMade p /\ ~ falling 0 (points p) /\ last_u p = -94/1000 /\ exists F, nth_error (points p) 0 = Some (-1/10, F).
Proof.
  split; [cbn [twine wcurve growing fst]; lra|]. split.
  { unfold accepted, is0. cbn [twine wcurve wtype wcurveDT]. destruct (Req_EM_T (1/10) 0); [exfalso; lra|]. reflexivity. }
  unfold ip2. rewrite (chosen_same twine twine 1 2 eq_refl). cbn [twine wtwist wtype wcurve wcurveDT was Nat.eqb orb andb]. change (Z.abs (1 - 2) =? 1)%Z with true. cbn [andb]. cbv zeta. change (shift twine twine (1/2 + 1/2 - 0) 0) with 0. cbn [map fst snd]. destruct (Req_EM_T _ 0) as [Z|_]; [exfalso; lra|].
  unfold bertrand. cbn [twine wdiam wpoisson lamk lamEps]. destruct (Req_EM_T 2 0); [exfalso; lra|]. destruct (Req_EM_T 1 0); [exfalso; lra|]. cbv zeta. pose proof (den_pos ((1/2 + 1/2 - 0 + 0) / (3 * PI * 2)) 0 ltac:(lra)) as DP. remember (48 * cos (atan ((1/2 + 1/2 - 0 + 0) / (3 * PI * 2))) * _) as den. destruct (Req_EM_T den 0); [exfalso; lra|]. cbn [fst snd]. destruct (Req_EM_T (- (1) * 1) 0); [exfalso; lra|]. cbn [map fst snd]. remember (2 * _) as k'. remember (k' * _) as F. remember (- (2) * 1 * (F / (- (1) * 1))) as F2.
  unfold extra. cbn [twine wtype Nat.eqb]. unfold slopes. cbn [fst snd]. cbv zeta. destruct (Req_EM_T _ 0) as [Z|_]; [exfalso; lra|]. eexists. split; [reflexivity|]. unfold points, last_u. cbn [rest map fst falling pu last]. split; [intros (_ & H & _); lra|]. split; [lra|]. exists F. cbn [nth_error]. f_equal. apply (f_equal2 pair); [lra|reflexivity].
Qed.
(** ** C260 *)
Lemma order iter th m1 m2 i1 i2 r1 r2 depth u : m1 = m2 \/ other_diameter m1 m2 -> ip2 iter th m1 m2 i1 i2 r1 r2 depth u = ip2 iter th m2 m1 i2 i1 r2 r1 depth u.
Proof.
  intros H. assert (C : choose m1 m2 i1 i2 = choose m2 m1 i2 i1 /\ shift m1 m2 (r1 + r2 - depth) u = shift m2 m1 (r1 + r2 - depth) u).
  { destruct H as [<-|(A & B & T)].
    - split; [|reflexivity]. unfold choose. replace (Z.abs (i2 - i1)) with (Z.abs (i1 - i2)) by lia. reflexivity.
    - split; [|unfold shift; destruct (Nat.eqb_spec (wtype m1) 2), (Nat.eqb_spec (wtype m2) 2); tauto || reflexivity]. rewrite (chosen_other m1 m2 i1 i2 A), (chosen_other m2 m1 i2 i1) by congruence. destruct (Rle_dec (wdiam m1) (wdiam m2)), (Rle_dec (wdiam m2) (wdiam m1)); try reflexivity; exfalso; lra. }
  destruct C as (C & S). unfold ip2. rewrite (Rplus_comm r2 r1). rewrite <- C, <- S. destruct (choose m1 m2 i1 i2) as ((A, SS), tw) eqn:EC. cbv zeta. assert (B : forall l k p0 tl, (if (tw && (wtype m1 =? 0)%nat)%bool then bertrand m1 l A k p0 tl else Some (k, p0 :: tl)) = (if (tw && (wtype m2 =? 0)%nat)%bool then bertrand m2 l A k p0 tl else Some (k, p0 :: tl))).
  { intros. destruct H as [<-|(N & _)]; [reflexivity|]. rewrite (chosen_other m1 m2 i1 i2 N) in EC. assert (tw = false) by (destruct (Rle_dec _ _); injection EC; congruence). subst tw. reflexivity. }
  assert (X : forall k dl pts, extra m1 m2 k dl pts = extra m2 m1 k dl pts). { intros. destruct H as [<-|(_ & _ & T)]; [reflexivity|]. unfold extra. destruct pts; [reflexivity|]. cbv zeta. destruct (Nat.eqb_spec (wtype m1) 2), (Nat.eqb_spec (wtype m2) 2); tauto || reflexivity. }
  destruct (map _ SS) as [|p0 tl]; [reflexivity|]. destruct (Req_EM_T _ 0); [reflexivity|]. rewrite B. destruct (if (tw && (wtype m2 =? 0)%nat)%bool then _ else _) as [(kn, pts)|]; [|reflexivity]. rewrite X. reflexivity.
Qed.
Lemma steel_pair (m1 m2 : wmat) e1 s1 t : wmid m1 <> wmid m2 -> wdiam m1 = wdiam m2 -> wtype m1 = 0%nat -> wtype m2 = 0%nat -> wcurve m1 = (e1, s1) :: t -> was m1 = 1 -> growing 0 ((e1, s1) :: t) -> exists p, ip2 0 1 m1 m2 0 5 (1/2) (1/2) 0 0 = WMade p /\ wkn p = s1 / e1.
Proof.
  intros N D T1 T2 C A G. assert (CH : choose m1 m2 0 5 = (1, (e1, s1) :: t, false)) by (rewrite (chosen_other _ _ _ _ N); destruct (Rle_dec _ _); [rewrite A, C; reflexivity|exfalso; lra]). assert (SH : shift m1 m2 (1/2 + 1/2 - 0) 0 = 0) by (unfold shift; rewrite T1, T2; reflexivity).
  destruct (table 0 1 m1 m2 0 5 (1/2) (1/2) 0 0 1 e1 s1 t false CH (or_introl eq_refl)) as (p & E & _ & _ & _ & _ & _ & _ & _ & K & _); [rewrite SH; lra|rewrite SH; lra|exact G|rewrite T1; discriminate|rewrite T2; discriminate|]. exists p. split; [exact E|]. rewrite K, SH. cbn [growing fst] in G. field. lra.
Qed.
Lemma order_refuted : exists p q, ip2 0 1 steel weak_steel 0 5 (1/2) (1/2) 0 0 = WMade p /\ ip2 0 1 weak_steel steel 0 5 (1/2) (1/2) 0 0 = WMade q /\ wkn p = 10 /\ wkn q = 5.
Proof.
  destruct (steel_pair steel weak_steel (1/10) 1 [(1/5, 3/2)]) as (p & E & K); try reflexivity; [discriminate|cbn [growing fst]; lra|]. destruct (steel_pair weak_steel steel (1/10) (1/2) [(1/5, 1)]) as (q & E' & K'); try reflexivity; [discriminate|cbn [growing fst]; lra|]. exists p, q. split; [exact E|]. split; [exact E'|]. lra.
Qed.
Lemma label_refuted m1 m2 i1 i2 : wmid m1 = wmid m2 -> wtwist m1 = false -> choose m1 m2 i1 i2 = (was m1, wcurve m1, false).
Proof. intros E T. unfold choose. rewrite E, Z.eqb_refl, T. reflexivity. Qed.
(** ** C261 *)
Lemma accepted_spec m : accepted m = true -> wcurve m = [] \/ exists e s e' s' t, wcurve m = (e, s) :: (e', s') :: t /\ ~ (e = 0 /\ s = 0) /\ (wtype m = 0%nat /\ wcurveDT m = [] \/ (wtype m = 1%nat \/ wtype m = 2%nat) /\ (wtwist m = true -> exists e1 s1 e2 s2 t', wcurveDT m = (e1, s1) :: (e2, s2) :: t' /\ (e1 = 0 -> s1 = 0))).
Proof.
  unfold accepted. destruct (wcurve m) as [|(e, s) [|(e', s') t]]; [left; reflexivity|discriminate|]. unfold is0. intros H. right. exists e, s, e', s', t. split; [reflexivity|].
  assert (DT : checkDT m = true -> wtwist m = true -> exists e1 s1 e2 s2 t', wcurveDT m = (e1, s1) :: (e2, s2) :: t' /\ (e1 = 0 -> s1 = 0)).
  { unfold checkDT, is0. intros C T. rewrite T in C. cbn [negb orb] in C. destruct (wcurveDT m) as [|(e1, s1) [|(e2, s2) t']]; [discriminate|discriminate|]. exists e1, s1, e2, s2, t'. split; [reflexivity|]. intros Z. destruct (Req_EM_T e1 0); [|contradiction]. destruct (Req_EM_T s1 0); [assumption|discriminate]. }
  destruct (Req_EM_T e 0), (Req_EM_T s 0); cbn [andb] in H; try discriminate; (split; [tauto|]); destruct (wtype m) as [|[|[|n9]]]; try discriminate; [left|right|right|left|right|right|left|right|right]; try (split; [auto|]; auto); destruct (wcurveDT m); try discriminate; auto.
Qed.
Lemma area_after m : was (fst (postLoad m)) = PI * (wdiam m * wdiam m) / 4 /\ forall c, was (fst (setCurve m c)) = PI * (wdiam m * wdiam m) / 4.
Proof. unfold postLoad, setCurve, area. cbn [fst was wdiam]. split; [|intros c; cbn [postLoad fst was wdiam]; unfold area]; field. Qed.
Lemma stale_refuted : let m := setDiameter (fst (postLoad steel)) 4 in wdiam m = 4 /\ was m = PI /\ was m <> area (wdiam m).
Proof. cbv zeta. unfold setDiameter, postLoad, area. cbn [fst was wdiam steel]. split; [reflexivity|]. pose proof PI_RGT_0. split; [lra|]. lra. Qed.
Lemma quotient_refuted : accepted flat_start = true /\ ip2 0 1 flat_start flat_start 0 5 (1/2) (1/2) 0 0 = WQuotient.
Proof.
  split; [unfold accepted, is0; cbn [flat_start wcurve wtype wcurveDT]; destruct (Req_EM_T 1 0); [exfalso; lra|]; rewrite andb_false_r; reflexivity|]. unfold ip2. rewrite (label_refuted flat_start flat_start 0 5 eq_refl eq_refl). cbv zeta. change (shift flat_start flat_start (1/2 + 1/2 - 0) 0) with 0. cbn [flat_start wcurve map fst snd]. destruct (Req_EM_T _ 0) as [|N]; [reflexivity|]. exfalso. apply N. ring.
Qed.
Lemma twist_zero_refuted : accepted zero_start = true /\ ip2 0 1 zero_start zero_start 1 2 (1/2) (1/2) 0 0 = WQuotient.
Proof.
  split. { unfold accepted, checkDT, is0. cbn [zero_start wcurve wtype wcurveDT wtwist negb orb]. destruct (Req_EM_T (1/10) 0); [exfalso; lra|]. cbn [andb]. destruct (Req_EM_T 0 0) as [_|]; [reflexivity|contradiction]. }
  unfold ip2. rewrite (chosen_same zero_start zero_start 1 2 eq_refl). cbn [zero_start wtwist wtype wcurve wcurveDT was Nat.eqb orb andb]. change (Z.abs (1 - 2) =? 1)%Z with true. cbn [andb]. cbv zeta. change (shift zero_start zero_start (1/2 + 1/2 - 0) 0) with 0. cbn [map fst snd]. destruct (Req_EM_T _ 0) as [|N]; [reflexivity|]. exfalso. apply N. ring.
Qed.
Lemma empty_refuted : accepted no_table = true /\ ip2 0 1 no_table no_table 0 5 (1/2) (1/2) 0 0 = WUndefined.
Proof. split; reflexivity. Qed.
(** ** C262 *)
Lemma balance_point g p i1 x1 i2 x2 q a o at_ : law false g p i1 x1 i2 x2 = WKept q a -> at_ i1 = x1 -> at_ i2 = x2 -> total_force a = vzero /\ total_moment o at_ a = vzero.
Proof.
  unfold law. destruct (negb (linked p)); [discriminate|]. destruct (Rlt_dec _ _); [discriminate|]. destruct (pull _ _) as (F & b & pl). cbv zeta. cbn [negb]. intros E X1 X2. injection E as _ <-. remember (smul F (normal g)) as f. split; unfold total_force, total_moment, applyForceAtContactPoint, vsum, moment; cbn [map fst snd fold_right]; [|rewrite X1, X2]; clear; destruct f as [a b c]; unfold vadd, vopp, vsub, cross, vzero; cbn [vx vy vz]; f_equal; ring.
Qed.
Lemma balance_periodic g p i1 x1 i2 x2 q a o y d : law true g p i1 x1 i2 x2 = WKept q a -> i1 <> i2 -> y = vadd x1 (smul d (normal g)) -> total_force a = vzero /\ total_moment o (fun i => if Nat.eqb i i1 then x1 else y) a = vzero.
Proof.
  unfold law. destruct (negb (linked p)); [discriminate|]. destruct (Rlt_dec _ _); [discriminate|]. destruct (pull _ _) as (F & b & pl). cbv zeta. cbn [negb]. intros E N Y. injection E as _ <-. split; unfold total_force, total_moment, vsum, moment; cbn [map fst snd fold_right]; [|rewrite Nat.eqb_refl; destruct (Nat.eqb_spec i2 i1); [congruence|]; rewrite Y]; clear; destruct (normal g) as [a b c]; unfold smul, vadd, vopp, vsub, cross, vzero; cbn [vx vy vz]; f_equal; ring.
Qed.
Lemma direction per g p i1 x1 i2 x2 q a : law per g p i1 x1 i2 x2 = WKept q a -> i1 <> i2 -> exists F, F <= 0 /\ nForce q = smul F (normal g) /\ force_on a i2 = smul F (normal g) /\ force_on a i1 = smul (- F) (normal g).
Proof.
  unfold law. destruct (negb (linked p)); [discriminate|]. destruct (Rlt_dec _ _); [discriminate|]. destruct (pull p (penetrationDepth g - initD p)) as (F & b & pl) eqn:EP. cbv zeta. intros E N. injection E as <- <-. exists F. split.
  { unfold pull in EP. destruct (Rlt_dec _ _); [injection EP as <- _ _; apply Rmin_l|]. destruct (load _ _ _); injection EP as <- _ _; [apply Rmin_l|lra]. }
  split; [reflexivity|]. destruct per; unfold force_on, applyForceAtContactPoint, vsum; cbn [negb map fst snd fold_right]; rewrite !Nat.eqb_refl; destruct (Nat.eqb_spec i1 i2); try contradiction; destruct (Nat.eqb_spec i2 i1); try congruence; clear; destruct (normal g) as [x y z]; unfold smul, vadd, vopp, vsub, cross, vzero; cbn [vx vy vz]; split; f_equal; ring.
Qed.
(** the shift, and the point which is added *)
Lemma shift_spec m1 m2 l0 u m : (wtype m1 = 2%nat /\ m = m1) \/ (wtype m1 <> 2%nat /\ wtype m2 = 2%nat /\ m = m2) -> shift m1 m2 l0 u = l0 * lamu m * (if wseed m then 1 else u).
Proof.
  intros H. unfold shift. destruct H as [(T & ->)|(N & T & ->)]; [rewrite T, Nat.eqb_refl|destruct (Nat.eqb_spec (wtype m1) 2); [contradiction|]; rewrite T, Nat.eqb_refl]; unfold shift_of; destruct (wseed _); ring.
Qed.
Lemma shift_none m1 m2 l0 u : wtype m1 <> 2%nat -> wtype m2 <> 2%nat -> shift m1 m2 l0 u = 0.
Proof. intros A B. unfold shift. destruct (Nat.eqb_spec (wtype m1) 2); [contradiction|]. destruct (Nat.eqb_spec (wtype m2) 2); [contradiction|reflexivity]. Qed.
Lemma shifted_point iter th m1 m2 i1 i2 r1 r2 depth u A e0 s0 t tw m p : choose m1 m2 i1 i2 = (A, (e0, s0) :: t, tw) -> tw = false \/ wtype m1 <> 0%nat -> (wtype m1 = 2%nat /\ m = m1) \/ (wtype m1 <> 2%nat /\ wtype m2 = 2%nat /\ m = m2) -> lamF m < 1 ->
  ip2 iter th m1 m2 i1 i2 r1 r2 depth u = WMade p -> let l0 := r1 + r2 - depth in let dl := shift m1 m2 l0 u in
  nth_error (points p) 0 = Some (- dl - lamF m * (e0 * (l0 + dl)), - (lamF m * (s0 * A))).
Proof.
  intros CH TW M LF E l0 dl. unfold ip2 in E. rewrite CH in E. fold l0 in E. fold dl in E. cbv zeta in E. clearbody dl. clearbody l0. cbn [map fst snd] in E. destruct (Req_EM_T _ 0); [discriminate|].
  assert (TB : (tw && (wtype m1 =? 0)%nat)%bool = false) by (destruct TW as [->|X]; [reflexivity|]; destruct (Nat.eqb_spec (wtype m1) 0); [contradiction|]; apply andb_false_r). rewrite TB in E.
  assert (EX : forall k pts p0, extra m1 m2 k dl (p0 :: pts) = let u := - dl + lamF m * (fst p0 + dl) in let f := snd p0 * lamF m in if Req_EM_T u 0 then None else Some (f / u, if Rlt_dec (lamF m) 1 then (u, f) :: p0 :: pts else p0 :: pts)).
  { intros. unfold extra. destruct M as [(T & ->)|(N & T & ->)]; [rewrite T; reflexivity|]. destruct (Nat.eqb_spec (wtype m1) 2); [contradiction|]. rewrite T. reflexivity. }
  rewrite EX in E. cbv zeta in E. cbn [fst snd] in E. destruct (Req_EM_T _ 0); [discriminate|]. destruct (Rlt_dec (lamF m) 1); [|contradiction]. destruct (slopes _ _) as [rr|]; [|discriminate]. injection E as <-. unfold points. cbn [rest map fst nth_error]. f_equal. apply (f_equal2 pair); ring.
Qed.
