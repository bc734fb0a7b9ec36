From Coq Require Import Reals List ZArith Bool Lra Lia Ratan.
From Verif Require Import Vec_Model Vec_Proofs Rigid_Spec Law_Model Law_Spec Law_Proofs Wire_Model Wire_Spec.
Import ListNotations.
Local Open Scope R_scope.

(** ** the curve *)
Lemma line_slope a b k u : fst b <> fst a -> k * (fst b - fst a) = snd b - snd a -> line a b u = snd a + (u - fst a) * k.
Proof. intros N H. unfold line. rewrite <- H. field. lra. Qed.
Lemma curve_start a l : falling (fst a) l -> curve a l (fst a) = snd a.
Proof.
  destruct l as [|b [|c l]]; intros F; [reflexivity|..]; cbn [falling] in F; destruct F as (F & _); cbn [curve].
  - unfold line. replace (fst a - fst a) with 0 by ring. unfold Rdiv. ring.
  - destruct (Rlt_dec (fst b) (fst a)); [|contradiction]. unfold line. replace (fst a - fst a) with 0 by ring. unfold Rdiv. ring.
Qed.
Lemma curve_point l : forall a q, falling (fst a) l -> In q l -> curve a l (fst q) = snd q.
Proof.
  assert (LE : forall l x q, falling x l -> In q l -> fst q < x).
  { intros l'. induction l' as [|b l' IH]; intros x q F I; [destruct I|]. cbn [falling] in F. destruct F as (F1 & F2). destruct I as [->|I]; [exact F1|]. specialize (IH _ _ F2 I). lra. }
  induction l as [|b l IH]; intros a q F I; [destruct I|]. cbn [falling] in F. destruct F as (F1 & F2). destruct l as [|c l].
  - destruct I as [->|[]]. cbn [curve]. unfold line. field. lra.
  - change (curve a (b :: c :: l) (fst q)) with (if Rlt_dec (fst b) (fst q) then line a b (fst q) else curve b (c :: l) (fst q)). destruct I as [->|I].
    + destruct (Rlt_dec (fst q) (fst q)); [lra|]. apply curve_start. exact F2.
    + specialize (LE _ _ _ F2 I). destruct (Rlt_dec (fst b) (fst q)); [lra|]. apply IH; assumption.
Qed.
Lemma last_step q (r : list (R * R * R)) d : last (map pu (q :: r)) d = last (map pu r) (pu q).
Proof. revert q d. induction r as [|q' r IH]; intros q d; [reflexivity|]. cbn [map]. change (last (pu q :: pu q' :: map pu r) d) with (last (pu q' :: map pu r) d). change (pu q' :: map pu r) with (map pu (q' :: r)). rewrite !IH. reflexivity. Qed.
Lemma curve_cons a q (r : list (R * R * R)) u : curve a (map fst (q :: r)) u = match r with [] => line a (fst q) u | _ => if Rlt_dec (pu q) u then line a (fst q) u else curve (fst q) (map fst r) u end.
Proof. destruct r; reflexivity. Qed.
Lemma load_curve r : forall a D, lines a r -> falling (fst a) (map fst r) -> last (map pu r) (fst a) < D -> D <= fst a -> load D a r = Some (curve a (map fst r) D).
Proof.
  induction r as [|q r IH]; intros a D Li F L U; [cbn in L; lra|]. cbn [lines map falling] in Li, F. destruct Li as (S & Li), F as (F1 & F2). rewrite last_step in L. rewrite curve_cons. cbn [load]. fold (pu q) in *. unfold pk.
  destruct (Rlt_dec (pu q) D) as [X|X].
  - rewrite (line_slope a (fst q) (snd q) D) by (try exact S; unfold pu in *; lra). destruct r; reflexivity.
  - destruct r as [|q' r]; [cbn in L; contradiction|]. rewrite (IH (fst q) D Li F2 L) by (unfold pu in *; lra). reflexivity.
Qed.
(** also if the first point has moved along the curve *)
Lemma load_moved r a m D : lines a r -> falling (fst a) (map fst r) -> last (map pu r) (fst a) < D -> D <= m <= fst a -> load D (m, curve a (map fst r) m) r = Some (curve a (map fst r) D).
Proof.
  intros Li F L U. destruct r as [|q r]; [cbn in L; lra|]. rewrite <- (load_curve (q :: r) a D Li F L) by lra. cbn [load]. destruct (Rlt_dec (pu q) D) as [X|X]; [|reflexivity]. cbn [lines map falling] in Li, F. destruct Li as (S & _), F as (F1 & _). fold (pu q) in F1. cbn [fst snd]. f_equal.
  assert (E : curve a (map fst (q :: r)) m = line a (fst q) m) by (rewrite curve_cons; destruct r; [reflexivity|]; destruct (Rlt_dec (pu q) m); [reflexivity|lra]). rewrite E. rewrite (line_slope a (fst q) (snd q) m) by (try exact S; unfold pu in *; lra). unfold pk. ring.
Qed.
(** ** C256: histories *)
Lemma falling_last (r : list (R * R * R)) x : r <> [] -> falling x (map fst r) -> last (map pu r) x < x.
Proof.
  revert x. induction r as [|q r IH]; intros x N F; [contradiction|]. cbn [map falling] in F. destruct F as (F1 & F2). rewrite last_step. fold (pu q) in *. destruct r as [|q' r]; [exact F1|]. specialize (IH (pu q) ltac:(discriminate) F2). lra.
Qed.
Lemma new_reached p : new_wire p -> reached p p 0.
Proof.
  intros (A & B & C & D & E & F & G). unfold reached. assert (X : curve (0, 0) (points p) 0 = 0) by (apply (curve_start (0, 0)); exact E). rewrite X. split; [reflexivity|]. split; [exact C|]. split; [reflexivity|]. split; [reflexivity|]. split; [exact A|]. split; [rewrite B; field; lra|]. split; [lra|]. apply falling_last; assumption.
Qed.
Lemma last_u_reached p q m : new_wire p -> reached p q m -> last_u q = last (map pu (rest p)) 0.
Proof. intros (_ & _ & _ & N & _) (_ & _ & _ & R & F & _). unfold last_u. rewrite R. destruct (rest p) as [|x r]; [contradiction|]. rewrite !last_step. reflexivity. Qed.
Lemma pull_reached p q m D : new_wire p -> reached p q m -> last (map pu (rest p)) 0 < D -> let f := curve (0, 0) (points p) in
  exists a pl, pull q D = (wire_force f (wkn p) (Rmin m D) D, (a, pl)) /\ a = (Rmin m D, f (Rmin m D)) /\ pl = Rmin m D - f (Rmin m D) / wkn p.
Proof.
  intros (N1 & N2 & N3 & N4 & N5 & N6 & N7) (R1 & R2 & R3 & R4 & R5 & R6 & R7 & R8) L f. unfold pull. rewrite R5, R6, R3, R4. cbn [fst]. fold f. unfold wire_force. destruct (Rlt_dec m D) as [X|X].
  - rewrite (Rmin_left m D) by lra. eexists. eexists. split; [|split; reflexivity]. f_equal. f_equal. field. lra.
  - rewrite (Rmin_right m D) by lra. unfold f, points. rewrite (load_moved (rest p) (0, 0) m D N6 N5 L) by (cbn [fst]; lra). eexists. eexists. split; [|split; reflexivity]. f_equal. f_equal. ring.
Qed.
Lemma law_reached per n p q m D i1 x1 i2 x2 : new_wire p -> reached p q m -> last (map pu (rest p)) 0 < D -> let f := curve (0, 0) (points p) in
  exists q' a, law per (geom_of n (initD q + D)) q i1 x1 i2 x2 = WKept q' a /\ reached p q' (Rmin m D) /\ nForce q' = smul (wire_force f (wkn p) (Rmin m D) D) n.
Proof.
  intros N R L f. pose proof (last_u_reached p q m N R) as EL. destruct (pull_reached p q m D N R L) as (a & pl & EP & Ea & Epl). fold f in EP, Ea, Epl. pose proof R as (R1 & R2 & R3 & R4 & R5 & R6 & R7 & R8). unfold law. cbn [geom_of penetrationDepth normal]. replace (initD q + D - initD q) with D by ring. rewrite R2. cbn [negb]. rewrite EL. destruct (Rlt_dec D _) as [|_]; [exfalso; lra|]. rewrite EP.
  eexists. eexists. split; [reflexivity|]. split; [|reflexivity]. unfold reached. cbn [initD linked wkn rest first plastD]. fold f. split; [exact R1|]. split; [reflexivity|]. split; [exact R3|]. split; [exact R4|]. split; [exact Ea|]. split; [exact Epl|]. split; [apply Rle_trans with m; [apply Rmin_l|exact R7]|apply Rmin_glb_lt; assumption].
Qed.
Lemma history_gen n p ds : forall q m, new_wire p -> reached p q m -> Forall (fun d => last (map pu (rest p)) 0 < d) ds ->
  forces_of n q ds = map (fun F => Some (smul F n)) (wire_forces (curve (0, 0) (points p)) (wkn p) m ds).
Proof.
  induction ds as [|d ds IH]; intros q m N R F; [reflexivity|]. inversion F as [|? ? F1 F2]; subst. cbn [forces_of wire_forces map]. cbv zeta. destruct (law_reached false n p q m d 0 vzero 1 vzero N R F1) as (q' & a & E & R' & EF). rewrite E, EF. f_equal. apply IH; assumption.
Qed.
Lemma history n p ds : new_wire p -> Forall (fun d => last_u p < d) ds -> forces_of n p ds = map (fun F => Some (smul F n)) (wire_forces (curve (0, 0) (points p)) (wkn p) 0 ds).
Proof. intros N F. pose proof (new_reached p N) as R. rewrite (last_u_reached p p 0 N R) in F. exact (history_gen n p ds p 0 N R F). Qed.
Lemma forces_largest f k ds : forall m d, last (wire_forces f k m (ds ++ [d])) 0 = wire_force f k (largest m (ds ++ [d])) d.
Proof.
  induction ds as [|x ds IH]; intros m d; [reflexivity|]. cbn [app wire_forces largest fold_left]. cbv zeta. specialize (IH (Rmin m x) d). unfold largest in IH. rewrite <- IH. destruct ds; reflexivity.
Qed.
(** ** C257 *)
Lemma breaks per g p i1 x1 i2 x2 : linked p = true -> penetrationDepth g - initD p < last_u p ->
  exists q, law per g p i1 x1 i2 x2 = WErase q true /\ linked q = false /\ rest q = rest p /\ (forall per' g' j1 y1 j2 y2, law per' g' q j1 y1 j2 y2 = WErase q false).
Proof. intros L H. unfold law at 1. rewrite L. cbn [negb]. destruct (Rlt_dec _ _); [|contradiction]. eexists. split; [reflexivity|]. split; [reflexivity|]. split; [reflexivity|]. intros. unfold law. reflexivity. Qed.
Lemma kept per g p i1 x1 i2 x2 : linked p = true -> last_u p <= penetrationDepth g - initD p -> exists q a, law per g p i1 x1 i2 x2 = WKept q a /\ linked q = true /\ rest q = rest p /\ wkn q = wkn p /\ initD q = initD p.
Proof. intros L H. unfold law. rewrite L. cbn [negb]. destruct (Rlt_dec _ _); [lra|]. destruct (pull _ _) as (F & a & pl). eexists. eexists. split; [reflexivity|]. auto. Qed.
Lemma load_last r : forall a D, falling (fst a) (map fst r) -> D <= last (map pu r) (fst a) -> load D a r = None.
Proof.
  induction r as [|q r IH]; intros a D F L; [reflexivity|]. cbn [map falling] in F. destruct F as (F1 & F2). rewrite last_step in L. cbn [load]. fold (pu q) in *. assert (X : last (map pu r) (pu q) <= pu q). { destruct r as [|q' r]; [cbn; lra|]. left. apply falling_last; [discriminate|exact F2]. } destruct (Rlt_dec (pu q) D); [exfalso; lra|]. apply IH; assumption.
Qed.
Lemma last_in (r : list (R * R * R)) x : r <> [] -> exists q, In q r /\ last (map pu r) x = pu q.
Proof. revert x. induction r as [|q r IH]; intros x N; [contradiction|]. rewrite last_step. destruct r as [|q' r]; [exists q; split; [left; reflexivity|reflexivity]|]. destruct (IH (pu q) ltac:(discriminate)) as (q2 & I & E). exists q2. split; [right; exact I|exact E]. Qed.
Lemma last_point n p : new_wire p -> forces_of n p [last_u p] = [Some (smul 0 n)] /\ exists q, In q (points p) /\ fst q = last_u p /\ curve (0, 0) (points p) (last_u p) = snd q.
Proof.
  intros N. pose proof N as (A & B & C & D & E & F & G). pose proof (last_u_reached p p 0 N (new_reached p N)) as EL. split.
  - cbn [forces_of]. unfold law. rewrite C. cbn [negb geom_of penetrationDepth normal]. replace (initD p + last_u p - initD p) with (last_u p) by ring. destruct (Rlt_dec _ _) as [|_]; [exfalso; lra|]. unfold pull. rewrite A. cbn [fst]. pose proof (falling_last (rest p) 0 D E) as X. rewrite EL. destruct (Rlt_dec 0 _) as [|_]; [exfalso; lra|]. rewrite (load_last (rest p) (0, 0)) by (try exact E; cbn [fst]; lra). reflexivity.
  - destruct (last_in (rest p) 0 D) as (q & I & EQ). exists (fst q). assert (I' : In (fst q) (points p)) by (apply in_map; exact I). split; [exact I'|]. rewrite EL, EQ. split; [reflexivity|]. apply curve_point; assumption.
Qed.
Ltac wire_fields := cbn [simple_wire stiffening_wire initD linked wkn first rest plastD map fst snd pu pf pk].
Lemma simple_new : new_wire simple_wire.
Proof. unfold new_wire, points. wire_fields. cbn [falling lines fst snd]. repeat split; try reflexivity; try discriminate; lra. Qed.
Lemma simple_last : last_u simple_wire = -2. Proof. reflexivity. Qed.
Lemma last_point_refuted n : forces_of n simple_wire [-2] = [Some (smul 0 n)] /\ curve (0, 0) (points simple_wire) (-2) = -3.
Proof. split; [exact (proj1 (last_point n simple_wire simple_new))|]. apply (curve_point _ (0, 0) (-2, -3)); [apply simple_new|right; left; reflexivity]. Qed.
(** ** C258 *)
Lemma curve_lip r k : 0 <= k -> forall a M D, lines a r -> falling (fst a) (map fst r) -> Forall (fun q => 0 <= snd q <= k) r -> M <= D <= fst a ->
  0 <= curve a (map fst r) D - curve a (map fst r) M <= k * (D - M).
Proof.
  intros K. induction r as [|q r IH]; intros a M D Li F S H.
  - cbn [map curve]. assert (0 <= k * (D - M)) by (apply Rmult_le_pos; lra). lra.
  - pose proof Li as Li0. cbn [lines map falling] in Li, F. destruct Li as (SL & Li), F as (F1 & F2). inversion S as [|? ? S1 S2]; subst. fold (pu q) in *. rewrite !curve_cons.
    assert (LD : forall u, line a (fst q) u = snd a + (u - fst a) * snd q) by (intros u; apply line_slope; [unfold pu in F1; lra|exact SL]).
    assert (B : forall x y, x <= y -> 0 <= (y - x) * snd q <= k * (y - x)) by (intros x y XY; split; [apply Rmult_le_pos; lra|]; rewrite (Rmult_comm k); apply Rmult_le_compat_l; lra).
    destruct r as [|q' r]; [rewrite !LD; specialize (B M D ltac:(lra)); lra|]. remember (q' :: r) as r'. rewrite !LD. destruct (Rlt_dec (pu q) D) as [X|X], (Rlt_dec (pu q) M) as [Y|Y].
    + specialize (B M D ltac:(lra)). lra.
    + specialize (IH (fst q) M (pu q) Li F2 S2 ltac:(unfold pu; unfold pu in Y; lra)). assert (E : curve (fst q) (map fst r') (pu q) = snd (fst q)) by (apply curve_start; exact F2). rewrite E in IH. specialize (B (pu q) D ltac:(lra)). unfold pu in *. lra.
    + exfalso. lra.
    + apply IH; try assumption. unfold pu in X. lra.
Qed.
Lemma tension_only f k m ds : Forall (fun F => F <= 0) (wire_forces f k m ds).
Proof. revert m. induction ds as [|d ds IH]; intros m; [constructor|]. cbn [wire_forces]. cbv zeta. constructor; [unfold wire_force; apply Rmin_l|apply IH]. Qed.
Lemma within_curve p ds : new_wire p -> not_stiffer (wkn p) p -> Forall2 (fun d F => F <= 0 /\ (d <= 0 -> curve (0, 0) (points p) d <= F) /\ (0 <= d -> F = 0)) ds (wire_forces (curve (0, 0) (points p)) (wkn p) 0 ds).
Proof.
  intros (A & B & C & D & E & F & G) S. assert (ST : forall m, m <= 0 -> forall ds, Forall2 (fun d F => F <= 0 /\ (d <= 0 -> curve (0, 0) (points p) d <= F) /\ (0 <= d -> F = 0)) ds (wire_forces (curve (0, 0) (points p)) (wkn p) m ds)); [|apply ST; lra].
  intros m M0 ds'. revert m M0. induction ds' as [|d ds' IH]; intros m M0; [constructor|]. cbn [wire_forces]. cbv zeta. constructor; [|apply IH; apply Rle_trans with m; [apply Rmin_l|exact M0]]. remember (Rmin m d) as M. assert (M1 : M <= d) by (subst; apply Rmin_r). assert (M2 : M <= 0) by (subst; apply Rle_trans with m; [apply Rmin_l|exact M0]). unfold wire_force.
  assert (K : 0 <= wkn p) by lra. pose proof (curve_lip (rest p) (wkn p) K (0, 0) M 0 F E S ltac:(cbn [fst]; lra)) as L0. fold (points p) in L0. assert (Z : curve (0, 0) (points p) 0 = 0) by (apply (curve_start (0, 0)); exact E). rewrite Z in L0.
  split; [apply Rmin_l|]. split; intros H.
  - pose proof (curve_lip (rest p) (wkn p) K (0, 0) M d F E S ltac:(cbn [fst]; lra)) as L. pose proof (curve_lip (rest p) (wkn p) K (0, 0) d 0 F E S ltac:(cbn [fst]; lra)) as L1. fold (points p) in L, L1. rewrite Z in L1. apply Rmin_glb; lra.
  - apply Rmin_left. assert (wkn p * (0 - M) <= wkn p * (d - M)) by (apply Rmult_le_compat_l; lra). lra.
Qed.
Lemma stiff_new : new_wire stiffening_wire.
Proof. unfold new_wire, points. wire_fields. cbn [falling lines fst snd]. repeat split; try reflexivity; try discriminate; lra. Qed.
Lemma stiffening_refuted n : forces_of n stiffening_wire [-3/2; 1/4] = [Some (smul (-2) n); Some (smul (-1/4) n)].
Proof.
  rewrite (history n stiffening_wire [-3/2; 1/4] stiff_new) by (change (last_u stiffening_wire) with (-2); repeat (apply Forall_cons; [lra|]); apply Forall_nil).
  assert (E : curve (0, 0) (points stiffening_wire) (-3/2) = -2). { unfold points. wire_fields. cbn [curve fst]. destruct (Rlt_dec (-1) (-3/2)); [exfalso; lra|]. unfold line. cbn [fst snd]. lra. }
  cbn [wire_forces map]. cbv zeta. rewrite (Rmin_right 0 (-3/2)), (Rmin_left (-3/2) (1/4)) by lra. unfold wire_force. rewrite E. change (wkn stiffening_wire) with 1. rewrite !Rmin_right by lra. replace (-2 + 1 * (-3/2 - -3/2)) with (-2) by lra. replace (-2 + 1 * (1/4 - -3/2)) with (-1/4) by lra. reflexivity.
Qed.
(** limitFactor *)
Lemma limit_factor per n p q m D i1 x1 i2 x2 q' a : new_wire p -> not_stiffer (wkn p) p -> reached p q m -> last_u q < D -> law per (geom_of n (initD q + D)) q i1 x1 i2 x2 = WKept q' a -> 0 <= limitFactor q' < 1 /\ (nForce q' <> vzero -> limitFactor q' = D / last_u q).
Proof.
  intros N S R L E. pose proof (last_u_reached p q m N R) as EL. rewrite EL in L. destruct (pull_reached p q m D N R L) as (b & pl & EP & _ & _). unfold law in E. pose proof R as (_ & R2 & _). rewrite R2 in E. cbn [negb geom_of penetrationDepth normal] in E. replace (initD q + D - initD q) with D in E by ring. rewrite EL in *. destruct (Rlt_dec D _) as [|_]; [discriminate|]. rewrite EP in E. remember (wire_force _ _ _ _) as W. injection E as <- _. cbn [limitFactor nForce].
  pose proof N as (A & B & C & DD & EE & F & G). pose proof (falling_last (rest p) 0 DD EE) as X. remember (last (map pu (rest p)) 0) as la. destruct (Rlt_dec W 0) as [Y|Y].
  - assert (D0 : D < 0). { apply Rnot_le_lt. intros H. assert (W = 0); [|lra]. pose proof R as (_ & _ & _ & _ & _ & _ & R7 & _). rewrite HeqW. rewrite Rmin_left by lra. unfold wire_force. apply Rmin_left. pose proof (curve_lip (rest p) (wkn p) ltac:(lra) (0, 0) m 0 F EE S ltac:(cbn [fst]; lra)) as L0. fold (points p) in L0. assert (Z : curve (0, 0) (points p) 0 = 0) by (apply (curve_start (0, 0)); exact EE). rewrite Z in L0. assert (wkn p * (0 - m) <= wkn p * (D - m)) by (apply Rmult_le_compat_l; lra). lra. }
    assert (Q : 0 < D / la < 1). { replace (D / la) with ((- D) / (- la)) by (field; lra). split; [apply Rdiv_lt_0_compat; lra|]. apply Rmult_lt_reg_r with (- la); [lra|]. replace (- D / - la * - la) with (- D) by (field; lra). lra. } rewrite Rabs_pos_eq by lra. split; [lra|reflexivity].
  - split; [lra|]. intros H. exfalso. apply H. assert (W <= 0) by (rewrite HeqW; unfold wire_force; apply Rmin_l). assert (W = 0) by lra. subst W. rewrite H1. unfold smul, vzero. f_equal; ring.
Qed.
