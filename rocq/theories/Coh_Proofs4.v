(** Torques; the flag over longer sequences; strength. *)
From Coq Require Import Reals List ZArith Bool Sorted Lra Lia.
From Verif Require Import Vec_Model Vec_Proofs Rigid_Model Rigid_Spec Law_Model Law_Spec Law_Proofs Coh_Model Coh_Spec Coh_Proofs Coh_Proofs2 Coh_Proofs3.
Import ListNotations.
Local Open Scope R_scope.
Lemma go_torques k p i1 i2 t s s' a d : i1 <> i2 -> go k p i1 i2 t s = Kept s' a d ->
  let m := if momentLaw p && (negb (broken s') || alwaysMoment k) then vadd (ctwist s') (cbending s') else vzero in
  torque_on a i1 = vsub (cross (vsub (contactPoint (cg t)) (at1 t)) (force_on a i1)) m /\
  torque_on a i2 = vadd (cross (vsub (contactPoint (cg t)) (at2 t)) (force_on a i2)) m.
Proof.
  intros D H. destruct (go_forces _ _ _ _ _ _ _ _ _ D H) as [F1 F2]. cbv zeta. rewrite F1, F2. clear F1 F2. assert (E12 : Nat.eqb i1 i2 = false) by (apply Nat.eqb_neq; exact D). assert (E21 : Nat.eqb i2 i1 = false) by (apply Nat.eqb_neq; auto).
  destruct (go_kept _ _ _ _ _ _ _ _ _ H) as (Fn & u & trial & fn & fs & br & mt & mb & _ & _ & _ & -> & [(M & _ & _ & E)|(M & _ & _ & E)]); subst a; cbn [broken] in M |- *; rewrite M; unfold applyForceAtContactPoint, torque_on; cbn [map app fst snd cnormal cshear ctwist cbending]; rewrite !Nat.eqb_refl, ?E12, ?E21; unfold vsum; cbn [fold_right]; generalize fn fs mt mb (vsub (contactPoint (cg t)) (at1 t)) (vsub (contactPoint (cg t)) (at2 t)); clear; intros; split; vring.
Qed.
Local Open Scope Z_scope.
Lemma ticks_off l d : fold_left (fun f i => tick i f) l (mkIp false d) = mkIp false d.
Proof. induction l as [|i l IH]; [reflexivity|]. exact IH. Qed.
Lemma ticks_reset i l : 0 <= i -> StronglySorted Z.le (i :: l) -> (exists j, In j l /\ j <> i) -> fold_left (fun f i => tick i f) (i :: l) (mkIp true (-1)) = mkIp false (-1).
Proof.
  intros P. cbn [fold_left]. assert (T : tick i (mkIp true (-1)) = mkIp true i). { unfold tick. cbn [setNow defIter andb]. rewrite Z.eqb_refl, Z.eqb_refl. cbn [andb]. rewrite andb_false_r. reflexivity. }
  rewrite T. clear T. induction l as [|j l IH]; intros S0 (x & I & N); [destruct I|]. cbn [fold_left]. unfold tick at 2. cbn [setNow defIter andb]. rewrite (proj2 (Z.eqb_neq i (-1))) by lia. cbn [negb andb]. destruct (Z.eqb_spec i j) as [<-|J]; cbn [negb].
  - rewrite (proj2 (Z.eqb_neq i (-1))) by lia. cbn [negb]. apply IH; [inversion S0 as [|? ? S1 S2]; subst; inversion S1; subst; inversion S2; subst; constructor; assumption|]. exists x. split; [|exact N]. destruct I as [I|I]; [congruence|exact I].
  - rewrite (proj2 (Z.eqb_neq i (-1))) by lia. cbn [negb]. apply ticks_off.
Qed.
Local Close Scope Z_scope.
Lemma strength_min m1 m2 f : strength None m1 m2 f = Some (Rmin (f m1) (f m2)).
Proof. reflexivity. Qed.
Lemma asked_cohesion c iter f m1 m2 g p s : initCohesion s = true -> forall p' s', snd (ip2_go c iter f m1 m2 g (Some (p, s))) = Some (p', s') -> p' = p /\ initCohesion s' = false /\
  exists an sn, strength (nMatch c) m1 m2 normalCohesion = Some an /\ strength (sMatch c) m1 m2 shearCohesion = Some sn /\
  broken s' = false /\ normalAdh s' = an * (Rmin (radius1 g) (radius2 g) * Rmin (radius1 g) (radius2 g)) /\ shearAdh s' = sn * (Rmin (radius1 g) (radius2 g) * Rmin (radius1 g) (radius2 g)).
Proof.
  intros I p' s'. unfold ip2_go. cbv zeta. cbn [fst snd]. unfold update. rewrite I, orb_true_r. destruct (strength (nMatch c) m1 m2 normalCohesion) as [an|]; [|discriminate]. destruct (strength (sMatch c) m1 m2 shearCohesion) as [sn|]; [|discriminate].
  intros H; injection H as <- <-. split; [reflexivity|]. split; [reflexivity|]. exists an, sn. unfold make_cohesive, adhesion. cbn [broken normalAdh shearAdh]. rewrite (Rmin_comm (radius2 g)). repeat split.
Qed.
Lemma weakest_cohesion c iter f m1 m2 g p s : snd (ip2_go c iter f m1 m2 g None) = Some (p, s) -> nMatch c = None -> sMatch c = None -> onNew c = true -> isCohesive m1 = true -> isCohesive m2 = true ->
  normalAdh s = Rmin (normalCohesion m1) (normalCohesion m2) * (Rmin (radius1 g) (radius2 g) * Rmin (radius1 g) (radius2 g)) /\
  shearAdh s = Rmin (shearCohesion m1) (shearCohesion m2) * (Rmin (radius1 g) (radius2 g) * Rmin (radius1 g) (radius2 g)).
Proof.
  intros H N Z O I1 I2. destruct (new_cohesion _ _ _ _ _ _ _ _ H) as (an & sn & A & B & C). rewrite N, strength_min in A. rewrite Z, strength_min in B. injection A as <-. injection B as <-. rewrite O, I1, I2 in C. cbn [orb andb] in C. destruct C as (_ & C & D & _). auto.
Qed.
