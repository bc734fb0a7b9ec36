From Coq Require Import Reals List ZArith Lia Lra Psatz Bool.
From Verif Require Import Vec_Model Vec_Proofs Rigid_Model Attr_Model Newton_Model Cell_Model Cell_Spec Cell_Proofs Cell_Flow Cell_FlowSpec.
Import ListNotations.
Local Open Scope R_scope.

Lemma computeAccel_zero m bl : computeAccel vzero vzero m bl = vzero.
Proof. unfold computeAccel, vzero. cbn [vx vy vz]. unfold Rdiv. rewrite !Rmult_0_l. destruct (bl =? 0)%N; [|destruct (bit bl 0 false), (bit bl 1 false), (bit bl 2 false)]; vgoal; f_equal; ring. Qed.
Lemma scaled_zero c s : scaled_by c s vzero = vzero.
Proof. unfold scaled_by. destruct (densityScaling c); [|reflexivity]. vring. Qed.
Lemma damped_zero c s v : damped c s v vzero = vzero.
Proof. unfold damped. destruct (isDamped s); [|reflexivity]. unfold cundallDamp2nd, damp2, vzero. cbn [vx vy vz]. f_equal; ring. Qed.

Lemma advance_flow cf d L P i b f m : plain cf -> force_free b f ->
  let r := rs (st b) in let r' := rs (advance (conf_at cf d L P) i b f m) in
  vel r' = vadd (vadd (vel r) (smul d (mulv P (vel r)))) (mulv (msub L P) (pos r)) /\ pos r' = vadd (pos r) (smul d (vel r')).
Proof.
  intros (PE & HD & G & MR & MK) FF. cbv zeta.
  assert ((1 <? homoDeform cf)%Z = true) as H1 by (apply Z.ltb_lt; exact HD).
  assert ((homoDeform cf =? 0)%Z = false) as H0 by (apply Z.eqb_neq; lia).
  assert ((mask cf <=? 0)%Z = true) as HM by (apply Z.leb_le; exact MK).
  set (c := conf_at cf d L P).
  assert (vel (fst (accelerate c b f m)) = vadd (vel (rs (st b))) (smul d (mulv P (vel (rs (st b))))) /\ pos (fst (accelerate c b f m)) = pos (rs (st b))) as [V1 P1].
  { unfold accelerate. cbv zeta. change (isPeriodic c) with (isPeriodic cf). change (homoDeform c) with (homoDeform cf). change (gravity c) with (gravity cf). change (prevVelGrad c) with P. change (dt c) with d. rewrite PE, H1. cbn [andb].
    destruct (blockedDOFs (st b) =? DOF_ALL)%N eqn:B.
    - cbn [fst vel pos set_vel]. split; [|reflexivity]. rewrite mulv_mscale. reflexivity.
    - destruct FF as [F | ->]; [rewrite F in B; discriminate|]. rewrite G, computeAccel_zero, scaled_zero, damped_zero, vadd_0_l.
      destruct (useAspherical c b); cbn [fst vel pos set_vel set_angVel]; auto. }
  assert (let r2 := leapfrogTranslate c i b (fst (accelerate c b f m)) in
          vel r2 = vadd (vadd (vel (rs (st b))) (smul d (mulv P (vel (rs (st b)))))) (mulv (msub L P) (pos (rs (st b)))) /\ pos r2 = vadd (pos (rs (st b))) (smul d (vel r2))) as [V2 P2].
  { cbv zeta. unfold leapfrogTranslate, masked_in. cbv zeta. change (moveRotUsed c) with (moveRotUsed cf). change (isPeriodic c) with (isPeriodic cf). change (homoDeform c) with (homoDeform cf). change (mask c) with (mask cf). change (dVelGrad c) with (msub L P). change (dt c) with d. rewrite PE, H0, MR, HM. cbn [andb negb orb vel pos]. rewrite V1, P1. auto. }
  unfold advance. destruct (accelerate c b f m) as [r1 m1]. cbn [fst] in V2, P2. cbv zeta in V2, P2 |- *.
  destruct (useAspherical c b).
  - unfold leapfrogAsphericalRotate. cbv zeta. cbn [rs vel pos]. auto.
  - unfold leapfrogSphericalRotate. cbv zeta. cbn [with_rs rs vel pos]. auto.
Qed.
Lemma advance_blocked c i b f m : blockedDOFs (advance c i b f m) = blockedDOFs (st b).
Proof. unfold advance. destruct (accelerate c b f m). cbv zeta. destruct (useAspherical c b); [destruct (leapfrogAsphericalRotate _ _ _ _ _)|]; reflexivity. Qed.

(** the body moves with the material point of reduced coordinates [s] *)
Definition in_flow (d : R) (s : vec) (w : flow) : Prop :=
  Cell_Model.velGrad (fcell w) = fprev w /\
  vel (rs (st (fbody w))) = mulv (fprev w) (mulv (hSize (fcell w)) s) /\
  pos (rs (st (fbody w))) = vadd (mulv (hSize (fcell w)) s) (smul d (vel (rs (st (fbody w))))).
Lemma in_flow_next d s w c : in_flow d s w -> integrateAndUpdate d (fcell w) = Updated c -> pos (rs (st (fbody w))) = mulv (hSize c) s.
Proof.
  intros (V & W & P) E. apply integrate_h in E. destruct E as (H & _). rewrite P, W, H, mulv_mmul, mulv_madd, mulv_mscale, mulv_id, V. reflexivity.
Qed.
Lemma flow_one cf i stp w w' d s : plain cf -> sdt stp = d -> force_free (fbody w) (sf stp) -> in_flow d s w -> flow_step cf i stp w = Some w' ->
  in_flow d s w' /\ blockedDOFs (st (fbody w')) = blockedDOFs (st (fbody w)).
Proof.
  intros PL SD FF IF. unfold flow_step. rewrite SD.
  set (c0 := match assign stp with Some m => setVelGrad m (fcell w) | None => fcell w end).
  assert (hSize c0 = hSize (fcell w) /\ Cell_Model.velGrad c0 = Cell_Model.velGrad (fcell w)) as [H0 G0] by (unfold c0; destruct (assign stp); split; reflexivity).
  cbv zeta. destruct (integrateAndUpdate d c0) as [c1|] eqn:E; [|discriminate]. intros [= <-].
  cbn [fcell fbody fprev]. unfold in_flow. cbn [fcell fbody fprev with_st st].
  set (L := Cell_Model.velGrad (applyVelGrad c1)).
  destruct (advance_flow cf d L (fprev w) i (fbody w) (sf stp) (sm stp) PL FF) as [V P]. cbv zeta in V, P.
  split; [|rewrite advance_blocked; reflexivity].
  assert (hSize (applyVelGrad c1) = hSize c1) as HA by (unfold applyVelGrad; destruct (_ || _); reflexivity). rewrite HA.
  assert (pos (rs (st (fbody w))) = mulv (hSize c1) s) as PN.
  { destruct IF as (V0 & W0 & P0). apply integrate_h in E. destruct E as (H & _).
    rewrite P0, W0, H, mulv_mmul, mulv_madd, mulv_mscale, mulv_id, G0, H0, V0. reflexivity. }
  split; [reflexivity|]. split.
  - rewrite V, <- PN. destruct IF as (V0 & W0 & P0). revert W0 P0. generalize (vel (rs (st (fbody w)))) (pos (rs (st (fbody w)))) (mulv (hSize (fcell w)) s) (fprev w). clear.
    intros v p x P -> ->. vring.
  - rewrite P, <- PN. reflexivity.
Qed.
Lemma flow_many cf i d s ss : forall w w', plain cf -> Forall (fun stp => sdt stp = d) ss -> (blockedDOFs (st (fbody w)) = DOF_ALL \/ Forall (fun stp => sf stp = vzero) ss) ->
  in_flow d s w -> flow_run cf i ss w = Some w' -> in_flow d s w'.
Proof.
  induction ss as [|stp ss IH]; cbn [flow_run]; intros w w' PL SD FF IF E; [injection E as <-; exact IF|].
  inversion SD; subst. destruct (flow_step cf i stp w) as [w1|] eqn:E1; [|discriminate].
  assert (force_free (fbody w) (sf stp)) as F1. { destruct FF as [F | F]; [left; exact F|]. right. inversion F; assumption. }
  destruct (flow_one cf i stp w w1 (sdt stp) s PL eq_refl F1 IF E1) as [I1 B1].
  apply (IH w1 w' PL); auto. destruct FF as [F | F]; [left; congruence|]. right. inversion F; assumption.
Qed.
