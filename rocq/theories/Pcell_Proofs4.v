From Coq Require Import Reals List ZArith Bool Lra Lia.
From Verif Require Import Vec_Model Pcell_Model Pcell_Spec Pcell_Proofs Pcell_Proofs2 Pcell_Proofs3.
From Verif Require Cell_Model.
Import ListNotations.
Local Open Scope R_scope.

Theorem tri_works cf b l masses iter dt pvg u t c : 0 < vx (maxBodySpan t) -> (forall k, (k < 3)%nat -> 21/10 * comp (maxBodySpan t) k <= comp (Cell_Model.size c) k) -> globUpdate cf <> 0%Z -> (forall k, (k < 3)%nat -> 0 < comp (mdiag (Cell_Model.trsf c)) k) -> (dynCell cf = true -> exists m, tmass t = Some m /\ m <> 0) ->
  exists t' c' h, tri_action cf b l masses iter dt pvg u t c = TDone t' c' h.
Proof.
  intros SP SZ GU TR MA. unfold tri_action. cbv zeta. cbn [maxBodySpan stressTensor stress strain strainRate stiff tUnb prevGrow tmass externalWork]. destruct (Rle_dec (vx (maxBodySpan t)) 0) as [X|_]; [lra|].
  pose proof (SZ 0%nat ltac:(lia)) as S0. pose proof (SZ 1%nat ltac:(lia)) as S1. pose proof (SZ 2%nat ltac:(lia)) as S2. cbn [comp] in S0, S1, S2. destruct (Rlt_dec (vx (Cell_Model.size c)) _) as [X|_]; [lra|]. destruct (Rlt_dec (vy (Cell_Model.size c)) _) as [X|_]; [lra|]. destruct (Rlt_dec (vz (Cell_Model.size c)) _) as [X|_]; [lra|]. apply Z.eqb_neq in GU. rewrite GU.
  match goal with |- context [if ?z || dynCell cf then update cf c l ?y else Some ?y] => remember y as t0; remember z as zz end.
  assert (U : exists t1, (if zz || dynCell cf then update cf c l t0 else Some t0) = Some t1 /\ tmass t1 = tmass t).
  { destruct (zz || dynCell cf); [|exists t0; split; [reflexivity|rewrite Heqt0; reflexivity]]. unfold update, log_strain. cbv zeta. pose proof (TR 0%nat ltac:(lia)) as A. pose proof (TR 1%nat ltac:(lia)) as B. pose proof (TR 2%nat ltac:(lia)) as C. cbn [comp] in A, B, C. destruct (Rlt_dec 0 (vx (mdiag (Cell_Model.trsf c)))); [|contradiction]. destruct (Rlt_dec 0 (vy (mdiag (Cell_Model.trsf c)))); [|contradiction]. destruct (Rlt_dec 0 (vz (mdiag (Cell_Model.trsf c)))); [|contradiction]. eexists. split; [reflexivity|]. rewrite Heqt0. reflexivity. }
  destruct U as [t1 [E TM]]. rewrite E, TM. destruct (dynCell cf) eqn:DY.
  - destruct (MA eq_refl) as [m [-> NZ]]. cbn [andb]. destruct (Req_EM_T m 0); [contradiction|]. do 3 eexists. reflexivity.
  - cbn [andb]. do 3 eexists. reflexivity.
Qed.
(** ** the cell gets smaller than allowed in one step *)
Lemma love_nil c : love c [] = mzero.
Proof. unfold love, mscale, mzero, vzero, smul. cbn [fold_left r0 r1 r2 vx vy vz]. f_equal; f_equal; ring. Qed.
Lemma sign_0 : sign 0 = 0.
Proof. unfold sign. destruct (Rlt_dec 0 0) as [X|_]; [lra|]. destruct (Rlt_dec 0 0) as [X|_]; [lra|reflexivity]. Qed.
Theorem tri_small : exists cf t c t' c' h, tri_action cf [] [] [] 0 1 mzero 0 t c = TDone t' c' h /\ vpos (maxStrainRate cf) /\ boxy c (V 10 10 10) (V 1 1 1) vzero /\ maxBodySpan t' = V 1 1 1 /\ grown 1 (V 10 10 10) (strainRate t') = V 1 1 1.
Proof.
  exists (tric true (V (-9/10) (-9/10) (-9/10)) 7), (mkT (V 1 1 1) mzero vzero vzero vzero vzero None vzero (Some 1) 0), (unit_box (V 10 10 10) vzero).
  destruct (tri_works (tric true (V (-9/10) (-9/10) (-9/10)) 7) [] [] [] 0 1 mzero 0 (mkT (V 1 1 1) mzero vzero vzero vzero vzero None vzero (Some 1) 0) (unit_box (V 10 10 10) vzero)) as [t' [c' [h E]]]; cbn [maxBodySpan vx tric globUpdate dynCell tmass unit_box Cell_Model.size Cell_Model.trsf]; [lra| |lia| |intros _; exists 1; split; [reflexivity|lra]|].
  - intros [|[|[|k]]] K; cbn [comp vx vy vz]; try lra; lia.
  - intros [|[|[|k]]] K; cbn [comp mdiag mid diag r0 r1 r2 vx vy vz]; try lra; lia.
  - exists t', c', h. split; [exact E|]. split; [cbn [maxStrainRate tric vpos vx vy vz]; unfold vpos; cbn [vx vy vz]; lra|]. split; [unfold boxy, unit_box, vpos; cbn [Cell_Model.hSize Cell_Model.size Cell_Model.trsf Cell_Model.velGrad vx vy vz]; repeat (split; [reflexivity|]); lra|].
    destruct (tri_done _ _ _ _ _ _ _ _ _ _ _ _ _ E) as [t1 [m [_ [MS [SP [_ [_ [_ [UP [_ [MA [_ [_ [RT _]]]]]]]]]]]]]]. cbn [maxBodySpan vx tmass] in SP, MA. rewrite SP in * by lra. split; [reflexivity|]. destruct UP as [_ [_ [ST _]]]; [right; right; reflexivity|]. rewrite love_nil in ST. destruct MA as [_ [_ [M1 _]]]; [reflexivity|]. specialize (M1 1 eq_refl). subst m.
    assert (R : forall k, (k < 3)%nat -> comp (strainRate t') k = -9/10).
    { intros k K. rewrite (RT k K). unfold rate, raw_rate. cbv zeta. rewrite MS, ST. replace (comp (goal (tric true (V (-9 / 10) (-9 / 10) (-9 / 10)) 7)) k) with (-9/10) by (destruct k as [|[|k]]; reflexivity). replace (controls_stress (tric true (V (-9 / 10) (-9 / 10) (-9 / 10)) 7) k) with true by (destruct k as [|[|[|k]]]; [reflexivity|reflexivity|reflexivity|lia]). replace (comp (maxStrainRate (tric true (V (-9 / 10) (-9 / 10) (-9 / 10)) 7)) k) with 1 by (destruct k as [|[|k]]; reflexivity).
      replace (comp (mdiag (Cell_Model.velGrad (unit_box (V 10 10 10) vzero))) k) with 0 by (destruct k as [|[|k]]; reflexivity). replace (comp (mdiag mzero) k) with 0 by (destruct k as [|[|k]]; reflexivity). replace (comp (Cell_Model.size (unit_box (V 10 10 10) vzero)) k) with 10 by (destruct k as [|[|k]]; reflexivity). replace (comp (V 1 1 1) k) with 1 by (destruct k as [|[|k]]; reflexivity). cbn [tric dynCell growDamping]. replace (0 * (-9 / 10 - 0)) with 0 by ring. rewrite sign_0. replace (0 + (1 - 1 / 4 * 0) * 1 * (-9 / 10 - 0) / 1) with (-9/10) by field. rewrite clip_id by (unfold Rabs; destruct (Rcase_abs _); lra). apply Rmax_left. lra. }
    pose proof (R 0%nat ltac:(lia)) as R0. pose proof (R 1%nat ltac:(lia)) as R1. pose proof (R 2%nat ltac:(lia)) as R2. cbn [comp] in R0, R1, R2. unfold grown. cbn [vx vy vz]. rewrite R0, R1, R2. f_equal; field.
Qed.
(** ** the hook is run whatever the unbalanced force is *)
Lemma works_balanced x u cf : dynCell cf = false -> globUpdate cf = 5%Z -> exists t' c' h, tri_action cf [] [] [] 1 1 mzero u (balanced x) (unit_box (V 1 1 1) vzero) = TDone t' c' h.
Proof.
  intros DY GU. apply tri_works; cbn [balanced maxBodySpan vx unit_box Cell_Model.size Cell_Model.trsf]; [lra| |rewrite GU; lia| |rewrite DY; discriminate]; intros [|[|[|k]]] K; cbn [comp mdiag mid diag r0 r1 r2 vx vy vz]; try lra; lia.
Qed.
Theorem tri_hooked : forall u, exists t' c', tri_action (tric false vzero 0) [] [] [] 1 1 mzero u (balanced 0) (unit_box (V 1 1 1) vzero) = TDone t' c' true /\ tUnb t' = Some 0.
Proof.
  intros u. destruct (works_balanced 0 u (tric false vzero 0) eq_refl eq_refl) as [t' [c' [h E]]]. exists t', c'.
  destruct (tri_done _ _ _ _ _ _ _ _ _ _ _ _ _ E) as [t1 [m [_ [MS [SP [PG [_ [_ [_ [NU [_ [_ [_ [RT [SN [_ [_ [_ [_ [HK [_ HU]]]]]]]]]]]]]]]]]]]]]. cbn [balanced maxBodySpan vx] in SP. rewrite SP in * by lra. destruct NU as [S1 [_ [ST SF]]].
  { cbn [tric globUpdate dynCell balanced stiff]. intros [A|[A|A]]; [discriminate|unfold vmin in A; cbn [vx vy vz] in A; revert A; unfold Rmin; repeat (destruct (Rle_dec _ _)); lra|discriminate]. }
  cbn [balanced strain stress stiff prevGrow] in S1, ST, SF, PG.
  assert (R : forall k, (k < 3)%nat -> comp (strainRate t') k = 0).
  { intros k K. rewrite (RT k K). unfold rate, raw_rate. cbv zeta. rewrite MS, ST, SF, S1, PG. replace (comp (goal (tric false vzero 0)) k) with 0 by (destruct k as [|[|k]]; reflexivity). replace (controls_stress (tric false vzero 0) k) with false by (destruct k as [|[|[|k]]]; [reflexivity|reflexivity|reflexivity|lia]). replace (comp (maxStrainRate (tric false vzero 0)) k) with 1 by (destruct k as [|[|k]]; reflexivity). replace (comp vzero k) with 0 by (destruct k as [|[|k]]; reflexivity). replace (comp (Cell_Model.size (unit_box (V 1 1 1) vzero)) k) with 1 by (destruct k as [|[|k]]; reflexivity). replace (comp (V (1/4) (1/4) (1/4)) k) with (1/4) by (destruct k as [|[|k]]; reflexivity). cbn [tric dynCell growDamping]. rewrite Rminus_0_r, exp_0. replace ((1 - 1 / 4) * ((1 - 1) / 1) + 8 / 10 * 0) with 0 by field. rewrite clip_id by (rewrite Rabs_R0; lra). apply Rmax_left. lra. }
  pose proof (R 0%nat ltac:(lia)) as R0. pose proof (R 1%nat ltac:(lia)) as R1. pose proof (R 2%nat ltac:(lia)) as R2. cbn [comp] in R0, R1, R2.
  assert (Z : strain t' = vzero). { rewrite SN, S1. unfold vadd, smul, vzero. cbn [vx vy vz]. rewrite R0, R1, R2. f_equal; ring. }
  assert (OK : axis_ok (tric false vzero 0) t1 (strain t') 0 && axis_ok (tric false vzero 0) t1 (strain t') 1 && axis_ok (tric false vzero 0) t1 (strain t') 2 = true).
  { rewrite Z. assert (A : forall k, (k < 3)%nat -> axis_ok (tric false vzero 0) t1 vzero k = true). { intros k K. unfold axis_ok. replace (controls_stress (tric false vzero 0) k) with false by (destruct k as [|[|[|k]]]; [reflexivity|reflexivity|reflexivity|lia]). replace (comp (goal (tric false vzero 0)) k) with 0 by (destruct k as [|[|k]]; reflexivity). replace (comp vzero k) with 0 by (destruct k as [|[|k]]; reflexivity). unfold beyond. destruct (Req_EM_T 0 0) as [_|X]; [|destruct X; reflexivity]. rewrite Rminus_0_r, Rabs_R0. destruct (Rlt_dec (1/1000000) 0); [exfalso; lra|reflexivity]. } rewrite (A 0%nat), (A 1%nat), (A 2%nat) by lia. reflexivity. }
  assert (U : tUnb t' = Some 0). { apply HU. right. split; [discriminate|]. cbn [balanced tUnb]. intros x X. injection X as <-. lra. }
  split; [|exact U]. rewrite E. f_equal. apply HK. split; [exact OK|]. exists 0. split; [exact U|]. cbn [tric tMaxUnb]. lra.
Qed.
(** ** failures of the isotropic compressor *)
Theorem iso_fails cf b iter dt m s c : (state s < length (stresses cf))%nat -> charLen s <= 0 -> iso_action cf (None :: b) iter dt m s c = IUB /\ iso_action cf (Some None :: b) iter dt m s c = Terminates.
Proof.
  intros ST CL. unfold iso_action. destruct (Nat.leb_spec (length (stresses cf)) (state s)); [lia|]. unfold char_len. destruct (Rle_dec (charLen s) 0); [|contradiction]. split; reflexivity.
Qed.
(** ** what one action does to the cell and to what is stored *)
Theorem tri_effect cf b l masses iter dt pvg u t c t' c' h : tri_action cf b l masses iter dt pvg u t c = TDone t' c' h ->
  mdiag (Cell_Model.velGrad c') = strainRate t' /\ Cell_Model.hSize c' = Cell_Model.hSize c /\ Cell_Model.trsf c' = Cell_Model.trsf c /\ Cell_Model.size c' = Cell_Model.size c /\ (forall g, Cell_Model.velGrad c = diag g -> Cell_Model.velGrad c' = diag (strainRate t')) /\
  prevGrow t' = strainRate t' /\
  (Z.rem iter (globUpdate cf) = 0%Z -> exists e, log_strain c = Some e /\ strain t' = vadd e (smul dt (strainRate t')) /\ stressTensor t' = love c l /\ stiff t' = avg_stiff (dynCell cf) l) /\
  externalWork t' = externalWork t + trace (mmul (mscale (1/2) (madd pvg (Cell_Model.velGrad c'))) (stressTensor t')) * dt * det (Cell_Model.hSize c).
Proof.
  intros E. destruct (tri_done _ _ _ _ _ _ _ _ _ _ _ _ _ E) as [t1 [m [_ [_ [_ [_ [_ [_ [UP [_ [_ [CC [PG [_ [SN [TT [SF [_ [EW _]]]]]]]]]]]]]]]]]]]. split; [rewrite CC; unfold with_rates, Cell_Model.with_vg, set_mdiag, mdiag; cbn [Cell_Model.velGrad r0 r1 r2 vx vy vz]; destruct (strainRate t') as [a1 a2 a3]; reflexivity|].
  split; [rewrite CC; reflexivity|]. split; [rewrite CC; reflexivity|]. split; [rewrite CC; reflexivity|]. split; [intros g G; rewrite CC; unfold with_rates, Cell_Model.with_vg, set_mdiag; cbn [Cell_Model.velGrad]; rewrite G; unfold diag; cbn [r0 r1 r2 vx vy vz]; reflexivity|]. split; [exact PG|].
  split; [|exact EW]. intros Z. destruct UP as [LS [LT [_ SF1]]]; [tauto|]. exists (strain t1). split; [exact LS|]. split; [exact SN|]. split; [rewrite TT; exact LT|rewrite SF; exact SF1].
Qed.
