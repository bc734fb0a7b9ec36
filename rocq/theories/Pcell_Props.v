(** Properties C165-C172: the controllers of periodic cells *)
From Coq Require Import Reals List ZArith Bool Lra Lia Permutation.
From Verif Require Import Vec_Model Pcell_Model Pcell_Spec Pcell_Proofs Pcell_Proofs2 Pcell_Proofs3 Pcell_Proofs4.
From Verif Require Cell_Model.
Import ListNotations.
Local Open Scope R_scope.

(** C165. As long as there are stresses to reach, no edge of the cell is, or will be after the next step, shorter than 2.1 times the largest body, no edge changes by more than the allowed displacement per step, and proportions are kept if asked for. *)
Theorem C165_sizes_partial cf b iter dt m s c S0 T0 G0 span d : boxy c S0 T0 G0 -> 0 < dt -> maxSpan s = span -> 0 < span -> maxDispl s = d -> 0 <= d -> all_at_least (21/10 * span) S0 -> all_at_least (21/10 * span) (grown dt S0 G0) ->
  forall n s' c' h, iso_run cf n b iter dt m s c = IStep s' c' h -> (forall k s1 c1 h1, (k < n)%nat -> iso_run cf k b iter dt m s c = IStep s1 c1 h1 -> (state s1 < length (stresses cf))%nat) ->
    exists S1 T1 G1, boxy c' S1 T1 G1 /\ all_at_least (21/10 * span) S1 /\ all_at_least (21/10 * span) (grown dt S1 G1) /\ maxSpan s' = span /\ maxDispl s' = d /\ (n <> O -> within d (grown dt S1 G1) S1) /\ (keepProportions cf = true -> proportional S0 (grown dt S0 G0) -> proportional S0 S1 /\ proportional S0 (grown dt S1 G1)).
Proof. exact (iso_sizes cf b iter dt m s c S0 T0 G0 span d). Qed.
Print Assumptions C165_sizes_partial.
Example C165_sizes_case : boxy (unit_box (V 1 1 1) vzero) (V 1 1 1) (V 1 1 1) vzero /\ all_at_least (21/10 * (1/4)) (V 1 1 1) /\ all_at_least (21/10 * (1/4)) (grown 1 (V 1 1 1) vzero).
Proof. unfold boxy, unit_box, all_at_least, grown, vpos, vzero. cbn [Cell_Model.hSize Cell_Model.size Cell_Model.trsf Cell_Model.velGrad vx vy vz]. split; [repeat (split; [reflexivity|]); lra|]. lra. Qed.
(** C165 is refuted once the last stress is reached: the rates are left as they are, so that the cell goes on deforming at the last rate for ever. *)
Theorem C165_goes_on_refuted cf b iter dt m s c S0 T0 G0 : boxy c S0 T0 G0 -> (length (stresses cf) <= state s)%nat -> 0 < 1 + dt * vx G0 -> 0 < 1 + dt * vy G0 -> 0 < 1 + dt * vz G0 ->
  forall n, exists c' T1, iso_run cf n b iter dt m s c = IStep s c' false /\ boxy c' (V ((1 + dt * vx G0) ^ n * vx S0) ((1 + dt * vy G0) ^ n * vy S0) ((1 + dt * vz G0) ^ n * vz S0)) T1 G0.
Proof. exact (iso_goes_on cf b iter dt m s c S0 T0 G0). Qed.
Print Assumptions C165_goes_on_refuted.
Example C165_goes_on_case : boxy (unit_box (V 1 1 1) (V (-1/2) 0 0)) (V 1 1 1) (V 1 1 1) (V (-1/2) 0 0) /\ (length (stresses (isoc true)) <= state (mkI 1 (1/4) 1 1 vzero 0 1))%nat /\ 0 < 1 + 1 * vx (V (-1/2) 0 0).
Proof. unfold boxy, unit_box, vpos. cbn [Cell_Model.hSize Cell_Model.size Cell_Model.trsf Cell_Model.velGrad vx vy vz isoc stresses length state]. split; [repeat (split; [reflexivity|]); lra|]. split; [lia|lra]. Qed.
(** C165 is refuted: a cell that was shrinking when the last stress was reached gets smaller than any size. *)
Theorem C165_vanishes_refuted cf b iter dt m s c S0 T0 G0 eps : boxy c S0 T0 G0 -> (length (stresses cf) <= state s)%nat -> 0 < 1 + dt * vx G0 -> 0 < 1 + dt * vy G0 -> 0 < 1 + dt * vz G0 -> dt * vx G0 < 0 -> 0 < eps ->
  exists n c', iso_run cf n b iter dt m s c = IStep s c' false /\ 0 < vx (Cell_Model.size c') < eps.
Proof. exact (iso_vanishes cf b iter dt m s c S0 T0 G0 eps). Qed.
Print Assumptions C165_vanishes_refuted.
Example C165_vanishes_case : exists n c', iso_run (isoc true) n (fun _ => []) 0 1 (fun _ => mkM vzero 0 0) (mkI 1 (1/4) 1 1 vzero 0 1) (unit_box (V 1 1 1) (V (-1/2) 0 0)) = IStep (mkI 1 (1/4) 1 1 vzero 0 1) c' false /\ 0 < vx (Cell_Model.size c') < 21/10 * (1/4).
Proof. apply C165_vanishes_refuted with (S0 := V 1 1 1) (T0 := V 1 1 1) (G0 := V (-1/2) 0 0); [exact (proj1 C165_goes_on_case)|cbn [isoc stresses length state]; lia|cbn [vx]; lra|cbn [vy]; lra|cbn [vz]; lra|cbn [vx]; lra|lra]. Qed.
(** C166. One action that does not fail leaves sizes as they are and sets rates so that the next size is at least 2.1 times the largest body, differs by at most the allowed displacement and keeps the proportions if asked for. *)
Theorem C166_step_partial cf b iter dt m s c s' c' h S T G : boxy c S T G -> 0 < dt -> (state s < length (stresses cf))%nat -> iso_action cf b iter dt m s c = IDone s' c' h -> 0 <= maxDispl s' ->
  exists G', boxy c' S T G' /\ all_at_least (21/10 * maxSpan s') S /\ all_at_least (21/10 * maxSpan s') (grown dt S G') /\ within (maxDispl s') (grown dt S G') S /\ (keepProportions cf = true -> proportional S (grown dt S G')) /\
    (0 < maxSpan s -> maxSpan s' = maxSpan s) /\ (0 <= maxDispl s -> maxDispl s' = maxDispl s).
Proof. exact (iso_action_done cf b iter dt m s c s' c' h S T G). Qed.
Print Assumptions C166_step_partial.
Example C166_step_case : exists s' c' h, iso_action (isoc false) [] 0 1 (mkM vzero 1000 0) iso100 (unit_box (V 100 100 100) vzero) = IDone s' c' h.
Proof. destruct iso_no_stress as [s' [c' [E _]]]. exists s', c', true. exact E. Qed.
(** C166 is refuted with the default length: if the first body was erased the behaviour is undefined, and if it has no bounding box the program terminates. *)
Theorem C166_fails_refuted cf b iter dt m s c : (state s < length (stresses cf))%nat -> charLen s <= 0 -> iso_action cf (None :: b) iter dt m s c = IUB /\ iso_action cf (Some None :: b) iter dt m s c = Terminates.
Proof. exact (iso_fails cf b iter dt m s c). Qed.
Print Assumptions C166_fails_refuted.
Example C166_fails_case : (state (mkI (-1) (-1) (-1) (-1) vzero (-1) 0) < length (stresses (isoc true)))%nat /\ charLen (mkI (-1) (-1) (-1) (-1) vzero (-1) 0) <= 0.
Proof. cbn [state isoc stresses length charLen]. split; [lia|lra]. Qed.
(** C167. The next stress is taken only when stored stresses are within 0.5 % and the stored unbalanced force is small; the hook is run only when the last one was reached. *)
Theorem C167_transition_partial cf b iter dt m s c s' c' h : iso_action cf b iter dt m s c = IDone s' c' h -> (state s < length (stresses cf))%nat ->
  (state s' = state s /\ h = false) \/
  (state s' = S (state s) /\ unb s' < maxUnb cf /\ h = (state s' =? length (stresses cf))%nat /\ (Z.rem iter (updateInt cf) = 0%Z -> unb s' = unbalanced m) /\ (Z.rem iter (updateInt cf) <> 0%Z -> unb s' = unb s) /\
   let goal := nth (state s) (stresses cf) 0 in if keepProportions cf then close goal (vavg (sigma s')) else close goal (vx (sigma s')) /\ close goal (vy (sigma s')) /\ close goal (vz (sigma s'))).
Proof. exact (iso_transition cf b iter dt m s c s' c' h). Qed.
Print Assumptions C167_transition_partial.
Example C167_transition_case : exists s' c', iso_action (isoc false) [] 0 1 (mkM vzero 1000 0) iso100 (unit_box (V 100 100 100) vzero) = IDone s' c' true /\ state s' = 1%nat.
Proof. exact iso_no_stress. Qed.
(** C167 is refuted: except at update steps the actual unbalanced force has no effect at all. *)
Theorem C167_unmeasured_refuted cf b iter dt f K u u' s c : Z.rem iter (updateInt cf) <> 0%Z -> iso_action cf b iter dt (mkM f K u) s c = iso_action cf b iter dt (mkM f K u') s c.
Proof. exact (iso_unmeasured cf b iter dt f K u u' s c). Qed.
Print Assumptions C167_unmeasured_refuted.
Example C167_unmeasured_case : Z.rem 1 (updateInt (isoc true)) <> 0%Z.
Proof. discriminate. Qed.
(** C167 is refuted: the first action, at a step at which nothing is measured, may finish the series and run the hook whatever the unbalanced force is, since the initial value is negative. *)
Theorem C167_unstable_refuted : forall u, exists s' c', iso_action (isoc true) [] 1 1 (mkM (V 1 1 1) 0 u) iso0 (unit_box (V 1 1 1) vzero) = IDone s' c' true /\ state s' = 1%nat.
Proof. exact (iso_unstable). Qed.
Print Assumptions C167_unstable_refuted.
Example C167_unstable_case : state iso0 = 0%nat /\ length (stresses (isoc true)) = 1%nat.
Proof. split; reflexivity. Qed.
(** C167 is refuted: for an edge of 100 the stress compared with the goal is the predicted one, which is the goal whatever the measured one. *)
Theorem C167_guess_refuted K d span goal sig : 0 < K -> Rabs ((goal - sig) / K) <= d -> - (100 - 21/10 * span) <= (goal - sig) / K -> predicted K (axis_grow goal sig 10000 100 K d span) sig = goal.
Proof. exact (iso_guess K d span goal sig). Qed.
Print Assumptions C167_guess_refuted.
Example C167_guess_case : Rabs ((-1 - 0) / 1000) <= 1 /\ - (100 - 21/10 * 1) <= (-1 - 0) / 1000.
Proof. split; [unfold Rabs; destruct (Rcase_abs _); lra|lra]. Qed.
(** C167 is refuted: the goal of -1 counts as reached in one action although the measured stress is zero. *)
Theorem C167_no_stress_refuted : exists s' c', iso_action (isoc false) [] 0 1 (mkM vzero 1000 0) iso100 (unit_box (V 100 100 100) vzero) = IDone s' c' true /\ state s' = 1%nat.
Proof. exact (iso_no_stress). Qed.
Print Assumptions C167_no_stress_refuted.
Example C167_no_stress_case : nth 0 (stresses (isoc false)) 0 = -1 /\ state iso100 = 0%nat.
Proof. split; reflexivity. Qed.
(** C168. The action succeeds when the cell is large enough, not inverted, and has a mass if it is moved by dynamics. *)
Theorem C168_works_partial cf b l masses iter dt pvg u t c : 0 < vx (maxBodySpan t) -> (forall k, (k < 3)%nat -> 21/10 * comp (maxBodySpan t) k <= comp (Cell_Model.size c) k) -> globUpdate cf <> 0%Z -> (forall k, (k < 3)%nat -> 0 < comp (mdiag (Cell_Model.trsf c)) k) -> (dynCell cf = true -> exists m, tmass t = Some m /\ m <> 0) ->
  exists t' c' h, tri_action cf b l masses iter dt pvg u t c = TDone t' c' h.
Proof. exact (tri_works cf b l masses iter dt pvg u t c). Qed.
Print Assumptions C168_works_partial.
Example C168_works_case : exists t' c' h, tri_action (tric false vzero 0) [] [] [] 0 1 mzero 0 tri0 (unit_box (V 1 1 1) vzero) = TDone t' c' h.
Proof. apply tri_works; cbn [tri0 tric maxBodySpan vx unit_box Cell_Model.size Cell_Model.trsf globUpdate dynCell]; [lra| |lia| |discriminate]; intros [|[|[|k]]] K; cbn [comp mdiag mid diag r0 r1 r2 vx vy vz]; try lra; lia. Qed.
(** C168. One action sets the rates of the cell on the diagonal and changes nothing else of it; the rates are kept as last growth; at updates strain, stress and stiffness are those of the cell and its contacts; the work is that of the mean rates. *)
Theorem C168_effect_partial cf b l masses iter dt pvg u t c t' c' h : tri_action cf b l masses iter dt pvg u t c = TDone t' c' h ->
  mdiag (Cell_Model.velGrad c') = strainRate t' /\ Cell_Model.hSize c' = Cell_Model.hSize c /\ Cell_Model.trsf c' = Cell_Model.trsf c /\ Cell_Model.size c' = Cell_Model.size c /\ (forall g, Cell_Model.velGrad c = diag g -> Cell_Model.velGrad c' = diag (strainRate t')) /\
  prevGrow t' = strainRate t' /\
  (Z.rem iter (globUpdate cf) = 0%Z -> exists e, log_strain c = Some e /\ strain t' = vadd e (smul dt (strainRate t')) /\ stressTensor t' = love c l /\ stiff t' = avg_stiff (dynCell cf) l) /\
  externalWork t' = externalWork t + trace (mmul (mscale (1/2) (madd pvg (Cell_Model.velGrad c'))) (stressTensor t')) * dt * det (Cell_Model.hSize c).
Proof. exact (tri_effect cf b l masses iter dt pvg u t c t' c' h). Qed.
Print Assumptions C168_effect_partial.
Example C168_effect_case : exists t' c' h, tri_action (tric false vzero 0) [] [] [] 0 1 mzero 0 tri0 (unit_box (V 1 1 1) vzero) = TDone t' c' h.
Proof. exact C168_works_case. Qed.
(** C168. Rates are within the given maximum, and above the limit given by the largest body. *)
Theorem C168_limits_partial cf b l masses iter dt pvg u t c t' c' h k : tri_action cf b l masses iter dt pvg u t c = TDone t' c' h -> 0 < dt -> (k < 3)%nat -> 0 <= comp (maxStrainRate cf) k ->
  Rabs (comp (strainRate t') k) <= comp (maxStrainRate cf) k /\ - (comp (Cell_Model.size c) k - 21/10 * comp (maxBodySpan t') k) / dt <= comp (strainRate t') k.
Proof. exact (tri_limits cf b l masses iter dt pvg u t c t' c' h k). Qed.
Print Assumptions C168_limits_partial.
Example C168_limits_case : exists t' c' h, tri_action (tric false vzero 0) [] [] [] 0 1 mzero 0 tri0 (unit_box (V 1 1 1) vzero) = TDone t' c' h /\ forall k, (k < 3)%nat -> 0 <= comp (maxStrainRate (tric false vzero 0)) k.
Proof. destruct C168_works_case as [t' [c' [h E]]]. exists t', c', h. split; [exact E|]. intros [|[|[|k]]] K; cbn [tric maxStrainRate comp vx vy vz]; try lra; lia. Qed.
(** C168. An edge that is not longer than one will be at least 2.1 times the largest body after the step. *)
Theorem C168_size_partial cf b l masses iter dt pvg u t c t' c' h k : tri_action cf b l masses iter dt pvg u t c = TDone t' c' h -> 0 < dt -> (k < 3)%nat -> 0 <= comp (maxStrainRate cf) k -> 0 < comp (Cell_Model.size c) k <= 1 ->
  21/10 * comp (maxBodySpan t') k <= (1 + dt * comp (strainRate t') k) * comp (Cell_Model.size c) k.
Proof. exact (tri_size cf b l masses iter dt pvg u t c t' c' h k). Qed.
Print Assumptions C168_size_partial.
Example C168_size_case : forall k, (k < 3)%nat -> 0 < comp (Cell_Model.size (unit_box (V 1 1 1) vzero)) k <= 1.
Proof. intros [|[|[|k]]] K; cbn [unit_box Cell_Model.size comp vx vy vz]; try lra; lia. Qed.
(** C168 is refuted for longer edges: a cell of 10 around a body of 1 shrinks to 1 in one step. *)
Theorem C168_small_refuted : exists cf t c t' c' h, tri_action cf [] [] [] 0 1 mzero 0 t c = TDone t' c' h /\ vpos (maxStrainRate cf) /\ boxy c (V 10 10 10) (V 1 1 1) vzero /\ maxBodySpan t' = V 1 1 1 /\ grown 1 (V 10 10 10) (strainRate t') = V 1 1 1.
Proof. exact (tri_small). Qed.
Print Assumptions C168_small_refuted.
Example C168_small_case : 1 < 21/10 * 1.
Proof. lra. Qed.
(** C169. Where strain is imposed, and without damping, the goal is reached exactly at the next step unless limits of the rate are met. *)
Theorem C169_strain_partial cf b l masses iter dt pvg u t c t' c' h k : tri_action cf b l masses iter dt pvg u t c = TDone t' c' h -> 0 < dt -> (k < 3)%nat -> dynCell cf = true \/ (growDamping cf = 0 /\ comp (prevGrow t) k = 0 /\ Z.rem iter (globUpdate cf) = 0%Z) -> controls_stress cf k = false ->
  let x := comp (mdiag (Cell_Model.trsf c)) k in let r := (exp (comp (goal cf) k) / x - 1) / dt in
  Rabs r <= comp (maxStrainRate cf) k -> - (comp (Cell_Model.size c) k - 21/10 * comp (maxBodySpan t') k) / dt <= r -> 0 < x /\ (1 + dt * comp (strainRate t') k) * x = exp (comp (goal cf) k).
Proof. exact (tri_strain cf b l masses iter dt pvg u t c t' c' h k). Qed.
Print Assumptions C169_strain_partial.
Example C169_strain_case : exists t' c' h, tri_action (tric true vzero 0) [] [] [1] 0 1 mzero 0 (mkT (V (1/4) (1/4) (1/4)) mzero vzero vzero vzero (V 1 1 1) None vzero (Some 1) 0) (unit_box (V 1 1 1) vzero) = TDone t' c' h.
Proof. apply tri_works; cbn [tric maxBodySpan vx unit_box Cell_Model.size Cell_Model.trsf globUpdate dynCell tmass]; [lra| |lia| |intros _; exists 1; split; [reflexivity|lra]]; intros [|[|[|k]]] K; cbn [comp mdiag mid diag r0 r1 r2 vx vy vz]; try lra; lia. Qed.
(** C169 is refuted with the damping of the other mode: a cell that has the strain wanted and was growing goes on growing at 0.8 times the rate, whatever the damping parameter. *)
Theorem C169_leaves_refuted cf b l masses iter dt pvg u t c t' c' h k p : tri_action cf b l masses iter dt pvg u t c = TDone t' c' h -> 0 < dt -> (k < 3)%nat -> dynCell cf = false -> Z.rem iter (globUpdate cf) = 0%Z -> controls_stress cf k = false -> comp (mdiag (Cell_Model.trsf c)) k = exp (comp (goal cf) k) ->
  comp (prevGrow t) k = p -> 0 < p -> 8/10 * p <= comp (maxStrainRate cf) k -> comp (strainRate t') k = 8/10 * p.
Proof. exact (tri_leaves cf b l masses iter dt pvg u t c t' c' h k p). Qed.
Print Assumptions C169_leaves_refuted.
Example C169_leaves_case : exists t' c' h, tri_action (tric false vzero 0) [] [] [] 0 1 mzero 0 (mkT (V (1/4) (1/4) (1/4)) mzero vzero vzero vzero (V 1 1 1) None (V (1/2) 0 0) None 0) (unit_box (V 1 1 1) vzero) = TDone t' c' h /\ comp (strainRate t') 0 = 8/10 * (1/2).
Proof.
  assert (W : exists t' c' h, tri_action (tric false vzero 0) [] [] [] 0 1 mzero 0 (mkT (V (1/4) (1/4) (1/4)) mzero vzero vzero vzero (V 1 1 1) None (V (1/2) 0 0) None 0) (unit_box (V 1 1 1) vzero) = TDone t' c' h).
  { apply tri_works; cbn [tric maxBodySpan vx unit_box Cell_Model.size Cell_Model.trsf globUpdate dynCell tmass]; [lra| |lia| |discriminate]; intros [|[|[|k]]] K; cbn [comp mdiag mid diag r0 r1 r2 vx vy vz]; try lra; lia. }
  destruct W as [t' [c' [h E]]]. exists t', c', h. split; [exact E|]. apply (C169_leaves_refuted _ _ _ _ _ _ _ _ _ _ _ _ _ 0%nat (1/2) E); cbn [tric dynCell globUpdate goal comp vx vzero unit_box Cell_Model.trsf mdiag mid diag r0 prevGrow maxStrainRate]; [lra|lia|reflexivity|reflexivity|reflexivity|rewrite exp_0; reflexivity|reflexivity|lra|lra].
Qed.
(** C170. Where stress is imposed, without damping and limits, the stress predicted for the next step differs from the goal by the factor 1 - 1/edge: it is the goal for an edge of one, and gets worse for an edge below one half. *)
Theorem C170_guess_partial cf b l masses iter dt pvg u t c t' c' h k : tri_action cf b l masses iter dt pvg u t c = TDone t' c' h -> 0 < dt -> (k < 3)%nat -> dynCell cf = false -> controls_stress cf k = true -> growDamping cf = 0 -> comp (prevGrow t) k = 0 ->
  Z.rem iter (globUpdate cf) <> 0%Z -> 0 < vmin (stiff t) -> 0 < comp (Cell_Model.size c) k -> 0 < face (Cell_Model.size c) k ->
  let r := 1 / dt * (comp (goal cf) k - comp (stress t) k) * face (Cell_Model.size c) k / comp (stiff t) k in
  Rabs r <= comp (maxStrainRate cf) k -> - (comp (Cell_Model.size c) k - 21/10 * comp (maxBodySpan t') k) / dt <= r ->
  comp (stress t') k - comp (goal cf) k = (1 - 1 / comp (Cell_Model.size c) k) * (comp (stress t) k - comp (goal cf) k).
Proof. exact (tri_guess cf b l masses iter dt pvg u t c t' c' h k). Qed.
Print Assumptions C170_guess_partial.
Example C170_guess_case : exists t' c' h, tri_action (mkTC false (V (1/2) 0 0) 7 (V 1 1 1) (1/10000) 1000 (3/100000) 0 5) [] [] [] 1 1 mzero 0 tri0 (unit_box (V 1 1 1) vzero) = TDone t' c' h /\ 0 < vmin (stiff tri0).
Proof.
  assert (W : exists t' c' h, tri_action (mkTC false (V (1/2) 0 0) 7 (V 1 1 1) (1/10000) 1000 (3/100000) 0 5) [] [] [] 1 1 mzero 0 tri0 (unit_box (V 1 1 1) vzero) = TDone t' c' h).
  { apply tri_works; cbn [tri0 maxBodySpan vx unit_box Cell_Model.size Cell_Model.trsf globUpdate dynCell tmass]; [lra| |lia| |discriminate]; intros [|[|[|k]]] K; cbn [comp mdiag mid diag r0 r1 r2 vx vy vz]; try lra; lia. }
  destruct W as [t' [c' [h E]]]. exists t', c', h. split; [exact E|]. cbn [tri0 stiff]. unfold vmin. cbn [vx vy vz]. unfold Rmin. repeat (destruct (Rle_dec _ _)); lra.
Qed.
(** C171. When the hook is run, imposed strains are met; at update steps the measured unbalanced force is below the maximum and imposed stresses are met by the measured ones. *)
Theorem C171_hook_partial cf b l masses iter dt pvg u t c t' c' : tri_action cf b l masses iter dt pvg u t c = TDone t' c' true ->
  (forall k, (k < 3)%nat -> controls_stress cf k = false -> meets (comp (goal cf) k) (1/1000000) (1/1000000) (comp (strain t') k)) /\
  (Z.rem iter (globUpdate cf) = 0%Z -> u < tMaxUnb cf /\ forall k, (k < 3)%nat -> controls_stress cf k = true -> meets (comp (goal cf) k) (relStressTol cf) (absStressTol cf) (comp (mdiag (love c l)) k)) /\
  exists x, tUnb t' = Some x /\ x < tMaxUnb cf.
Proof. exact (tri_hook cf b l masses iter dt pvg u t c t' c'). Qed.
Print Assumptions C171_hook_partial.
Example C171_hook_case : exists t' c', tri_action (tric false vzero 0) [] [] [] 1 1 mzero 1 (balanced 0) (unit_box (V 1 1 1) vzero) = TDone t' c' true /\ tUnb t' = Some 0.
Proof. exact (tri_hooked 1). Qed.
(** C171 is refuted: between update steps the unbalanced force of the last update is used, so that the actual one has no effect. *)
Theorem C171_stale_refuted cf b l masses iter dt pvg u u' t c x : Z.rem iter (globUpdate cf) <> 0%Z -> tUnb t = Some x -> 0 <= x -> tri_action cf b l masses iter dt pvg u t c = tri_action cf b l masses iter dt pvg u' t c.
Proof. exact (tri_stale cf b l masses iter dt pvg u u' t c x). Qed.
Print Assumptions C171_stale_refuted.
Example C171_stale_case : Z.rem 1 (globUpdate (tric false vzero 0)) <> 0%Z /\ tUnb (balanced 0) = Some 0.
Proof. split; [discriminate|reflexivity]. Qed.
(** C171 is refuted: an example in which the hook is run whatever the unbalanced force is. *)
Theorem C171_hooked_refuted : forall u, exists t' c', tri_action (tric false vzero 0) [] [] [] 1 1 mzero u (balanced 0) (unit_box (V 1 1 1) vzero) = TDone t' c' true /\ tUnb t' = Some 0.
Proof. exact (tri_hooked). Qed.
Print Assumptions C171_hooked_refuted.
Example C171_hooked_case : tMaxUnb (tric false vzero 0) < 1000.
Proof. cbn [tric tMaxUnb]. lra. Qed.
(** C172. The stress is the sum over contacts of minus force times branch over the volume; it depends neither on the order of contacts nor on which body of each is the first. *)
Theorem C172_love c l l' : love c l = mscale (/ det (Cell_Model.hSize c)) (msum (map (contact_stress c) l)) /\ (Permutation l l' -> love c l' = love c l) /\ love c (map reversed l) = love c l.
Proof. exact (love_spec c l l'). Qed.
Print Assumptions C172_love.
Example C172_love_case : contact_stress (unit_box (V 1 1 1) vzero) (mkK (V 1 0 0) vzero (V 1 0 0) 1 1 (V 0 0 0) (V 1 0 0) vzero) = M (V (-1) 0 0) vzero vzero.
Proof. unfold contact_stress, branch, outer, smul, vadd, vsub, mulv, dot, unit_box, diag, vzero. cbn [normalForce shearForce pos1 pos2 cellDist Cell_Model.hSize r0 r1 r2 vx vy vz]. f_equal; f_equal; ring. Qed.
(** C172. Component i,j of the share of a contact: minus the i-th component of the force on the second body times the j-th one of the branch. *)
Theorem C172_contact c k i j : (i < 3)%nat -> (j < 3)%nat -> comp (match i with O => r0 (contact_stress c k) | 1%nat => r1 (contact_stress c k) | _ => r2 (contact_stress c k) end) j = - (comp (normalForce k) i + comp (shearForce k) i) * comp (branch c k) j.
Proof. exact (contact_stress_spec c k i j). Qed.
Print Assumptions C172_contact.
Example C172_contact_case : branch (unit_box (V 1 1 1) vzero) (mkK (V 1 0 0) vzero (V 1 0 0) 1 1 (V 0 0 0) (V 1 0 0) (V 1 0 0)) = V 2 0 0.
Proof. unfold branch, vadd, vsub, mulv, dot, unit_box, diag. cbn [pos1 pos2 cellDist Cell_Model.hSize r0 r1 r2 vx vy vz]. f_equal; ring. Qed.
(** C172. The average stiffness is between the smallest and the largest stiffness of contacts. *)
Theorem C172_stiffness l lo hi k : l <> [] -> (k < 3)%nat -> (forall q, In q l -> lo <= kn q <= hi /\ lo <= ks q <= hi /\ Rabs (comp (normal q) k) <= 1) -> lo <= comp (avg_stiff false l) k <= hi.
Proof. exact (stiff_between l lo hi k). Qed.
Print Assumptions C172_stiffness.
Example C172_stiffness_case : forall q, In q [mkK (V 1 0 0) vzero (V 1 0 0) 2 1 (V 0 0 0) (V 1 0 0) vzero] -> 1 <= kn q <= 2 /\ 1 <= ks q <= 2 /\ Rabs (comp (normal q) 0) <= 1.
Proof. intros q [<-|[]]. cbn [kn ks normal comp vx]. rewrite Rabs_R1. lra. Qed.
