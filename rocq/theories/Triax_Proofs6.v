(** growth of particles *)
From Coq Require Import Reals List ZArith Bool Arith Lra Lia.
From Verif Require Import Vec_Model Law_Model Triax_Model Triax_Spec Triax_Proofs Triax_Proofs2 Triax_Proofs3 Triax_Proofs4 Triax_Proofs5.
Import ListNotations.
Local Open Scope R_scope.

Lemma isotropic_some c : stress_axes c <> [] -> isotropic c = Some (wanted_mean c).
Proof.
  unfold isotropic, wanted_mean, stress_axes, bit. cbn [filter]. destruct (Z.testbit (stressMask c) (Z.of_nat 0)), (Z.testbit (stressMask c) (Z.of_nat 1)), (Z.testbit (stressMask c) (Z.of_nat 2)); intro N;
  (destruct (Req_EM_T _ 0) as [Z|Z]; [exfalso; try lra; try (apply N; reflexivity)|]); cbn [map total length INR coord nth]; f_equal; try (field; lra); try lra.
Qed.
Lemma isotropic_none c : stress_axes c = [] -> isotropic c = None.
Proof.
  unfold isotropic, stress_axes, bit. cbn [filter]. destruct (Z.testbit (stressMask c) (Z.of_nat 0)), (Z.testbit (stressMask c) (Z.of_nat 1)), (Z.testbit (stressMask c) (Z.of_nat 2)); intro N; try discriminate N.
  destruct (Req_EM_T (0 + 0 + 0) 0); [reflexivity|lra].
Qed.
(** the limit in use *)
Definition limit (c : tconf) (m mean : R) : R := if Rle_dec (Rabs (wanted_mean c)) (Rabs mean) then finalMaxMultiplier c else m.
Lemma multiplier_spec c m mean : stress_axes c <> [] -> wanted_mean c < 0 -> 1 < m -> 1 < finalMaxMultiplier c ->
  exists k, multiplier c m mean = (limit c m mean, Some k) /\ k - 1 = (1 - mean / wanted_mean c) * (limit c m mean - 1).
Proof.
  intros N G M F. unfold multiplier. rewrite (isotropic_some c N). cbv zeta. fold (limit c m mean). remember (wanted_mean c) as g. remember (limit c m mean) as L.
  destruct (Req_EM_T mean 0) as [->|Z].
  - eexists. split; [reflexivity|]. field. lra.
  - destruct (Req_EM_T g 0); [lra|]. destruct (Rlt_dec g 0); [|lra]. eexists. split; [reflexivity|]. field. lra.
Qed.
Lemma growth_direction c e s W : sane c e W -> internalCompaction c = true -> (iter e mod radiusControlInterval c = 0)%Z -> stress_axes c <> [] -> wanted_mean c < 0 -> 1 < maxMultiplier s -> 1 < finalMaxMultiplier c ->
  exists s' W' k, action c e s W = Done s' W' (Some (Some k)) /\ previousMultiplier s' = Some k /\ previousStress s' = meanStress s' /\
   (maxMultiplier s' = if Rle_dec (Rabs (wanted_mean c)) (Rabs (meanStress s')) then finalMaxMultiplier c else maxMultiplier s) /\
   (wanted_mean c < meanStress s' -> 1 < k) /\ (meanStress s' < wanted_mean c -> k < 1) /\ (meanStress s' = wanted_mean c -> k = 1) /\ (meanStress s' <= 0 -> k <= maxMultiplier s').
Proof.
  intros SA IC RI N G M F. destruct (action_internal c e s W SA IC) as [W' [_ [_ [_ E]]]]. apply Z.eqb_eq in RI. rewrite RI in E. cbv zeta in E.
  destruct (prepared_fields c e s W) as [_ [_ [_ [_ [_ [_ [MM _]]]]]]]. cbv zeta in MM. rewrite MM in E. remember (meanStress (prepared c e s W)) as mean.
  destruct (multiplier_spec c (maxMultiplier s) mean N G M F) as [k [K1 K2]]. rewrite K1 in E.
  eexists _, W', k. split; [exact E|]. cbn [setGrowth previousMultiplier previousStress meanStress maxMultiplier]. rewrite <- Heqmean. fold (limit c (maxMultiplier s) mean).
  assert (L1 : 1 < limit c (maxMultiplier s) mean) by (unfold limit; destruct (Rle_dec _ _); assumption).
  remember (limit c (maxMultiplier s) mean) as L. remember (wanted_mean c) as g.
  assert (Q : mean / g = (- mean) * / (- g)) by (field; lra). pose proof (Rinv_0_lt_compat (- g) ltac:(lra)) as IG.
  split; [reflexivity|]. split; [reflexivity|]. split; [reflexivity|]. split; [|split; [|split]].
  - intro A. assert (X : mean / g < 1). { rewrite Q. apply (Rmult_lt_reg_r (- g)); [lra|]. rewrite Rmult_assoc, Rinv_l by lra. lra. } pose proof (Rmult_lt_0_compat (1 - mean / g) (L - 1) ltac:(lra) ltac:(lra)). lra.
  - intro A. assert (X : 1 < mean / g). { rewrite Q. apply (Rmult_lt_reg_r (- g)); [lra|]. rewrite Rmult_assoc, Rinv_l by lra. lra. } pose proof (Rmult_lt_0_compat (mean / g - 1) (L - 1) ltac:(lra) ltac:(lra)). lra.
  - intro A. rewrite A in K2. unfold Rdiv in K2. rewrite Rinv_r in K2 by lra. lra.
  - intro A. assert (X : 0 <= mean / g). { rewrite Q. apply Rmult_le_pos; lra. } pose proof (Rmult_le_pos (mean / g) (L - 1) X ltac:(lra)). lra.
Qed.
Lemma no_growth_otherwise c e s W : sane c e W -> ~ (internalCompaction c = true /\ (iter e mod radiusControlInterval c = 0)%Z) -> exists s' W', action c e s W = Done s' W' None /\ maxMultiplier s' = maxMultiplier s /\ previousMultiplier s' = previousMultiplier s.
Proof.
  intros SA N. destruct (prepared_fields c e s W) as [_ [_ [_ [_ [_ [_ [MM _]]]]]]]. cbv zeta in MM.
  assert (PM : previousMultiplier (prepared c e s W) = previousMultiplier s) by (unfold prepared, prepared1; destruct (_ || _)%bool; destruct (_ || _)%bool; reflexivity).
  destruct (internalCompaction c) eqn:IC.
  - destruct (action_internal c e s W SA IC) as [W' [_ [_ [_ E]]]]. destruct (iter e mod radiusControlInterval c =? 0)%Z eqn:RI; [apply Z.eqb_eq in RI; exfalso; apply N; split; [reflexivity|exact RI]|].
    eexists _, W'. split; [exact E|]. split; assumption.
  - destruct (action_external c e s W SA IC) as [s' [W' [E [R1 _]]]]. exists s', W'. split; [exact E|]. rewrite R1. split; assumption.
Qed.
(** volumes of the particles grown *)
Lemma grown_volume k b : (forall m d, b <> ClumpOf m d false) -> volume (grown k b) = option_map (fun v => k * k * k * v) (volume b).
Proof.
  intro N. destruct b as [r [|] [|]|m [d|] [|]|[|] [|]]; cbn [grown volume option_map]; try reflexivity; try (f_equal; unfold Rdiv; ring). exfalso. exact (N m (Some d) eq_refl).
Qed.
Lemma grown_volumes k l v : clumps_free l -> volumes l = Some v -> volumes (map (grown k) l) = Some (k * k * k * v).
Proof.
  revert v. induction l as [|b l IH]; intros v CF E; cbn [volumes map] in *.
  - injection E as <-. f_equal. ring.
  - destruct (volume b) as [x|] eqn:VB; [|discriminate]. destruct (volumes l) as [y|] eqn:VL; [|discriminate]. injection E as <-.
    rewrite (grown_volume k b), VB by (intros m d X; apply (CF m d); left; exact X). cbn [option_map]. rewrite (IH y); [f_equal; ring| |reflexivity]. intros m d X. apply (CF m d). right; exact X.
Qed.
Lemma volume_is_tracked c e s W : sane c e W -> (first s = true \/ updatePorosity s = true \/ volumes (solids e) = Some (particlesVolume s)) -> clumps_free (solids e) ->
  exists s' W' g, action c e s W = Done s' W' g /\ match g with Some (Some k) => volumes (map (grown k) (solids e)) = Some (particlesVolume s') | Some None => True | None => volumes (solids e) = Some (particlesVolume s') end.
Proof.
  intros SA V0 CF. destruct (prepared_fields c e s W) as [_ [_ [_ [PV _]]]]. cbv zeta in PV.
  assert (SV : volumes (solids e) = Some (solid_volume e s)).
  { destruct SA as [_ [_ [v CV]]]. unfold solid_volume. rewrite CV in *. destruct (first s) eqn:F; [reflexivity|]. destruct (updatePorosity s) eqn:U; [reflexivity|]. cbn [orb]. destruct V0 as [X|[X|X]]; [discriminate|discriminate|exact X]. }
  destruct (internalCompaction c) eqn:IC.
  - destruct (action_internal c e s W SA IC) as [W' [_ [_ [_ E]]]]. destruct (_ =? 0)%Z.
    + cbv zeta in E. destruct (multiplier c _ _) as [mm [k|]]; eexists _, W', _; (split; [exact E|]); [|exact I]. cbn [setGrowth particlesVolume]. rewrite PV. rewrite (grown_volumes k _ _ CF SV). f_equal. ring.
    + eexists _, W', _. split; [exact E|]. cbv beta iota. rewrite PV. exact SV.
  - destruct (action_external c e s W SA IC) as [s' [W' [E [R1 _]]]]. exists s', W', None. split; [exact E|]. rewrite R1. cbn [setWork particlesVolume]. rewrite PV. exact SV.
Qed.
(** where it goes wrong *)
Lemma fixed_clump_counted : volumes [ClumpOf 2 (Some 1) false] = Some 2 /\ volumes (map (grown 2) [ClumpOf 2 (Some 1) false]) = Some 2.
Proof. cbn [map grown volumes volume]. split; f_equal; lra. Qed.
Lemma c1 g : stress_axes (conf0 1 (V g 0 0) (1/4) 0 true) <> [] /\ wanted_mean (conf0 1 (V g 0 0) (1/4) 0 true) = g.
Proof. split; [discriminate|]. unfold wanted_mean, stress_axes. cbn. lra. Qed.
Lemma nothing_in_stress c m mean : stress_axes c = [] -> mean <> 0 -> snd (multiplier c m mean) = None.
Proof. intros N Z. unfold multiplier. rewrite (isotropic_none c N). cbn [snd]. destruct (Req_EM_T mean 0); [contradiction|reflexivity]. Qed.
Lemma zero_goal c m mean : stress_axes c <> [] -> wanted_mean c = 0 -> snd (multiplier c m mean) = if Req_EM_T mean 0 then Some (finalMaxMultiplier c) else None.
Proof.
  intros N Z. unfold multiplier. rewrite (isotropic_some c N), Z. cbv zeta. cbn [snd]. rewrite Rabs_R0. destruct (Rle_dec 0 (Rabs mean)) as [_|X]; [|exfalso; apply X, Rabs_pos]. destruct (Req_EM_T mean 0); [reflexivity|]. destruct (Req_EM_T 0 0); [reflexivity|contradiction].
Qed.
Lemma over_limit : exists k, shrunk_to (-2) 1 = (1001/1000, Some k) /\ 1001/1000 < k.
Proof.
  unfold shrunk_to, multiplier. destruct (c1 (-2)) as [N G]. rewrite (isotropic_some _ N), G. cbv zeta. rewrite (Rabs_left (-2)), (Rabs_right 1) by lra. destruct (Rle_dec (- -2) 1); [lra|]. destruct (Req_EM_T 1 0); [lra|]. destruct (Req_EM_T (-2) 0); [lra|]. destruct (Rlt_dec (-2) 0); [|lra].
  eexists. split; [reflexivity|]. lra.
Qed.
Lemma negative_radii : exists k, snd (shrunk_to (-1) (-200002)) = Some k /\ k < 0.
Proof.
  unfold shrunk_to, multiplier. destruct (c1 (-1)) as [N G]. rewrite (isotropic_some _ N), G. cbv zeta. rewrite (Rabs_left (-1)), (Rabs_left (-200002)) by lra. destruct (Rle_dec (- -1) (- -200002)); [|lra]. destruct (Req_EM_T (-200002) 0); [lra|]. destruct (Req_EM_T (-1) 0); [lra|]. destruct (Rlt_dec (-1) 0); [|lra].
  eexists. split; [reflexivity|]. unfold conf0. cbn [finalMaxMultiplier]. lra.
Qed.
(** volumes of particles *)
Lemma one_counted b v : massive b -> volume b = Some v -> v <= particle_volume b /\ particle_volume b - v <= 3 / 100000000 * particle_volume b.
Proof.
  intros M E. destruct b as [r d m|m [d|] f|d m]; cbn [particle_volume].
  - destruct d, m; cbn [andb negb]; try (injection E as <-; lra). cbn [massive] in M. destruct (ball_counted r v M E). split; [apply Rlt_le|]; assumption.
  - injection E as <-. cbn [massive] in M. destruct M as (M & D). assert (0 < m / d) by (apply Rdiv_lt_0_compat; assumption). lra.
  - discriminate.
  - destruct d, m; try discriminate; injection E as <-; lra.
Qed.
Lemma volumes_counted : forall l v, Forall massive l -> volumes l = Some v -> v <= total (map particle_volume l) /\ total (map particle_volume l) - v <= 3 / 100000000 * total (map particle_volume l).
Proof.
  induction l as [|b l IH]; intros v M E; cbn [volumes map total] in *; [injection E as <-; lra|]. inversion M as [|? ? MB ML]; subst. destruct (volume b) as [x|] eqn:X; [|discriminate]. destruct (volumes l) as [y|] eqn:Y; [|discriminate]. injection E as <-.
  destruct (one_counted b x MB X), (IH y ML eq_refl). lra.
Qed.
Lemma growth k b : (is_free b = false -> grown k b = b) /\ (is_free b = true -> particle_volume (grown k b) = k * k * k * particle_volume b).
Proof.
  destruct b as [r d m|m [d|] f|d m]; cbn [is_free]; (split; [intros ->; reflexivity|intros ->]); cbn [grown particle_volume]; try (destruct m; cbn [andb negb]; unfold ball_volume); try ring. unfold Rdiv. ring.
Qed.
