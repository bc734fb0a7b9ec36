(** Statements about the factory in the words of the specification. *)
From Coq Require Import Reals List ZArith Bool Arith Lra Lia.
From Verif Require Import Vec_Model Vec_Proofs Fact_Model Fact_Spec Fact_Proofs Fact_Proofs2 Fact_Proofs3 Fact_Proofs4.
Import ListNotations.
Local Open Scope R_scope.

Lemma grading_given c flow mmass cum rho s k : graded c cum -> given_density c = Some rho -> 0 < rho -> history c (fresh flow mmass cum) s -> (k < length cum)%nat ->
  - heaviest c rho <= whole c (made s) * asked cum k - part c k (made s) <= (INR (length cum) - 1) * heaviest c rho.
Proof. rewrite <- density_given. apply grading. Qed.
(** so that the part of a bin tends to what is asked *)
Lemma grading_tends c cum rho k eps flow mmass s : graded c cum -> given_density c = Some rho -> 0 < rho -> 0 < eps -> history c (fresh flow mmass cum) s -> (k < length cum)%nat ->
  INR (length cum) * heaviest c rho <= eps * whole c (made s) -> 0 < whole c (made s) -> Rabs (part c k (made s) / whole c (made s) - asked cum k) <= eps.
Proof.
  intros Gr D Rp Ep H K L W. destruct (grading_given c flow mmass cum rho s k Gr D Rp H K) as (A & B). pose proof (heaviest_pos _ _ _ Gr Rp) as Hp.
  assert (N1 : 1 <= INR (length cum)) by (pose proof (le_INR 1 (length cum) ltac:(lia)) as X; cbn [INR] in X; lra).
  assert (N2 : heaviest c rho <= INR (length cum) * heaviest c rho) by (pose proof (Rmult_le_compat_r (heaviest c rho) 1 (INR (length cum)) ltac:(lra) N1); lra).
  replace (part c k (made s) / whole c (made s) - asked cum k) with ((part c k (made s) - whole c (made s) * asked cum k) * / whole c (made s)) by (field; lra).
  rewrite Rabs_mult, (Rabs_pos_eq (/ whole c (made s))) by (left; apply Rinv_0_lt_compat; exact W).
  apply (Rmult_le_reg_r (whole c (made s))); [exact W|]. rewrite Rmult_assoc, Rinv_l, Rmult_1_r by lra.
  apply Rabs_le. lra.
Qed.
Lemma grading_safe_given c flow mmass cum rho s rnd probe junk dt fuel : graded c cum -> given_density c = Some rho -> 0 < rho -> history c (fresh flow mmass cum) s -> randoms rnd ->
  action c rnd probe junk dt fuel s <> UB.
Proof. rewrite <- density_given. apply grading_safe. Qed.
Lemma aim_speed c v : norm (aim c) <> 0 -> norm (smul (v / norm (aim c)) (aim c)) = Rabs v.
Proof.
  intros H. rewrite norm_smul. pose proof (norm_pos (aim c)). unfold Rdiv. rewrite Rabs_mult, (Rabs_pos_eq (/ norm (aim c))) by (left; apply Rinv_0_lt_compat; lra).
  rewrite Rmult_assoc, Rinv_l, Rmult_1_r by exact H. reflexivity.
Qed.
Lemma ends_by_mass_given c rnd probe junk dt s rho : randoms rnd -> 0 < rMin c <= rMax c -> PSDcum s = [] -> PSDuse s = false -> given_density c = Some rho -> 0 < rho ->
  exists n, forall fuel s', (n <= fuel)%nat -> action c rnd probe junk dt fuel s <> More s'.
Proof. rewrite <- density_given. apply ends_by_mass. Qed.
(** an unknown material: nothing is made *)
Lemma no_material c s s' : given_density c = None -> history c s s' -> made s' = made s.
Proof.
  intros D H. rewrite <- density_given in D. destruct (accounts c s s' H) as (new & A & _ & _ & _ & T). rewrite A. destruct new as [|b new]; [apply app_nil_r|].
  destruct (T b (or_introl eq_refl)) as ((rho & X & _) & _). rewrite <- density_given in X. congruence.
Qed.
(** the place of a sphere made by CircularFactory *)
Lemma circular_history c q n center rad len s s' b : pick c = circular q n center rad len -> qnorm2 q = 1 -> qrot q (V 0 0 1) = n -> 0 <= len -> (0 <= maxAttempt c)%Z ->
  made s = [] -> history c s s' -> In b (made s') -> bradius b <= rad ->
  let d := vsub (bcenter b) center in - (len / 2) <= dot d n <= len / 2 /\ norm (vsub d (smul (dot d n) n)) + bradius b <= rad.
Proof.
  intros P Q N L M M0 H I Le. destruct (picked c s s' b M H I) as [X|(rnd & sd & R & X)]; [rewrite M0 in X; destruct X|]. rewrite X, P. apply circular_region; assumption.
Qed.
Lemma boxed_history c q center ext s s' b : pick c = boxed q center ext -> qnorm2 q = 1 -> 0 <= vx ext -> 0 <= vy ext -> 0 <= vz ext -> (0 <= maxAttempt c)%Z ->
  made s = [] -> history c s s' -> In b (made s') ->
  let d := qrot (qconj q) (vsub (bcenter b) center) in - vx ext <= vx d <= vx ext /\ - vy ext <= vy d <= vy ext /\ - vz ext <= vz d <= vz ext.
Proof.
  intros P Q X Y Z M M0 H I. destruct (picked c s s' b M H I) as [W|(rnd & sd & R & W)]; [rewrite M0 in W; destruct W|]. rewrite W, P. apply boxed_region; assumption.
Qed.
Lemma four_consistent : consistent 4 four.
Proof.
  split; [|split].
  - intros i H. destruct i as [|[|[|[|i]]]]; try lia. reflexivity.
  - intros i b j E C. destruct i as [|[|[|[|i]]]]; cbn in E; try discriminate; injection E as <-; cbn in C; try discriminate. injection C as <-.
    exists (mkB (P3 (Some 0) (Some 0) (Some 5)) (Clump [3%nat]) None 2 1), [3%nat]. split; [reflexivity|]. split; [reflexivity|]. split; [left; reflexivity|reflexivity].
  - intros j c ms i E K I. destruct j as [|[|[|[|j]]]]; cbn in E; try discriminate; injection E as <-; cbn in K; try discriminate. injection K as <-. destruct I as [<-|[]].
    exists (mkB (P3 (Some 0) (Some 0) (Some 5)) (Sphere 1) (Some 2%nat) 2 1). split; reflexivity.
Qed.
(** the number of particles made by one step that is not disturbed *)
Lemma percent_graded : ascending percent = true /\ increasing percent.
Proof.
  assert (I : increasing percent). { split; [unfold percent, item; cbn [nth]; lra|]. intros i H. unfold percent, item in *. cbn [length] in H. destruct i as [|[|i]]; [cbn [nth]; lra|cbn [nth]; lra|lia]. }
  split; [apply ascending_ok; exact I|exact I].
Qed.
