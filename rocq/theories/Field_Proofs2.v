From Coq Require Import List ZArith Bool Reals Arith Lia Lra.
From Verif Require Interp_Model Kine_Model Newton_Model.
From Verif Require Import Vec_Model Vec_Proofs Field_Model Field_Spec Field_Proofs.
Import ListNotations.
Local Open Scope R_scope.

(** ** directions *)
Lemma norm_positive a : norm2 a <> 0 -> 0 < norm a.
Proof. intros N. unfold norm. apply sqrt_lt_R0. pose proof (norm2_pos a). lra. Qed.
Lemma normalize_unit a : norm2 a <> 0 -> norm2 (vnormalize a) = 1 /\ a = smul (norm a) (vnormalize a).
Proof.
  intros N. pose proof (norm2_pos a) as P. pose proof (norm_positive a N) as Q. unfold vnormalize, Kine_Model.vnormalize. destruct (Rlt_dec 0 (norm2 a)) as [_|X]; [|lra].
  assert (S : norm a * norm a = norm2 a) by apply norm_sq. split.
  - transitivity (/ norm a * / norm a * norm2 a). { generalize (/ norm a). intros k. destruct a as [a1 a2 a3]. unfold norm2, dot, smul. cbn [vx vy vz]. ring. } rewrite <- S. field. lra.
  - transitivity (smul (norm a * / norm a) a). { rewrite Rinv_r by lra. rewrite smul_1. reflexivity. } generalize (norm a) (/ norm a). intros x y. destruct a as [a1 a2 a3]. unfold smul. cbn [vx vy vz]. f_equal; ring.
Qed.
Lemma normalize_zero a : norm2 a = 0 -> vnormalize a = vzero.
Proof. intros N. rewrite (norm2_zero a N). unfold vnormalize, Kine_Model.vnormalize. destruct (Rlt_dec 0 (norm2 vzero)) as [L|_]; [|reflexivity]. revert L. unfold norm2, dot, vzero. cbn [vx vy vz]. lra. Qed.

(** ** sums of all forces *)
Lemma total_ext F G n : (forall i, (i < n)%nat -> F i = G i) -> total F n = total G n.
Proof. induction n as [|n IH]; intros H; [reflexivity|]. cbn [total]. rewrite IH by (intros; apply H; lia). rewrite H by lia. reflexivity. Qed.
Lemma total_add F i f n : (i < n)%nat -> total (addForce F i f) n = add1 (total F n) f.
Proof.
  induction n as [|n IH]; intros L; [lia|]. cbn [total]. unfold addForce at 2. destruct (Nat.eqb_spec n i) as [->|N].
  - rewrite (total_ext _ F) by (intros j Hj; unfold addForce; destruct (Nat.eqb_spec j i); [lia|reflexivity]). symmetry. apply add1_assoc.
  - rewrite IH by lia. apply add1_swap.
Qed.
Lemma body_lt c i b : body c i = Some b -> (i < length c)%nat.
Proof. intros B. apply body_is in B. apply nth_error_Some. rewrite B. discriminate. Qed.

(** ** central gravity *)
Definition central_act (central : nat) (cb : fbody) (accel : R) (reciprocal : bool) (m : Z) (i : nat) (b : fbody) (F : forces) : forces :=
  if fclump b || (i =? central)%nat then F
  else if negb (m =? 0)%Z && negb (maskCompatible m b) then F
  else let f := accel * fmass b in let toCenter := vnormalize (vsub (fpos cb) (fpos b)) in
       let F1 := addForce F i (Some (smul f toCenter)) in
       if reciprocal then addForce F1 central (Some (smul (- f) toCenter)) else F1.
Lemma central_other central cb a m c F i : i <> central -> for_bodies c (central_act central cb a true m) F i = for_bodies c (central_act central cb a false m) F i.
Proof.
  intros N. unfold for_bodies. generalize (fst (foreach c)). intros l. assert (E : forall G H : forces, (forall j, j <> central -> G j = H j) ->
    fold_left (fun F i => match body c i with Some b => central_act central cb a true m i b F | None => F end) l G i = fold_left (fun F i => match body c i with Some b => central_act central cb a false m i b F | None => F end) l H i).
  { induction l as [|k l IH]; intros G H E; [apply E, N|]. cbn [fold_left]. apply IH. intros j Nj. destruct (body c k) as [b|]; [|apply E, Nj]. unfold central_act. destruct (_ || _); [apply E, Nj|]. destruct (_ && _); [apply E, Nj|].
    cbv zeta. unfold addForce. destruct (Nat.eqb_spec j central); [contradiction|]. destruct (j =? k)%nat; rewrite E by exact Nj; reflexivity. }
  apply E. reflexivity.
Qed.
Definition central_own (central : nat) (cb : fbody) (a : R) (m : Z) (i : nat) (b : fbody) : option (option vec) :=
  if fclump b || (i =? central)%nat then None else if negb (m =? 0)%Z && negb (maskCompatible m b) then None
  else Some (Some (smul (a * fmass b) (vnormalize (vsub (fpos cb) (fpos b))))).
Lemma central_is central cb a m c F i : for_bodies c (central_act central cb a false m) F i = match body c i with Some b => match central_own central cb a m i b with Some f => add1 (F i) f | None => F i end | None => F i end.
Proof.
  rewrite (for_bodies_ext c _ (own (central_own central cb a m))); [apply own_spec|]. intros j b G. unfold own, central_act, central_own. destruct (_ || _); [reflexivity|]. destruct (_ && _); reflexivity.
Qed.
Lemma central_own_affected central cb a m i b : i <> central -> affected m b -> central_own central cb a m i b = Some (Some (smul (a * fmass b) (vnormalize (vsub (fpos cb) (fpos b))))).
Proof.
  intros N [C M]. unfold central_own. rewrite C. cbn [orb]. destruct (Nat.eqb_spec i central); [contradiction|]. destruct (negb (m =? 0)%Z && negb (maskCompatible m b)) eqn:E; [|reflexivity]. exfalso. apply andb_true_iff in E. destruct E as [E1 E2].
  apply negb_true_iff in E1, E2. apply Z.eqb_neq in E1. unfold maskCompatible in E2. apply negb_false_iff, Z.eqb_eq in E2. tauto.
Qed.
Lemma central_own_none central cb a m i b : i = central \/ ~ affected m b -> central_own central cb a m i b = None.
Proof.
  intros H. unfold central_own. destruct (fclump b) eqn:C; [reflexivity|]. cbn [orb]. destruct (Nat.eqb_spec i central) as [|N]; [reflexivity|]. destruct H as [H|H]; [contradiction|]. destruct (negb (m =? 0)%Z && negb (maskCompatible m b)) eqn:E; [reflexivity|]. exfalso. apply H. split; [exact C|].
  apply andb_false_iff in E. destruct E as [E|E]; apply negb_false_iff in E; [left; apply Z.eqb_eq, E|]. right. unfold maskCompatible in E. apply negb_true_iff, Z.eqb_neq in E. exact E.
Qed.
(** the force of each body other than the central one *)
Theorem central_forces central a rec m c F F' cb i b : centralGravityEngine central a rec m c F = Some F' -> body c central = Some cb -> body c i = Some b -> i <> central -> affected m b ->
  (fpos b <> fpos cb -> exists d u, leads (fpos b) d u (fpos cb) /\ F' i = add1 (F i) (Some (smul (a * fmass b) u))) /\ (fpos b = fpos cb -> F' i = F i).
Proof.
  intros E C B N H. unfold centralGravityEngine in E. rewrite C in E. injection E as <-.
  assert (R : for_bodies c (central_act central cb a rec m) F i = add1 (F i) (Some (smul (a * fmass b) (vnormalize (vsub (fpos cb) (fpos b)))))).
  { assert (R0 : for_bodies c (central_act central cb a false m) F i = add1 (F i) (Some (smul (a * fmass b) (vnormalize (vsub (fpos cb) (fpos b)))))).
    { rewrite central_is, B, (central_own_affected _ _ _ _ _ _ N H). reflexivity. } destruct rec; [rewrite central_other by exact N|]; exact R0. }
  fold (central_act central cb a rec m). split.
  - intros D. destruct (Req_dec (norm2 (vsub (fpos cb) (fpos b))) 0) as [Z|NZ].
    + destruct D. apply norm2_zero in Z. transitivity (vadd (fpos b) (vsub (fpos cb) (fpos b))); [rewrite Z, vadd_0_r; reflexivity|apply vadd_sub].
    + destruct (normalize_unit _ NZ) as [U S]. exists (norm (vsub (fpos cb) (fpos b))), (vnormalize (vsub (fpos cb) (fpos b))). split; [|exact R]. split; [apply norm_positive, NZ|]. split; [exact U|]. rewrite <- S. apply vadd_sub.
  - intros D. etransitivity; [exact R|]. rewrite D, vsub_self, normalize_zero; [|vring]. transitivity (add1 (F i) (Some vzero)); [do 2 f_equal; vring|apply add1_zero].
Qed.
Theorem central_others central a rec m c F F' i : centralGravityEngine central a rec m c F = Some F' -> (i = central /\ rec = false) \/ (i <> central /\ forall b, body c i = Some b -> ~ affected m b) -> F' i = F i.
Proof.
  intros E H. unfold centralGravityEngine in E. destruct (body c central) as [cb|]; [|discriminate]. injection E as <-. fold (central_act central cb a rec m).
  assert (R : (i = central \/ forall b, body c i = Some b -> ~ affected m b) -> for_bodies c (central_act central cb a false m) F i = F i).
  { intros K. rewrite central_is. destruct (body c i) as [b|]; [|reflexivity]. rewrite central_own_none; [reflexivity|]. destruct K as [K|K]; [left; exact K|right; apply K; reflexivity]. }
  destruct H as [[-> ->]|[N H]]; [apply R; left; reflexivity|]. destruct rec; [rewrite central_other by exact N|]; apply R; right; exact H.
Qed.
Theorem central_total central a m c F F' : centralGravityEngine central a true m c F = Some F' -> total F' (length c) = total F (length c).
Proof.
  intros E. unfold centralGravityEngine in E. destruct (body c central) as [cb|] eqn:C; [|discriminate]. injection E as <-. fold (central_act central cb a true m). unfold for_bodies. generalize (fst (foreach c)). intros l. revert F.
  induction l as [|i l IH]; intros F; [reflexivity|]. cbn [fold_left]. rewrite IH. destruct (body c i) as [b|] eqn:B; [|reflexivity]. unfold central_act. destruct (_ || _); [reflexivity|]. destruct (_ && _); [reflexivity|]. cbv zeta.
  rewrite total_add by exact (body_lt _ _ _ C). rewrite total_add by exact (body_lt _ _ _ B). rewrite add1_assoc. cbn [add1]. transitivity (add1 (total F (length c)) (Some vzero)); [|apply add1_zero]. do 2 f_equal. generalize (vnormalize (vsub (fpos cb) (fpos b))) (a * fmass b). clear. intros v k. vring.
Qed.
Theorem central_defined central a rec m c F : centralGravityEngine central a rec m c F = None <-> ~ is_body c central.
Proof.
  unfold centralGravityEngine, is_body. destruct (body c central) as [cb|] eqn:C.
  - split; [discriminate|]. intros N. destruct N. exists cb. apply body_is, C.
  - split; [|reflexivity]. intros _ [b B]. apply body_is in B. congruence.
Qed.

(** ** axial gravity *)
Definition axial_own (p d : vec) (a : R) (m : Z) (i : nat) (b : fbody) : option (option vec) :=
  if selected m b then
    if Req_EM_T (norm2 (vsub (vadd p d) p)) 0 then Some None
    else let toAxis := vnormalize (vsub (vadd p (smul (- dot (vsub p (fpos b)) (vsub (vadd p d) p) / norm2 (vsub (vadd p d) p)) (vsub (vadd p d) p))) (fpos b)) in
         if Req_EM_T (norm2 toAxis) 0 then None else Some (Some (smul (a * fmass b) toAxis))
  else None.
Lemma axial_is p d a m c F i : axialGravityEngine p d a m c F i = match body c i with Some b => match axial_own p d a m i b with Some f => add1 (F i) f | None => F i end | None => F i end.
Proof.
  unfold axialGravityEngine. rewrite (for_bodies_ext c _ (own (axial_own p d a m))); [apply own_spec|]. intros j b G. unfold own, axial_own. destruct (selected m b); [|reflexivity]. cbv zeta. destruct (Req_EM_T _ _); [reflexivity|]. destruct (Req_EM_T _ _); reflexivity.
Qed.
Lemma projection_perp p d x : norm2 d <> 0 -> dot (vsub (vadd p (smul (- dot (vsub p x) d / norm2 d) d)) x) d = 0.
Proof.
  intros N. transitivity (dot (vsub p x) d + (- dot (vsub p x) d / norm2 d) * norm2 d).
  - generalize (- dot (vsub p x) d / norm2 d). intros k. destruct p as [p1 p2 p3], d as [d1 d2 d3], x as [x1 x2 x3]. unfold norm2, dot, vsub, vadd, smul. cbn [vx vy vz]. ring.
  - field. exact N.
Qed.
Lemma on_line_far p d x : norm2 d <> 0 -> on_line p d x -> vadd p (smul (- dot (vsub p x) d / norm2 d) d) = x.
Proof.
  intros N [s ->]. assert (E : - dot (vsub p (vadd p (smul s d))) d / norm2 d = s).
  { assert (D : dot (vsub p (vadd p (smul s d))) d = - s * norm2 d). { destruct p as [p1 p2 p3], d as [d1 d2 d3]. unfold norm2, dot, vsub, vadd, smul. cbn [vx vy vz]. ring. } rewrite D. field. exact N. }
  rewrite E. reflexivity.
Qed.
Theorem axial_forces p d a m c F i b : norm2 d <> 0 -> body c i = Some b -> affected m b ->
  (~ on_line p d (fpos b) -> exists r u q, leads (fpos b) r u q /\ on_line p d q /\ dot u d = 0 /\ axialGravityEngine p d a m c F i = add1 (F i) (Some (smul (a * fmass b) u))) /\
  (on_line p d (fpos b) -> axialGravityEngine p d a m c F i = F i).
Proof.
  intros N B H. rewrite axial_is, B. unfold axial_own. rewrite (proj2 (selected_affected m b) H). rewrite (vsub_add p d). destruct (Req_EM_T (norm2 d) 0) as [|_]; [contradiction|].
  remember (vadd p (smul (- dot (vsub p (fpos b)) d / norm2 d) d)) as q eqn:Q. cbv zeta. split.
  - intros L. destruct (Req_dec (norm2 (vsub q (fpos b))) 0) as [Z|NZ].
    + exfalso. apply L. exists (- dot (vsub p (fpos b)) d / norm2 d). rewrite <- Q. apply norm2_zero in Z. transitivity (vadd (fpos b) (vsub q (fpos b))); [rewrite Z, vadd_0_r; reflexivity|apply vadd_sub].
    + destruct (normalize_unit _ NZ) as [U S]. rewrite U. destruct (Req_EM_T 1 0) as [X|_]; [lra|]. exists (norm (vsub q (fpos b))), (vnormalize (vsub q (fpos b))), q. pose proof (norm_positive _ NZ) as P.
      split; [|split; [|split; [|reflexivity]]].
      * split; [exact P|]. split; [exact U|]. rewrite <- S. apply vadd_sub.
      * exists (- dot (vsub p (fpos b)) d / norm2 d). exact Q.
      * pose proof (projection_perp p d (fpos b) N) as O. rewrite <- Q, S in O. assert (T : norm (vsub q (fpos b)) * dot (vnormalize (vsub q (fpos b))) d = 0).
        { rewrite <- O. generalize (norm (vsub q (fpos b))) (vnormalize (vsub q (fpos b))). clear. intros k v. destruct v as [v1 v2 v3], d as [d1 d2 d3]. unfold dot, smul. cbn [vx vy vz]. ring. }
        apply Rmult_integral in T. destruct T; [lra|assumption].
  - intros L. pose proof (on_line_far p d (fpos b) N L) as E. rewrite <- Q in E. rewrite E, vsub_self, normalize_zero by vring. destruct (Req_EM_T (norm2 vzero) 0) as [|X]; [reflexivity|]. destruct X. vring.
Qed.
Theorem axial_others p d a m c F i : (forall b, body c i = Some b -> ~ affected m b) -> axialGravityEngine p d a m c F i = F i.
Proof.
  intros H. rewrite axial_is. destruct (body c i) as [b|]; [|reflexivity]. unfold axial_own. destruct (selected m b) eqn:E; [|reflexivity]. apply selected_affected in E. destruct (H b eq_refl E).
Qed.
Theorem axial_nan p a m c F i b : body c i = Some b -> affected m b -> axialGravityEngine p vzero a m c F i = None.
Proof.
  intros B H. rewrite axial_is, B. unfold axial_own. rewrite (proj2 (selected_affected m b) H), vsub_add. destruct (Req_EM_T (norm2 vzero) 0) as [_|X]; [destruct (F i); reflexivity|]. destruct X. vring.
Qed.

(** ** forces given to numbers *)
Lemma exists_is c i : exists_ c (Z.of_nat i) = match body c i with Some b => Some (i, b) | None => None end.
Proof. unfold exists_. destruct (Z.ltb_spec (Z.of_nat i) 0); [lia|]. rewrite Nat2Z.id. reflexivity. Qed.
Lemma exists_of c id i b : exists_ c id = Some (i, b) -> id = Z.of_nat i /\ body c i = Some b.
Proof. unfold exists_. destruct (Z.ltb_spec id 0); [discriminate|]. destruct (body c (Z.to_nat id)) as [b'|] eqn:B; [|discriminate]. intros E. injection E as <- <-. split; [lia|exact B]. Qed.
Section Listed.
Variables (c : container) (h : fbody -> option vec).
Definition listed (F : forces) (id : Z) : forces := match exists_ c id with Some (i, b) => match h b with Some f => addForce F i (Some f) | None => F end | None => F end.
Lemma listed_none ids : forall F i, (forall b f, body c i = Some b -> h b <> Some f) -> fold_left listed ids F i = F i.
Proof.
  induction ids as [|id ids IH]; intros F i H; [reflexivity|]. cbn [fold_left]. rewrite IH by exact H. unfold listed. destruct (exists_ c id) as [[j b]|] eqn:E; [|reflexivity]. apply exists_of in E. destruct E as [-> B]. destruct (h b) as [f|] eqn:Hb; [|reflexivity].
  unfold addForce. destruct (Nat.eqb_spec i j) as [->|]; [|reflexivity]. destruct (H b f B Hb).
Qed.
Lemma listed_some ids : forall F i b f a, body c i = Some b -> h b = Some f -> F i = Some a -> fold_left listed ids F i = Some (given f ids i a).
Proof.
  induction ids as [|id ids IH]; intros F i b f a B H E.
  - cbn [fold_left]. rewrite E. unfold given. cbn [count_occ INR]. f_equal. generalize a f. clear. intros. vring.
  - cbn [fold_left]. unfold given. cbn [count_occ]. destruct (Z.eq_dec id (Z.of_nat i)) as [->|N].
    + rewrite (IH _ i b f (vadd a f) B H); [|unfold listed; rewrite exists_is, B, H; unfold addForce; rewrite Nat.eqb_refl, E; reflexivity].
      rewrite S_INR. unfold given. f_equal. generalize (INR (count_occ Z.eq_dec ids (Z.of_nat i))) a f. clear. intros. vring.
    + rewrite (IH _ i b f a B H); [reflexivity|]. unfold listed. destruct (exists_ c id) as [[j b']|] eqn:X; [|exact E]. apply exists_of in X. destruct X as [-> _]. destruct (h b'); [|exact E]. unfold addForce. destruct (Nat.eqb_spec i j) as [->|]; [lia|exact E].
Qed.
End Listed.
Lemma fold_ext {A B} (f g : A -> B -> A) l : (forall a b, f a b = g a b) -> forall a, fold_left f l a = fold_left g l a.
Proof. intros H. induction l as [|x l IH]; intros a; [reflexivity|]. cbn [fold_left]. rewrite H. apply IH. Qed.
Lemma force_listed f ids c F : forceEngine f ids c F = fold_left (listed c (fun _ => Some f)) ids F.
Proof. unfold forceEngine. apply fold_ext. intros G id. unfold listed. destruct (exists_ c id) as [[i b]|]; reflexivity. Qed.
Theorem force_given f ids c F i a : is_body c i -> F i = Some a -> forceEngine f ids c F i = Some (given f ids i a).
Proof. intros [b B] E. rewrite force_listed. apply (listed_some c _ ids F i b f a); [apply body_is, B|reflexivity|exact E]. Qed.
Theorem force_others f ids c F i : ~ is_body c i \/ ~ In (Z.of_nat i) ids -> forceEngine f ids c F i = F i.
Proof.
  intros H. destruct H as [H|H].
  - rewrite force_listed. apply listed_none. intros b g B. destruct H. exists b. apply body_is, B.
  - unfold forceEngine. revert F. induction ids as [|id ids IH]; intros F; [reflexivity|]. cbn [fold_left]. rewrite IH by (intros X; apply H; right; exact X). destruct (exists_ c id) as [[j b]|] eqn:E; [|reflexivity]. apply exists_of in E. destruct E as [-> _].
    unfold addForce. destruct (Nat.eqb_spec i j) as [->|]; [|reflexivity]. destruct H. left. reflexivity.
Qed.
(** ** radial force *)
Definition radial_of (p d : vec) (k : R) (b : fbody) : option vec :=
  let u := vnormalize (vsub (fpos b) (vadd p (smul (dot (vsub (fpos b) p) d) d))) in if Req_EM_T (norm2 u) 0 then None else Some (smul k u).
Lemma radial_listed p d k ids c F : radialForceEngine p d k ids c F = fold_left (listed c (radial_of p d k)) ids F.
Proof. unfold radialForceEngine. apply fold_ext. intros G id. unfold listed, radial_of. destruct (exists_ c id) as [[i b]|]; [|reflexivity]. cbv zeta. destruct (Req_EM_T _ _); reflexivity. Qed.
Theorem radial_forces p d k ids c F i b a : norm2 d = 1 -> body c i = Some b -> F i = Some a ->
  (~ on_line p d (fpos b) -> exists r u q, leads q r u (fpos b) /\ on_line p d q /\ dot u d = 0 /\ radialForceEngine p d k ids c F i = Some (given (smul k u) ids i a)) /\
  (on_line p d (fpos b) -> radialForceEngine p d k ids c F i = F i).
Proof.
  intros U1 B E. rewrite radial_listed. assert (N : norm2 d <> 0) by lra.
  assert (Q : vadd p (smul (dot (vsub (fpos b) p) d) d) = vadd p (smul (- dot (vsub p (fpos b)) d / norm2 d) d)).
  { do 2 f_equal. rewrite U1. generalize (fpos b). clear. intros x. destruct p as [p1 p2 p3], d as [d1 d2 d3], x as [x1 x2 x3]. unfold dot, vsub. cbn [vx vy vz]. field. }
  remember (vadd p (smul (dot (vsub (fpos b) p) d) d)) as q eqn:Eq. split.
  - intros L. assert (NZ : norm2 (vsub (fpos b) q) <> 0).
    { intros Z. apply L. exists (dot (vsub (fpos b) p) d). rewrite <- Eq. apply norm2_zero in Z. transitivity (vadd q (vsub (fpos b) q)); [symmetry; apply vadd_sub|rewrite Z, vadd_0_r; reflexivity]. }
    destruct (normalize_unit _ NZ) as [U S]. pose proof (norm_positive _ NZ) as P. exists (norm (vsub (fpos b) q)), (vnormalize (vsub (fpos b) q)), q. split; [split; [exact P|]; split; [exact U|]; rewrite <- S; apply vadd_sub|]. split; [exists (dot (vsub (fpos b) p) d); exact Eq|]. split.
    + pose proof (projection_perp p d (fpos b) N) as O. rewrite <- Q in O. assert (T : norm (vsub (fpos b) q) * dot (vnormalize (vsub (fpos b) q)) d = 0).
      { transitivity (dot (vsub (fpos b) q) d); [rewrite S at 3; generalize (norm (vsub (fpos b) q)) (vnormalize (vsub (fpos b) q)); clear; intros x v; destruct v as [v1 v2 v3], d as [d1 d2 d3]; unfold dot, smul; cbn [vx vy vz]; ring|].
        transitivity (- dot (vsub q (fpos b)) d); [|rewrite O; ring]. generalize (fpos b). clear. intros x. destruct q as [p1 p2 p3], d as [d1 d2 d3], x as [x1 x2 x3]. unfold dot, vsub. cbn [vx vy vz]. ring. }
      apply Rmult_integral in T. destruct T; [lra|assumption].
    + apply (listed_some c _ ids F i b _ a B); [|exact E]. unfold radial_of. rewrite <- Eq. cbv zeta. rewrite U. destruct (Req_EM_T 1 0); [lra|reflexivity].
  - intros L. apply listed_none. intros b' f B'. rewrite B in B'. injection B' as <-. unfold radial_of. rewrite <- Eq. cbv zeta. rewrite Q, (on_line_far p d _ N L), vsub_self, normalize_zero by vring. destruct (Req_EM_T (norm2 vzero) 0) as [_|X]; [discriminate|]. destruct X. vring.
Qed.
Theorem radial_others p d k ids c F i : ~ is_body c i \/ ~ In (Z.of_nat i) ids -> radialForceEngine p d k ids c F i = F i.
Proof.
  intros H. destruct H as [H|H].
  - rewrite radial_listed. apply listed_none. intros b g B. destruct H. exists b. apply body_is, B.
  - rewrite radial_listed. revert F. induction ids as [|id ids IH]; intros F; [reflexivity|]. cbn [fold_left]. rewrite IH by (intros X; apply H; right; exact X). unfold listed. destruct (exists_ c id) as [[j b]|] eqn:E; [|reflexivity]. apply exists_of in E. destruct E as [-> _]. destruct (radial_of p d k b); [|reflexivity].
    unfold addForce. destruct (Nat.eqb_spec i j) as [->|]; [|reflexivity]. destruct H. left. reflexivity.
Qed.
