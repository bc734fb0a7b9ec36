From Coq Require Import Reals Lra Lia List NArith ZArith Bool Permutation.
From Verif Require Import Vec_Model Vec_Proofs Rigid_Model Rigid_Spec Law_Model Law_Spec Law_Proofs Newton_Model Newton_Spec Newton_Proofs Newton_Proofs2 Newton_Proofs3 Step_Spec.
Import ListNotations.
Local Open Scope R_scope.

(** ** sums *)
Lemma vsum_cons' x l : vsum (x :: l) = vadd x (vsum l). Proof. reflexivity. Qed.
Lemma vsum_app a b : vsum (a ++ b) = vadd (vsum a) (vsum b).
Proof. unfold vsum. induction a as [|x a IH]; cbn [app fold_right]; [symmetry; apply vadd_0_l|]. rewrite IH. apply vadd_assoc. Qed.
Lemma vsum_perm a b : Permutation a b -> vsum a = vsum b.
Proof. unfold vsum. induction 1; cbn [fold_right]; [reflexivity|congruence| |congruence]. rewrite !vadd_assoc, (vadd_comm y x). reflexivity. Qed.
Lemma vsum_add {A} (f g : A -> vec) l : vsum (map (fun x => vadd (f x) (g x)) l) = vadd (vsum (map f l)) (vsum (map g l)).
Proof. unfold vsum. induction l as [|x l IH]; cbn [map fold_right]; [symmetry; apply vadd_0_l|]. rewrite IH. generalize (f x) (g x) (fold_right vadd vzero (map f l)) (fold_right vadd vzero (map g l)). vring. Qed.
Lemma vsum_smul {A} k (f : A -> vec) l : vsum (map (fun x => smul k (f x)) l) = smul k (vsum (map f l)).
Proof. unfold vsum. induction l as [|x l IH]; cbn [map fold_right]; [vring|]. rewrite IH. generalize (f x) (fold_right vadd vzero (map f l)). vring. Qed.
Lemma vsum_zero {A} (f : A -> vec) l : (forall x, In x l -> f x = vzero) -> vsum (map f l) = vzero.
Proof. intros H. unfold vsum. induction l as [|x l IH]; cbn [map fold_right]; [reflexivity|]. rewrite (H x (or_introl eq_refl)), vadd_0_l. apply IH. intros y Hy. apply H. right. exact Hy. Qed.
Lemma vsum_flat {A B} (h : B -> vec) (e : A -> list B) l : vsum (map h (flat_map e l)) = vsum (map (fun x => vsum (map h (e x))) l).
Proof. induction l as [|x l IH]; [reflexivity|]. cbn [flat_map map]. rewrite map_app, vsum_app, IH. reflexivity. Qed.
Lemma vsum_filter {A} (f : A -> bool) (h : A -> vec) l : vsum (map h (filter f l)) = vsum (map (fun x => if f x then h x else vzero) l).
Proof. unfold vsum. induction l as [|x l IH]; [reflexivity|]. cbn [filter map fold_right]. destruct (f x); cbn [map fold_right]; rewrite IH; [reflexivity|symmetry; apply vadd_0_l]. Qed.

(** ** the bodies of a clump *)
Definition family (w : nworld) (i : nat) : list nat :=
  match nb w i with Some b => if whole (i, b) then i :: (if isClump i b then map fst (members b) else []) else [] | None => [] end.
Lemma family_mover w i j : clumps_ok w -> In j (family w i) -> nb w j <> None /\ mover w j = i.
Proof.
  intros [K1 _]. unfold family. destruct (nb w i) as [b|] eqn:E; [|intros []]. unfold whole, isClumpMember, isClump. cbn [fst snd]. destruct (clumpId b) as [k|] eqn:Ek.
  - destruct (Nat.eqb_spec i k) as [->|Hn]; cbn [negb]; [|intros []]. intros [<-|Hj]; [split; [congruence|]; unfold mover; rewrite E, Ek; reflexivity|]. destruct (K1 k b E Ek) as [_ A]. destruct (A j Hj) as (_ & bj & Ej & Ec). split; [congruence|]. unfold mover. rewrite Ej, Ec. reflexivity.
  - cbn [negb]. intros [<-|[]]. split; [congruence|]. unfold mover. rewrite E, Ek. reflexivity.
Qed.
Lemma family_self w j b : clumps_ok w -> nb w j = Some b -> In j (family w (mover w j)) /\ nb w (mover w j) <> None.
Proof.
  intros [K1 K2] E. unfold mover. rewrite E. destruct (clumpId b) as [k|] eqn:Ek.
  - destruct (Nat.eq_dec k j) as [->|Hn].
    + unfold family. rewrite E. unfold whole, isClumpMember. cbn [fst snd]. rewrite Ek, Nat.eqb_refl. cbn [negb]. split; [left; reflexivity|congruence].
    + destruct (K2 j b k E Ek Hn) as (bk & Ebk & Ec & Hin). unfold family. rewrite Ebk. unfold whole, isClumpMember, isClump. cbn [fst snd]. rewrite Ec, Nat.eqb_refl. cbn [negb]. split; [right; exact Hin|congruence].
  - unfold family. rewrite E. unfold whole, isClumpMember. cbn [fst snd]. rewrite Ek. cbn [negb]. split; [left; reflexivity|congruence].
Qed.
Lemma family_nodup w i : clumps_ok w -> NoDup (family w i).
Proof.
  intros [K1 _]. unfold family. destruct (nb w i) as [b|] eqn:E; [|constructor]. destruct (whole (i, b)); [|constructor]. unfold isClump. destruct (clumpId b) as [k|] eqn:Ek; [|repeat constructor; intros []]. destruct (Nat.eqb_spec i k) as [->|]; [|repeat constructor; intros []].
  destruct (K1 k b E Ek) as [A B]. constructor; [|exact A]. intros H. destruct (B k H) as [C _]. apply C. reflexivity.
Qed.
Definition exists_b (w : nworld) (i : nat) : bool := match nb w i with Some _ => true | None => false end.
Lemma families w ids : clumps_ok w -> NoDup ids -> (forall i b, nb w i = Some b -> In i ids) -> Permutation (flat_map (family w) ids) (filter (exists_b w) ids).
Proof.
  intros K Hd Ha. apply NoDup_Permutation.
  - clear Ha. induction ids as [|i ids IH]; [constructor|]. inversion Hd as [|x l Hx Hl]; subst. cbn [flat_map]. specialize (IH Hl). assert (D : forall j, In j (family w i) -> ~ In j (flat_map (family w) ids)). { intros j Hj Hj'. apply in_flat_map in Hj'. destruct Hj' as (i' & Hi' & Hj'). apply (family_mover w i j K) in Hj. apply (family_mover w i' j K) in Hj'. destruct Hj, Hj'. apply Hx. congruence. }
    pose proof (family_nodup w i K) as F. revert F D. generalize (family w i). induction l as [|y l IHl]; intros F D; cbn [app]; [exact IH|]. inversion F as [|x' l' Hy Hl']; subst. constructor; [rewrite in_app_iff; intros [H|H]; [exact (Hy H)|exact (D y (or_introl eq_refl) H)]|]. apply IHl; [exact Hl'|]. intros j Hj. apply D. right. exact Hj.
  - apply NoDup_filter. exact Hd.
  - intros j. rewrite in_flat_map, filter_In. unfold exists_b. split.
    + intros (i & Hi & Hj). apply (family_mover w i j K) in Hj. destruct Hj as [Hj _]. destruct (nb w j) as [b|] eqn:E; [|contradiction]. split; [exact (Ha j b E)|reflexivity].
    + intros [Hj E]. destruct (nb w j) as [b|] eqn:Eb; [|discriminate]. exists (mover w j). destruct (family_self w j b K Eb) as [A B]. split; [|exact A]. destruct (nb w (mover w j)) as [b'|] eqn:E'; [exact (Ha _ _ E')|contradiction].
Qed.
Lemma sum_families w ids h : clumps_ok w -> NoDup ids -> (forall i b, nb w i = Some b -> In i ids) ->
  vsum (map (fun i => vsum (map h (family w i))) ids) = vsum (map h (filter (exists_b w) ids)).
Proof. intros K Hd Ha. rewrite <- vsum_flat. apply vsum_perm, Permutation_map, families; assumption. Qed.

Lemma existing_map {A} w ids (h : nat -> nbody -> A) : map (fun p => h (fst p) (snd p)) (existing ids w) = flat_map (fun i => match nb w i with Some b => [h i b] | None => [] end) ids.
Proof. unfold existing. induction ids as [|i ids IH]; [reflexivity|]. cbn [flat_map]. rewrite map_app, IH. destruct (nb w i); reflexivity. Qed.
Lemma over_sum w ids h : over ids w h = vsum (map (fun i => match nb w i with Some b => h i b | None => vzero end) ids).
Proof.
  unfold over. rewrite existing_map. unfold vsum. induction ids as [|i ids IH]; [reflexivity|]. cbn [flat_map map fold_right]. destruct (nb w i); cbn [app fold_right]; rewrite IH; [reflexivity|symmetry; apply vadd_0_l].
Qed.
Definition at_whole (h : nat -> nbody -> vec) (i : nat) (b : nbody) : vec := if whole (i, b) then h i b else vzero.
Lemma whole_over w ids h : vsum (map (fun p => h (fst p) (snd p)) (filter whole (existing ids w))) = over ids w (at_whole h).
Proof. rewrite vsum_filter. reflexivity. Qed.

(** loads of the families *)
Lemma load_force w i b : whole (i, b) = true -> nb w i = Some b -> fst (load w i b) = vsum (map (force w) (family w i)).
Proof. intros W E. unfold load, family. rewrite E, W. cbv zeta. cbn [fst map]. reflexivity. Qed.
Definition mom (o : vec) (w : nworld) (i : nat) : vec := match nb w i with Some b => moment o (pos (rs (st b))) (force w i) (torque w i) | None => vzero end.
Lemma load_moment o w i b : clumps_ok w -> whole (i, b) = true -> nb w i = Some b ->
  moment o (pos (rs (st b))) (fst (load w i b)) (snd (load w i b)) = vsum (map (mom o w) (family w i)).
Proof.
  intros K W E. pose proof (fun j => family_mover w i j K) as F. unfold load, family in *. rewrite E, W in *. cbv zeta. cbn [fst snd map]. set (l := if isClump i b then map fst (members b) else []) in *. unfold vsum at 3. cbn [fold_right]. fold (vsum (map (mom o w) l)). unfold mom at 1. rewrite E.
  assert (X : forall l, (forall j, In j l -> nb w j <> None) -> vsum (map (mom o w) l) = vadd (vsum (map (fun j => vadd (torque w j) (cross (match nb w j with Some bj => vsub (pos (rs (st bj))) (pos (rs (st b))) | None => vzero end) (force w j))) l)) (cross (vsub (pos (rs (st b))) o) (vsum (map (force w) l)))).
  { clear. induction l as [|j l IH]; intros H; [unfold vsum; cbn [map fold_right]; generalize (pos (rs (st b))); vring|]. cbn [map]. unfold vsum. cbn [fold_right]. fold (vsum (map (mom o w) l)). rewrite IH by (intros j' Hj'; apply H; right; exact Hj'). unfold mom. pose proof (H j (or_introl eq_refl)) as Hj. destruct (nb w j) as [bj|]; [|contradiction]. unfold moment, vsum.
    match goal with |- context[fold_right vadd vzero (map (fun j => vadd _ _) l)] => generalize (fold_right vadd vzero (map (fun j => vadd (torque w j) (cross (match nb w j with Some bj => vsub (pos (rs (st bj))) (pos (rs (st b))) | None => vzero end) (force w j))) l)) end. generalize (fold_right vadd vzero (map (force w) l)) (pos (rs (st bj))) (pos (rs (st b))) (force w j) (torque w j). clear. vring. }
  rewrite X by (intros j Hj; apply (F j); right; exact Hj). unfold moment.
  match goal with |- context[vsum (map (fun j => vadd _ _) l)] => generalize (vsum (map (fun j => vadd (torque w j) (cross (match nb w j with Some bj => vsub (pos (rs (st bj))) (pos (rs (st b))) | None => vzero end) (force w j))) l)) end. generalize (vsum (map (force w) l)) (pos (rs (st b))) (force w i) (torque w i). clear. vring.
Qed.

(** ** one body *)
Lemma free_velocity c i b f m : plain_conf c -> free c b -> vel (rs (advance c i b f m)) = vadd (vel (rs (st b))) (smul (Newton_Model.dt c) (vadd (smul (/ mass (rs (st b))) f) (gravity c))).
Proof.
  intros (P & D & _) (Fd & Fb & _). rewrite advance_vel, mean_field_none by exact P. rewrite vadd_0_r, Fb. change (0 =? Attr_Model.DOF_ALL)%N with false. cbv iota. f_equal. f_equal. unfold lin_accel. rewrite damped_undamped by exact Fd. unfold scaled_by. rewrite D, Fb. unfold computeAccel. rewrite N.eqb_refl. reflexivity.
Qed.
Lemma free_spin c i b f m k : plain_conf c -> free c b -> useAspherical c b = false -> inertia (rs (st b)) = V k k k ->
  angVel (rs (advance c i b f m)) = vadd (angVel (rs (st b))) (smul (Newton_Model.dt c * / k) m).
Proof.
  intros (P & D & _) (Fd & Fb & _) U Ei. rewrite advance_angVel by exact U. rewrite P. cbn [andb]. rewrite vadd_0_r, Fb. change (0 =? Attr_Model.DOF_ALL)%N with false. cbv iota. f_equal. unfold ang_accel. rewrite damped_undamped by exact Fd. unfold scaled_by. rewrite D, Fb, Ei. unfold computeAngAccel. rewrite N.eqb_refl. unfold vquot. cbn [vx vy vz]. unfold Rdiv. destruct m. vgoal. f_equal; ring.
Qed.
Lemma advance_same c i b f m : mass (rs (advance c i b f m)) = mass (rs (st b)) /\ inertia (rs (advance c i b f m)) = inertia (rs (st b)).
Proof.
  unfold advance. pose proof (accelerate_pos c b f m) as (_ & _ & A & B). destruct (accelerate c b f m) as [r1 m1]. cbn [fst] in A, B. destruct (useAspherical c b); [unfold leapfrogAsphericalRotate|unfold with_rs, leapfrogSphericalRotate]; cbn [rs mass inertia leapfrogTranslate]; auto.
Qed.
Lemma moved_whole c w i b : nb w i = Some b -> whole (i, b) = true -> moved_body c w i = Some (with_st b (moved c w i b)).
Proof.
  intros E W. unfold moved_body. rewrite E. unfold mover. rewrite E. unfold whole, isClumpMember in W. cbn [fst snd] in W. destruct (clumpId b) as [k|]; [|rewrite Nat.eqb_refl; reflexivity]. rewrite negb_involutive in W. rewrite Nat.eqb_sym, W. reflexivity.
Qed.

(** what the integrator does to a sum over bodies that are not members *)
Lemma over_action c ids w w' (h g : nat -> nbody -> vec) : clumps_ok w -> NoDup ids -> (forall i b, nb w i = Some b -> In i ids) -> one_process c w -> action c ids w = Some w' ->
  (forall i b, nb w i = Some b -> whole (i, b) = true -> h i (with_st b (moved c w i b)) = g i b) -> over ids w' (at_whole h) = over ids w (at_whole g).
Proof.
  intros K Hd Ha O E H. destruct (action_exact c w ids K Hd Ha) as (w2 & E2 & X). assert (w2 = w') by congruence. subst w2. rewrite !over_sum. f_equal. apply map_ext. intros i. rewrite X. destruct (nb w i) as [b|] eqn:Eb; [|unfold owner; rewrite Eb; reflexivity]. rewrite (O i b Eb), Nat.eqb_refl. unfold at_whole.
  destruct (whole (i, b)) eqn:W.
  - rewrite (moved_whole c w i b Eb W). assert (W' : whole (i, with_st b (moved c w i b)) = true) by exact W. rewrite W'. apply H; assumption.
  - destruct (moved_body_shape c w i b K Eb) as (s & ->). assert (W' : whole (i, with_st b s) = false) by exact W. rewrite W'. reflexivity.
Qed.
Lemma over_add ids w f g : over ids w (fun i b => vadd (f i b) (g i b)) = vadd (over ids w f) (over ids w g).
Proof. unfold over. apply vsum_add. Qed.
Lemma over_smul ids w k f : over ids w (fun i b => smul k (f i b)) = smul k (over ids w f).
Proof. unfold over. apply vsum_smul. Qed.
Lemma over_ext ids w f g : (forall i b, nb w i = Some b -> f i b = g i b) -> over ids w f = over ids w g.
Proof. intros H. rewrite !over_sum. f_equal. apply map_ext. intros i. destruct (nb w i) as [b|] eqn:E; [apply H, E|reflexivity]. Qed.
Lemma over_families ids w h : clumps_ok w -> NoDup ids -> (forall i b, nb w i = Some b -> In i ids) ->
  over ids w (at_whole (fun i _ => vsum (map h (family w i)))) = over ids w (fun i _ => h i).
Proof.
  intros K Hd Ha. rewrite !over_sum. transitivity (vsum (map (fun i => vsum (map h (family w i))) ids)).
  - f_equal. apply map_ext. intros i. unfold at_whole, family. destruct (nb w i) as [b|] eqn:E; [|reflexivity]. destruct (whole (i, b)); reflexivity.
  - rewrite sum_families by assumption. rewrite vsum_filter. f_equal. apply map_ext. intros i. unfold exists_b. destruct (nb w i); reflexivity.
Qed.

(** ** the step *)
Theorem momentum_step c ids w w' : clumps_ok w -> NoDup ids -> (forall i b, nb w i = Some b -> In i ids) -> one_process c w -> plain_conf c ->
  (forall i b, nb w i = Some b -> whole (i, b) = true -> free c b) -> action c ids w = Some w' ->
  total_momentum (existing ids w') = vadd (total_momentum (existing ids w)) (smul (Newton_Model.dt c) (vadd (over ids w (fun i _ => force w i)) (total_weight c (existing ids w)))).
Proof.
  intros K Hd Ha O P F E. pose (hm := fun (_ : nat) (b : nbody) => smul (mass (rs (st b))) (vel (rs (st b)))).
  assert (T : forall w, total_momentum (existing ids w) = over ids w (at_whole hm)) by (intros w0; exact (whole_over w0 ids hm)).
  assert (G : total_weight c (existing ids w) = over ids w (at_whole (fun _ b => smul (mass (rs (st b))) (gravity c)))) by exact (whole_over w ids (fun _ b => smul (mass (rs (st b))) (gravity c))).
  rewrite !T, G. clear T G.
  rewrite (over_action c ids w w' _ (fun i b => vadd (smul (mass (rs (st b))) (vel (rs (st b)))) (smul (Newton_Model.dt c) (vadd (vsum (map (force w) (family w i))) (smul (mass (rs (st b))) (gravity c))))) K Hd Ha O E).
  - rewrite <- (over_families ids w (force w) K Hd Ha). rewrite <- over_add, <- over_smul, <- over_add. apply over_ext. intros i b Eb. unfold at_whole. destruct (whole (i, b)); [reflexivity|vring].
  - intros i b Eb W. unfold hm. cbn [with_st st]. unfold moved. pose proof (load_force w i b W Eb) as L. destruct (load w i b) as [f m]. cbn [fst] in L. rewrite (free_velocity c i b f m P (F i b Eb W)). destruct (advance_same c i b f m) as [-> _]. rewrite <- L. destruct (F i b Eb W) as (_ & _ & M). generalize dependent (mass (rs (st b))). intros k M. clear - M. generalize (vel (rs (st b))) (gravity c) (Newton_Model.dt c). intros [] [] z. destruct f. vgoal. f_equal; field; exact M.
Qed.
Theorem angular_momentum_step c ids w w' o : clumps_ok w -> NoDup ids -> (forall i b, nb w i = Some b -> In i ids) -> one_process c w -> plain_conf c ->
  (forall i b, nb w i = Some b -> whole (i, b) = true -> free c b /\ isotropic c b) -> action c ids w = Some w' ->
  total_angular_momentum o (existing ids w') = vadd (total_angular_momentum o (existing ids w)) (smul (Newton_Model.dt c) (vadd (over ids w (fun i b => moment o (pos (rs (st b))) (force w i) (torque w i))) (weight_moment c o (existing ids w)))).
Proof.
  intros K Hd Ha O P F E. pose (h := fun (_ : nat) (b : nbody) => let r := rs (st b) in vadd (cross (vsub (pos r) o) (smul (mass r) (vel r))) (mulv (turned (ori r) (inertia r)) (angVel r))).
  assert (T : forall w, total_angular_momentum o (existing ids w) = over ids w (at_whole h)) by (intros w0; exact (whole_over w0 ids h)).
  assert (G : weight_moment c o (existing ids w) = over ids w (at_whole (fun _ b => cross (vsub (pos (rs (st b))) o) (smul (mass (rs (st b))) (gravity c))))) by exact (whole_over w ids (fun _ b => cross (vsub (pos (rs (st b))) o) (smul (mass (rs (st b))) (gravity c)))).
  rewrite !T, G. clear T G.
  rewrite (over_action c ids w w' h (fun i b => vadd (h i b) (smul (Newton_Model.dt c) (vadd (vsum (map (mom o w) (family w i))) (cross (vsub (pos (rs (st b))) o) (smul (mass (rs (st b))) (gravity c)))))) K Hd Ha O E).
  - rewrite (over_ext ids w (fun i b => moment o (pos (rs (st b))) (force w i) (torque w i)) (fun i _ => mom o w i)) by (intros i b Eb; unfold mom; rewrite Eb; reflexivity). rewrite <- (over_families ids w (mom o w) K Hd Ha). rewrite <- over_add, <- over_smul, <- over_add. apply over_ext. intros i b Eb. unfold at_whole. destruct (whole (i, b)); [reflexivity|vring].
  - intros i b Eb W. destruct (F i b Eb W) as [Fb (Mk & As & U & k & Hk & Ei)]. unfold h. cbv zeta. cbn [with_st st]. unfold moved. rewrite <- (load_moment o w i b K W Eb). destruct (load w i b) as [f m]. cbn [fst snd].
    assert (UA : useAspherical c b = false) by (unfold useAspherical; rewrite As, andb_false_r; reflexivity).
    rewrite (free_spin c i b f m k P Fb UA Ei). destruct (advance_same c i b f m) as [-> ->]. rewrite Ei. pose proof (advance_unit c i b f m U) as U'. rewrite (turned_equal _ k U'), (turned_equal _ k U).
    rewrite advance_pos, Mk. destruct P as (P1 & P2 & P3). rewrite P3. rewrite (free_velocity c i b f m (conj P1 (conj P2 P3)) Fb). destruct Fb as (_ & _ & M). unfold moment. generalize dependent (mass (rs (st b))). intros z M. generalize (pos (rs (st b))) (vel (rs (st b))) (angVel (rs (st b))) (gravity c) (Newton_Model.dt c). clear - M Hk. intros [] [] [] [] y. destruct f, m, o. vgoal. f_equal; field; split; assumption.
Qed.

(** ** with contacts *)
Lemma on_sum h a ids : NoDup ids -> (forall e, In e a -> In (fst e) ids) ->
  vsum (map (fun i => vsum (map (fun e : nat * (vec * vec) => if Nat.eqb (fst e) i then h e else vzero) a)) ids) = vsum (map h a).
Proof.
  intros Hd. induction a as [|e a IH]; intros Hi; [apply vsum_zero; reflexivity|]. cbn [map]. transitivity (vsum (map (fun i => vadd (if Nat.eqb (fst e) i then h e else vzero) (vsum (map (fun e => if Nat.eqb (fst e) i then h e else vzero) a))) ids)); [reflexivity|]. rewrite vsum_add, IH by (intros e' H; apply Hi; right; exact H).
  rewrite (vsum_cons' (h e)). f_equal. specialize (Hi e (or_introl eq_refl)). clear - Hi Hd. induction ids as [|i ids IH]; [destruct Hi|]. inversion Hd as [|x l Hx Hl]; subst. cbn [map]. rewrite vsum_cons'. destruct Hi as [->|Hi].
  - rewrite Nat.eqb_refl. rewrite vsum_zero; [apply vadd_0_r|]. intros j Hj. destruct (Nat.eqb_spec (fst e) j); [subst; contradiction|reflexivity].
  - destruct (Nat.eqb_spec (fst e) i); [subst; contradiction|]. rewrite vadd_0_l. apply IH; assumption.
Qed.
Lemma loop_ids S balls : forall cs cs' a, loop S balls cs = Some (cs', a) -> forall e, In e a -> balls (fst e) <> None.
Proof.
  induction cs as [|c cs IH]; intros cs' a E e He; cbn [loop] in E; [injection E as <- <-; destruct He|].
  destruct (loop S balls cs) as [[r a0]|] eqn:El; [|discriminate]. specialize (IH r a0 eq_refl).
  destruct (balls (id1 c)) as [b1|] eqn:B1; [|injection E as <- <-; apply IH; exact He]. destruct (balls (id2 c)) as [b2|] eqn:B2; [|injection E as <- <-; apply IH; exact He].
  destruct (treat S c b1 b2) as [c' x| | |] eqn:T; [|injection E as <- <-; apply IH; exact He|injection E as <- <-; apply IH; exact He|discriminate]. injection E as <- <-. apply in_app_iff in He. destruct He as [He|He]; [|apply IH; exact He].
  unfold treat in T. cbv zeta in T. destruct (ig2 _ _ _ _ _ _ _ _ _ _ _ _) as [|g|]; [discriminate| |discriminate]. destruct (ip2 _ _ _ _ _) as [p|]; [|discriminate]. destruct (law _ _ _ _ _ _ _) as [[p' e']|] eqn:E; [|discriminate]. injection T as <- <-.
  apply law_shape in E. cbv zeta in E. rewrite E in He. unfold applyForceAtContactPoint in He. destruct (negb (periodic (lawc S)) && _); destruct He as [<-|[<-|[]]]; cbn [fst]; congruence.
Qed.
Theorem contacts_balance S balls cs cs' a w ids o : loop S balls cs = Some (cs', a) -> (forall c, In c cs -> shift2 c = vzero) -> spheres_of w balls -> NoDup ids -> (forall i b, nb w i = Some b -> In i ids) ->
  (forall i, force w i = force_on a i) -> (forall i, torque w i = torque_on a i) ->
  over ids w (fun i _ => force w i) = vzero /\ over ids w (fun i b => moment o (pos (rs (st b))) (force w i) (torque w i)) = vzero.
Proof.
  intros E Z Sp Hd Ha Ff Ft. destruct (loop_balance S balls o cs cs' a E Z) as [TF TM].
  assert (A : forall e, In e a -> In (fst e) ids). { intros e He. pose proof (loop_ids S balls cs cs' a E e He) as N. destruct (balls (fst e)) as [s|] eqn:B; [|contradiction]. destruct (Sp _ _ B) as (b & Eb & _). exact (Ha _ _ Eb). }
  assert (N : forall i, nb w i = None -> forall e, In e a -> fst e <> i). { intros i Ni e He <-. pose proof (loop_ids S balls cs cs' a E e He) as X. destruct (balls (fst e)) as [s|] eqn:B; [|contradiction]. destruct (Sp _ _ B) as (b & Eb & _). congruence. }
  split.
  - rewrite over_sum. transitivity (total_force a); [|exact TF]. unfold total_force. rewrite <- (on_sum (fun e => fst (snd e)) a ids Hd A). f_equal. apply map_ext. intros i. destruct (nb w i) as [b|] eqn:Eb; [apply Ff|]. symmetry. apply vsum_zero. intros e He. destruct (Nat.eqb_spec (fst e) i); [exfalso; exact (N i Eb e He e0)|reflexivity].
  - rewrite over_sum. transitivity (total_moment o (place_of balls) a); [|exact TM]. unfold total_moment. rewrite <- (on_sum (fun e => moment o (place_of balls (fst e)) (fst (snd e)) (snd (snd e))) a ids Hd A). f_equal. apply map_ext. intros i. destruct (nb w i) as [b|] eqn:Eb; [|symmetry; apply vsum_zero; intros e He; destruct (Nat.eqb_spec (fst e) i); [exfalso; exact (N i Eb e He e0)|reflexivity]].
    rewrite Ff, Ft. unfold force_on, torque_on.
    assert (Pl : forall e, In e a -> fst e = i -> place_of balls (fst e) = pos (rs (st b))). { intros e He Hi. pose proof (loop_ids S balls cs cs' a E e He) as X. unfold place_of. destruct (balls (fst e)) as [s|] eqn:B; [|contradiction]. destruct (Sp _ _ B) as (b' & Eb' & R). rewrite Hi in Eb'. assert (b' = b) by congruence. subst b'. rewrite R. reflexivity. }
    clear - Pl. induction a as [|e a IH]; [unfold vsum, moment; cbn [map fold_right]; generalize (pos (rs (st b))); vring|]. cbn [map]. rewrite !vsum_cons'. rewrite <- IH by (intros e' He'; apply Pl; right; exact He'). pose proof (Pl e (or_introl eq_refl)) as Pe. destruct (Nat.eqb_spec (fst e) i) as [Hi|Hi]; [rewrite (Pe Hi)|]; unfold moment; generalize (vsum (map (fun e0 : nat * (vec * vec) => if Nat.eqb (fst e0) i then fst (snd e0) else vzero) a)) (vsum (map (fun e0 : nat * (vec * vec) => if Nat.eqb (fst e0) i then snd (snd e0) else vzero) a)) (pos (rs (st b))); clear; [generalize (fst (snd e)) (snd (snd e))|]; vring.
Qed.
