(** Proofs about the automatic time step. *)
From Coq Require Import List ZArith Bool Arith Reals Lra Lia.
From Verif Require Import Vec_Model Vec_Proofs Tstep_Model Tstep_Spec.
Import ListNotations.
Local Open Scope R_scope.

(** ** sums *)
Definition Rs (l : list R) : R := fold_right Rplus 0 l.
Lemma Rs_cons x l : Rs (x :: l) = x + Rs l. Proof. reflexivity. Qed.
Lemma Rs_plus {A} (f g : A -> R) l : Rs (map (fun x => f x + g x) l) = Rs (map f l) + Rs (map g l).
Proof. induction l as [|a l IH]; [cbn; ring|]. cbn [map]. rewrite !Rs_cons, IH. ring. Qed.
Lemma Rs_scal {A} k (f : A -> R) l : Rs (map (fun x => k * f x) l) = k * Rs (map f l).
Proof. induction l as [|a l IH]; [cbn; ring|]. cbn [map]. rewrite !Rs_cons, IH. ring. Qed.
Lemma Rs_ext {A} (f g : A -> R) l : (forall x, In x l -> f x = g x) -> Rs (map f l) = Rs (map g l).
Proof. intros H. f_equal. apply map_ext_in. exact H. Qed.
Lemma Rs_le {A} (f g : A -> R) l : (forall x, In x l -> f x <= g x) -> Rs (map f l) <= Rs (map g l).
Proof. induction l as [|a l IH]; intros H; [cbn; lra|]. cbn [map]. rewrite !Rs_cons. apply Rplus_le_compat; [apply H; left; reflexivity|apply IH; intros x Hx; apply H; right; exact Hx]. Qed.
Lemma Rs_zero {A} (f : A -> R) l : (forall x, In x l -> f x = 0) -> Rs (map f l) = 0.
Proof. intros H. rewrite (Rs_ext f (fun _ => 0)) by exact H. induction l as [|a l IH]; [reflexivity|]. cbn [map]. rewrite Rs_cons, IH; [ring|]. intros x Hx. apply H. right. exact Hx. Qed.
Lemma Rs_pos {A} (f : A -> R) l : (forall x, In x l -> 0 <= f x) -> 0 <= Rs (map f l).
Proof. intros H. rewrite <- (Rs_zero (fun _ : A => 0) l) by reflexivity. apply Rs_le. exact H. Qed.
Lemma Rs_member {A} (f : A -> R) l x : (forall x, In x l -> 0 <= f x) -> In x l -> f x <= Rs (map f l).
Proof.
  induction l as [|a l IH]; intros H Hx; [contradiction|]. cbn [map]. rewrite Rs_cons. assert (0 <= Rs (map f l)) by (apply Rs_pos; intros y Hy; apply H; right; exact Hy). assert (0 <= f a) by (apply H; left; reflexivity).
  destruct Hx as [-> |Hx]; [lra|]. assert (f x <= Rs (map f l)) by (apply IH; [intros y Hy; apply H; right; exact Hy|exact Hx]). lra.
Qed.
Lemma Rs_swap {A B} (f : A -> B -> R) la lb : Rs (map (fun a => Rs (map (f a) lb)) la) = Rs (map (fun b => Rs (map (fun a => f a b) la)) lb).
Proof. induction la as [|a la IH]; cbn [map]; [rewrite Rs_zero; [reflexivity|reflexivity]|]. rewrite Rs_cons, IH, <- Rs_plus. reflexivity. Qed.
(** one body of the sum *)
Lemma Rs_seq_none s n k (g : nat -> R) : (k < s)%nat -> Rs (map (fun i => if (k =? i)%nat then g i else 0) (seq s n)) = 0.
Proof. intros H. apply Rs_zero. intros i Hi. apply in_seq in Hi. rewrite (proj2 (Nat.eqb_neq k i)) by lia. reflexivity. Qed.
Lemma Rs_seq s n k (g : nat -> R) : (s <= k < s + n)%nat -> Rs (map (fun i => if (k =? i)%nat then g i else 0) (seq s n)) = g k.
Proof.
  revert s. induction n as [|n IH]; intros s H; [lia|]. cbn [seq map]. rewrite Rs_cons. destruct (k =? s)%nat eqn:E.
  - apply Nat.eqb_eq in E. subst k. rewrite Rs_seq_none by lia. ring.
  - apply Nat.eqb_neq in E. rewrite IH by lia. ring.
Qed.

(** ** vectors *)
Lemma dot_vsum {A} (g : A -> vec) l y : dot (vsum (map g l)) y = Rs (map (fun c => dot (g c) y) l).
Proof. induction l as [|a l IH]; [cbn [map vsum fold_right Rs]; vring|]. cbn [map vsum fold_right]. rewrite Rs_cons, <- IH. fold (vsum (map g l)). generalize (vsum (map g l)) (g a). vring. Qed.
Lemma dot_when b v y : dot (when b v) y = if b then dot v y else 0.
Proof. destruct b; [reflexivity|]. cbn [when]. vring. Qed.
(** weighted squares *)
Definition wsq (k v : vec) : R := vx k * (vx v * vx v) + vy k * (vy v * vy v) + vz k * (vz v * vz v).
Lemma wsq_vsum {A} (g : A -> vec) l v : wsq (vsum (map g l)) v = Rs (map (fun c => wsq (g c) v) l).
Proof. induction l as [|a l IH]; [unfold wsq; cbn; ring|]. cbn [map vsum fold_right]. rewrite Rs_cons, <- IH. fold (vsum (map g l)). generalize (vsum (map g l)) (g a). unfold wsq. vring. Qed.
Lemma wsq_when b k v : wsq (when b k) v = if b then wsq k v else 0.
Proof. destruct b; [reflexivity|]. unfold wsq. cbn. ring. Qed.
Lemma wsq_add a b v : wsq (vadd a b) v = wsq a v + wsq b v. Proof. unfold wsq. vring. Qed.

(** ** fields *)
Definition fadd (a b : field) : field := mkF (fun i => vadd (tr a i) (tr b i)) (fun i => vadd (ro a i) (ro b i)).
Definition fsc (k : R) (a : field) : field := mkF (fun i => smul k (tr a i)) (fun i => smul k (ro a i)).
(** bilinear form: work of the forces of [x] along [y], of one contact and of all *)
Definition work (c : contact) (x y : field) : R := dot (force c x) (slip c y) + dot (moment c x) (turn c y).
Definition B (cs : list contact) (x y : field) : R := Rs (map (fun c => work c x y) cs).
Lemma slip_add c a b k : slip c (fadd a (fsc k b)) = vadd (slip c a) (smul k (slip c b)).
Proof. unfold slip, fadd, fsc. cbn [tr ro]. generalize (tr a (c2 c)) (tr a (c1 c)) (tr b (c2 c)) (tr b (c1 c)) (ro a (c2 c)) (ro a (c1 c)) (ro b (c2 c)) (ro b (c1 c)) (nrm c). vring. Qed.
Lemma turn_add c a b k : turn c (fadd a (fsc k b)) = vadd (turn c a) (smul k (turn c b)).
Proof. unfold turn, fadd, fsc. cbn [tr ro]. generalize (ro a (c2 c)) (ro a (c1 c)) (ro b (c2 c)) (ro b (c1 c)). vring. Qed.
Lemma linear_add n k t d e s : linear n k t (vadd d (smul s e)) = vadd (linear n k t d) (smul s (linear n k t e)).
Proof. unfold linear. vring. Qed.
Lemma linear_sym n k t d e : dot (linear n k t d) e = dot (linear n k t e) d.
Proof. unfold linear. vring. Qed.
Lemma work_sym c x y : work c x y = work c y x.
Proof. unfold work, force, moment. rewrite (linear_sym _ _ _ (slip c x)), (linear_sym _ _ _ (turn c x)). reflexivity. Qed.
Lemma work_add c x a b k : work c x (fadd a (fsc k b)) = work c x a + k * work c x b.
Proof. unfold work. rewrite slip_add, turn_add. generalize (force c x) (slip c a) (slip c b) (moment c x) (turn c a) (turn c b). vring. Qed.
Lemma B_sym cs x y : B cs x y = B cs y x.
Proof. unfold B. apply Rs_ext. intros c _. apply work_sym. Qed.
Lemma B_add cs x a b k : B cs x (fadd a (fsc k b)) = B cs x a + k * B cs x b.
Proof. unfold B. rewrite <- Rs_scal, <- Rs_plus. apply Rs_ext. intros c _. apply work_add. Qed.
Lemma B_add_l cs x a b k : B cs (fadd a (fsc k b)) x = B cs a x + k * B cs b x.
Proof. rewrite (B_sym cs (fadd _ _)), B_add, (B_sym cs x a), (B_sym cs x b). reflexivity. Qed.

(** forces on the bodies do the work *)
Lemma virtual_work n cs x y : (forall c, In c cs -> (c1 c < n)%nat /\ (c2 c < n)%nat) ->
  Rs (map (fun i => dot (force_on cs x i) (tr y i) + dot (torque_on cs x i) (ro y i)) (seq 0 n)) = - B cs x y.
Proof.
  intros H. rewrite (Rs_ext _ (fun i => Rs (map (fun c => (if (c1 c =? i)%nat then dot (force c x) (tr y i) + dot (vadd (smul (rad1 c) (cross (nrm c) (force c x))) (moment c x)) (ro y i) else 0) +
     (if (c2 c =? i)%nat then dot (vopp (force c x)) (tr y i) + dot (vsub (smul (rad2 c) (cross (nrm c) (force c x))) (moment c x)) (ro y i) else 0)) cs))).
  2:{ intros i _. unfold force_on, torque_on. rewrite !dot_vsum, <- Rs_plus. apply Rs_ext. intros c _. destruct (c1 c =? i)%nat, (c2 c =? i)%nat; cbn [when]; generalize (force c x) (moment c x) (tr y i) (ro y i) (nrm c); vring. }
  rewrite Rs_swap. unfold B. replace (- Rs (map (fun c => work c x y) cs)) with (Rs (map (fun c => (-1) * work c x y) cs)) by (rewrite Rs_scal; ring).
  apply Rs_ext. intros c Hc. destruct (H c Hc) as (H1 & H2). rewrite Rs_plus.
  rewrite (Rs_seq 0 n (c1 c) (fun i => dot (force c x) (tr y i) + dot (vadd (smul (rad1 c) (cross (nrm c) (force c x))) (moment c x)) (ro y i))) by lia.
  rewrite (Rs_seq 0 n (c2 c) (fun i => dot (vopp (force c x)) (tr y i) + dot (vsub (smul (rad2 c) (cross (nrm c) (force c x))) (moment c x)) (ro y i))) by lia.
  unfold work. unfold slip at 1, turn at 1. generalize (force c x) (moment c x) (tr y (c1 c)) (tr y (c2 c)) (ro y (c1 c)) (ro y (c2 c)) (nrm c). vring.
Qed.

(** ** energy *)
Section Energy.
Variables (ds : bool) (dt : R) (bs : list (option body)) (cs : list contact).
Hypothesis Hpos : forall i b, free_body bs i = Some b -> positive_body b /\ 0 < factor ds b.
Hypothesis Hids : forall c, In c cs -> (c1 c < length bs)%nat /\ (c2 c < length bs)%nat.

(** twice the kinetic energy, with the masses the integrator works with *)
Definition kin_of (v : field) (i : nat) : R :=
  match free_body bs i with Some b => (mass b * norm2 (tr v i) + wsq (inertia b) (ro v i)) / factor ds b | None => 0 end.
Definition kin (v : field) : R := Rs (map (kin_of v) (seq 0 (length bs))).
Definition energy (xv : field * field) : R := kin (snd xv) + B cs (fst xv) (fadd (fst xv) (fsc (- dt) (snd xv))).

Lemma held_newton x v : held bs v -> held bs (snd (newton ds dt bs cs (x, v))).
Proof.
  intros H i Hi. destruct (H i Hi) as (A & C). unfold newton. cbn [snd tr ro]. unfold accel, spin. rewrite Hi, A, C. split; vring.
Qed.
(** change of the kinetic energy *)
Lemma kin_change x v : held bs v -> let v' := snd (newton ds dt bs cs (x, v)) in kin v' - kin v = dt * - B cs x (fadd v' (fsc 1 v)).
Proof.
  intros Hh v'. rewrite <- (virtual_work (length bs) cs x _ Hids). rewrite <- Rs_scal. unfold kin. replace (Rs (map (kin_of v') (seq 0 (length bs))) - Rs (map (kin_of v) (seq 0 (length bs)))) with (Rs (map (kin_of v') (seq 0 (length bs))) + -1 * Rs (map (kin_of v) (seq 0 (length bs)))) by ring.
  rewrite <- Rs_scal, <- Rs_plus. apply Rs_ext. intros i _. cbn [fadd fsc tr ro]. unfold kin_of. destruct (free_body bs i) as [b|] eqn:E.
  - destruct (Hpos i b E) as ((M & J1 & J2 & J3) & F). unfold v', newton. cbn [snd tr ro]. unfold accel, spin. rewrite E. cbv zeta. destruct (inertia b) as [j1 j2 j3]. cbn [vx vy vz] in *. destruct (tr v i), (ro v i), (force_on cs x i), (torque_on cs x i). unfold wsq. vgoal. field. repeat split; lra.
  - destruct (Hh i E) as (A & C). destruct (held_newton x v Hh i E) as (A' & C'). fold v' in A', C'. rewrite A, C, A', C'. destruct (force_on cs x i), (torque_on cs x i). vgoal. ring.
Qed.
Lemma energy_const x v : held bs v -> energy (newton ds dt bs cs (x, v)) = energy (x, v).
Proof.
  intros Hh. pose proof (kin_change x v Hh) as K. cbv zeta in K. set (v' := snd (newton ds dt bs cs (x, v))) in *. unfold energy. cbn [fst snd]. fold v'.
  assert (Ex : forall y, B cs (fst (newton ds dt bs cs (x, v))) y = B cs x y + dt * B cs v' y).
  { intros y. rewrite <- B_add_l. unfold B. apply Rs_ext. intros c _. reflexivity. }
  assert (Eb : B cs (fst (newton ds dt bs cs (x, v))) (fadd (fst (newton ds dt bs cs (x, v))) (fsc (- dt) v')) = B cs x x + dt * B cs v' x).
  { rewrite B_add, !Ex. rewrite (B_sym cs x (fst _)), Ex, (B_sym cs v' (fst _)), Ex. rewrite (B_sym cs x v'). ring. }
  rewrite Eb, B_add. rewrite B_add in K. rewrite (B_sym cs v' x). lra.
Qed.
Lemma steps_energy k : forall x v, held bs v -> energy (steps ds dt bs cs k (x, v)) = energy (x, v) /\ held bs (snd (steps ds dt bs cs k (x, v))).
Proof.
  induction k as [|k IH]; intros x v H; cbn [steps]; [auto|]. pose proof (held_newton x v H) as H'. pose proof (energy_const x v H) as E. destruct (newton ds dt bs cs (x, v)) as [x' v']. cbn [snd] in H'. destruct (IH x' v' H') as (A & C). split; [congruence|exact C].
Qed.
(** contacts store energy *)
Lemma linear_pos n k t d : norm2 n = 1 -> 0 <= k -> 0 <= t -> 0 <= dot (linear n k t d) d.
Proof.
  intros Hn Hk Ht. replace (dot (linear n k t d) d) with (k * (dot d n * dot d n) + t * norm2 (vsub d (smul (dot d n) n)) + t * (dot d n * dot d n) * (1 - norm2 n)) by (unfold linear; vring).
  rewrite Hn. pose proof (norm2_pos (vsub d (smul (dot d n) n))). pose proof (Rle_0_sqr (dot d n)) as S. unfold Rsqr in S. assert (0 <= k * (dot d n * dot d n)) by (apply Rmult_le_pos; assumption). assert (0 <= t * norm2 (vsub d (smul (dot d n) n))) by (apply Rmult_le_pos; assumption). lra.
Qed.
Lemma B_pos x : (forall c, In c cs -> norm2 (nrm c) = 1 /\ 0 <= kn c /\ 0 <= ks c /\ 0 <= ktw c /\ 0 <= kroll c) -> 0 <= B cs x x.
Proof.
  intros H. apply Rs_pos. intros c Hc. destruct (H c Hc) as (N & A & A' & C & C'). unfold work, force, moment. pose proof (linear_pos (nrm c) (kn c) (ks c) (slip c x) N A A'). pose proof (linear_pos (nrm c) (ktw c) (kroll c) (turn c x) N C C'). lra.
Qed.
Lemma kin_of_pos v i : 0 <= kin_of v i.
Proof.
  unfold kin_of. destruct (free_body bs i) as [b|] eqn:E; [|lra]. destruct (Hpos i b E) as ((M & J1 & J2 & J3) & F). apply Rmult_le_pos; [|left; apply Rinv_0_lt_compat; exact F].
  pose proof (norm2_pos (tr v i)) as N. assert (0 <= mass b * norm2 (tr v i)) by (apply Rmult_le_pos; lra). unfold wsq. pose proof (Rle_0_sqr (vx (ro v i))) as S1. pose proof (Rle_0_sqr (vy (ro v i))) as S2. pose proof (Rle_0_sqr (vz (ro v i))) as S3. unfold Rsqr in *.
  assert (0 <= vx (inertia b) * (vx (ro v i) * vx (ro v i))) by (apply Rmult_le_pos; lra). assert (0 <= vy (inertia b) * (vy (ro v i) * vy (ro v i))) by (apply Rmult_le_pos; lra). assert (0 <= vz (inertia b) * (vz (ro v i) * vz (ro v i))) by (apply Rmult_le_pos; lra). lra.
Qed.
(** the criterion *)
Lemma kin_bounded g xv : (forall c, In c cs -> norm2 (nrm c) = 1 /\ 0 <= kn c /\ 0 <= ks c /\ 0 <= ktw c /\ 0 <= kroll c) -> dt * dt * B cs (snd xv) (snd xv) <= 4 * g * kin (snd xv) -> (1 - g) * kin (snd xv) <= energy xv.
Proof.
  intros Hc Hb. destruct xv as [x v]. unfold energy. cbn [fst snd] in *. pose proof (B_pos (fadd x (fsc (- (dt / 2)) v)) Hc) as P. rewrite B_add, !B_add_l in P. rewrite B_add. rewrite (B_sym cs v x) in P. lra.
Qed.
Lemma bounded_speed v i : (i < length bs)%nat -> held bs v -> exists D, 0 <= D /\ forall v', held bs v' -> speed2 v' i <= D * kin v' /\ spin2 v' i <= D * kin v'.
Proof.
  intros Hi _. destruct (free_body bs i) as [b|] eqn:E.
  - destruct (Hpos i b E) as ((M & J1 & J2 & J3) & F). set (s := factor ds b) in *. set (D := s * (/ mass b + / vx (inertia b) + / vy (inertia b) + / vz (inertia b))).
    assert (I0 : 0 < / mass b) by (apply Rinv_0_lt_compat; exact M). assert (I1 : 0 < / vx (inertia b)) by (apply Rinv_0_lt_compat; exact J1). assert (I2 : 0 < / vy (inertia b)) by (apply Rinv_0_lt_compat; exact J2). assert (I3 : 0 < / vz (inertia b)) by (apply Rinv_0_lt_compat; exact J3).
    assert (HD : 0 <= D) by (unfold D; apply Rmult_le_pos; lra). exists D. split; [exact HD|]. intros v' _. assert (K : kin_of v' i <= kin v') by (apply Rs_member; [intros; apply kin_of_pos|apply in_seq; lia]).
    assert (T : speed2 v' i <= D * kin_of v' i /\ spin2 v' i <= D * kin_of v' i).
    { unfold kin_of. rewrite E. fold s. unfold speed2, spin2, wsq, D. pose proof (norm2_pos (tr v' i)) as N. set (T := norm2 (tr v' i)) in *. unfold norm2, dot.
      pose proof (Rle_0_sqr (vx (ro v' i))) as S1. pose proof (Rle_0_sqr (vy (ro v' i))) as S2. pose proof (Rle_0_sqr (vz (ro v' i))) as S3. unfold Rsqr in *. set (a := vx (ro v' i) * vx (ro v' i)) in *. set (b' := vy (ro v' i) * vy (ro v' i)) in *. set (c := vz (ro v' i) * vz (ro v' i)) in *.
      set (m := mass b) in *. set (j1 := vx (inertia b)) in *. set (j2 := vy (inertia b)) in *. set (j3 := vz (inertia b)) in *. clearbody T a b' c m j1 j2 j3.
      replace (s * (/ m + / j1 + / j2 + / j3) * ((m * T + (j1 * a + j2 * b' + j3 * c)) / s)) with ((/ m + / j1 + / j2 + / j3) * (m * T + j1 * a + j2 * b' + j3 * c)) by (field; lra).
      assert (Q : forall p q, 0 < p -> 0 <= q -> q = / p * (p * q)) by (intros p q Hp Hq; field; lra).
      assert (P0 : 0 <= m * T) by (apply Rmult_le_pos; lra). assert (P1 : 0 <= j1 * a) by (apply Rmult_le_pos; lra). assert (P2 : 0 <= j2 * b') by (apply Rmult_le_pos; lra). assert (P3 : 0 <= j3 * c) by (apply Rmult_le_pos; lra).
      rewrite !Rmult_plus_distr_l, !Rmult_plus_distr_r. rewrite <- (Q m T M N), <- (Q j1 a J1 S1), <- (Q j2 b' J2 S2), <- (Q j3 c J3 S3).
      assert (G : forall p q, 0 < p -> 0 <= q -> 0 <= p * q) by (intros; apply Rmult_le_pos; lra).
      pose proof (G _ _ I1 P0). pose proof (G _ _ I2 P0). pose proof (G _ _ I3 P0). pose proof (G _ _ I0 P1). pose proof (G _ _ I2 P1). pose proof (G _ _ I3 P1). pose proof (G _ _ I0 P2). pose proof (G _ _ I1 P2). pose proof (G _ _ I3 P2). pose proof (G _ _ I0 P3). pose proof (G _ _ I1 P3). pose proof (G _ _ I2 P3). split; lra. }
    assert (D * kin_of v' i <= D * kin v') by (apply Rmult_le_compat_l; assumption). lra.
  - exists 0. split; [lra|]. intros v' H. destruct (H i E) as (A & C). unfold speed2, spin2. rewrite A, C. vgoal. lra.
Qed.
Lemma max_bound (P : nat -> R -> Prop) n : (forall i, (i < n)%nat -> exists D, 0 <= D /\ P i D) -> (forall i D D', P i D -> D <= D' -> P i D') -> exists D, 0 <= D /\ forall i, (i < n)%nat -> P i D.
Proof.
  intros H M. induction n as [|n IH]; [exists 0; split; [lra|]; intros i Hi; lia|]. destruct IH as (D & HD & A). { intros i Hi. apply H. lia. } destruct (H n ltac:(lia)) as (D' & HD' & A'). exists (Rmax D D'). split; [eapply Rle_trans; [exact HD|apply Rmax_l]|].
  intros i Hi. destruct (Nat.eq_dec i n) as [-> |N]; [eapply M; [exact A'|apply Rmax_r]|eapply M; [apply A; lia|apply Rmax_l]].
Qed.
Lemma stable_if g : g < 1 -> (forall c, In c cs -> norm2 (nrm c) = 1 /\ 0 <= kn c /\ 0 <= ks c /\ 0 <= ktw c /\ 0 <= kroll c) -> (forall v, held bs v -> dt * dt * B cs v v <= 4 * g * kin v) -> stable ds dt bs cs.
Proof.
  intros Hg Hc Hb x v Hv. set (e := energy (x, v)).
  destruct (max_bound (fun i D => 0 <= D /\ forall v', held bs v' -> speed2 v' i <= D * kin v' /\ spin2 v' i <= D * kin v') (length bs)) as (D & HD & A).
  - intros i Hi. destruct (bounded_speed v i Hi Hv) as (D & HD & A). exists D. auto.
  - intros i D D' (H0 & H) HDD. split; [lra|]. intros v' Hv'. assert (Kp : 0 <= kin v') by (apply Rs_pos; intros; apply kin_of_pos). destruct (H v' Hv') as (A & C). assert (D * kin v' <= D' * kin v') by (apply Rmult_le_compat_r; assumption). lra.
  - exists (D * (e / (1 - g))). intros k i Hi v'. destruct (steps_energy k x v Hv) as (E & Hh). fold v' in Hh. pose proof (Hb v' Hh) as Q. pose proof (kin_bounded g (steps ds dt bs cs k (x, v)) Hc Q) as K. fold v' in K. rewrite E in K. fold e in K.
    assert (L : kin v' <= e / (1 - g)). { apply (Rmult_le_reg_l (1 - g)); [lra|]. replace ((1 - g) * (e / (1 - g))) with e by (field; lra). exact K. }
    destruct (A i Hi) as (_ & A'). destruct (A' v' Hh) as (A1 & A2). assert (D * kin v' <= D * (e / (1 - g))) by (apply Rmult_le_compat_l; assumption). lra.
Qed.
End Energy.
