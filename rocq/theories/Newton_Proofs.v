(** Proofs about the motion integrator. *)
From Coq Require Import Reals Lra List NArith ZArith Bool Lia.
From Verif Require Import Vec_Model Vec_Proofs Rigid_Model Rigid_Spec Rigid_Proofs Attr_Model Newton_Model Newton_Spec.
Import ListNotations.
Local Open Scope R_scope.

(** ** one process, all bodies *)
Lemma collect_spec r w F T ms : forall f t, (forall j, In j (map fst ms) -> w j <> None) ->
  addForceTorqueFromMembers r ms w F T f t =
  Some (vadd f (vsum (map F (map fst ms))), vadd t (vsum (map (fun j => vadd (T j) (cross (match w j with Some s => vsub (pos s) (pos r) | None => vzero end) (F j))) (map fst ms)))).
Proof.
  induction ms as [|[j l] ms IH]; intros f t H; cbn [addForceTorqueFromMembers map fst vsum fold_right]; [rewrite !vadd_0_r; reflexivity|].
  destruct (w j) as [s|] eqn:E; [|destruct (H j (or_introl eq_refl) E)]. rewrite IH by (intros k Hk; apply H; right; exact Hk). unfold vsum. rewrite !vadd_assoc. reflexivity.
Qed.
Lemma find_local (ms : list (nat * se3)) j : In j (map fst ms) -> exists l, find (fun p => Nat.eqb (fst p) j) ms = Some (j, l).
Proof.
  induction ms as [|[k l] ms IH]; cbn [map fst In find]; [intros []|]. destruct (Nat.eqb_spec k j) as [->|Hn]; [exists l; reflexivity|]. intros [->|H]; [contradiction|apply IH, H].
Qed.
Lemma find_none (ms : list (nat * se3)) j : ~ In j (map fst ms) -> find (fun p => Nat.eqb (fst p) j) ms = None.
Proof. induction ms as [|[k l] ms IH]; cbn [map fst In find]; [reflexivity|]. intros H. destruct (Nat.eqb_spec k j) as [->|Hn]; [exfalso; apply H; left; reflexivity|]. apply IH. tauto. Qed.
Lemma move_members_spec r ms : forall w, NoDup (map fst ms) -> (forall j, In j (map fst ms) -> nb w j <> None) ->
  exists w', move_members r ms w = Some w' /\ force w' = force w /\ torque w' = torque w /\
  forall j, nb w' j = match find (fun p => Nat.eqb (fst p) j) ms with
                      | Some p => match nb w j with Some b => Some (with_st b (with_rs (st b) (place r (rs (st b)) (snd p)))) | None => None end
                      | None => nb w j end.
Proof.
  induction ms as [|[k l] ms IH]; intros w Hd H; cbn [move_members map fst find] in *; [exists w; auto|]. inversion Hd as [|? ? Hk Hd']; subst.
  destruct (nb w k) as [b|] eqn:E; [|destruct (H k (or_introl eq_refl) E)]. destruct (IH (put w k (with_st b (with_rs (st b) (place r (rs (st b)) l)))) Hd') as (w' & A & B & C & D).
  - intros j Hj. cbn [put nb]. destruct (Nat.eqb j k); [discriminate|]. apply H. right. exact Hj.
  - exists w'. split; [exact A|]. split; [exact B|]. split; [exact C|]. intros j. rewrite D. cbn [put nb]. destruct (Nat.eqb_spec k j) as [->|Hn].
    + rewrite (find_none ms j Hk), Nat.eqb_refl, E. reflexivity.
    + destruct (Nat.eqb_spec j k); [congruence|reflexivity].
Qed.

Lemma isClump_spec i b : isClump i b = true <-> clumpId b = Some i.
Proof. unfold isClump. destruct (clumpId b) as [k|]; [|split; discriminate]. rewrite Nat.eqb_eq. split; congruence. Qed.
Lemma isMember_spec i b : isClumpMember i b = true <-> exists k, clumpId b = Some k /\ k <> i.
Proof.
  unfold isClumpMember. destruct (clumpId b) as [k|]; [|split; [discriminate|intros (? & ? & _); discriminate]]. rewrite negb_true_iff, Nat.eqb_neq. split; [intros H; exists k; auto|intros (k' & E & Hn); injection E as <-; auto].
Qed.

(** the world after the bodies in [D] have been treated *)
Definition in_charge (c : conf) (w : nworld) (i : nat) : bool := match owner w i with Some s => Nat.eqb s (process c) | None => false end.
Definition target (c : conf) (w : nworld) (i : nat) : option nbody := if in_charge c w i then moved_body c w i else nb w i.
Definition Mid (c : conf) (w : nworld) (D : list nat) (v : nworld) : Prop :=
  (forall i, nb v i = if existsb (Nat.eqb (mover w i)) D then target c w i else nb w i) /\
  (forall i, ~ In i D \/ (forall b, nb w i = Some b -> clumpId b <> Some i) -> force v i = force w i /\ torque v i = torque w i).
Lemma existsb_in x D : existsb (Nat.eqb x) D = true <-> In x D.
Proof. rewrite existsb_exists. split; [intros (y & H & E); apply Nat.eqb_eq in E; subst; exact H|intros H; exists x; split; [exact H|apply Nat.eqb_refl]]. Qed.
Lemma existsb_cons x i D : existsb (Nat.eqb x) (i :: D) = (x =? i)%nat || existsb (Nat.eqb x) D.
Proof. reflexivity. Qed.
Lemma moved_body_shape c w i b : clumps_ok w -> nb w i = Some b -> exists s, moved_body c w i = Some (with_st b s).
Proof.
  intros [K1 K2] E. unfold moved_body. rewrite E. unfold mover. rewrite E. destruct (clumpId b) as [k|] eqn:Ek; [|rewrite Nat.eqb_refl; eauto]. destruct (Nat.eqb_spec k i) as [->|Hn]; [eauto|].
  destruct (K2 i b k E Ek Hn) as (bk & Ebk & _ & Hin). rewrite Ebk. unfold local_of. destruct (find_local _ _ Hin) as (l & ->). cbn [snd]. eauto.
Qed.
Lemma target_shape c w i b : clumps_ok w -> nb w i = Some b -> exists s, target c w i = Some (with_st b s).
Proof.
  intros K E. unfold target. destruct (in_charge c w i); [apply moved_body_shape; assumption|]. exists (st b). rewrite E. destruct b; reflexivity.
Qed.
Lemma target_none c w i : nb w i = None -> target c w i = None.
Proof. intros E. unfold target, in_charge, owner. rewrite E. reflexivity. Qed.
Lemma mid_shape c w D v i b : clumps_ok w -> Mid c w D v -> nb w i = Some b -> exists s, nb v i = Some (with_st b s).
Proof.
  intros K [H _] E. rewrite H. destruct (existsb _ D); [apply target_shape; assumption|]. exists (st b). rewrite E. destruct b; reflexivity.
Qed.
Lemma mid_none c w D v i : Mid c w D v -> nb w i = None -> nb v i = None.
Proof. intros [H _] E. rewrite H. destruct (existsb _ D); [apply target_none, E|exact E]. Qed.

Lemma mid_step c w D v i : clumps_ok w -> Mid c w D v -> ~ In i D -> exists v', one_body c i v = Some v' /\ Mid c w (i :: D) v'.
Proof.
  intros K HM Hi. pose proof K as [K1 K2]. pose proof HM as [M1 M2]. unfold one_body.
  assert (Skip : (forall j, mover w j = i -> target c w j = nb w j /\ (j = i \/ ~ In j D) \/ target c w j = nb v j) -> Mid c w (i :: D) v).
  { intros H. split.
    - intros j. rewrite existsb_cons. destruct (Nat.eqb_spec (mover w j) i) as [E|E]; [|cbn [orb]; apply M1]. cbn [orb]. destruct (H j E) as [[H1 H2]|H1]; [|symmetry; exact H1].
      rewrite M1. destruct (existsb (Nat.eqb (mover w j)) D) eqn:Ed; [reflexivity|symmetry; exact H1].
    - intros j [Hj|Hj]; apply M2; [left; intros X; apply Hj; right; exact X|right; exact Hj]. }
  destruct (nb w i) as [b|] eqn:Eb.
  2:{ exists v. rewrite (mid_none c w D v i HM Eb). split; [reflexivity|]. apply Skip. intros j Hj. left. assert (j = i).
      { unfold mover in Hj. destruct (nb w j) as [bj|] eqn:Ej; [|congruence]. destruct (clumpId bj) as [k|] eqn:Ek; [|congruence]. subst k. destruct (Nat.eq_dec i j) as [|Hn]; [congruence|]. destruct (K2 j bj i Ej Ek Hn) as (bk & X & _). congruence. }
      subst j. split; [rewrite target_none by exact Eb; symmetry; exact Eb|left; reflexivity]. }
  destruct (mid_shape c w D v i b K HM Eb) as [si Esi].
  assert (Sel : forall s, selected c i (with_st b s) = selected c i b) by reflexivity.
  rewrite Esi, Sel. destruct (isClumpMember i b) eqn:Em.
  { (* members are skipped *)
    assert (Es : selected c i b = false) by (unfold selected; rewrite Em; reflexivity). rewrite Es. exists v. split; [reflexivity|]. apply isMember_spec in Em. destruct Em as (k & Ek & Hk).
    apply Skip. intros j Hj. exfalso. unfold mover in Hj. destruct (nb w j) as [bj|] eqn:Ej; [|congruence]. destruct (clumpId bj) as [k'|] eqn:Ek'; [|congruence]. subst k'. destruct (Nat.eq_dec i j) as [<-|Hn]; [congruence|].
    destruct (K2 j bj i Ej Ek' Hn) as (bk & X & Y & _). congruence. }
  assert (Hmi : mover w i = i). { unfold mover. rewrite Eb. destruct (clumpId b) as [k|] eqn:Ek; [|reflexivity]. destruct (Nat.eq_dec k i) as [|Hn]; [assumption|]. exfalso. assert (isClumpMember i b = true) by (apply isMember_spec; eauto). congruence. }
  assert (Hst : nb v i = Some b). { rewrite M1, Hmi. destruct (existsb (Nat.eqb i) D) eqn:X; [apply existsb_in in X; contradiction|exact Eb]. }
  rewrite Hst in Esi. injection Esi as Esi. rewrite <- Esi. clear Sel.
  assert (Ho : forall j, mover w j = i -> nb w j <> None -> in_charge c w j = selected c i b).
  { intros j Hj Hn. unfold in_charge, owner. destruct (nb w j) as [bj|]; [|congruence]. rewrite Hj, Eb. unfold selected. rewrite Em. destruct (isSubdomain b); cbn [negb andb]; [rewrite andb_false_r; reflexivity|]. rewrite andb_true_r. apply Nat.eqb_sym. }
  assert (Unt : forall j, mover w j = i -> nb v j = nb w j). { intros j Hj. rewrite M1, Hj. destruct (existsb (Nat.eqb i) D) eqn:X; [apply existsb_in in X; contradiction|reflexivity]. }
  destruct (selected c i b) eqn:Es.
  2:{ exists v. split; [reflexivity|]. apply Skip. intros j Hj. right. rewrite (Unt j Hj). unfold target. destruct (nb w j) as [bj|] eqn:Ej; [|unfold in_charge, owner; rewrite Ej; reflexivity]. rewrite Ho by congruence. reflexivity. }
  assert (Tgt : forall j, mover w j = i -> nb w j <> None -> target c w j = moved_body c w j) by (intros j Hj Hn; unfold target; rewrite Ho by assumption; reflexivity).
  assert (Fo : forall j, force v j = force w j /\ torque v j = torque w j \/ (In j D /\ exists bj, nb w j = Some bj /\ clumpId bj = Some j)).
  { intros j. destruct (in_dec Nat.eq_dec j D) as [Hj|Hj]; [|left; apply M2; left; exact Hj]. destruct (nb w j) as [bj|] eqn:Ej; [|left; apply M2; right; intros ? X; congruence]. destruct (option_map Nat.eqb (clumpId bj)) eqn:X.
    - destruct (clumpId bj) as [k|] eqn:Ek; [|discriminate]. destruct (Nat.eq_dec k j) as [->|Hk]; [right; eauto|left; apply M2; right; intros ? Y; congruence].
    - destruct (clumpId bj) as [k|] eqn:Ek; [discriminate|]. left. apply M2. right. intros ? Y. congruence. }
  assert (Fi : force v i = force w i /\ torque v i = torque w i) by (apply M2; left; exact Hi).
  destruct (isClump i b) eqn:Ec.
  - (* a clump *)
    apply isClump_spec in Ec. destruct (K1 i b Eb Ec) as [Nd Km].
    assert (Mv : forall j, In j (map fst (members b)) -> mover w j = i) by (intros j Hj; destruct (Km j Hj) as (_ & bj & Ej & Ek); unfold mover; rewrite Ej, Ek; reflexivity).
    assert (Un2 : forall j, In j (map fst (members b)) -> nb v j = nb w j) by (intros j Hj; apply Unt, Mv, Hj).
    rewrite collect_spec by (intros j Hj; unfold states; rewrite (Un2 j Hj); destruct (Km j Hj) as (_ & bj & -> & _); discriminate).
    rewrite !vadd_0_l.
    assert (Fm : forall j, In j (map fst (members b)) -> force v j = force w j /\ torque v j = torque w j).
    { intros j Hj. destruct (Fo j) as [X|(_ & bj & Ej & Ek)]; [exact X|]. destruct (Km j Hj) as (Hn & bj' & Ej' & Ek'). congruence. }
    assert (E1 : map (force v) (map fst (members b)) = map (force w) (map fst (members b))) by (apply map_ext_in; intros j Hj; apply Fm, Hj). rewrite E1.
    assert (E2 : map (fun j => vadd (torque v j) (cross (match states v j with Some s => vsub (pos s) (pos (rs (st b))) | None => vzero end) (force v j))) (map fst (members b)) =
                 map (fun j => vadd (torque w j) (cross (match nb w j with Some bj => vsub (pos (rs (st bj))) (pos (rs (st b))) | None => vzero end) (force w j))) (map fst (members b))).
    { apply map_ext_in. intros j Hj. destruct (Fm j Hj) as [-> ->]. unfold states. rewrite (Un2 j Hj). destruct (nb w j); reflexivity. } rewrite E2. clear E1 E2.
    cbn [add_force force torque]. rewrite !Nat.eqb_refl. destruct Fi as [-> ->].
    assert (Em2 : (advance c i b (vadd (force w i) (vsum (map (force w) (map fst (members b))))) (vadd (torque w i) (vsum (map (fun j => vadd (torque w j) (cross (match nb w j with Some bj => vsub (pos (rs (st bj))) (pos (rs (st b))) | None => vzero end) (force w j))) (map fst (members b)))))) = moved c w i b).
    { unfold moved, load. rewrite (proj2 (isClump_spec i b) Ec). reflexivity. } rewrite Em2. clear Em2.
    set (ms := members b) in *. match goal with |- context[move_members ?r ?m ?u] => destruct (move_members_spec r m u) as (v' & A & B & C & E) end; [exact Nd| |].
    { intros j Hj. cbn [put nb add_force]. destruct (Nat.eqb_spec j i); [discriminate|]. rewrite (Un2 j Hj). destruct (Km j Hj) as (_ & bj & -> & _). discriminate. }
    exists v'. split; [exact A|]. split.
    + intros j. rewrite E. cbn [put nb add_force]. rewrite existsb_cons. destruct (in_dec Nat.eq_dec j (map fst ms)) as [Hj|Hj].
      * rewrite (Mv j Hj), Nat.eqb_refl. cbn [orb]. destruct (find_local ms j Hj) as (l & El). rewrite El. destruct (Km j Hj) as (Hn & bj & Ej & Ek). rewrite Tgt by (rewrite ?Ej; try discriminate; apply Mv, Hj). destruct (Nat.eqb_spec j i) as [|_]; [contradiction|]. rewrite (Un2 j Hj), Ej.
        unfold moved_body. rewrite Ej, (Mv j Hj). destruct (Nat.eqb_spec i j) as [|_]; [congruence|]. rewrite Eb. unfold local_of. fold ms. rewrite El. reflexivity.
      * rewrite (find_none ms j Hj). destruct (Nat.eqb_spec j i) as [->|Hn].
        -- rewrite Hmi, Nat.eqb_refl. cbn [orb]. rewrite Tgt by (rewrite ?Eb; try discriminate; exact Hmi). unfold moved_body. rewrite Eb, Hmi, Nat.eqb_refl. reflexivity.
        -- destruct (Nat.eqb_spec (mover w j) i) as [X|X]; [|cbn [orb]; apply M1]. cbn [orb]. exfalso. unfold mover in X. destruct (nb w j) as [bj|] eqn:Ej; [|congruence]. destruct (clumpId bj) as [k|] eqn:Ek; [|congruence]. subst k.
           destruct (K2 j bj i Ej Ek ltac:(congruence)) as (bk & Y & _ & Z). rewrite Eb in Y. injection Y as <-. apply Hj. exact Z.
    + intros j Hj. rewrite B, C. cbn [put add_force force torque]. destruct (Nat.eqb_spec j i) as [->|Hn].
      * exfalso. destruct Hj as [Hj|Hj]; [apply Hj; left; reflexivity|exact (Hj b Eb Ec)].
      * apply M2. destruct Hj as [Hj|Hj]; [left; intros X; apply Hj; right; exact X|right; exact Hj].
  - (* a single body *)
    destruct Fi as [-> ->]. eexists. split; [reflexivity|]. assert (Ek : clumpId b = None). { destruct (clumpId b) as [k|] eqn:Ek; [|reflexivity]. unfold isClump, isClumpMember in *. rewrite Ek in *. rewrite Nat.eqb_sym, Nat.eqb_sym in *. destruct (Nat.eqb i k); discriminate. }
    split.
    + intros j. cbn [put nb]. rewrite existsb_cons. destruct (Nat.eqb_spec j i) as [->|Hn].
      * rewrite Hmi, Nat.eqb_refl. cbn [orb]. rewrite Tgt by (rewrite ?Eb; try discriminate; exact Hmi). unfold moved_body. rewrite Eb, Hmi, Nat.eqb_refl. unfold moved, load. rewrite Ec. cbn [map vsum fold_right]. rewrite !vadd_0_r. reflexivity.
      * destruct (Nat.eqb_spec (mover w j) i) as [X|X]; [|cbn [orb]; apply M1]. exfalso. unfold mover in X. destruct (nb w j) as [bj|] eqn:Ej; [|congruence]. destruct (clumpId bj) as [k|] eqn:Ekj; [|congruence]. subst k.
        destruct (K2 j bj i Ej Ekj ltac:(congruence)) as (bk & Y & Z & _). congruence.
    + intros j Hj. cbn [put force torque]. apply M2. destruct Hj as [Hj|Hj]; [left; intros X; apply Hj; right; exact X|right; exact Hj].
Qed.
Lemma mid_run c w : clumps_ok w -> forall ids D v, Mid c w D v -> NoDup (ids ++ D) -> exists v', action c ids v = Some v' /\ Mid c w (rev ids ++ D) v'.
Proof.
  intros K. induction ids as [|i ids IH]; intros D v HM Hd; cbn [action rev app]; [exists v; auto|]. cbn [app] in Hd. inversion Hd as [|? ? Hi Hd']; subst.
  destruct (mid_step c w D v i K HM) as (v1 & E & HM1); [intros X; apply Hi, in_or_app; right; exact X|]. rewrite E. destruct (IH (i :: D) v1 HM1) as (v2 & E2 & HM2).
  - apply NoDup_Add with (a := i) (l := ids ++ D); [apply Add_app|]. split; assumption.
  - exists v2. split; [exact E2|]. rewrite <- app_assoc. exact HM2.
Qed.
Theorem action_exact c w ids : clumps_ok w -> NoDup ids -> (forall i b, nb w i = Some b -> In i ids) ->
  exists w', action c ids w = Some w' /\ forall i, nb w' i = (if match owner w i with Some s => Nat.eqb s (process c) | None => false end then moved_body c w i else nb w i).
Proof.
  intros K Hd Ha. destruct (mid_run c w K ids [] w) as (w' & E & [H _]).
  - split; [intros i; reflexivity|intros i _; auto].
  - rewrite app_nil_r. exact Hd.
  - exists w'. split; [exact E|]. intros i. rewrite H, app_nil_r. fold (in_charge c w i). fold (target c w i). destruct (existsb (Nat.eqb (mover w i)) (rev ids)) eqn:X; [reflexivity|].
    unfold target, in_charge, owner. destruct (nb w i) as [b|] eqn:Eb; [|reflexivity]. destruct (nb w (mover w i)) as [k|] eqn:Ek; [|reflexivity]. exfalso. assert (existsb (Nat.eqb (mover w i)) (rev ids) = true); [|congruence]. apply existsb_in. apply -> in_rev. exact (Ha _ _ Ek).
Qed.
