(** Proofs about the exchanges of mpy.py, part 1: lists built when splitting. *)
From Coq Require Import List Arith Bool Lia.
From Verif Require Import Subd_Model Subd_Spec Subd_Proofs Comm_Model Comm_Spec Comm_Proofs Mpi_Model Mpi_Spec.
Import ListNotations.

(** ** list utilities *)
Lemma filter_ext_in' {A} (f g : A -> bool) l : (forall x, In x l -> f x = g x) -> filter f l = filter g l.
Proof. induction l; intros H; [reflexivity|]. cbn. rewrite (H a (or_introl eq_refl)), IHl; auto. intros x Hx. apply H. right; exact Hx. Qed.
Lemma NoDup_filter' {A} (f : A -> bool) l : NoDup l -> NoDup (filter f l).
Proof.
  induction 1; cbn; [constructor|]. destruct (f x); [|assumption]. constructor; [|assumption].
  rewrite filter_In. tauto.
Qed.
Lemma nodup_one {A} (l : list A) (x : A) : NoDup l -> (forall y, In y l -> y = x) -> l = [] \/ l = [x].
Proof.
  intros Hnd H. destruct l as [|a [|b l]]; auto.
  - right. f_equal. apply H. left; reflexivity.
  - exfalso. inversion Hnd as [|? ? Hn _]; subst. apply Hn. left.
    rewrite (H a), (H b); [reflexivity|right; left; reflexivity|left; reflexivity].
Qed.
Lemma is_nil_true {A} (l : list A) : is_nil l = true <-> l = [].
Proof. destruct l; split; intros H; try reflexivity; discriminate. Qed.
Lemma is_nil_false {A} (l : list A) : is_nil l = false <-> l <> [].
Proof. destruct l; split; intros H; try reflexivity; try discriminate; congruence. Qed.

(** ** bodies and their shape *)
Section Shape.
Context {D X : Type}.
Notation bodies := (bodies D X attrs).

Lemma shape_length (w : bodies) : length (shape w) = length w.
Proof. unfold shape. apply map_length. Qed.
Lemma ats_length (w : bodies) : length (ats w) = length w.
Proof. unfold ats. apply map_length. Qed.
Lemma shape_ats (w : bodies) : shape w = map (option_map (fun a => (subdomain a, isSubdomain a))) (ats w).
Proof. unfold shape, ats. rewrite map_map. apply map_ext. intros [b|]; reflexivity. Qed.
Lemma ats_shape (w w' : bodies) : ats w = ats w' -> shape w = shape w'.
Proof. intros H. rewrite !shape_ats, H. reflexivity. Qed.
Lemma at_shape (w : bodies) id : at_ (shape w) id = option_map (fun b => (subdomain (bRest b), isSubdomain (bRest b))) (body_at w id).
Proof.
  unfold at_, shape, body_at. rewrite nth_error_map. destruct (nth_error w id) as [[b|]|]; reflexivity.
Qed.
Lemma at_some (w : bodies) id d i : at_ (shape w) id = Some (d, i) ->
  exists b, nth_error w id = Some (Some b) /\ subdomain (bRest b) = d /\ isSubdomain (bRest b) = i.
Proof.
  rewrite at_shape. unfold body_at. destruct (nth_error w id) as [[b|]|]; cbn; try discriminate.
  intros H. injection H as <- <-. eauto.
Qed.
Lemma body_at_some (w : bodies) id b : body_at w id = Some b <-> nth_error w id = Some (Some b).
Proof. unfold body_at. destruct (nth_error w id) as [[c|]|]; split; intros H; try discriminate; congruence. Qed.
Lemma at_lt sh id x : at_ sh id = Some x -> id < length sh.
Proof. unfold at_. destruct (nth_error sh id) eqn:E; [|discriminate]. intros _. apply nth_error_Some. congruence. Qed.
End Shape.

Lemma sdlist_In sh id : In id (sdlist sh) <-> exists k, at_ sh id = Some (k, true).
Proof.
  unfold sdlist. rewrite filter_In, in_seq. split.
  - intros [_ H]. destruct (at_ sh id) as [[k [|]]|]; try discriminate. eauto.
  - intros [k H]. rewrite H. split; [|reflexivity]. apply at_lt in H. lia.
Qed.
Lemma owned_In sh k id : In id (owned sh k) <-> exists i, at_ sh id = Some (k, i).
Proof.
  unfold owned. rewrite filter_In, in_seq. split.
  - intros [_ H]. destruct (at_ sh id) as [[d i]|]; try discriminate. apply Nat.eqb_eq in H. subst. eauto.
  - intros [i H]. rewrite H. split; [|apply Nat.eqb_refl]. apply at_lt in H. lia.
Qed.
Lemma owned_NoDup sh k : NoDup (owned sh k).
Proof. apply NoDup_filter'. apply seq_NoDup. Qed.
Lemma sdlist_NoDup sh : NoDup (sdlist sh).
Proof. apply NoDup_filter'. apply seq_NoDup. Qed.
Lemma workers_In n k : In k (workers n) <-> 1 <= k < n.
Proof. unfold workers. rewrite in_seq. lia. Qed.

(** ** the intersection lists *)
Section Gen.
Context (n : nat) (sh : list (option (nat * bool))) (l : list (nat * nat)).
Context (HR : sd_ranks sh = workers n).

(** subdomain body of rank k *)
Lemma sd_exists k : 1 <= k < n -> exists sd, at_ sh sd = Some (k, true).
Proof.
  intros H. apply workers_In in H. rewrite <- HR in H. unfold sd_ranks in H. apply in_flat_map in H.
  destruct H as (sd & Hsd & Hk). apply sdlist_In in Hsd. destruct Hsd as [k' E]. rewrite E in Hk.
  destruct Hk as [->|[]]. eauto.
Qed.
Lemma sd_rank sd k : at_ sh sd = Some (k, true) -> 1 <= k < n.
Proof.
  intros E. apply workers_In. rewrite <- HR. unfold sd_ranks. apply in_flat_map. exists sd. split.
  - apply sdlist_In. eauto.
  - rewrite E. left; reflexivity.
Qed.
Lemma flat_single_NoDup (f : nat -> list nat) ids : NoDup (flat_map f ids) ->
  forall a b x, In a ids -> In b ids -> In x (f a) -> In x (f b) -> NoDup ids -> a = b.
Proof.
  induction ids as [|y ids IH]; intros Hnd a b x Ha Hb Hxa Hxb Hids; [destruct Ha|].
  cbn in Hnd. inversion Hids as [|? ? Hy Hids']; subst.
  assert (Hdis : forall z, In z (f y) -> ~ In z (flat_map f ids)).
  { intros z Hz Hz'. clear - Hnd Hz Hz'. induction (f y) as [|u t IHt]; [destruct Hz|].
    cbn in Hnd. inversion Hnd as [|? ? Hn Hd]; subst. destruct Hz as [->|Hz].
    - apply Hn. apply in_app_iff. right; exact Hz'.
    - apply IHt; assumption. }
  assert (Hnd2 : NoDup (flat_map f ids)).
  { clear - Hnd. induction (f y) as [|u t IHt]; [exact Hnd|]. cbn in Hnd. inversion Hnd; subst. apply IHt; assumption. }
  destruct Ha as [->|Ha]; destruct Hb as [->|Hb]; auto.
  - exfalso. apply (Hdis x Hxa). apply in_flat_map. eauto.
  - exfalso. apply (Hdis x Hxb). apply in_flat_map. eauto.
  - eapply IH; eauto.
Qed.
Lemma sd_unique sd sd' k : at_ sh sd = Some (k, true) -> at_ sh sd' = Some (k, true) -> sd = sd'.
Proof.
  intros E E'.
  eapply (flat_single_NoDup (fun id => match at_ sh id with Some (d, _) => [d] | None => [] end) (sdlist sh)).
  - change (NoDup (sd_ranks sh)). rewrite HR. apply seq_NoDup.
  - apply sdlist_In. eauto.
  - apply sdlist_In. eauto.
  - rewrite E. left; reflexivity.
  - rewrite E'. left; reflexivity.
  - apply sdlist_NoDup.
Qed.

Definition mine (rank o : nat) : bool := match at_ sh o with Some (d, i) => (d =? rank) && negb i | None => false end.
Definition mysd (rank o : nat) : bool := match at_ sh o with Some (d, i) => (d =? rank) && i | None => false end.
Definition of0 (o : nat) : bool := match at_ sh o with Some (d, _) => d =? 0 | None => false end.

Lemma fold_of0 os : forall I x,
  fold_left (fun I o => match at_ sh o with Some (d, _) => if d =? 0 then app_at I 0 o else I | None => I end) os I x
  = if x =? 0 then I 0 ++ filter of0 os else I x.
Proof.
  induction os as [|o os IH]; intros I x; cbn [fold_left].
  - destruct (Nat.eqb_spec x 0) as [->|]; [cbn; rewrite app_nil_r|]; reflexivity.
  - rewrite IH. cbn [filter]. unfold of0 at 2. destruct (at_ sh o) as [[d i]|]; [|reflexivity].
    destruct (d =? 0); [|reflexivity]. unfold app_at, upd. cbn.
    destruct (Nat.eqb_spec x 0); [|reflexivity]. rewrite <- app_assoc. reflexivity.
Qed.
Lemma fold_mine rank k os : k <> rank -> forall I x,
  fold_left (fun I o => match at_ sh o with
                        | Some (d, is) => if negb (d =? rank) then I else if is then app_at I rank k else app_at I k o
                        | None => I end) os I x
  = if x =? k then I k ++ filter (mine rank) os
    else if x =? rank then I rank ++ map (fun _ => k) (filter (mysd rank) os) else I x.
Proof.
  intros Hk. induction os as [|o os IH]; intros I x; cbn [fold_left].
  - cbn. rewrite !app_nil_r. destruct (Nat.eqb_spec x k) as [->|]; [reflexivity|]. destruct (Nat.eqb_spec x rank) as [->|]; reflexivity.
  - rewrite IH. cbn [filter]. unfold mine at 2, mysd at 2. destruct (at_ sh o) as [[d i]|]; [|reflexivity].
    destruct (d =? rank); cbn [negb andb]; [|reflexivity]. unfold app_at, upd.
    destruct i; cbn [negb].
    + destruct (Nat.eqb_spec k rank); [contradiction|]. rewrite Nat.eqb_refl.
      destruct (x =? k); [reflexivity|]. destruct (x =? rank); [|reflexivity].
      cbn [map]. rewrite <- app_assoc. reflexivity.
    + rewrite Nat.eqb_refl. destruct (Nat.eqb_spec rank k); [congruence|].
      destruct (Nat.eqb_spec x k) as [->|]; [rewrite <- app_assoc; reflexivity|reflexivity].
Qed.

(** ordinary bodies of [rank] touching the subdomain body [sd] *)
Definition touch (rank sd : nat) : list nat := filter (mine rank) (others sd l).
Definition sdOf (k : nat) : option nat := find (fun sd => match at_ sh sd with Some (d, i) => (d =? k) && i | None => false end) (seq 0 (length sh)).
Lemma sdOf_spec k sd : at_ sh sd = Some (k, true) -> sdOf k = Some sd.
Proof.
  intros E. unfold sdOf. destruct (find _ _) as [sd'|] eqn:Ef.
  - apply find_some in Ef. destruct Ef as [_ Ef]. destruct (at_ sh sd') as [[d i]|] eqn:E'; [|discriminate].
    apply andb_true_iff in Ef. destruct Ef as [Ed Ei]. apply Nat.eqb_eq in Ed. subst. f_equal. eapply sd_unique; eauto.
  - exfalso. pose proof (find_none _ _ Ef sd) as Hn. cbn beta in Hn. rewrite E, Nat.eqb_refl in Hn.
    apply at_lt in E. specialize (Hn ltac:(apply in_seq; lia)). discriminate.
Qed.

(** state of the lists after treating the subdomain bodies in [done], for a worker *)
Lemma gen_worker rank : 1 <= rank ->
  (forall sd, at_ sh sd = Some (rank, true) -> filter of0 (others sd l) = []) ->
  forall sds done I, (forall sd, In sd sds -> exists k, at_ sh sd = Some (k, true)) ->
    NoDup (done ++ sds) ->
    (forall x, x <> rank -> I x = match sdOf x with Some sd => if in_dec Nat.eq_dec sd done then touch rank sd else [] | None => [] end) ->
    I rank = flat_map (fun sd => match at_ sh sd with Some (k, _) => if k =? rank then [] else map (fun _ => k) (filter (mysd rank) (others sd l)) | None => [] end) done ->
    (forall sd, In sd done -> exists k, at_ sh sd = Some (k, true)) ->
    let I' := fold_left (gen1 rank sh l) sds I in
    (forall x, x <> rank -> I' x = match sdOf x with Some sd => if in_dec Nat.eq_dec sd (done ++ sds) then touch rank sd else [] | None => [] end) /\
    I' rank = flat_map (fun sd => match at_ sh sd with Some (k, _) => if k =? rank then [] else map (fun _ => k) (filter (mysd rank) (others sd l)) | None => [] end) (done ++ sds).
Proof.
  intros Hrk H0. induction sds as [|sd sds IH]; intros done I Hsd Hnd HI Hr Hdn; cbn [fold_left].
  - rewrite app_nil_r. auto.
  - destruct (Hsd sd (or_introl eq_refl)) as [k Ek].
    assert (Hnin : ~ In sd done).
    { intros H. apply nodup_mid in Hnd. apply (proj1 Hnd H). }
    assert (Hk : 1 <= k < n) by (eapply sd_rank; exact Ek).
    replace (done ++ sd :: sds) with ((done ++ [sd]) ++ sds) by (rewrite <- app_assoc; reflexivity).
    apply IH.
    + intros y Hy. apply Hsd. right; exact Hy.
    + rewrite <- app_assoc. exact Hnd.
    + intros x Hx. unfold gen1. rewrite Ek.
      assert (HinD : forall sx, sx <> sd -> (if in_dec Nat.eq_dec sx (done ++ [sd]) then touch rank sx else []) =
                                           (if in_dec Nat.eq_dec sx done then touch rank sx else [])).
      { intros sx Hne. destruct (in_dec Nat.eq_dec sx (done ++ [sd])) as [H|H]; destruct (in_dec Nat.eq_dec sx done) as [H'|H']; auto.
        - exfalso. apply in_app_iff in H. destruct H as [H|[H|[]]]; [contradiction|congruence].
        - exfalso. apply H. apply in_app_iff. left; exact H'. }
      assert (HinS : (if in_dec Nat.eq_dec sd (done ++ [sd]) then touch rank sd else []) = touch rank sd).
      { destruct (in_dec Nat.eq_dec sd (done ++ [sd])) as [H|H]; [reflexivity|]. exfalso. apply H. apply in_app_iff. right; left; reflexivity. }
      destruct (Nat.eqb_spec k rank) as [->|Hkr].
      * (* own subdomain: nothing happens *)
        set (I1 := fold_left _ _ _).
        assert (EI : forall y, I1 y = I y).
        { intros y. unfold I1. rewrite fold_of0, (H0 sd Ek), app_nil_r. destruct (Nat.eqb_spec y 0) as [->|]; reflexivity. }
        assert (Hz : I1 0 = []).
        { rewrite EI, (HI 0 ltac:(lia)). destruct (sdOf 0) as [s|] eqn:Es; [|reflexivity].
          unfold sdOf in Es. apply find_some in Es. destruct Es as [_ Es].
          destruct (at_ sh s) as [[d [|]]|] eqn:Ea; try discriminate; [|rewrite andb_false_r in Es; discriminate].
          apply sd_rank in Ea. apply andb_true_iff in Es. destruct Es as [Es _]. apply Nat.eqb_eq in Es. lia. }
        rewrite Hz. cbn [is_nil]. rewrite EI, (HI x Hx). destruct (sdOf x) as [sx|] eqn:Es; [|reflexivity].
        symmetry. apply HinD. intros ->. unfold sdOf in Es. apply find_some in Es. destruct Es as [_ Es]. rewrite Ek in Es.
        apply andb_true_iff in Es. destruct Es as [Es _]. apply Nat.eqb_eq in Es. congruence.
      * replace (rank =? 0) with false by (symmetry; apply Nat.eqb_neq; lia). cbn [andb].
        rewrite (fold_mine rank k (others sd l) Hkr).
        destruct (Nat.eqb_spec x k) as [->|Hxk].
        { rewrite (sdOf_spec k sd Ek), HinS, (HI k Hx), (sdOf_spec k sd Ek).
          destruct (in_dec Nat.eq_dec sd done); [contradiction|]. reflexivity. }
        { replace (x =? rank) with false by (symmetry; apply Nat.eqb_neq; exact Hx).
          rewrite (HI x Hx). destruct (sdOf x) as [sx|] eqn:Es; [|reflexivity].
          symmetry. apply HinD. intros ->. unfold sdOf in Es. apply find_some in Es. destruct Es as [_ Es]. rewrite Ek in Es.
          apply andb_true_iff in Es. destruct Es as [Es _]. apply Nat.eqb_eq in Es. congruence. }
    + unfold gen1. rewrite Ek, flat_map_app, <- Hr. cbn [flat_map]. rewrite Ek, app_nil_r.
      destruct (Nat.eqb_spec k rank) as [->|Hkr].
      * set (I1 := fold_left _ _ _).
        assert (EI : forall y, I1 y = I y).
        { intros y. unfold I1. rewrite fold_of0, (H0 sd Ek), app_nil_r. destruct (Nat.eqb_spec y 0) as [->|]; reflexivity. }
        assert (Hz : I1 0 = []).
        { rewrite EI, (HI 0 ltac:(lia)). destruct (sdOf 0) as [s|] eqn:Es; [|reflexivity].
          unfold sdOf in Es. apply find_some in Es. destruct Es as [_ Es].
          destruct (at_ sh s) as [[d [|]]|] eqn:Ea; try discriminate; [|rewrite andb_false_r in Es; discriminate].
          apply sd_rank in Ea. apply andb_true_iff in Es. destruct Es as [Es _]. apply Nat.eqb_eq in Es. lia. }
        rewrite Hz. cbn [is_nil]. rewrite EI, app_nil_r. reflexivity.
      * replace (rank =? 0) with false by (symmetry; apply Nat.eqb_neq; lia). cbn [andb].
        rewrite (fold_mine rank k (others sd l) Hkr).
        replace (rank =? k) with false by (symmetry; apply Nat.eqb_neq; congruence). rewrite Nat.eqb_refl. reflexivity.
    + intros y Hy. apply in_app_iff in Hy. destruct Hy as [Hy|[<-|[]]]; [apply Hdn; exact Hy|eauto].
Qed.

(** the same for the master *)
Lemma gen_master :
  forall sds done I, (forall sd, In sd sds -> exists k, at_ sh sd = Some (k, true)) ->
    NoDup (done ++ sds) ->
    (forall x, x <> 0 -> I x = match sdOf x with Some sd => if in_dec Nat.eq_dec sd done then touch 0 sd else [] | None => [] end) ->
    I 0 = flat_map (fun sd => match at_ sh sd with Some (k, _) => if is_nil (touch 0 sd) then [] else [k] | None => [] end) done ->
    let I' := fold_left (gen1 0 sh l) sds I in
    (forall x, x <> 0 -> I' x = match sdOf x with Some sd => if in_dec Nat.eq_dec sd (done ++ sds) then touch 0 sd else [] | None => [] end) /\
    I' 0 = flat_map (fun sd => match at_ sh sd with Some (k, _) => if is_nil (touch 0 sd) then [] else [k] | None => [] end) (done ++ sds).
Proof.
  induction sds as [|sd sds IH]; intros done I Hsd Hnd HI Hr; cbn [fold_left].
  - rewrite app_nil_r. auto.
  - destruct (Hsd sd (or_introl eq_refl)) as [k Ek].
    assert (Hnin : ~ In sd done).
    { intros H. apply nodup_mid in Hnd. apply (proj1 Hnd H). }
    assert (Hk : 1 <= k < n) by (eapply sd_rank; exact Ek).
    replace (done ++ sd :: sds) with ((done ++ [sd]) ++ sds) by (rewrite <- app_assoc; reflexivity).
    assert (HinD : forall sx, sx <> sd -> (if in_dec Nat.eq_dec sx (done ++ [sd]) then touch 0 sx else []) =
                                         (if in_dec Nat.eq_dec sx done then touch 0 sx else [])).
    { intros sx Hne. destruct (in_dec Nat.eq_dec sx (done ++ [sd])) as [H|H]; destruct (in_dec Nat.eq_dec sx done) as [H'|H']; auto.
      - exfalso. apply in_app_iff in H. destruct H as [H|[H|[]]]; [contradiction|congruence].
      - exfalso. apply H. apply in_app_iff. left; exact H'. }
    assert (HinS : (if in_dec Nat.eq_dec sd (done ++ [sd]) then touch 0 sd else []) = touch 0 sd).
    { destruct (in_dec Nat.eq_dec sd (done ++ [sd])) as [H|H]; [reflexivity|]. exfalso. apply H. apply in_app_iff. right; left; reflexivity. }
    assert (Hms : filter (mysd 0) (others sd l) = []).
    { destruct (filter (mysd 0) (others sd l)) as [|o os] eqn:E; [reflexivity|]. exfalso.
      assert (Ho : In o (filter (mysd 0) (others sd l))) by (rewrite E; left; reflexivity).
      apply filter_In in Ho. destruct Ho as [_ Ho]. unfold mysd in Ho. destruct (at_ sh o) as [[d [|]]|] eqn:Eo; try discriminate.
      - apply sd_rank in Eo. rewrite andb_true_r in Ho. apply Nat.eqb_eq in Ho. lia.
      - rewrite andb_false_r in Ho. discriminate. }
    assert (E1 : forall y, fold_left (fun I o => match at_ sh o with
                                      | Some (d, is) => if negb (d =? 0) then I else if is then app_at I 0 k else app_at I k o
                                      | None => I end) (others sd l) I y = if y =? k then touch 0 sd else I y).
    { intros y. rewrite (fold_mine 0 k (others sd l) ltac:(lia)), Hms. cbn [map]. rewrite app_nil_r.
      destruct (Nat.eqb_spec y k) as [->|]; [|destruct (Nat.eqb_spec y 0) as [->|]; reflexivity].
      rewrite (HI k ltac:(lia)), (sdOf_spec k sd Ek). destruct (in_dec Nat.eq_dec sd done); [contradiction|]. reflexivity. }
    assert (E2 : forall y, gen1 0 sh l I sd y = if y =? k then touch 0 sd else if y =? 0 then I 0 ++ (if is_nil (touch 0 sd) then [] else [k]) else I y).
    { intros y. unfold gen1. rewrite Ek. replace (k =? 0) with false by (symmetry; apply Nat.eqb_neq; lia).
      change (0 =? 0) with true. cbn [andb]. rewrite (E1 k), Nat.eqb_refl.
      destruct (is_nil (touch 0 sd)); cbn [negb].
      - rewrite E1, app_nil_r. destruct (Nat.eqb_spec y k) as [->|]; [reflexivity|]. destruct (Nat.eqb_spec y 0) as [->|]; reflexivity.
      - unfold app_at, upd. rewrite !E1. replace (0 =? k) with false by (symmetry; apply Nat.eqb_neq; lia).
        destruct (Nat.eqb_spec y 0) as [->|].
        + replace (0 =? k) with false by (symmetry; apply Nat.eqb_neq; lia). reflexivity.
        + reflexivity. }
    apply IH.
    + intros y Hy. apply Hsd. right; exact Hy.
    + rewrite <- app_assoc. exact Hnd.
    + intros x Hx. rewrite E2. destruct (Nat.eqb_spec x k) as [->|Hxk].
      * rewrite (sdOf_spec k sd Ek), HinS. reflexivity.
      * replace (x =? 0) with false by (symmetry; apply Nat.eqb_neq; exact Hx). rewrite (HI x Hx).
        destruct (sdOf x) as [sx|] eqn:Es; [|reflexivity].
        symmetry. apply HinD. intros ->. unfold sdOf in Es. apply find_some in Es. destruct Es as [_ Es]. rewrite Ek in Es.
        apply andb_true_iff in Es. destruct Es as [Es _]. apply Nat.eqb_eq in Es. congruence.
    + rewrite E2. replace (0 =? k) with false by (symmetry; apply Nat.eqb_neq; lia). cbn [Nat.eqb].
      rewrite flat_map_app, <- Hr. cbn [flat_map]. rewrite Ek, app_nil_r. reflexivity.
Qed.

Lemma gen_lists_worker rank :
  1 <= rank < n -> (forall sd, NoDup (others sd l)) ->
  (forall sd, at_ sh sd = Some (rank, true) -> filter of0 (others sd l) = []) ->
  (forall k, 1 <= k < n -> k <> rank -> exists sd, at_ sh sd = Some (k, true) /\ gen rank sh l k = touch rank sd) /\
  gen rank sh l 0 = [] /\
  NoDup (gen rank sh l rank) /\
  (forall k, In k (gen rank sh l rank) <->
     1 <= k < n /\ k <> rank /\ exists a b, at_ sh a = Some (k, true) /\ at_ sh b = Some (rank, true) /\ In b (others a l)).
Proof.
  intros Hrk Hnd H0.
  destruct (gen_worker rank ltac:(lia) H0 (sdlist sh) [] (fun _ => [])) as [G1 G2].
  - intros sd Hsd. apply sdlist_In in Hsd. exact Hsd.
  - apply sdlist_NoDup.
  - intros x _. destruct (sdOf x); [|reflexivity]. destruct (in_dec Nat.eq_dec n0 []) as [[]|]; reflexivity.
  - reflexivity.
  - intros sd [].
  - cbn [app] in G1, G2. fold (gen rank sh l) in G1, G2. split; [|split; [|split]].
    + intros k Hk Hne. destruct (sd_exists k Hk) as [sd Esd]. exists sd. split; [exact Esd|].
      rewrite (G1 k Hne), (sdOf_spec k sd Esd). destruct (in_dec Nat.eq_dec sd (sdlist sh)) as [_|H]; [reflexivity|].
      exfalso. apply H. apply sdlist_In. eauto.
    + rewrite (G1 0 ltac:(lia)). destruct (sdOf 0) as [s|] eqn:Es; [|reflexivity].
      unfold sdOf in Es. apply find_some in Es. destruct Es as [_ Es].
      destruct (at_ sh s) as [[d [|]]|] eqn:Ea; try discriminate; [|rewrite andb_false_r in Es; discriminate].
      apply sd_rank in Ea. apply andb_true_iff in Es. destruct Es as [Es _]. apply Nat.eqb_eq in Es. lia.
    + rewrite G2.
      (* at most one entry per subdomain, and the ranks differ *)
      assert (Hone : forall sd, filter (mysd rank) (others sd l) = [] \/ exists b, filter (mysd rank) (others sd l) = [b]).
      { intros sd. destruct (sd_exists rank Hrk) as [b Eb].
        destruct (nodup_one (filter (mysd rank) (others sd l)) b) as [H|H]; eauto.
        - apply NoDup_filter'. apply Hnd.
        - intros y Hy. apply filter_In in Hy. destruct Hy as [_ Hy]. unfold mysd in Hy.
          destruct (at_ sh y) as [[d [|]]|] eqn:Ey; try discriminate; [|rewrite andb_false_r in Hy; discriminate].
          rewrite andb_true_r in Hy. apply Nat.eqb_eq in Hy. subst. eapply sd_unique; eauto. }
      assert (Hgen : forall ids, NoDup ids -> (forall sd, In sd ids -> exists k, at_ sh sd = Some (k, true)) ->
        NoDup (flat_map (fun sd => match at_ sh sd with Some (k, _) => if k =? rank then [] else map (fun _ => k) (filter (mysd rank) (others sd l)) | None => [] end) ids)).
      { induction ids as [|sd ids IH]; intros Hids Hsds; [constructor|]. cbn [flat_map]. inversion Hids; subst.
        apply NoDup_app_intro.
        - destruct (at_ sh sd) as [[k i]|]; [|constructor]. destruct (k =? rank); [constructor|].
          destruct (Hone sd) as [->|[b ->]]; cbn; constructor; auto; constructor.
        - apply IH; [assumption|]. intros y Hy. apply Hsds. right; exact Hy.
        - intros z Hz Hz'. destruct (Hsds sd (or_introl eq_refl)) as [k Ek]. rewrite Ek in Hz.
          assert (z = k). { destruct (k =? rank); [destruct Hz|]. apply in_map_iff in Hz. destruct Hz as (? & ? & _). congruence. }
          subst z. apply in_flat_map in Hz'. destruct Hz' as (sd' & Hsd' & Hz').
          destruct (Hsds sd' (or_intror Hsd')) as [k' Ek']. rewrite Ek' in Hz'.
          assert (k = k'). { destruct (k' =? rank); [destruct Hz'|]. apply in_map_iff in Hz'. destruct Hz' as (? & ? & _). congruence. }
          subst k'. assert (sd = sd') by (eapply sd_unique; eauto). subst. contradiction. }
      apply Hgen; [apply sdlist_NoDup|]. intros sd Hsd. apply sdlist_In in Hsd. exact Hsd.
    + intros k. rewrite G2, in_flat_map. split.
      * intros (sd & Hsd & Hk). apply sdlist_In in Hsd. destruct Hsd as [k' Ek']. rewrite Ek' in Hk.
        destruct (Nat.eqb_spec k' rank) as [|Hne]; [destruct Hk|]. apply in_map_iff in Hk. destruct Hk as (b & <- & Hb).
        apply filter_In in Hb. destruct Hb as [Hb Hm]. unfold mysd in Hm.
        destruct (at_ sh b) as [[d [|]]|] eqn:Eb; try discriminate; [|rewrite andb_false_r in Hm; discriminate].
        rewrite andb_true_r in Hm. apply Nat.eqb_eq in Hm. subst d.
        split; [eapply sd_rank; exact Ek'|]. split; [exact Hne|]. exists sd, b. auto.
      * intros (Hk & Hne & a & b & Ea & Eb & Hin). exists a. split; [apply sdlist_In; eauto|]. rewrite Ea.
        replace (k =? rank) with false by (symmetry; apply Nat.eqb_neq; exact Hne).
        apply in_map_iff. exists b. split; [reflexivity|]. apply filter_In. split; [exact Hin|].
        unfold mysd. rewrite Eb, Nat.eqb_refl. reflexivity.
Qed.

Lemma gen_lists_master :
  (forall k, 1 <= k < n -> exists sd, at_ sh sd = Some (k, true) /\ gen 0 sh l k = touch 0 sd) /\
  gen 0 sh l 0 = filter (fun k => negb (is_nil (gen 0 sh l k))) (workers n).
Proof.
  destruct (gen_master (sdlist sh) [] (fun _ => [])) as [G1 G2].
  - intros sd Hsd. apply sdlist_In in Hsd. exact Hsd.
  - apply sdlist_NoDup.
  - intros x _. destruct (sdOf x); [|reflexivity]. destruct (in_dec Nat.eq_dec n0 []) as [[]|]; reflexivity.
  - reflexivity.
  - cbn [app] in G1, G2. fold (gen 0 sh l) in G1, G2.
    assert (HT : forall k sd, at_ sh sd = Some (k, true) -> gen 0 sh l k = touch 0 sd).
    { intros k sd Esd. pose proof (sd_rank sd k Esd). rewrite (G1 k ltac:(lia)), (sdOf_spec k sd Esd).
      destruct (in_dec Nat.eq_dec sd (sdlist sh)) as [_|H']; [reflexivity|].
      exfalso. apply H'. apply sdlist_In. eauto. }
    split.
    + intros k Hk. destruct (sd_exists k Hk) as [sd Esd]. exists sd. split; [exact Esd|]. apply HT. exact Esd.
    + rewrite G2, <- HR. unfold sd_ranks.
      assert (Hgen : forall ids, (forall sd, In sd ids -> exists k, at_ sh sd = Some (k, true)) ->
         flat_map (fun sd => match at_ sh sd with Some (k, _) => if is_nil (touch 0 sd) then [] else [k] | None => [] end) ids =
         filter (fun k => negb (is_nil (gen 0 sh l k))) (flat_map (fun id => match at_ sh id with Some (d, _) => [d] | None => [] end) ids)).
      { induction ids as [|sd ids IH]; intros Hs; [reflexivity|]. cbn [flat_map]. destruct (Hs sd (or_introl eq_refl)) as [k Ek].
        rewrite IH; [|intros y Hy; apply Hs; right; exact Hy]. rewrite Ek. cbn [app filter]. rewrite (HT k sd Ek).
        destruct (is_nil (touch 0 sd)); reflexivity. }
      apply Hgen. intros sd Hsd. apply sdlist_In in Hsd. exact Hsd.
Qed.

Lemma touch_In rank sd o : In o (touch rank sd) <-> In o (others sd l) /\ at_ sh o = Some (rank, false).
Proof.
  unfold touch. rewrite filter_In. unfold mine. split.
  - intros [H Hm]. split; [exact H|]. destruct (at_ sh o) as [[d [|]]|]; try discriminate; [rewrite andb_false_r in Hm; discriminate|].
    rewrite andb_true_r in Hm. apply Nat.eqb_eq in Hm. subst. reflexivity.
  - intros [H ->]. split; [exact H|]. rewrite Nat.eqb_refl. reflexivity.
Qed.
End Gen.
