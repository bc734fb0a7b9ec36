From Coq Require Import List ZArith Bool Reals Arith Lia Lra Sorted.
From Verif Require Interp_Model Kine_Model Newton_Model.
From Verif Require Import Vec_Model Vec_Proofs Field_Model Field_Spec.
Import ListNotations.
Local Open Scope R_scope.

(** ** iteration *)
Section It.
Variable A : Type.
Implicit Type c l : list (option A).
Lemma skip_spec l : forall p, let (q, r) := skip l p in (p <= q <= p + length l)%nat /\ (forall i, (p <= i < q)%nat -> nth_error l (i - p) = Some None) /\
  (q = (p + length l)%nat \/ exists b, nth_error l (q - p) = Some (Some b)) /\ (forall i, In i r <-> (p <= i <= q)%nat).
Proof.
  induction l as [|[b|] l IH]; intros p; cbn [skip].
  - split; [cbn [length]; lia|]. split; [intros; lia|]. split; [left; cbn [length]; lia|]. intros i. cbn [In]. split; [intros [<-|[]]; lia|]. intros. left. lia.
  - split; [cbn [length]; lia|]. split; [intros; lia|]. split; [right; exists b; rewrite Nat.sub_diag; reflexivity|]. intros i. cbn [In]. split; [intros [<-|[]]; lia|]. intros. left. lia.
  - specialize (IH (S p)). destruct (skip l (S p)) as [q r]. destruct IH as [H1 [H2 [H3 H4]]]. split; [cbn [length]; lia|]. split.
    + intros i Hi. destruct (Nat.eq_dec i p) as [->|N]; [rewrite Nat.sub_diag; reflexivity|]. replace (i - p)%nat with (S (i - S p)) by lia. cbn [nth_error]. apply H2. lia.
    + split.
      * destruct H3 as [->|[b E]]; [left; cbn [length]; lia|]. right. exists b. replace (q - p)%nat with (S (q - S p)) by lia. exact E.
      * intros i. cbn [In]. rewrite H4. lia.
Qed.
Lemma nth_error_skipn (c : list (option A)) k i : nth_error (skipn k c) i = nth_error c (k + i).
Proof. revert c. induction k as [|k IH]; intros c; [reflexivity|]. destruct c as [|a c]; [destruct i; reflexivity|]. cbn [skipn Nat.add nth_error]. apply IH. Qed.
Lemma next_spec c p : (p < length c)%nat -> let (q, r) := next c p in (p < q <= length c)%nat /\ (forall i, (p < i < q)%nat -> nth_error c i = Some None) /\
  (q = length c \/ is_body c q) /\ (forall i, In i r <-> (p < i <= q)%nat).
Proof.
  intros L. unfold next. pose proof (skip_spec (skipn (S p) c) (S p)) as H. destruct (skip (skipn (S p) c) (S p)) as [q r]. rewrite skipn_length in H. destruct H as [H1 [H2 [H3 H4]]].
  split; [lia|]. split.
  - intros i Hi. specialize (H2 i). rewrite nth_error_skipn in H2. replace (S p + (i - S p))%nat with i in H2 by lia. apply H2. lia.
  - split.
    + destruct H3 as [->|[b E]]; [left; lia|]. right. exists b. rewrite nth_error_skipn in E. replace (S p + (q - S p))%nat with q in E by lia. exact E.
    + intros i. rewrite H4. lia.
Qed.
Lemma walk_spec c fuel : forall p, (length c - p < fuel)%nat -> (p = length c \/ is_body c p) -> let (vs, rs) := walk fuel c p in
  StronglySorted lt vs /\ (forall i, In i vs <-> (p <= i)%nat /\ is_body c i) /\ (forall i, In i rs <-> (p <= i <= length c)%nat /\ (p < length c)%nat).
Proof.
  induction fuel as [|fuel IH]; intros p F H; [lia|]. cbn [walk]. destruct (Nat.eqb_spec p (length c)) as [E|N].
  - split; [constructor|]. split; intros i; cbn [In].
    + split; [tauto|]. intros [L [b B]]. assert (nth_error c i <> None) by (rewrite B; discriminate). apply nth_error_Some in H0. lia.
    + split; [tauto|lia].
  - destruct H as [H|H]; [contradiction|]. assert (L : (p < length c)%nat). { destruct H as [b B]. apply nth_error_Some. rewrite B. discriminate. }
    pose proof (next_spec c p L) as X. destruct (next c p) as [q r]. destruct X as [X1 [X2 [X3 X4]]].
    assert (Y := IH q). assert (F' : (length c - q < fuel)%nat) by lia. specialize (Y F' X3). destruct (walk fuel c q) as [vs rs]. destruct Y as [Y1 [Y2 Y3]]. split.
    + constructor; [exact Y1|]. apply Forall_forall. intros i Hi. apply Y2 in Hi. lia.
    + split; intros i; cbn [In].
      * rewrite Y2. split; [intros [<-|[G B]]; [split; [lia|exact H]|split; [lia|exact B]]|]. intros [G B]. destruct (Nat.eq_dec p i) as [->|Ni]; [left; reflexivity|]. right. split; [|exact B].
        destruct (Nat.lt_ge_cases i q) as [Lq|]; [|assumption]. destruct B as [b B]. rewrite X2 in B by lia. discriminate.
      * rewrite in_app_iff, X4, Y3. lia.
Qed.
Theorem foreach_spec c : let (vs, rs) := foreach c in StronglySorted lt vs /\ (forall i, In i vs <-> is_body c i) /\ (forall i, In i rs <-> (i <= length c)%nat /\ c <> []).
Proof.
  unfold foreach, begin. destruct c as [|[b|] c].
  - cbn [length walk Nat.eqb]. cbn. split; [constructor|]. split; intros i; cbn [In]; [|split; [tauto|intros [_ []]; reflexivity]]. split; [tauto|]. intros [b B]. destruct i; discriminate.
  - pose proof (walk_spec (Some b :: c) (S (length (Some b :: c))) 0 ltac:(lia) (or_intror (ex_intro _ b eq_refl))) as W. destruct (walk _ _ _) as [vs rs]. destruct W as [W1 [W2 W3]].
    split; [exact W1|]. split; intros i; [rewrite W2; split; [tauto|]; intros; split; [lia|assumption]|]. cbn [app In]. rewrite W3. cbn [length]. split; [intros [<-|]; [split; [lia|discriminate]|split; [lia|discriminate]]|]. intros. right. lia.
  - pose proof (next_spec (None :: c) 0 ltac:(cbn [length]; lia)) as X. destruct (next (None :: c) 0) as [q r]. destruct X as [X1 [X2 [X3 X4]]].
    pose proof (walk_spec (None :: c) (S (length (None :: c))) q ltac:(lia) X3) as W. destruct (walk _ _ _) as [vs rs]. destruct W as [W1 [W2 W3]]. split; [exact W1|]. split; intros i.
    + rewrite W2. split; [tauto|]. intros B. split; [|exact B]. destruct (Nat.lt_ge_cases i q) as [Lq|]; [|assumption]. destruct B as [b B]. destruct i as [|i]; [discriminate|]. rewrite X2 in B by lia. discriminate.
    + cbn [app In]. rewrite in_app_iff, X4, W3. cbn [length]. cbn [length] in X1. split; [intros H; split; [lia|discriminate]|]. intros [H _]. lia.
Qed.
End It.

(** ** forces *)
Lemma add1_zero x : add1 x (Some vzero) = x. Proof. destruct x as [a|]; [cbn [add1]; rewrite vadd_0_r|]; reflexivity. Qed.
Lemma add1_assoc x y z : add1 (add1 x y) z = add1 x (add1 y z).
Proof. destruct x, y, z; cbn [add1]; try reflexivity. rewrite vadd_assoc. reflexivity. Qed.
Lemma add1_swap x y z : add1 (add1 x y) z = add1 (add1 x z) y.
Proof. destruct x as [x|], y as [y|], z as [z|]; cbn [add1]; try reflexivity. f_equal. generalize x y z. clear. intros. vring. Qed.
Lemma body_is c i b : body c i = Some b <-> nth_error c i = Some (Some b).
Proof. unfold body. revert i. induction c as [|o c IH]; intros [|i]; cbn [nth nth_error]; try (split; discriminate); [|apply IH]. split; [intros ->; reflexivity|]. intros E. injection E as ->. reflexivity. Qed.
Lemma foreach_nodup c : NoDup (fst (foreach (A := fbody) c)).
Proof.
  pose proof (foreach_spec _ c) as H. destruct (foreach c) as [vs rs]. cbn [fst]. destruct H as [S _]. clear rs. induction S as [|a l S IH F]; constructor; [|exact IH]. intros I. rewrite Forall_forall in F. specialize (F _ I). lia.
Qed.
Lemma foreach_in c i b : body c i = Some b -> In i (fst (foreach c)).
Proof. intros B. pose proof (foreach_spec _ c) as H. destruct (foreach c) as [vs rs]. cbn [fst]. apply (proj1 (proj2 H)). exists b. apply body_is, B. Qed.
Lemma foreach_out c i : In i (fst (foreach c)) -> exists b, body c i = Some b.
Proof. intros I. pose proof (foreach_spec _ c) as H. destruct (foreach c) as [vs rs]. apply (proj1 (proj2 H)) in I. destruct I as [b B]. exists b. apply body_is, B. Qed.
(** engines that act on each body by itself *)
Section Own.
Variables (c : container) (g : nat -> fbody -> option (option vec)).
Definition own (i : nat) (b : fbody) (F : forces) : forces := match g i b with Some f => addForce F i f | None => F end.
Lemma own_fold l : NoDup l -> forall F i, fold_left (fun F i => match body c i with Some b => own i b F | None => F end) l F i =
  match body c i with Some b => if in_dec Nat.eq_dec i l then match g i b with Some f => add1 (F i) f | None => F i end else F i | None => F i end.
Proof.
  induction 1 as [|a l N D IH]; intros F i; cbn [fold_left].
  - destruct (body c i); reflexivity.
  - rewrite IH. unfold own at 1. unfold own. destruct (Nat.eq_dec i a) as [->|Ni].
    + destruct (body c a) as [b|]; [|reflexivity]. destruct (in_dec Nat.eq_dec a l) as [I|_]; [contradiction|]. destruct (in_dec Nat.eq_dec a (a :: l)) as [_|X]; [|destruct X; left; reflexivity].
      destruct (g a b); [|reflexivity]. unfold addForce. rewrite Nat.eqb_refl. reflexivity.
    + assert (E : match body c a with Some b => match g a b with Some f => addForce F a f | None => F end | None => F end i = F i).
      { destruct (body c a) as [b|]; [|reflexivity]. destruct (g a b); [|reflexivity]. unfold addForce. destruct (Nat.eqb_spec i a); [contradiction|reflexivity]. }
      rewrite E. destruct (body c i) as [b|]; [|reflexivity]. destruct (in_dec Nat.eq_dec i l) as [I|I], (in_dec Nat.eq_dec i (a :: l)) as [J|J]; try reflexivity.
      * destruct J. right. exact I.
      * destruct J as [->|J]; contradiction.
Qed.
Lemma own_spec F i : for_bodies c own F i = match body c i with Some b => match g i b with Some f => add1 (F i) f | None => F i end | None => F i end.
Proof.
  unfold for_bodies. rewrite own_fold by apply foreach_nodup. destruct (body c i) as [b|] eqn:B; [|reflexivity]. destruct (in_dec Nat.eq_dec i (fst (foreach c))) as [_|N]; [reflexivity|]. destruct N. exact (foreach_in c i b B).
Qed.
End Own.
Lemma for_bodies_ext c f g : (forall i b F, f i b F = g i b F) -> forall F, for_bodies c f F = for_bodies c g F.
Proof.
  intros H F. unfold for_bodies. generalize (fst (foreach c)). intros l. revert F. induction l as [|a l IH]; intros F; [reflexivity|]. cbn [fold_left]. destruct (body c a); [rewrite H|]; apply IH.
Qed.
Lemma selected_affected m b : selected m b = true <-> affected m b.
Proof.
  unfold selected, affected, maskCompatible. rewrite andb_true_iff, orb_true_iff, negb_true_iff, negb_true_iff, Z.eqb_eq, Z.eqb_neq. reflexivity.
Qed.
Theorem gravity_forces g m c F i b : body c i = Some b -> affected m b -> gravityEngine g m c F i = add1 (F i) (Some (smul (fmass b) g)).
Proof.
  intros B H. unfold gravityEngine. rewrite (for_bodies_ext c _ (own (fun i b => if selected m b then Some (Some (smul (fmass b) g)) else None))).
  - rewrite own_spec, B. rewrite (proj2 (selected_affected m b) H). reflexivity.
  - intros j b' F'. unfold own. destruct (selected m b'); reflexivity.
Qed.
Theorem gravity_others g m c F i : (forall b, body c i = Some b -> ~ affected m b) -> gravityEngine g m c F i = F i.
Proof.
  intros H. unfold gravityEngine. rewrite (for_bodies_ext c _ (own (fun i b => if selected m b then Some (Some (smul (fmass b) g)) else None))).
  - rewrite own_spec. destruct (body c i) as [b|]; [|reflexivity]. specialize (H b eq_refl). destruct (selected m b) eqn:E; [|reflexivity]. apply selected_affected in E. contradiction.
  - intros j b' F'. unfold own. destruct (selected m b'); reflexivity.
Qed.

(** the bodies visited, in order, are those of the container *)
Lemma sorted_unique (l k : list nat) : StronglySorted lt l -> StronglySorted lt k -> (forall i, In i l <-> In i k) -> l = k.
Proof.
  revert k. induction l as [|a l IH]; intros k HL HK E.
  - destruct k as [|b k]; [reflexivity|]. destruct (proj2 (E b) (or_introl eq_refl)).
  - destruct k as [|b k]; [destruct (proj1 (E a) (or_introl eq_refl))|]. inversion HL as [|? ? SL FL]. inversion HK as [|? ? SK FK]. subst. rewrite Forall_forall in FL, FK.
    assert (a = b). { destruct (proj1 (E a) (or_introl eq_refl)) as [|X]; [congruence|]. destruct (proj2 (E b) (or_introl eq_refl)) as [|Y]; [congruence|]. specialize (FK _ X). specialize (FL _ Y). lia. }
    subst b. f_equal. apply IH; try assumption. intros i. split; intros I.
    + destruct (proj1 (E i) (or_intror I)) as [->|X]; [specialize (FL _ I); lia|exact X].
    + destruct (proj2 (E i) (or_intror I)) as [->|X]; [specialize (FK _ I); lia|exact X].
Qed.
Fixpoint slots (c : container) (p : nat) : list nat := match c with [] => [] | Some _ :: c' => p :: slots c' (S p) | None :: c' => slots c' (S p) end.
Lemma slots_in c : forall p i, In i (slots c p) <-> (p <= i)%nat /\ exists b, nth_error c (i - p) = Some (Some b).
Proof.
  induction c as [|[b|] c IH]; intros p i; cbn [slots].
  - split; [intros []|]. intros [_ [b E]]. destruct (i - p)%nat; discriminate.
  - cbn [In]. rewrite IH. split.
    + intros [<-|[L [b' E]]]; [split; [lia|]; exists b; rewrite Nat.sub_diag; reflexivity|]. split; [lia|]. exists b'. replace (i - p)%nat with (S (i - S p)) by lia. exact E.
    + intros [L [b' E]]. destruct (Nat.eq_dec p i) as [->|N]; [left; reflexivity|]. right. split; [lia|]. exists b'. replace (i - p)%nat with (S (i - S p)) in E by lia. exact E.
  - rewrite IH. split.
    + intros [L [b' E]]. split; [lia|]. exists b'. replace (i - p)%nat with (S (i - S p)) by lia. exact E.
    + intros [L [b' E]]. destruct (Nat.eq_dec p i) as [->|N]; [rewrite Nat.sub_diag in E; discriminate|]. split; [lia|]. exists b'. replace (i - p)%nat with (S (i - S p)) in E by lia. exact E.
Qed.
Lemma slots_sorted c : forall p, StronglySorted lt (slots c p).
Proof.
  induction c as [|[b|] c IH]; intros p; cbn [slots]; [constructor| |apply IH]. constructor; [apply IH|]. apply Forall_forall. intros i I. apply slots_in in I. lia.
Qed.
Lemma foreach_slots c : fst (foreach c) = slots c 0.
Proof.
  pose proof (foreach_spec _ c) as H. destruct (foreach c) as [vs rs]. cbn [fst]. destruct H as [S [I _]]. apply sorted_unique; [exact S|apply slots_sorted|]. intros i. rewrite I, slots_in, Nat.sub_0_r. unfold is_body. split; [intros; split; [lia|assumption]|tauto].
Qed.
(** sums over the bodies visited *)
Lemma fold_slots (h : fbody -> R) m c : forall pre e, fold_left (fun e i => match body (pre ++ c) i with Some b => if selected m b then e + h b else e | None => e end) (slots c (length pre)) e = e + rsum h (affected_bodies m c).
Proof.
  induction c as [|o c IH]; intros pre e; [cbn [slots fold_left affected_bodies flat_map rsum]; ring|].
  assert (B : body (pre ++ o :: c) (length pre) = o). { unfold body. rewrite app_nth2 by lia. rewrite Nat.sub_diag. reflexivity. }
  assert (E : pre ++ o :: c = (pre ++ [o]) ++ c) by (rewrite <- app_assoc; reflexivity). assert (L : S (length pre) = length (pre ++ [o])) by (rewrite app_length; cbn [length]; lia).
  destruct o as [b|]; cbn [slots fold_left].
  - rewrite B. rewrite E, L, IH. cbn [affected_bodies flat_map]. unfold selected, maskCompatible, affected_dec. destruct (_ && _); cbn [app rsum]; unfold affected_bodies, affected_dec; ring.
  - rewrite E, L, IH. reflexivity.
Qed.
Theorem work_sum g m dt c : gravWork g m dt c = - dt * rsum (fun b => fmass b * dot g (fvel b)) (affected_bodies m c).
Proof.
  unfold gravWork. rewrite foreach_slots. etransitivity; [exact (fold_slots (fun b => - dot g (fvel b) * fmass b * dt) m c [] 0)|]. induction (affected_bodies m c) as [|b l IH]; cbn [rsum]; [ring|]. rewrite <- Rplus_assoc, Rplus_comm, <- (Rplus_0_l (rsum _ l)), Rplus_comm.
  transitivity ((0 + rsum (fun b0 : fbody => - dot g (fvel b0) * fmass b0 * dt) l) + (- dot g (fvel b) * fmass b * dt)); [ring|]. rewrite IH. ring.
Qed.
(** all fall: the kinetic energy grows by more than the work that is booked *)
Theorem work_kinetic g m dt c : let l := affected_bodies m c in
  rsum (fun b => kinetic (fmass b) (vadd (fvel b) (smul dt g))) l - rsum (fun b => kinetic (fmass b) (fvel b)) l + gravWork g m dt c = 1/2 * (dt * dt) * norm2 g * rsum fmass l.
Proof.
  cbv zeta. rewrite work_sum. induction (affected_bodies m c) as [|b l IH]; cbn [rsum]; [ring|].
  assert (K : kinetic (fmass b) (vadd (fvel b) (smul dt g)) = kinetic (fmass b) (fvel b) + dt * (fmass b * dot g (fvel b)) + 1/2 * (dt * dt) * norm2 g * fmass b).
  { unfold kinetic. destruct (fvel b) as [a1 a2 a3], g as [g1 g2 g3]. unfold norm2, dot, vadd, smul. cbn [vx vy vz]. field. }
  rewrite K. lra.
Qed.
