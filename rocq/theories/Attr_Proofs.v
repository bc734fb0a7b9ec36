From Coq Require Import List NArith Bool Ascii String Lia.
From Verif Require Import Attr_Model Attr_Spec.
Import ListNotations.
Local Open Scope N_scope.

(** ** degrees of freedom *)
Lemma eqb_pos (a b : ascii) : Ascii.eqb a b = true <-> a = b.
Proof. apply Ascii.eqb_eq. Qed.
Lemma six_cases (P : N -> Prop) : P 0 -> P 1 -> P 2 -> P 3 -> P 4 -> P 5 -> (forall k, 6 <= k -> P k) -> forall k, P k.
Proof.
  intros H0 H1 H2 H3 H4 H5 H k. destruct (N.lt_ge_cases k 6) as [Hk|Hk]; [|apply H; exact Hk].
  assert (k = 0 \/ k = 1 \/ k = 2 \/ k = 3 \/ k = 4 \/ k = 5) as [->|[->|[->|[->|[->| ->]]]]] by lia; assumption.
Qed.
Lemma letter_none k : 6 <= k -> letter k = None.
Proof. intros H. destruct k as [|p]; [lia|]. do 3 (destruct p as [p|p|]; try reflexivity; try lia). Qed.
Lemma bit_high i k : 6 <= k -> i < 6 -> N.testbit (2 ^ i) k = false.
Proof. intros Hk Hi. rewrite N.pow2_bits_eqb. apply N.eqb_neq. lia. Qed.
Lemma get_dof_bit d c k : N.testbit (get_dof d c) k = N.testbit d k || match letter k with Some a => Ascii.eqb c a | None => false end.
Proof.
  unfold get_dof, letters. cbn [find fst snd].
  destruct (Ascii.eqb_spec c "x") as [->|N0]; [|destruct (Ascii.eqb_spec c "y") as [->|N1]; [|destruct (Ascii.eqb_spec c "z") as [->|N2]; [|destruct (Ascii.eqb_spec c "X") as [->|N3]; [|destruct (Ascii.eqb_spec c "Y") as [->|N4]; [|destruct (Ascii.eqb_spec c "Z") as [->|N5]]]]]]; cbn [fst].
  1: change DOF_X with (2 ^ 0). 2: change DOF_Y with (2 ^ 1). 3: change DOF_Z with (2 ^ 2). 4: change DOF_RX with (2 ^ 3). 5: change DOF_RY with (2 ^ 4). 6: change DOF_RZ with (2 ^ 5).
  1-6: rewrite N.lor_spec; f_equal; revert k; apply six_cases; try reflexivity; intros k Hk; rewrite (letter_none k Hk); apply bit_high; lia.
  symmetry. apply orb_false_intro || idtac. revert k. apply six_cases; cbn [letter]; try (rewrite (proj2 (Ascii.eqb_neq _ _)) by assumption; apply orb_false_r). intros k Hk. rewrite (letter_none k Hk). apply orb_false_r.
Qed.
Lemma fold_get_dof s : forall d k, N.testbit (fold_left get_dof s d) k = N.testbit d k || match letter k with Some a => existsb (fun c => Ascii.eqb c a) s | None => false end.
Proof.
  induction s as [|c s IH]; intros d k; cbn [fold_left existsb]; [destruct (letter k); rewrite orb_false_r; reflexivity|]. rewrite IH, get_dof_bit. destruct (letter k) as [a|]; [rewrite orb_assoc; reflexivity|rewrite !orb_false_r; reflexivity].
Qed.
Lemma existsb_in a s : existsb (fun c => Ascii.eqb c a) s = true <-> In a s.
Proof.
  rewrite existsb_exists. split; [intros (c & H & E); apply Ascii.eqb_eq in E; subst; exact H|]. intros H. exists a. split; [exact H|apply Ascii.eqb_refl].
Qed.
Lemma vec_set_bit s k : N.testbit (vec_set s) k = true <-> exists a, letter k = Some a /\ In a s.
Proof.
  unfold vec_set. rewrite fold_get_dof. rewrite N.bits_0. cbn [orb]. destruct (letter k) as [a|].
  - rewrite existsb_in. split; [eauto|]. intros (b & E & H). congruence.
  - split; [discriminate|]. intros (b & E & _). discriminate.
Qed.
Lemma land_pow d i : (N.land d (2 ^ i) =? 0) = negb (N.testbit d i).
Proof.
  destruct (N.testbit d i) eqn:E; cbn [negb].
  - apply N.eqb_neq. intros H. assert (B : N.testbit (N.land d (2 ^ i)) i = true) by (rewrite N.land_spec, E, N.pow2_bits_true; reflexivity). rewrite H in B. rewrite N.bits_0 in B. discriminate.
  - apply N.eqb_eq. apply N.bits_inj. intros k. rewrite N.land_spec, N.pow2_bits_eqb, N.bits_0. destruct (N.eqb_spec i k) as [->|]; [rewrite E; reflexivity|apply andb_false_r].
Qed.
Definition bit_letter (d : N) (i : N) (a : ascii) : list ascii := if N.testbit d i then [a] else [].
Lemma vec_get_bits d : vec_get d = bit_letter d 0 "x" ++ bit_letter d 1 "y" ++ bit_letter d 2 "z" ++ bit_letter d 3 "X" ++ bit_letter d 4 "Y" ++ bit_letter d 5 "Z".
Proof.
  unfold vec_get, letters. cbn [flat_map fst snd]. change DOF_X with (2 ^ 0). change DOF_Y with (2 ^ 1). change DOF_Z with (2 ^ 2). change DOF_RX with (2 ^ 3). change DOF_RY with (2 ^ 4). change DOF_RZ with (2 ^ 5). rewrite !land_pow.
  unfold bit_letter. rewrite app_nil_r. repeat match goal with |- context [N.testbit d ?i] => destruct (N.testbit d i) end; reflexivity.
Qed.
Lemma vec_get_filter d : vec_get d = filter (fun a => existsb (fun k => match letter k with Some b => Ascii.eqb a b && N.testbit d k | None => false end) [0; 1; 2; 3; 4; 5]) canonical.
Proof.
  rewrite vec_get_bits. unfold canonical. cbn [filter existsb letter]. cbn [Ascii.eqb Bool.eqb andb orb]. unfold bit_letter.
  repeat match goal with |- context [N.testbit d ?i] => destruct (N.testbit d i) end; reflexivity.
Qed.
Theorem get_set s : vec_get (vec_set s) = filter (fun a => existsb (Ascii.eqb a) s) canonical.
Proof.
  assert (G : forall i a, letter i = Some a -> N.testbit (vec_set s) i = existsb (Ascii.eqb a) s).
  { intros i a E. destruct (N.testbit (vec_set s) i) eqn:B.
    - apply vec_set_bit in B. destruct B as (b & E' & H). symmetry. apply existsb_exists. exists b. split; [exact H|]. apply Ascii.eqb_eq. congruence.
    - destruct (existsb (Ascii.eqb a) s) eqn:B'; [|reflexivity]. apply existsb_exists in B'. destruct B' as (b & H & Eb). apply Ascii.eqb_eq in Eb. subst b. assert (N.testbit (vec_set s) i = true) by (apply vec_set_bit; eauto). congruence. }
  rewrite vec_get_bits. unfold bit_letter, canonical. cbn [filter]. rewrite (G 0 "x"%char), (G 1 "y"%char), (G 2 "z"%char), (G 3 "X"%char), (G 4 "Y"%char), (G 5 "Z"%char) by reflexivity.
  repeat match goal with |- context [existsb ?f s] => destruct (existsb f s) end; reflexivity.
Qed.
Lemma vec_get_in d i a : letter i = Some a -> (In a (vec_get d) <-> N.testbit d i = true).
Proof.
  rewrite vec_get_bits. revert a. pattern i. apply six_cases; clear i.
  1-6: intros a E; injection E as <-; rewrite !in_app_iff; unfold bit_letter.
  1-6: repeat match goal with |- context [N.testbit ?x ?i] => destruct (N.testbit x i) end; cbn; split; intros H; try reflexivity; try discriminate; try (decompose [or] H; try contradiction; discriminate); tauto.
  intros k Hk a E. rewrite (letter_none k Hk) in E. discriminate.
Qed.
Theorem set_get d : six_bits d -> vec_set (vec_get d) = d.
Proof.
  intros Hd. apply N.bits_inj. intros k. destruct (N.testbit (vec_set (vec_get d)) k) eqn:E.
  - apply vec_set_bit in E. destruct E as (a & L & H). symmetry. apply (vec_get_in d k a L). exact H.
  - destruct (N.testbit d k) eqn:E'; [|reflexivity]. specialize (Hd k E'). assert (exists a, letter k = Some a) as (a & L). { clear E E'. revert Hd. pattern k. apply six_cases; cbn; eauto. intros; lia. }
    assert (N.testbit (vec_set (vec_get d)) k = true) by (apply vec_set_bit; exists a; split; [exact L|apply (vec_get_in d k a L); exact E']). congruence.
Qed.
Lemma vec_set_six s : six_bits (vec_set s).
Proof.
  intros k H. apply vec_set_bit in H. destruct H as (a & L & _). destruct (N.lt_ge_cases k 6) as [|G]; [assumption|]. rewrite (letter_none k G) in L. discriminate.
Qed.
Lemma all_bits k : N.testbit DOF_ALL k = (k <? 6).
Proof.
  revert k. apply six_cases; try reflexivity. intros k Hk. transitivity false; [|symmetry; apply N.ltb_ge; exact Hk]. change DOF_ALL with (N.ones 6). apply N.ones_spec_high. exact Hk.
Qed.
Theorem dynamic_iff d : six_bits d -> isDynamic d = false <-> forall a, In a canonical -> In a (vec_get d).
Proof.
  intros Hd. unfold isDynamic. rewrite negb_false_iff, N.eqb_eq. split.
  - intros -> a Ha. assert (exists i, letter i = Some a /\ i < 6) as (i & L & Hi). { cbn in Ha. destruct Ha as [<-|[<-|[<-|[<-|[<-|[<-|[]]]]]]]; [exists 0|exists 1|exists 2|exists 3|exists 4|exists 5]; split; (reflexivity || lia). }
    apply (vec_get_in DOF_ALL i a L). rewrite all_bits. apply N.ltb_lt. exact Hi.
  - intros H. apply N.bits_inj. intros k. rewrite all_bits. destruct (N.ltb_spec k 6) as [Hk|Hk].
    + assert (exists a, letter k = Some a /\ In a canonical) as (a & L & Ha). { revert Hk. pattern k. apply six_cases; [| | | | | |intros; lia]; intros _; eexists; (split; [reflexivity|]); cbn; tauto. }
      apply (vec_get_in d k a L). apply H. exact Ha.
    + destruct (N.testbit d k) eqn:E; [|reflexivity]. apply Hd in E. lia.
Qed.
Theorem axis_letter (axis : N) (rot : bool) : axis < 3 -> exists a, letter (axis + (if rot then 3 else 0)) = Some a /\ vec_get (axisDOF axis rot) = [a].
Proof.
  intros H. assert (axis = 0 \/ axis = 1 \/ axis = 2) as [->|[->| ->]] by lia; destruct rot; eexists; split; reflexivity.
Qed.

(** ** tags *)
Lemma starts_with_app p : forall s, starts_with s p = true <-> exists r, s = p ++ r.
Proof.
  induction p as [|c p IH]; intros s; cbn [starts_with app]; [split; [intros _; exists s; reflexivity|reflexivity]|]. destruct s as [|d s].
  - split; [discriminate|]. intros (r & E). discriminate.
  - rewrite andb_true_iff, Ascii.eqb_eq, IH. split; [intros [-> (r & ->)]; eauto|]. intros (r & E). injection E as -> ->. eauto.
Qed.
Lemma plain_split k : forall k' v v', plain k -> plain k' -> k ++ [eq_sign] ++ v = k' ++ [eq_sign] ++ v' -> k = k' /\ v = v'.
Proof.
  induction k as [|c k IH]; intros [|c' k'] v v' Hk Hk' E; cbn in E.
  - injection E as ->. auto.
  - injection E as <- _. destruct Hk'. left. reflexivity.
  - injection E as -> _. destruct Hk. left. reflexivity.
  - injection E as -> E. destruct (IH k' v v') as [-> ->]; auto; intros H; [apply Hk|apply Hk']; right; exact H.
Qed.
Lemma skipn_app_exact {A} (l r : list A) : skipn (List.length l) (l ++ r) = r.
Proof. induction l as [|x l IH]; [reflexivity|exact IH]. Qed.
Lemma value_of k v : starts_with (k ++ [eq_sign] ++ v) (k ++ [eq_sign]) = true /\ skipn (List.length k + 1) (k ++ [eq_sign] ++ v) = v.
Proof.
  split; [apply starts_with_app; exists v; rewrite <- app_assoc; reflexivity|]. rewrite (app_assoc k). replace (List.length k + 1)%nat with (List.length (k ++ [eq_sign])) by (rewrite app_length; reflexivity). apply skipn_app_exact.
Qed.
Lemma replace_same t k v : getItem (replace t k v) k = Some v.
Proof.
  induction t as [|val t IH]; cbn [replace getItem].
  - destruct (value_of k v) as [E1 E2]. rewrite E1, E2. reflexivity.
  - destruct (starts_with val (k ++ [eq_sign])) eqn:E; cbn [getItem]; [|rewrite E; exact IH]. destruct (value_of k v) as [E1 E2]. rewrite E1, E2. reflexivity.
Qed.
Lemma other_key k k' v : plain k -> plain k' -> k <> k' -> starts_with (k ++ [eq_sign] ++ v) (k' ++ [eq_sign]) = false.
Proof.
  intros Hk Hk' N. destruct (starts_with (k ++ [eq_sign] ++ v) (k' ++ [eq_sign])) eqn:E; [|reflexivity]. apply starts_with_app in E. destruct E as (r & E). rewrite <- (app_assoc k') in E. apply plain_split in E; tauto.
Qed.
Lemma replace_other t k k' v : plain k -> plain k' -> k <> k' -> getItem (replace t k v) k' = getItem t k'.
Proof.
  intros Hk Hk' N. induction t as [|val t IH]; cbn [replace getItem].
  - rewrite other_key by assumption. reflexivity.
  - destruct (starts_with val (k ++ [eq_sign])) eqn:E; cbn [getItem]; [|rewrite IH; reflexivity]. apply starts_with_app in E. destruct E as (r & ->). rewrite <- app_assoc. rewrite !other_key by assumption. reflexivity.
Qed.
Lemma existsb_eq k : existsb (Ascii.eqb eq_sign) k = true <-> In eq_sign k.
Proof. rewrite existsb_exists. split; [intros (c & H & E); apply Ascii.eqb_eq in E; subst; exact H|]. intros H. exists eq_sign. split; [exact H|apply Ascii.eqb_refl]. Qed.
Lemma setItem_plain t k v : plain k -> setItem t k v = Some (replace t k v).
Proof. intros Hk. unfold setItem. destruct (existsb (Ascii.eqb eq_sign) k) eqn:E; [|reflexivity]. apply existsb_eq in E. contradiction. Qed.
Lemma setItem_raises t k v : ~ plain k -> setItem t k v = None.
Proof. intros Hk. unfold setItem. destruct (existsb (Ascii.eqb eq_sign) k) eqn:E; [reflexivity|]. exfalso. apply Hk. intros H. apply existsb_eq in H. congruence. Qed.
Lemma plain_dec k : {plain k} + {~ plain k}.
Proof. unfold plain. destruct (in_dec ascii_dec eq_sign k); auto. Qed.
Theorem history h : forall t k, plain k -> (forall k' v, In (k', v) h -> plain k') -> getItem (fold_left assign h t) k = last_assigned h k (getItem t k).
Proof.
  induction h as [|[k' v] h IH]; intros t k Hk Hh; [reflexivity|]. cbn [fold_left last_assigned]. rewrite IH; [|exact Hk|intros; eapply Hh; right; eassumption]. f_equal.
  unfold assign. cbn [fst snd]. rewrite setItem_plain by (eapply Hh; left; reflexivity). destruct (list_eq_dec ascii_dec k k') as [->|N]; [apply replace_same|]. apply replace_other; [eapply Hh; left; reflexivity|exact Hk|congruence].
Qed.
Lemma key_of_spec val k : key_of val = Some k <-> plain k /\ exists v, val = k ++ [eq_sign] ++ v.
Proof.
  revert k. induction val as [|c val IH]; intros k; cbn [key_of].
  - split; [discriminate|]. intros (_ & v & E). destruct k; discriminate.
  - destruct (Ascii.eqb_spec eq_sign c) as [<-|N].
    + split; [intros H; injection H as <-; split; [intros []|exists val; reflexivity]|]. intros (Hk & v & E). destruct k as [|d k]; [reflexivity|]. injection E as <- _. destruct Hk. left. reflexivity.
    + destruct (key_of val) as [k0|] eqn:E0.
      * destruct (proj1 (IH k0) eq_refl) as (Hp & v & ->). split.
        { intros H. injection H as <-. split; [intros [H|H]; [congruence|exact (Hp H)]|]. exists v. reflexivity. }
        { intros (Hk & v' & E). destruct k as [|d k]; [injection E as -> _; congruence|]. injection E as -> E. assert (Hk' : plain k) by (intros H; apply Hk; right; exact H). apply plain_split in E; [|assumption|assumption]. destruct E as [-> _]. reflexivity. }
      * split; [discriminate|]. intros (Hk & v' & E). destruct k as [|d k]; [injection E as -> _; congruence|]. injection E as -> E. assert (None = Some k) by (apply IH; split; [intros H; apply Hk; right; exact H|exists v'; exact E]). discriminate.
Qed.
Lemma keys_in t : forall l, keys t = Some l -> forall k, plain k -> In k l <-> getItem t k <> None.
Proof.
  induction t as [|val t IH]; intros l E k Hk; cbn [keys getItem] in *.
  - injection E as <-. split; [intros []|congruence].
  - destruct (key_of val) as [k0|] eqn:E0; [|discriminate]. destruct (keys t) as [l0|]; [|discriminate]. injection E as <-. apply key_of_spec in E0. destruct E0 as (Hk0 & v & ->).
    destruct (list_eq_dec ascii_dec k0 k) as [->|N].
    + destruct (value_of k v) as [-> _]. split; [discriminate|]. intros _. left. reflexivity.
    + rewrite other_key by assumption. rewrite <- (IH l0 eq_refl k Hk). cbn. tauto.
Qed.
Lemma replace_keys t k v : plain k -> forall l, keys t = Some l -> NoDup l -> exists l', keys (replace t k v) = Some l' /\ NoDup l' /\ l' = (if in_dec (list_eq_dec ascii_dec) k l then l else l ++ [k]).
Proof.
  intros Hk. assert (Kv : forall v, key_of (k ++ [eq_sign] ++ v) = Some k) by (intros w; apply key_of_spec; eauto). induction t as [|val t IH]; intros l E Hd; cbn [keys] in E.
  - injection E as <-. cbn [replace keys]. rewrite Kv. exists [k]. split; [reflexivity|]. split; [repeat constructor; intros []|]. destruct (in_dec _ k []) as [[]|]. reflexivity.
  - destruct (key_of val) as [k0|] eqn:E0; [|discriminate]. destruct (keys t) as [l0|] eqn:El; [|discriminate]. injection E as <-. pose proof E0 as E0'. apply key_of_spec in E0'. destruct E0' as (Hk0 & w & Ew). inversion Hd as [|x xs Hx Hd']; subst x xs.
    cbn [replace]. destruct (starts_with val (k ++ [eq_sign])) eqn:Es.
    + apply starts_with_app in Es. destruct Es as (r & Er). rewrite <- app_assoc in Er. rewrite Ew in Er. apply plain_split in Er; [|assumption|assumption]. destruct Er as [-> _]. cbn [keys]. rewrite Kv, El. exists (k :: l0). split; [reflexivity|]. split; [exact Hd|]. destruct (in_dec _ k (k :: l0)) as [|N]; [reflexivity|]. destruct N. left. reflexivity.
    + assert (Nk : k0 <> k). { intros ->. subst val. destruct (value_of k w) as [X _]. congruence. } destruct (IH l0 eq_refl Hd') as (l' & K' & D' & El'). cbn [keys]. rewrite E0, K'. exists (k0 :: l'). split; [reflexivity|]. split.
      * constructor; [|exact D']. rewrite El'. destruct (in_dec _ k l0); [exact Hx|]. rewrite in_app_iff. intros [H|[H|[]]]; [exact (Hx H)|congruence].
      * rewrite El'. destruct (in_dec (list_eq_dec ascii_dec) k l0) as [H|H]; destruct (in_dec (list_eq_dec ascii_dec) k (k0 :: l0)) as [H'|H']; try reflexivity; exfalso; [apply H'; right; exact H|destruct H' as [H'|H']; [congruence|contradiction]].
Qed.
Lemma hasKey_get t k : hasKey t k = true <-> getItem t k <> None.
Proof.
  induction t as [|val t IH]; cbn [hasKey existsb getItem]; [split; [discriminate|congruence]|]. unfold hasKey in IH. destruct (starts_with val (k ++ [eq_sign])); cbn [orb]; [split; [discriminate|reflexivity]|exact IH].
Qed.

(** ** blocking by two vectors *)
Lemma from_vectors_letters dx dy dz rx ry rz :
  vec_get (setDOFfromVector3r (dx, dy, dz) (rx, ry, rz)) =
  map snd (filter fst [(dx, "x"%char); (dy, "y"%char); (dz, "z"%char); (rx, "X"%char); (ry, "Y"%char); (rz, "Z"%char)]).
Proof. destruct dx, dy, dz, rx, ry, rz; reflexivity. Qed.
