(** Proofs about the exchanges of mpy.py, part 4: checks, merging, sessions. *)
From Coq Require Import List Arith Bool Lia.
From Verif Require Import Subd_Model Subd_Spec Subd_Proofs Comm_Model Comm_Spec Comm_Proofs Mpi_Model Mpi_Spec Mpi_Proofs1 Mpi_Proofs2 Mpi_Proofs3.
Import ListNotations.

Lemma filter_all {A} (f : A -> bool) l : (forall x, In x l -> f x = true) -> filter f l = l.
Proof. induction l as [|x l IH]; intros H; cbn; [reflexivity|]. rewrite (H x (or_introl eq_refl)), IH; [reflexivity|]. intros y Hy. apply H. right; exact Hy. Qed.

Section Session.
Context {D X Bx F : Type} (Fadd : F -> F -> F).
Notation bodies := (bodies D X attrs).
Notation lstate := (@lstate D X Bx F).
Notation message := (@message D X Bx F).
Notation phase := (phase lstate message).
Context (L : @locals D X Bx F) (ovl : Bx -> Bx -> bool) (G : good L ovl).
Context (n : nat) (sh : list (option (nat * bool))) (HR : sd_ranks sh = workers n).
Context (Hfull : forall id, id < length sh -> at_ sh id <> None).
Context (Hn : 0 < n).
Notation J := (@J D X Bx F n sh).
Notation JA := (@JA D X Bx F n sh).

Lemma JA_eqn acc s s' : eqn n s s' -> JA acc s -> JA acc s'.
Proof.
  intros E (HJ & Ho & Hi). split; [|split].
  - apply (J_ext n sh Hn s s'); [|exact HJ]. intros p Hp. rewrite (E p Hp). auto.
  - intros Ha. destruct (Ho Ha) as (w & Ew & Hw). exists w. rewrite <- (E 0 Hn). auto.
  - intros Ha. rewrite <- (E 0 Hn). auto.
Qed.

(** *** the check *)
Definition act (s : nat -> lstate) (sd : nat) : bool := match sc (s sd) with Some w => active L sd w | None => false end.
Lemma set_stop_same (x : lstate) b : stop x = b -> set_stop x b = x.
Proof. intros <-. destruct x; reflexivity. Qed.
Lemma check_one sd b s : sd < n -> (forall p, p < n -> exists w, sc (s p) = Some w) -> (forall p, p < n -> stop (s p) = b) ->
  matched n (check_phase L n sd) s /\ forall p, p < n -> round (check_phase L n sd) s p = set_stop (s p) (b || act s sd).
Proof.
  intros Hsd Hsc Hst. destruct b.
  - split.
    + intros p Hp. cbn. rewrite (Hst p Hp). cbn. sp; [constructor|constructor|intros q []|intros q []|].
      intros q Hq. rewrite (Hst q Hq). cbn. split; intros [].
    + intros p Hp. unfold round. cbn. rewrite (Hst p Hp). cbn. rewrite (set_stop_same (s p) true (Hst p Hp)).
      destruct (p =? sd); [|reflexivity]. destruct (Hsc p Hp) as (w & ->). rewrite (Hst p Hp). apply set_stop_same. apply Hst. exact Hp.
  - split.
    + intros p Hp. cbn. rewrite (Hst p Hp). cbn. sp.
      * destruct (p =? sd); repeat constructor; auto.
      * destruct (p =? sd); cbn; [apply NoDup_filter', seq_NoDup|constructor].
      * intros q. destruct (p =? sd); [intros []|intros [<-|[]]; exact Hsd].
      * intros q. destruct (p =? sd); cbn; [|intros []]. intros Hq. apply filter_In in Hq. destruct Hq as [Hq _]. apply in_seq in Hq. lia.
      * intros q Hq. rewrite (Hst q Hq). cbn. destruct (Nat.eqb_spec p sd) as [Ep|Ep]; cbn.
        { rewrite filter_In, in_seq. destruct (Nat.eqb_spec q sd) as [Eq|Eq]; cbn; split.
          - intros [_ H]; discriminate. - intros []. - intros _; left; congruence. - intros _; split; [lia|reflexivity]. }
        { split; [intros []|]. destruct (q =? sd); [intros []|intros [H|[]]; congruence]. }
    + intros p Hp. unfold round. cbn. rewrite (Hst p Hp). cbn. unfold act. destruct (Hsc sd Hsd) as (ws & Ews). rewrite Ews.
      destruct (Nat.eqb_spec p sd) as [->|Hne]; cbn.
      * rewrite Ews, (Hst sd Hp). reflexivity.
      * rewrite Ews. reflexivity.
Qed.
Lemma checks_rounds l : (forall sd, In sd l -> sd < n) -> forall b s, (forall p, p < n -> exists w, sc (s p) = Some w) -> (forall p, p < n -> stop (s p) = b) ->
  all_matched n (map (check_phase L n) l) s /\ forall p, p < n -> rounds (map (check_phase L n) l) s p = set_stop (s p) (b || existsb (act s) l).
Proof.
  induction l as [|sd l IH]; intros Hl b s Hsc Hst; cbn [map all_matched rounds existsb].
  - split; [exact I|]. intros p Hp. rewrite orb_false_r. symmetry. apply set_stop_same. apply Hst. exact Hp.
  - destruct (check_one sd b s (Hl sd (or_introl eq_refl)) Hsc Hst) as [A B].
    set (s1 := round (check_phase L n sd) s) in *.
    destruct (IH (fun x Hx => Hl x (or_intror Hx)) (b || act s sd) s1) as [C E].
    { intros p Hp. rewrite (B p Hp). cbn. apply Hsc. exact Hp. }
    { intros p Hp. rewrite (B p Hp). reflexivity. }
    split; [auto|]. intros p Hp. rewrite (E p Hp), (B p Hp). unfold set_stop. cbn. f_equal. rewrite <- orb_assoc. f_equal. f_equal.
    assert (Hx : forall x, In x l -> act s1 x = act s x).
    { intros x Hx. unfold act. rewrite (B x (Hl x (or_intror Hx))). reflexivity. }
    clear - Hx. induction l as [|x l IHl]; cbn; [reflexivity|]. rewrite Hx by (left; reflexivity). f_equal. apply IHl. intros y Hy. apply Hx. right; exact Hy.
Qed.

(** *** merging *)
(** the master's scene after merging with worker k *)
Definition merged_from (wk w w' : bodies) (ids : list nat) : Prop :=
  length w' = length w /\
  (forall id, ~ In id ids -> nth_error w' id = nth_error w id) /\
  (forall id, In id ids -> exists bk b b', nth_error wk id = Some (Some bk) /\ nth_error w id = Some (Some b) /\ nth_error w' id = Some (Some b') /\
     same_motion b' bk /\ bound b' = bound bk /\ stRest (bstate b') = stRest (bstate b) /\
     bRest b' = mkAttrs (subdomain (bRest b)) (isSubdomain (bRest b)) true).

Lemma put_bounds_ok (f : nat -> option (vec D * vec D)) ids : NoDup ids -> forall w : bodies, exist_all w ids ->
  exists w', put_bounds w ids (map f ids) = Some w' /\ length w' = length w /\
    (forall id, ~ In id ids -> nth_error w' id = nth_error w id) /\
    (forall id b, In id ids -> nth_error w id = Some (Some b) -> nth_error w' id = Some (Some (mkBody (bstate b) (f id) (bRest b)))).
Proof.
  induction 1 as [|i ids Hi Hnd IH]; intros w Hex; cbn [map put_bounds].
  - exists w. sp; auto. intros id b [].
  - destruct (Hex i (or_introl eq_refl)) as [y Hy]. assert (Hb : body_at w i = Some y) by (apply body_at_some; exact Hy). rewrite Hb.
    assert (Hlt : i < length w) by (apply nth_error_Some; congruence).
    set (w1 := update w i _).
    destruct (IH w1) as (w' & E & Hl & Hu & Hc).
    { intros id Hid. unfold w1. destruct (Nat.eq_dec id i) as [->|Hne]; [contradiction|]. rewrite Mpi_Proofs2.update_other by exact Hne. apply Hex. right; exact Hid. }
    exists w'. sp; auto.
    + rewrite Hl. unfold w1. apply Mpi_Proofs2.update_length.
    + intros id Hid. rewrite Hu by (intros H; apply Hid; right; exact H). unfold w1. apply Mpi_Proofs2.update_other. intros ->. apply Hid. left; reflexivity.
    + intros id b [<-|Hid] Hb'.
      * assert (b = y) by congruence. subst b. rewrite (Hu i Hi). unfold w1. apply Mpi_Proofs2.update_same. exact Hlt.
      * apply Hc; [exact Hid|]. unfold w1. rewrite Mpi_Proofs2.update_other; [exact Hb'|]. intros ->. contradiction.
Qed.

Lemma owned_eq (h : list (option (nat * bool))) p : length h = length sh -> (forall id, at_ h id = at_ sh id \/ at_ h id = None) ->
  (forall id i, at_ sh id = Some (p, i) -> at_ h id = Some (p, i)) -> owned h p = owned sh p.
Proof.
  intros Hl Ha Ho. unfold owned. rewrite Hl. apply filter_ext_in'. intros id _.
  destruct (at_ sh id) as [[d i]|] eqn:E.
  - destruct (Nat.eqb_spec d p) as [->|Hne].
    + rewrite (Ho id i E), Nat.eqb_refl. reflexivity.
    + destruct (Ha id) as [E1|E1]; rewrite E1; [rewrite E; apply Nat.eqb_neq; exact Hne|reflexivity].
  - destruct (Ha id) as [E1|E1]; rewrite E1; [rewrite E|]; reflexivity.
Qed.
Lemma exist_owned (w : bodies) p : exist_all w (owned (shape w) p).
Proof. intros id Hid. apply owned_In in Hid. destruct Hid as [i Hi]. destruct (at_some w id p i Hi) as (b & Hb & _). eauto. Qed.

Lemma shape_of_ats (w w' : bodies) : length w' = length w ->
  (forall id a b, nth_error w' id = Some a -> nth_error w id = Some b ->
     option_map (fun b => (subdomain (bRest b), isSubdomain (bRest b))) a = option_map (fun b => (subdomain (bRest b), isSubdomain (bRest b))) b) -> shape w' = shape w.
Proof. intros Hl H. unfold shape. apply map_nth_ext; auto. Qed.

Lemma merge_one s k : J s -> 1 <= k < n -> let prog := [posvel_phase k; mbounds_phase k] in
  all_matched n prog s /\ (forall q, q <> 0 -> rounds prog s q = s q) /\
  exists wk w w', sc (s k) = Some wk /\ sc (s 0) = Some w /\ rounds prog s 0 = set_sc (s 0) (Some w') /\ merged_from wk w w' (owned sh k) /\ shape w' = sh.
Proof.
  intros HJ Hk prog. destruct (J_scene n sh Hn s k HJ ltac:(lia)) as (wk & Ek & Esk). destruct (J_scene n sh Hn s 0 HJ Hn) as (w & E0 & Es0).
  assert (Hsh : shape w = sh). { destruct HJ as (H1 & _). congruence. }
  assert (Hown : owned (shape wk) k = owned sh k).
  { destruct HJ as (_ & _ & _ & H4). destruct (H4 k Hk) as (h & Hh & Hl & Ha & Ho & _). assert (h = shape wk) by congruence. subst h. apply owned_eq; auto. }
  assert (X1 : exist_all wk (owned sh k)) by (rewrite <- Hown; apply exist_owned).
  assert (X2 : exist_all w (owned sh k)) by (rewrite <- Hsh; apply exist_owned).
  destruct (round_trip wk w (owned sh k) X1 X2) as (m & w1 & Eg & _ & Es1 & Hl1 & Hu1 & Hc1).
  assert (Hsh1 : shape w1 = sh).
  { rewrite <- Hsh. apply shape_of_ats; [exact Hl1|]. intros id a b Ha Hb. destruct (in_dec Nat.eq_dec id (owned sh k)) as [Hi|Hi].
    - destruct (Hc1 id Hi) as (? & c & c' & _ & A1 & A2 & _ & [_ A3] & _). rewrite A1 in Hb. rewrite A2 in Ha. injection Ha as <-. injection Hb as <-. cbn. rewrite A3. reflexivity.
    - rewrite (Hu1 id Hi) in Ha. congruence. }
  assert (X3 : exist_all w1 (owned sh k)) by (rewrite <- Hsh1; apply exist_owned).
  destruct (put_bounds_ok (fun id => match body_at wk id with Some x => bound x | None => None end) (owned sh k) (owned_NoDup _ _) w1 X3) as (w2 & E2 & Hl2 & Hu2 & Hc2).
  assert (Hsh2 : shape w2 = sh).
  { rewrite <- Hsh1. apply shape_of_ats; [exact Hl2|]. intros id a b Ha Hb. destruct (in_dec Nat.eq_dec id (owned sh k)) as [Hi|Hi].
    - destruct b as [b|]; [|exfalso; destruct (X3 id Hi) as [? ?]; congruence]. rewrite (Hc2 id b Hi Hb) in Ha. injection Ha as <-. reflexivity.
    - rewrite (Hu2 id Hi) in Ha. congruence. }
  destruct (rebound_spec (owned sh k) w2) as (w3 & E3 & Hl3 & Hn3 & Hs3).
  { intros id Hid. rewrite Hsh2. apply owned_In in Hid. destruct Hid as [i ->]. discriminate. }
  assert (Hsh3 : shape w3 = sh).
  { rewrite <- Hsh2. apply (rebound_shape (owned sh k)); [exact E3|]. intros id Hid. rewrite Hsh2. apply owned_In in Hid. destruct Hid as [i ->]. discriminate. }
  assert (R1 : forall q, round (posvel_phase k) s q = if q =? 0 then set_sc (s 0) (Some w1) else s q).
  { intros q. unfold posvel_phase. rewrite round_one. destruct (Nat.eqb_spec q 0) as [->|]; [|reflexivity].
    rewrite Ek, E0, Hown, Hsh, Eg, Es1. reflexivity. }
  assert (R2 : forall q, rounds prog s q = if q =? 0 then set_sc (s 0) (Some w3) else s q).
  { intros q. unfold prog. cbn [rounds]. unfold mbounds_phase. rewrite round_one, !R1. destruct (Nat.eqb_spec q 0) as [->|]; [|reflexivity].
    assert (Hk0 : k =? 0 = false) by (apply Nat.eqb_neq; lia). rewrite Hk0, Ek. cbn [sc set_sc]. rewrite Hown, Hsh1.
    unfold bounds_of. rewrite E2, E3. reflexivity. }
  split; [|split].
  - unfold prog. cbn. sp; auto; apply matched_one; lia.
  - intros q Hq. rewrite R2. apply Nat.eqb_neq in Hq. rewrite Hq. reflexivity.
  - exists wk, w, w3. sp; auto. { rewrite R2. reflexivity. }
    split; [congruence|]. split.
    + intros id Hid. rewrite <- (Hu1 id Hid), <- (Hu2 id Hid). destruct (nth_error w2 id) as [[b|]|] eqn:Eb.
      * rewrite (Hs3 id b Eb). apply inb_nIn in Hid. rewrite Hid. reflexivity.
      * apply Hn3. exact Eb.
      * apply nth_error_None. rewrite Hl3. apply nth_error_None. exact Eb.
    + intros id Hid. destruct (Hc1 id Hid) as (bk & b & b1 & A1 & A2 & A3 & A4 & A5 & A6).
      pose proof (Hc2 id b1 Hid A3) as A7. pose proof (Hs3 id _ A7) as A8. assert (Hb : inb id (owned sh k) = true) by (apply inb_In; exact Hid). rewrite Hb in A8.
      exists bk, b, (set_bounded (mkBody (bstate b1) (match body_at wk id with Some x => bound x | None => None end) (bRest b1)) true).
      sp; auto; cbn.
      * assert (E : body_at wk id = Some bk) by (apply body_at_some; exact A1). rewrite E. reflexivity.
      * apply A5.
      * destruct A5 as [_ A5]. rewrite A5. reflexivity.
Qed.

(** the master's scene after merging with the workers ws *)
Definition merged_all (s : nat -> lstate) (w w' : bodies) (ws : list nat) : Prop :=
  length w' = length w /\ shape w' = shape w /\
  (forall id b b', nth_error w id = Some (Some b) -> nth_error w' id = Some (Some b') ->
     (~ In (subdomain (bRest b)) ws -> b' = b) /\
     (forall k, subdomain (bRest b) = k -> In k ws -> exists wk bk, sc (s k) = Some wk /\ nth_error wk id = Some (Some bk) /\
        same_motion b' bk /\ bound b' = bound bk /\ stRest (bstate b') = stRest (bstate b) /\
        bRest b' = mkAttrs (subdomain (bRest b)) (isSubdomain (bRest b)) true)).

Lemma merge_rounds ws : NoDup ws -> (forall k, In k ws -> 1 <= k < n) -> forall s w, J s -> sc (s 0) = Some w ->
  let prog := flat_map (fun w => [posvel_phase w; mbounds_phase w]) ws in
  all_matched n prog s /\ (forall q, q <> 0 -> rounds prog s q = s q) /\
  exists w', rounds prog s 0 = set_sc (s 0) (Some w') /\ merged_all s w w' ws.
Proof.
  induction 1 as [|k ws Hnin Hnd IH]; intros Hws s w HJ Ew; cbv zeta.
  - cbn. split; [exact I|]. split; [reflexivity|]. exists w. split; [destruct (s 0); cbn in *; subst; reflexivity|]. split; [reflexivity|]. split; [reflexivity|].
    intros id b b' Hb Hb'. split; [intros _; congruence|]. intros k _ [].
  - cbn [flat_map]. rewrite all_matched_app, rounds_app'.
    destruct (merge_one s k HJ (Hws k (or_introl eq_refl))) as (A & B & wk & w0 & w1 & Ek & E0 & R0 & Hm & Hsh1).
    assert (w0 = w) by congruence. subst w0.
    set (s1 := rounds [posvel_phase k; mbounds_phase k] s) in *.
    assert (Hshw : shape w = sh). { destruct HJ as (H1 & _). unfold shp in H1. rewrite Ew in H1. cbn in H1. congruence. }
    assert (HJ1 : J s1).
    { apply (J_ext n sh Hn s s1); [|exact HJ]. intros p Hp. destruct (Nat.eq_dec p 0) as [->|Hp0].
      - rewrite R0. cbn. sp; auto. unfold shp. cbn. rewrite Ew. cbn. congruence.
      - rewrite (B p Hp0). auto. }
    destruct (IH (fun x Hx => Hws x (or_intror Hx)) s1 w1 HJ1) as (C & E & w' & R' & Hl' & Hs' & Hc'); [rewrite R0; reflexivity|].
    split; [auto|]. split; [intros q Hq; rewrite (E q Hq); apply B; exact Hq|].
    exists w'. split; [rewrite R', R0; reflexivity|]. destruct Hm as (Hl & Hu & Hc).
    split; [congruence|]. split; [congruence|].
    intros id b b' Hb Hb'.
    assert (Hown : In id (owned sh k) <-> subdomain (bRest b) = k).
    { rewrite owned_In, <- Hshw, at_shape. unfold body_at. rewrite Hb. cbn. split; [intros [i Hi]; congruence|]. intros <-. eauto. }
    destruct (Nat.eq_dec (subdomain (bRest b)) k) as [Hd|Hd].
    + destruct (Hc id (proj2 Hown Hd)) as (bk & b0 & b1 & A1 & A2 & A3 & A4 & A5 & A6 & A7).
      assert (b0 = b) by congruence. subst b0.
      destruct (Hc' id b1 b' A3 Hb') as [Hk1 _]. assert (Hs1 : subdomain (bRest b1) = k) by (rewrite A7; exact Hd).
      rewrite Hs1 in Hk1. specialize (Hk1 Hnin). subst b1.
      split; [intros H; exfalso; apply H; left; congruence|].
      intros j Hj _. replace j with k by congruence. exists wk, bk. sp; auto.
    + assert (Hb1 : nth_error w1 id = Some (Some b)) by (rewrite Hu; [exact Hb|rewrite Hown; exact Hd]).
      destruct (Hc' id b b' Hb1 Hb') as [Hk1 Hk2]. split.
      * intros H. apply Hk1. intros Hin. apply H. right; exact Hin.
      * intros j Hj [<-|Hin]; [contradiction|]. destruct (Hk2 j Hj Hin) as (wj & bj & A1 & A2). exists wj, bj.
        assert (Hj0 : j <> 0) by (specialize (Hws j (or_intror Hin)); lia). rewrite (B j Hj0) in A1. auto.
Qed.

Lemma merge_tri s acc : JA acc s -> all_matched n (merge_prog n) s /\ JA acc (rounds (merge_prog n) s) /\
  (forall q, q <> 0 -> rounds (merge_prog n) s q = s q) /\
  exists w w', sc (s 0) = Some w /\ rounds (merge_prog n) s 0 = set_sc (s 0) (Some w') /\ merged_all s w w' (workers n).
Proof.
  intros (HJ & Ho & Hi). destruct (J_scene n sh Hn s 0 HJ Hn) as (w & Ew & Ews).
  destruct (merge_rounds (workers n) (seq_NoDup _ _) (fun k Hk => proj1 (workers_In n k) Hk) s w HJ Ew) as (A & B & w' & R & Hm).
  fold (merge_prog n : list phase) in *.
  split; [exact A|]. split; [|split; [exact B|eauto]]. split; [|split].
  - apply (J_ext n sh Hn s); [|exact HJ]. intros p Hp. destruct (Nat.eq_dec p 0) as [->|Hp0].
    + rewrite R. cbn. sp; auto. unfold shp. cbn. rewrite Ew. cbn. f_equal. apply Hm.
    + rewrite (B p Hp0). auto.
  - intros Ha. destruct (Ho Ha) as (w0 & E0 & Hob). assert (w0 = w) by congruence. subst w0. exists w'. rewrite R. split; [reflexivity|].
    intros id b' Hb' H1 H2. destruct Hm as (Hl & Hs & Hc).
    destruct (nth_error w id) as [[b|]|] eqn:Eb.
    + destruct (Hc id b b' Eb Hb') as [Hk1 Hk2]. destruct (in_dec Nat.eq_dec (subdomain (bRest b)) (workers n)) as [Hin|Hin].
      * destruct (Hk2 _ eq_refl Hin) as (? & ? & _ & _ & _ & _ & _ & E). rewrite E. reflexivity.
      * rewrite (Hk1 Hin) in *. eapply Hob; eauto.
    + exfalso. assert (E : nth_error (shape w') id = nth_error (shape w) id) by congruence. unfold shape in E. rewrite !nth_error_map, Hb', Eb in E. discriminate.
    + exfalso. assert (E : nth_error (shape w') id = nth_error (shape w) id) by congruence. unfold shape in E. rewrite !nth_error_map, Hb', Eb in E. discriminate.
  - intros Ha. rewrite R. cbn. apply Hi. exact Ha.
Qed.

(** *** splitting, with what the force exchange needs *)
Definition P0b (acc : bool) (s : nat -> lstate) : Prop := exists w, sc (s 0) = Some w /\ shape w = sh /\ (acc = true -> own_bounded w).
Lemma JA_P0b acc s : JA acc s -> P0b acc s.
Proof.
  intros (HJ & Ho & _). destruct (J_scene n sh Hn s 0 HJ Hn) as (w & Ew & Es). exists w. split; [exact Ew|].
  split; [destruct HJ as (H1 & _); congruence|]. intros Ha. destruct (Ho Ha) as (w0 & E0 & H0). assert (w0 = w) by congruence. subst w0. exact H0.
Qed.
Lemma unbound_own (w : bodies) : own_bounded w -> own_bounded (unbound 0 w).
Proof.
  intros H id b Hb H1 H2. unfold unbound in Hb. rewrite nth_error_map in Hb. destruct (nth_error w id) as [[c|]|] eqn:Ec; cbn in Hb; try discriminate.
  injection Hb as <-. destruct (negb (isSubdomain (bRest c)) && negb (subdomain (bRest c) =? 0)) eqn:E.
  - cbn in H1. rewrite H1 in E. rewrite andb_false_r in E. discriminate.
  - eapply H; eauto.
Qed.
Lemma split_master s w : sc (s 0) = Some w -> shape w = sh -> own_bounded w -> master_touches_all L sh ->
  (exists w', sc (rounds (split_prog L n) s 0) = Some w' /\ own_bounded w') /\
  (forall k, 1 <= k < n -> inter (rounds (split_prog L n) s 0) k <> []).
Proof.
  intros Ew Hsh Hob Ht. unfold split_prog. rewrite !rounds_app'. cbn [rounds].
  assert (Hwk : forall k, In k (workers n) -> 1 <= k < n) by (intros k; apply workers_In).
  assert (N0 : inb 0 (workers n) = false) by (apply inb_nIn; rewrite workers_In; lia).
  destruct (scenes_rounds n Hn (workers n) Hwk s w Ew) as [_ R1]. set (s1 := rounds (map scene_phase (workers n)) s) in *.
  assert (E1 : s1 0 = s 0) by (rewrite R1, N0; reflexivity).
  set (s2 := round (prepare L) s1). set (w2 := dispatch L 0 (unbound 0 w)).
  assert (E2 : sc (s2 0) = Some w2). { unfold s2, prepare. rewrite round_local, E1, Ew. reflexivity. }
  assert (Hob2 : own_bounded w2). { eapply ats_own_bounded; [apply (g_dispatch _ _ G)|]. apply unbound_own. exact Hob. }
  assert (Hsh2 : shape w2 = sh). { unfold w2. rewrite (ats_shape _ _ (g_dispatch _ _ G 0 _)), unbound_shape. exact Hsh. }
  set (s3 := round (bounds_phase n) s2).
  assert (E3 : sc (s3 0) = Some w2).
  { unfold s3. change (round (bounds_phase n) s2 0) with (fold_left (fun sq a => set_box sq a (boxes (s2 a) a)) (srcs (bounds_phase n : phase) 0 (s2 0)) (s2 0)).
    destruct (fold_set_box (fun a => boxes (s2 a) a) (srcs (bounds_phase n : phase) 0 (s2 0)) (s2 0)) as [-> _]. exact E2. }
  set (s4 := round (detect L) s3). destruct (collide L 0 w2 (boxes (s3 0))) as [w4 l] eqn:Ec.
  assert (Hats4 : ats w4 = ats w2). { pose proof (g_collide _ _ G 0 w2 (boxes (s3 0))) as H. rewrite Ec in H. exact H. }
  assert (Hsh4 : shape w4 = sh) by (rewrite (ats_shape _ _ Hats4); exact Hsh2).
  assert (E4 : sc (s4 0) = Some w4 /\ inter (s4 0) = gen 0 sh l).
  { unfold s4, detect. rewrite round_local, E3, Ec, Hsh4. auto. }
  destruct (mirror0_rounds n Hn (workers n) (seq_NoDup _ _) Hwk s4) as [_ R5]. set (s5 := rounds (map mirror0_phase (workers n)) s4) in *.
  assert (E5 : s5 0 = s4 0) by (rewrite R5, N0; reflexivity).
  set (s6 := round mirror_phase s5). assert (E6 : s6 0 = s5 0) by reflexivity.
  assert (Esc6 : sc (s6 0) = Some w4) by (rewrite E6, E5; apply E4).
  unfold finish_split. rewrite round_local, Esc6. cbn [Nat.eqb]. split.
  - exists (fst (collide L 0 w4 (boxes (s6 0)))). split; [reflexivity|].
    eapply ats_own_bounded; [apply (g_collide _ _ G)|]. eapply ats_own_bounded; [exact Hats4|exact Hob2].
  - intros k Hk. cbn [inter set_sc]. rewrite E6, E5. destruct E4 as [_ ->].
    destruct (gen_lists_master n sh l HR) as [Hm _]. destruct (Hm k Hk) as (sd & Hsd & ->).
    destruct (Ht w2 (boxes (s3 0)) sd k Hsh2 Hob2 Hsd) as (o & Ho & Hoa). rewrite Ec in Ho. cbn [snd] in Ho.
    intros E. assert (Hx : In o (touch sh l 0 sd)) by (apply touch_In; auto). rewrite E in Hx. exact Hx.
Qed.

Context (acc : bool) (Hacc : acc = true -> master_touches_all L sh).

Lemma split_JA : tri n (P0b acc) (split_prog L n) (JA acc).
Proof.
  intros s (w & Ew & Hsh & Hob).
  destruct (split_tri L ovl G n sh HR Hfull Hn s) as [A HJ].
  { unfold P0, shp. rewrite Ew. cbn. congruence. }
  split; [exact A|]. split; [exact HJ|]. destruct acc; [|split; discriminate].
  destruct (split_master s w Ew Hsh (Hob eq_refl) (Hacc eq_refl)) as [B C]. split; [intros _; exact B|].
  intros _. destruct HJ as (_ & HL & _). rewrite (lo5 _ _ _ HL). apply filter_all. intros k Hk. apply workers_In in Hk.
  specialize (C k Hk). apply is_nil_false in C. rewrite C. reflexivity.
Qed.

Lemma keeps_split : Forall (fun ph : phase => keeps_stop ph /\ fin_stop ph) (split_prog L n).
Proof.
  unfold split_prog. rewrite !Forall_app. sp.
  - apply Forall_forall. intros ph Hph. apply in_map_iff in Hph. destruct Hph as (w & <- & _). split; intros p s; [intros k m; cbn; destruct m; reflexivity|reflexivity].
  - repeat (constructor; [split|]).
    + intros p s k m. reflexivity.
    + intros p s. cbn. destruct (sc s); [|reflexivity]. destruct (p =? 0); reflexivity.
    + intros p s k m. cbn. destruct m; reflexivity.
    + intros p s. reflexivity.
    + intros p s k m. reflexivity.
    + intros p s. cbn. destruct (sc s); [|reflexivity]. destruct (collide L p b (boxes s)). reflexivity.
    + constructor.
  - apply Forall_forall. intros ph Hph. apply in_map_iff in Hph. destruct Hph as (w & <- & _). split; intros p s; [intros k m|reflexivity].
    unfold mirror0_phase, one. cbn [recv]. destruct m as [| |[|i l]| | | | |]; try reflexivity. cbv zeta. destruct (in_dec _ _ _); reflexivity.
  - repeat (constructor; [split|]).
    + intros p s k m. cbn. destruct m; reflexivity.
    + intros p s. reflexivity.
    + intros p s k m. reflexivity.
    + intros p s. cbn. destruct (sc s); [|reflexivity]. destruct (if p =? 0 then _ else _); reflexivity.
    + constructor.
Qed.
Lemma keeps_merge : Forall (fun ph : phase => keeps_stop ph /\ fin_stop ph) (merge_prog n).
Proof.
  unfold merge_prog. apply Forall_forall. intros ph Hph. apply in_flat_map in Hph. destruct Hph as (w & _ & [<-|[<-|[]]]); split; intros p s.
  - intros k m. cbn. destruct m, (sc s); reflexivity.
  - reflexivity.
  - intros k m. cbn. destruct m, (sc s); reflexivity.
  - reflexivity.
Qed.

Definition agree (s : nat -> lstate) : Prop := exists b, forall p, p < n -> stop (s p) = b.

Lemma tri_weaken (P P' Q Q' : (nat -> lstate) -> Prop) (prog : list phase) :
  (forall s, P' s -> P s) -> (forall s, Q s -> Q' s) -> tri n P prog Q -> tri n P' prog Q'.
Proof. intros H1 H2 H s Hs. destruct (H s (H1 s Hs)). auto. Qed.

Lemma reset_tri : tri n (JA acc) [check_reset] (fun s => JA acc s /\ forall p, p < n -> stop (s p) = false).
Proof.
  apply tri_one. intros s H. split; [apply matched_local|].
  assert (E : forall p, p < n -> round (check_reset : phase) s p = set_stop (s p) false).
  { intros p Hp. unfold check_reset. rewrite round_local. destruct (J_scene n sh Hn s p (proj1 H) Hp) as (w & Ew & _). rewrite Ew. reflexivity. }
  split; [|intros p Hp; rewrite (E p Hp); reflexivity].
  destruct H as (HJ & Ho & Hi). split; [|split].
  - apply (J_ext n sh Hn s); [|exact HJ]. intros p Hp. rewrite (E p Hp). auto.
  - intros Ha. rewrite (E 0 Hn). auto.
  - intros Ha. rewrite (E 0 Hn). auto.
Qed.
Lemma checks_tri : tri n (fun s => JA acc s /\ agree s) (checks L n) (fun s => JA acc s /\ agree s).
Proof.
  intros s [H [b Hb]]. destruct (checks_rounds (seq 0 n)) with (b := b) (s := s) as [A E]; auto.
  { intros sd Hsd. apply in_seq in Hsd. lia. }
  { intros p Hp. destruct (J_scene n sh Hn s p (proj1 H) Hp) as (w & Ew & _). eauto. }
  split; [exact A|]. unfold checks. split.
  - destruct H as (HJ & Ho & Hi). split; [|split].
    + apply (J_ext n sh Hn s); [|exact HJ]. intros p Hp. rewrite (E p Hp). auto.
    + intros Ha. rewrite (E 0 Hn). auto.
    + intros Ha. rewrite (E 0 Hn). auto.
  - exists (b || existsb (act s) (seq 0 n)). intros p Hp. rewrite (E p Hp). reflexivity.
Qed.

Lemma guard_tri b prog : Forall (fun ph : phase => keeps_stop ph /\ fin_stop ph) prog -> tri n (JA acc) prog (JA acc) ->
  tri n (fun s => JA acc s /\ agree s) (map (guard b) prog) (fun s => JA acc s /\ agree s).
Proof.
  intros Hf Ht s [H [c Hc]]. destruct (bool_dec c b) as [->|Hne].
  - destruct (Ht s H) as [A HQ]. destruct (guards_on n b prog Hf s Hc A) as (B & E & Hs). split; [exact B|]. split; [eapply JA_eqn; eauto|].
    exists b. intros p Hp. rewrite <- (E p Hp). apply Hs. exact Hp.
  - assert (Hcb : c = negb b) by (destruct b, c; try reflexivity; contradiction Hne; reflexivity). subst c. destruct (guards_off n b prog s Hc) as [A E]. split; [exact A|].
    split; [eapply JA_eqn; eauto|]. exists (negb b). intros p Hp. rewrite <- (E p Hp). apply Hc. exact Hp.
Qed.
Lemma step_JA : tri n (JA acc) (step_prog Fadd L acc n) (JA acc).
Proof.
  intros s H. destruct (step_tri Fadd L ovl G n sh Hn acc s H) as [A K]. split; [exact A|]. eapply keep_JA; eauto.
Qed.
Lemma merge_JA : tri n (JA acc) (merge_prog n) (JA acc).
Proof. intros s H. destruct (merge_tri s acc H) as (A & B & _). auto. Qed.

Lemma run_plain_tri chk k : tri n (JA acc) (run_plain Fadd L acc n chk k) (fun s => JA acc s /\ agree s).
Proof.
  unfold run_plain. change (check_reset :: ?l) with ([check_reset : phase] ++ l). eapply tri_app; [apply reset_tri|].
  eapply tri_weaken with (P := fun s => JA acc s /\ agree s) (Q := fun s => JA acc s /\ agree s).
  { intros s [H1 H2]. split; [exact H1|exists false; exact H2]. } { auto. }
  induction k as [|k IH]; cbn [repeat concat]; [apply tri_nil|].
  eapply tri_app; [|exact IH]. eapply tri_app.
  - apply guard_tri; [apply step_stops|apply step_JA].
  - destruct chk; [apply checks_tri|apply tri_nil].
Qed.
Lemma run_ms_tri k : tri n (JA acc) (run_ms Fadd L acc n k) (fun s => JA acc s /\ (k <> 0 -> agree s)).
Proof.
  induction k as [|k IH]; cbn [run_ms].
  - eapply tri_weaken; [..|apply tri_nil]; [intros s H; exact H|]. intros s H. split; [exact H|]. intros H0; contradiction.
  - eapply tri_app; [apply step_JA|]. eapply tri_app; [apply reset_tri|].
    assert (Hc : tri n (fun s => JA acc s /\ forall p, p < n -> stop (s p) = false) (checks L n) (fun s => JA acc s /\ agree s)).
    { eapply tri_weaken; [..|apply checks_tri]; [|auto]. intros s [H1 H2]. split; [exact H1|exists false; exact H2]. }
    eapply tri_app; [exact Hc|]. destruct k as [|k].
    + cbn [run_ms app]. eapply tri_weaken; [..|apply tri_nil]; [intros s H; exact H|]. intros s [H1 H2]. split; auto.
    + eapply tri_app.
      * apply guard_tri; [apply Forall_app; split; [apply keeps_merge|apply keeps_split]|].
        eapply tri_app; [apply merge_JA|]. eapply tri_weaken; [..|apply split_JA]; [intros s H; apply JA_P0b; exact H|auto].
      * eapply tri_weaken; [..|exact IH]; [intros s [H _]; exact H|]. intros s [H1 H2]. split; [exact H1|]. intros _. apply H2. discriminate.
Qed.

(** has the scene ever been distributed? *)
Definition ever (e : bool) (l : list call) : bool := e || existsb (fun x => match x with Run _ _ => true | Merge => false end) l.
Definition inv (e : bool) (s : nat -> lstate) : Prop := if e then JA acc s else P0b acc s.
Lemma session_tri l : forall sp chk e, (sp = true -> e = true) -> tri n (inv e) (session Fadd L acc n sp chk l) (inv (ever e l)).
Proof.
  induction l as [|[k ms|] l IH]; intros sp chk e He; cbn [session].
  - unfold ever. cbn. rewrite orb_false_r. apply tri_nil.
  - assert (Hev : ever e (Run k ms :: l) = ever true l) by (unfold ever; cbn; rewrite orb_true_r; reflexivity). rewrite Hev.
    eapply tri_app with (Q := JA acc).
    { destruct sp.
      - rewrite (He eq_refl). apply tri_nil.
      - eapply tri_weaken; [..|apply split_JA]; [|auto]. intros s Hs. destruct e; [apply JA_P0b; exact Hs|exact Hs]. }
    eapply tri_app with (Q := JA acc).
    { destruct ms; [eapply tri_weaken; [..|apply run_ms_tri]|eapply tri_weaken; [..|apply run_plain_tri]]; auto; intros s [H _]; exact H. }
    apply (IH true _ true). auto.
  - assert (Hev : ever e (Merge :: l) = ever e l) by reflexivity. rewrite Hev.
    eapply tri_app with (Q := inv e).
    { destruct sp; [rewrite (He eq_refl); apply merge_JA|apply tri_nil]. }
    apply IH. discriminate.
Qed.
End Session.
