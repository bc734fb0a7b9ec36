(** Proofs about the exchanges of mpy.py, part 2: splitting the scene. *)
From Coq Require Import List Arith Bool Lia.
From Verif Require Import Subd_Model Subd_Spec Subd_Proofs Comm_Model Comm_Spec Comm_Proofs Mpi_Model Mpi_Spec Mpi_Proofs1.
Import ListNotations.

Definition inb (x : nat) (l : list nat) : bool := if in_dec Nat.eq_dec x l then true else false.
Lemma inb_In x l : inb x l = true <-> In x l.
Proof. unfold inb. destruct (in_dec Nat.eq_dec x l); split; auto; discriminate. Qed.
Lemma inb_nIn x l : inb x l = false <-> ~ In x l.
Proof. unfold inb. destruct (in_dec Nat.eq_dec x l); split; auto; try discriminate. intros H; contradiction. Qed.

Section General.
Context {S M : Type} (n : nat).
Lemma all_matched_app (l l' : list (phase S M)) s :
  all_matched n (l ++ l') s <-> all_matched n l s /\ all_matched n l' (rounds l s).
Proof. revert s. induction l as [|ph l IH]; intros s; cbn; [tauto|]. rewrite IH. tauto. Qed.
Lemma rounds_app' (l l' : list (phase S M)) s : rounds (l ++ l') s = rounds l' (rounds l s).
Proof. revert s. induction l as [|ph l IH]; intros s; cbn; auto. Qed.

(** from any state with P the program has all messages matched and ends with Q *)
Definition tri (P : (nat -> S) -> Prop) (prog : list (phase S M)) (Q : (nat -> S) -> Prop) : Prop :=
  forall s, P s -> all_matched n prog s /\ Q (rounds prog s).
Lemma tri_app P Q R l l' : tri P l Q -> tri Q l' R -> tri P (l ++ l') R.
Proof.
  intros H1 H2 s Hs. destruct (H1 s Hs) as [A B]. destruct (H2 _ B) as [C E].
  rewrite rounds_app'. split; [apply all_matched_app; auto|exact E].
Qed.
Lemma tri_nil P : tri P [] P.
Proof. intros s Hs. split; [exact I|exact Hs]. Qed.
Lemma tri_one (P : (nat -> S) -> Prop) (ph : phase S M) Q : (forall s, P s -> matched n ph s /\ Q (round ph s)) -> tri P [ph] Q.
Proof. intros H s Hs. destruct (H s Hs). cbn. auto. Qed.
End General.

Section Bodies.
Context {D X : Type}.
Notation bodies := (bodies D X attrs).

Lemma update_length (w : bodies) id b : length (update w id b) = length w.
Proof. revert id. induction w as [|x w IH]; intros [|id]; cbn; auto. Qed.
Lemma update_same (w : bodies) id b : id < length w -> nth_error (update w id b) id = Some (Some b).
Proof. revert id. induction w as [|x w IH]; intros [|id] H; cbn in *; try lia; auto. apply IH. lia. Qed.
Lemma update_other (w : bodies) id b j : j <> id -> nth_error (update w id b) j = nth_error w j.
Proof. revert id j. induction w as [|x w IH]; intros [|id] [|j] H; cbn; auto; try congruence. Qed.

(** rebounding changes the flag of the listed bodies only *)
Lemma rebound_spec ids : forall (w : bodies), (forall id, In id ids -> at_ (shape w) id <> None) ->
  exists w', rebound w ids = Some w' /\ length w' = length w /\
    (forall id, nth_error w' id = Some None <-> nth_error w id = Some None) /\
    (forall id b, nth_error w id = Some (Some b) ->
       nth_error w' id = Some (Some (if inb id ids then set_bounded b true else b))).
Proof.
  induction ids as [|i ids IH]; intros w H; cbn [rebound].
  - exists w. split; [reflexivity|]. split; [reflexivity|]. split; [tauto|]. intros id b Hb. exact Hb.
  - pose proof (H i (or_introl eq_refl)) as Hi. rewrite at_shape in Hi.
    destruct (body_at w i) as [b|] eqn:Eb; [|contradiction Hi; reflexivity].
    apply body_at_some in Eb. assert (Hlt : i < length w) by (apply nth_error_Some; congruence).
    set (w1 := update w i (set_bounded b true)).
    destruct (IH w1) as (w' & E & Hl & Hn & Hs).
    + intros id Hid. rewrite at_shape. unfold body_at, w1. destruct (Nat.eq_dec id i) as [->|Hne].
      * rewrite update_same by exact Hlt. discriminate.
      * rewrite update_other by exact Hne. specialize (H id (or_intror Hid)). rewrite at_shape in H. exact H.
    + exists w'. split; [exact E|]. split; [rewrite Hl; apply update_length|]. split.
      * intros id. rewrite Hn. unfold w1. destruct (Nat.eq_dec id i) as [->|Hne].
        { rewrite update_same by exact Hlt. rewrite Eb. split; discriminate. }
        { rewrite update_other by exact Hne. tauto. }
      * intros id c Hc. destruct (Nat.eq_dec id i) as [->|Hne].
        { assert (c = b) by congruence. subst c. rewrite (Hs i (set_bounded b true)).
          - assert (X1 : inb i (i :: ids) = true) by (apply inb_In; left; reflexivity). rewrite X1.
            destruct (inb i ids); reflexivity.
          - unfold w1. apply update_same. exact Hlt. }
        { rewrite (Hs id c); [|unfold w1; rewrite update_other by exact Hne; exact Hc].
          assert (X1 : inb id (i :: ids) = inb id ids).
          { apply Bool.eq_iff_eq_true. rewrite !inb_In. cbn. split; [intros [?|?]; [congruence|assumption]|auto]. }
          rewrite X1. reflexivity. }
Qed.
Lemma map_nth_ext {A C} (f : A -> C) (l l' : list A) :
  length l = length l' -> (forall i a b, nth_error l i = Some a -> nth_error l' i = Some b -> f a = f b) -> map f l = map f l'.
Proof.
  revert l'. induction l as [|x l IH]; intros [|y l'] Hl H; cbn in *; try discriminate; auto.
  f_equal; [apply (H 0); reflexivity|]. apply IH; [lia|]. intros i a b Ha Hb. apply (H (Datatypes.S i)); assumption.
Qed.
Lemma rebound_shape ids (w w' : bodies) : rebound w ids = Some w' -> (forall id, In id ids -> at_ (shape w) id <> None) ->
  shape w' = shape w.
Proof.
  intros E H. destruct (rebound_spec ids w H) as (w2 & E2 & Hl & Hn & Hs).
  assert (w2 = w') by congruence. subst w2. unfold shape. apply map_nth_ext; [exact Hl|].
  intros i a b Ha Hb. destruct b as [b|].
  - rewrite (Hs i b Hb) in Ha. injection Ha as <-. destruct (inb i ids); reflexivity.
  - apply Hn in Hb. rewrite Hb in Ha. injection Ha as <-. reflexivity.
Qed.

Lemma erase_remote_spec p : forall (w : bodies), (forall id, id < length w -> exists b, nth_error w id = Some (Some b)) ->
  exists w', erase_remote p w = Some w' /\ length w' = length w /\
    forall id b, nth_error w id = Some (Some b) ->
      nth_error w' id = Some (if negb (bounded (bRest b)) && negb (subdomain (bRest b) =? p) then None else Some b).
Proof.
  induction w as [|x w IH]; intros H; cbn [erase_remote].
  - exists []. split; [reflexivity|]. split; [reflexivity|]. intros [|id] b Hb; discriminate.
  - destruct (H 0 ltac:(cbn; lia)) as [b Hb]. cbn in Hb. injection Hb as ->.
    destruct IH as (w' & E & Hl & Hs).
    + intros id Hid. apply (H (Datatypes.S id)). cbn. lia.
    + rewrite E. eexists. split; [reflexivity|]. split; [cbn; rewrite Hl; reflexivity|].
      intros [|id] c Hc; cbn in *.
      * injection Hc as <-. reflexivity.
      * apply Hs. exact Hc.
Qed.
Lemma unbound_nth p (w : bodies) id b : nth_error (unbound p w) id = Some (Some b) ->
  exists c, nth_error w id = Some (Some c) /\ (isSubdomain (bRest b) = false -> subdomain (bRest b) <> p -> bounded (bRest b) = false).
Proof.
  unfold unbound. rewrite nth_error_map. destruct (nth_error w id) as [[c|]|]; cbn; try discriminate.
  intros E. injection E as <-. exists c. split; [reflexivity|].
  destruct (negb (isSubdomain (bRest c)) && negb (subdomain (bRest c) =? p)) eqn:Ec; cbn.
  - reflexivity.
  - intros Hi Hs. rewrite Hi in Ec. cbn in Ec. apply negb_false_iff, Nat.eqb_eq in Ec. contradiction.
Qed.
Lemma unbound_shape p (w : bodies) : shape (unbound p w) = shape w.
Proof.
  unfold shape, unbound. rewrite map_map. apply map_ext. intros [b|]; cbn; [|reflexivity].
  destruct (_ && _); reflexivity.
Qed.
Lemma ats_nth (w w' : bodies) id b : ats w' = ats w -> nth_error w' id = Some (Some b) ->
  exists c, nth_error w id = Some (Some c) /\ bRest b = bRest c.
Proof.
  intros E H. assert (E2 : nth_error (ats w') id = Some (Some (bRest b))) by (unfold ats; rewrite nth_error_map, H; reflexivity).
  rewrite E in E2. unfold ats in E2. rewrite nth_error_map in E2. destruct (nth_error w id) as [[c|]|]; cbn in E2; try discriminate.
  injection E2 as E2. exists c. auto.
Qed.
End Bodies.

(** ** facts on the lists that hold after splitting *)
Record lists_ok (n : nat) (sh : list (option (nat * bool))) (I : nat -> nat -> list nat) : Prop := mkLO {
  lo1 : forall p, 1 <= p < n -> NoDup (I p p) /\ forall k, In k (I p p) -> k < n /\ k <> p;
  lo2 : forall p, 1 <= p < n -> (In 0 (I p p) <-> I 0 p <> []);
  lo3 : forall p k, 1 <= p < n -> 1 <= k < n -> (In k (I p p) <-> In p (I k k));
  lo4 : forall p k, p < n -> 1 <= k < n -> k <> p -> NoDup (I p k) /\ forall id, In id (I p k) -> at_ sh id = Some (p, false);
  lo5 : I 0 0 = filter (fun k => negb (is_nil (I 0 k))) (workers n) }.

Section Split.
Context {D X Bx F : Type} (Fadd : F -> F -> F).
Notation bodies := (bodies D X attrs).
Notation lstate := (@lstate D X Bx F).
Notation message := (@message D X Bx F).
Context (L : @locals D X Bx F) (ovl : Bx -> Bx -> bool) (G : good L ovl).
Context (n : nat) (sh : list (option (nat * bool))) (HR : sd_ranks sh = workers n).
Context (Hfull : forall id, id < length sh -> at_ sh id <> None).
Context (Hn : 0 < n).

(** state in which steps are made *)
Definition shp (s : lstate) : option (list (option (nat * bool))) := option_map (@shape D X) (sc s).
Definition J (s : nat -> lstate) : Prop :=
  shp (s 0) = Some sh /\
  lists_ok n sh (fun p => inter (s p)) /\
  (forall p k, 1 <= p < n -> mirror (s p) k = if (k =? 0) || inb k (inter (s p) p) then inter (s k) p else []) /\
  (forall p, 1 <= p < n -> exists h, shp (s p) = Some h /\ length h = length sh /\
     (forall id, at_ h id = at_ sh id \/ at_ h id = None) /\
     (forall id i, at_ sh id = Some (p, i) -> at_ h id = Some (p, i)) /\
     (forall id k, In k (inter (s p) p) -> In id (inter (s k) p) -> at_ h id = at_ sh id)).

Lemma J_ext s s' : (forall p, p < n -> shp (s' p) = shp (s p) /\ inter (s' p) = inter (s p) /\ mirror (s' p) = mirror (s p)) ->
  J s -> J s'.
Proof.
  intros E (H1 & H2 & H3 & H4). split; [|split; [|split]].
  - destruct (E 0 Hn) as (-> & _). exact H1.
  - destruct H2 as [a b c d e]. constructor.
    + intros p Hp. destruct (E p ltac:(lia)) as (_ & -> & _). apply a; exact Hp.
    + intros p Hp. destruct (E p ltac:(lia)) as (_ & -> & _). destruct (E 0 Hn) as (_ & -> & _). apply b; exact Hp.
    + intros p k Hp Hk. destruct (E p ltac:(lia)) as (_ & -> & _). destruct (E k ltac:(lia)) as (_ & -> & _). apply c; assumption.
    + intros p k Hp Hk. destruct (E p ltac:(lia)) as (_ & -> & _). apply d; assumption.
    + destruct (E 0 Hn) as (_ & -> & _). exact e.
  - intros p k Hp. destruct (E p ltac:(lia)) as (_ & -> & ->). rewrite (H3 p k Hp).
    destruct ((k =? 0) || inb k (inter (s p) p)) eqn:Ek; [|reflexivity].
    assert (Hk : k < n).
    { apply orb_true_iff in Ek. destruct Ek as [Ek|Ek]; [apply Nat.eqb_eq in Ek; lia|].
      apply inb_In in Ek. apply (lo1 _ _ _ H2 p Hp) in Ek. lia. }
    destruct (E k Hk) as (_ & -> & _). reflexivity.
  - intros p Hp. destruct (H4 p Hp) as (h & Hh & Hl & Ha & Hb & Hc). destruct (E p ltac:(lia)) as (-> & -> & _).
    exists h. split; [exact Hh|]. split; [exact Hl|]. split; [exact Ha|]. split; [exact Hb|].
    intros id k Hk Hid. apply (Hc id k Hk). assert (Hk' : k < n) by (apply (lo1 _ _ _ H2 p Hp) in Hk; lia).
    destruct (E k Hk') as (_ & Ei & _). rewrite <- Ei. exact Hid.
Qed.

(** *** single messages and local phases *)
Lemma matched_one t a b (m : lstate -> message) r s : a < n -> b < n -> a <> b -> matched n (one t a b m r) s.
Proof.
  intros Ha Hb Hab p Hp. cbn.
  assert (ND : forall x (c : bool), NoDup (if c then [x] else [] : list nat)).
  { intros x [|]; constructor; auto; constructor. }
  split; [apply ND|]. split; [apply ND|]. split; [|split].
  - intros q Hq. destruct (p =? b); [|destruct Hq]. destruct Hq as [<-|[]]. exact Ha.
  - intros q Hq. destruct (p =? a); [|destruct Hq]. destruct Hq as [<-|[]]. exact Hb.
  - intros q Hq. split.
    + destruct (Nat.eqb_spec p a) as [->|]; [|intros []]. intros [->|[]]. rewrite Nat.eqb_refl. left; reflexivity.
    + destruct (Nat.eqb_spec q b) as [->|]; [|intros []]. intros [->|[]]. rewrite Nat.eqb_refl. left; reflexivity.
Qed.
Lemma round_one t a b (m : lstate -> message) r s q :
  round (one t a b m r) s q = if q =? b then r (s q) (m (s a)) else s q.
Proof. unfold round, one. cbn. destruct (q =? b); reflexivity. Qed.
Lemma matched_local f (s : nat -> lstate) : matched n (local f : phase lstate message) s.
Proof.
  intros p Hp. cbn. split; [constructor|]. split; [constructor|]. split; [intros q []|]. split; [intros q []|]. intros q _; split; intros [].
Qed.
Lemma round_local f (s : nat -> lstate) q :
  round (local f : phase lstate message) s q = match sc (s q) with Some w => f q w (s q) | None => s q end.
Proof. reflexivity. Qed.

Lemma scenes_rounds ws : (forall w, In w ws -> 1 <= w < n) -> forall (s : nat -> lstate) w0, sc (s 0) = Some w0 ->
  all_matched n (map scene_phase ws) s /\
  forall q, rounds (map scene_phase ws) s q = if inb q ws then set_sc (s q) (Some w0) else s q.
Proof.
  induction ws as [|w ws IH]; intros Hws s w0 H0; cbn [map all_matched rounds].
  - split; [exact I|]. intros q. reflexivity.
  - assert (Hw : 1 <= w < n) by (apply Hws; left; reflexivity).
    assert (E1 : forall q, round (scene_phase w) s q = if q =? w then set_sc (s q) (Some w0) else s q).
    { intros q. unfold scene_phase. rewrite round_one, H0. reflexivity. }
    destruct (IH (fun y Hy => Hws y (or_intror Hy)) (round (scene_phase w) s) w0) as [A B].
    { rewrite E1. destruct (0 =? w); [reflexivity|exact H0]. }
    split; [split; [apply matched_one; lia|exact A]|].
    intros q. rewrite B, E1.
    destruct (Nat.eqb_spec q w) as [->|Hne].
    + assert (X1 : inb w (w :: ws) = true) by (apply inb_In; left; reflexivity). rewrite X1. destruct (inb w ws); reflexivity.
    + assert (X1 : inb q (w :: ws) = inb q ws).
      { apply Bool.eq_iff_eq_true. rewrite !inb_In. cbn. split; [intros [?|?]; [congruence|assumption]|auto]. }
      rewrite X1. reflexivity.
Qed.

(** *** stages of the splitting *)
Definition P0 (s : nat -> lstate) : Prop := shp (s 0) = Some sh.
Definition S1 (s : nat -> lstate) : Prop := forall p, p < n -> shp (s p) = Some sh.
Definition S2 (s : nat -> lstate) : Prop := forall p, p < n -> exists w, sc (s p) = Some w /\ shape w = sh /\
  forall id b, nth_error w id = Some (Some b) -> isSubdomain (bRest b) = false -> subdomain (bRest b) <> p -> bounded (bRest b) = false.
Definition S3 (s : nat -> lstate) : Prop := S2 s /\ exists bx, forall p k, p < n -> 1 <= k < n -> boxes (s p) k = bx k.

Lemma split1 : tri n P0 (map scene_phase (workers n)) S1.
Proof.
  intros s H. unfold P0, shp in H. destruct (sc (s 0)) as [w0|] eqn:E0; [|discriminate].
  destruct (scenes_rounds (workers n) (fun w Hw => proj1 (workers_In n w) Hw) s w0 E0) as [A B]. split; [exact A|].
  intros p Hp. unfold shp. rewrite B. destruct (inb p (workers n)) eqn:Ei; [exact H|].
  assert (p = 0) as ->. { apply inb_nIn in Ei. rewrite workers_In in Ei. lia. }
  rewrite E0. exact H.
Qed.

Lemma split2 : tri n S1 [prepare L] S2.
Proof.
  apply tri_one. intros s H. split; [apply matched_local|].
  intros p Hp. specialize (H p Hp). unfold shp in H. unfold prepare. rewrite round_local.
  destruct (sc (s p)) as [w|]; [|discriminate]. cbn in H. injection H as H.
  exists (dispatch L p (unbound p w)). split; [destruct (p =? 0); reflexivity|]. split.
  - rewrite (ats_shape _ _ (g_dispatch _ _ G p _)), unbound_shape. exact H.
  - intros id b Hb Hi Hs. destruct (ats_nth _ _ _ _ (g_dispatch _ _ G p (unbound p w)) Hb) as (c & Hc & E).
    rewrite E in *. destruct (unbound_nth p w id c Hc) as (_ & _ & Hx). apply Hx; assumption.
Qed.

Lemma fold_set_box (f : nat -> Bx) l : forall s : lstate,
  sc (fold_left (fun sq a => set_box sq a (f a)) l s) = sc s /\
  forall k, boxes (fold_left (fun sq a => set_box sq a (f a)) l s) k = if inb k l then f k else boxes s k.
Proof.
  induction l as [|a l IH]; intros s; cbn [fold_left]; [split; reflexivity|].
  destruct (IH (set_box s a (f a))) as [A B]. split; [rewrite A; reflexivity|].
  intros k. rewrite B. cbn [set_box boxes]. destruct (inb k l) eqn:E.
  - assert (X1 : inb k (a :: l) = true) by (apply inb_In; right; apply inb_In; exact E). rewrite X1. reflexivity.
  - destruct (Nat.eqb_spec k a) as [->|Hne].
    + assert (X1 : inb a (a :: l) = true) by (apply inb_In; left; reflexivity). rewrite X1. reflexivity.
    + assert (X1 : inb k (a :: l) = false). { apply inb_nIn. apply inb_nIn in E. cbn. intros [H|H]; [congruence|contradiction]. }
      rewrite X1. reflexivity.
Qed.
Lemma split3 : tri n S2 [bounds_phase n] S3.
Proof.
  apply tri_one. intros s H.
  assert (Hs : forall p, p < n -> srcs (bounds_phase n : phase lstate message) p (s p) = filter (fun k => negb (k =? p)) (workers n)).
  { intros p Hp. destruct (H p Hp) as (w & E & Es & _). cbn. rewrite E, Es, HR. reflexivity. }
  split.
  - intros p Hp. rewrite (Hs p Hp). split; [apply NoDup_filter', seq_NoDup|]. split; [|split; [|split]].
    + cbn. destruct (p =? 0); [constructor|]. apply NoDup_filter', seq_NoDup.
    + intros q Hq. apply filter_In in Hq. destruct Hq as [Hq _]. apply workers_In in Hq. lia.
    + cbn. intros q Hq. destruct (p =? 0); [destruct Hq|]. apply filter_In in Hq. destruct Hq as [Hq _]. apply in_seq in Hq. lia.
    + intros q Hq. rewrite (Hs q Hq). cbn. rewrite filter_In, workers_In. destruct (Nat.eqb_spec p 0) as [->|Hp0].
      * split; [intros []|]. intros [H1 _]. lia.
      * rewrite filter_In, in_seq. destruct (Nat.eqb_spec q p); destruct (Nat.eqb_spec p q); cbn; split; intros [? ?]; try congruence; split; auto; lia.
  - assert (Hr : forall q, round (bounds_phase n) s q = fold_left (fun sq a => set_box sq a (boxes (s a) a)) (srcs (bounds_phase n : phase lstate message) q (s q)) (s q)).
    { intros q. reflexivity. }
    split.
    + intros p Hp. destruct (H p Hp) as (w & E & Es & Hb). exists w. rewrite Hr.
      destruct (fold_set_box (fun a => boxes (s a) a) (srcs (bounds_phase n : phase lstate message) p (s p)) (s p)) as [-> _]. auto.
    + exists (fun k => boxes (s k) k). intros p k Hp Hk. rewrite Hr, (Hs p Hp).
      destruct (fold_set_box (fun a => boxes (s a) a) (filter (fun k => negb (k =? p)) (workers n)) (s p)) as [_ ->].
      destruct (inb k (filter (fun k => negb (k =? p)) (workers n))) eqn:Ei; [reflexivity|].
      apply inb_nIn in Ei. rewrite filter_In, workers_In in Ei.
      destruct (Nat.eqb_spec k p) as [->|]; [reflexivity|]. exfalso. apply Ei. auto.
Qed.

(** lists as they are before the master's lists are known to the workers *)
Definition S4 (s : nat -> lstate) : Prop :=
  (forall p, p < n -> shp (s p) = Some sh) /\
  (forall p, 1 <= p < n -> NoDup (inter (s p) p) /\ forall k, In k (inter (s p) p) -> 1 <= k < n /\ k <> p) /\
  (forall p k, 1 <= p < n -> 1 <= k < n -> (In k (inter (s p) p) <-> In p (inter (s k) k))) /\
  (forall p k, p < n -> 1 <= k < n -> k <> p -> NoDup (inter (s p) k) /\ forall id, In id (inter (s p) k) -> at_ sh id = Some (p, false)) /\
  inter (s 0) 0 = filter (fun k => negb (is_nil (inter (s 0) k))) (workers n) /\
  (forall p k, p < n -> mirror (s p) k = []).

Lemma split4 : tri n S3 [detect L] S4.
Proof.
  apply tri_one. intros s [H [bx Hbx]]. split; [apply matched_local|].
  set (s' := round (detect L) s).
  assert (Hp : forall p, p < n -> exists w w1 l, sc (s p) = Some w /\ shape w = sh /\ shape w1 = sh /\
     collide L p w (boxes (s p)) = (w1, l) /\ s' p = set_mirror (set_inter (set_sc (s p) (Some w1)) (gen p sh l)) (fun _ => []) /\
     (forall sd, NoDup (others sd l)) /\
     (1 <= p -> forall sd, at_ sh sd = Some (p, true) -> filter (of0 sh) (others sd l) = []) /\
     (forall a b ka kb, at_ sh a = Some (ka, true) -> at_ sh b = Some (kb, true) -> ka <> kb -> (ka = p \/ kb = p) ->
        (In b (others a l) <-> ovl (bx ka) (bx kb) = true))).
  { intros p Hp. destruct (H p Hp) as (w & E & Es & Hb).
    destruct (collide L p w (boxes (s p))) as [w1 l] eqn:Ec.
    assert (Es1 : shape w1 = sh).
    { pose proof (g_collide _ _ G p w (boxes (s p))) as Xc. rewrite Ec in Xc. cbn in Xc. rewrite (ats_shape _ _ Xc). exact Es. }
    exists w, w1, l. split; [exact E|]. split; [exact Es|]. split; [exact Es1|]. split; [exact Ec|]. split; [|split; [|split]].
    - unfold s', detect. rewrite round_local, E, Ec, Es1. reflexivity.
    - intros sd. pose proof (g_once _ _ G p w (boxes (s p)) sd) as Xc. rewrite Ec in Xc. exact Xc.
    - intros Hp1 sd Hsd. destruct (filter (of0 sh) (others sd l)) as [|o os] eqn:Eo; [reflexivity|]. exfalso.
      assert (Ho : In o (filter (of0 sh) (others sd l))) by (rewrite Eo; left; reflexivity).
      apply filter_In in Ho. destruct Ho as [Ho H0]. unfold of0 in H0.
      destruct (at_ sh o) as [[d i]|] eqn:Ea; [|discriminate]. apply Nat.eqb_eq in H0. subst d.
      assert (i = false) as ->. { destruct i; [|reflexivity]. apply (sd_rank n sh HR) in Ea. lia. }
      rewrite <- Es in Ea, Hsd.
      destruct (g_bounded _ _ G p w (boxes (s p)) sd p o 0 Hsd Ea) as (b & Hbo & Hbb); [rewrite Ec; exact Ho|].
      destruct (at_some w o 0 false Ea) as (b' & Hb' & Hsub & His). assert (b' = b) by congruence. subst b'.
      rewrite (Hb o b Hbo His ltac:(lia)) in Hbb. discriminate.
    - intros a b ka kb Ha Hb' Hne Hor.
      assert (Ebx : forall k, 1 <= k < n -> boxes (s p) k = bx k) by (intros k Hk; apply Hbx; auto).
      rewrite <- (Ebx ka), <- (Ebx kb); [|eapply (sd_rank n sh HR); eassumption|eapply (sd_rank n sh HR); eassumption].
      rewrite <- Es in Ha, Hb'.
      pose proof (g_ovl _ _ G p w (boxes (s p)) a b ka kb Ha Hb' Hne Hor) as Xc. rewrite Ec in Xc. exact Xc. }
  assert (Hov : forall p k, 1 <= p < n -> k <> p -> (In k (inter (s' p) p) <-> 1 <= k < n /\ ovl (bx k) (bx p) = true)).
  { intros p k Hpn Hk. destruct (Hp p ltac:(lia)) as (w & w1 & l & _ & _ & _ & _ & -> & Hnd & H0 & Hovl).
    cbn [inter set_mirror set_inter]. destruct (gen_lists_worker n sh l HR p Hpn Hnd (H0 ltac:(lia))) as (_ & _ & _ & Hin).
    rewrite Hin. split.
    - intros (Hk1 & _ & a & b & Ea & Eb & Hab). split; [exact Hk1|]. apply (Hovl a b k p Ea Eb Hk ltac:(auto)). exact Hab.
    - intros (Hk1 & Ho). split; [exact Hk1|]. split; [exact Hk|].
      destruct (sd_exists n sh HR k Hk1) as [a Ea]. destruct (sd_exists n sh HR p Hpn) as [b Eb].
      exists a, b. split; [exact Ea|]. split; [exact Eb|]. apply (Hovl a b k p Ea Eb Hk ltac:(auto)). exact Ho. }
  split; [|split; [|split; [|split; [|split]]]].
  - intros p Hpn. destruct (Hp p Hpn) as (w & w1 & l & _ & _ & Es1 & _ & -> & _). unfold shp. cbn. rewrite Es1. reflexivity.
  - intros p Hpn. destruct (Hp p ltac:(lia)) as (w & w1 & l & _ & _ & _ & _ & -> & Hnd & H0 & _). cbn [inter set_mirror set_inter].
    destruct (gen_lists_worker n sh l HR p Hpn Hnd (H0 ltac:(lia))) as (_ & _ & Hndp & Hin). split; [exact Hndp|].
    intros k Hk. apply Hin in Hk. tauto.
  - intros p k Hpn Hkn. destruct (Nat.eq_dec p k) as [->|Hne]; [reflexivity|].
    rewrite (Hov p k Hpn) by congruence. rewrite (Hov k p Hkn) by congruence. rewrite (g_sym _ _ G (bx k) (bx p)). tauto.
  - intros p k Hpn Hkn Hne. destruct (Hp p Hpn) as (w & w1 & l & _ & _ & _ & _ & -> & Hnd & H0 & _). cbn [inter set_mirror set_inter].
    assert (Ht : exists sd, gen p sh l k = touch sh l p sd).
    { destruct (Nat.eq_dec p 0) as [->|Hp0].
      - destruct (gen_lists_master n sh l HR) as [Hm _]. destruct (Hm k Hkn) as (sd & _ & E). eauto.
      - destruct (gen_lists_worker n sh l HR p ltac:(lia) Hnd (H0 ltac:(lia))) as (Hw & _).
        destruct (Hw k Hkn Hne) as (sd & _ & E). eauto. }
    destruct Ht as [sd ->]. split; [apply NoDup_filter', Hnd|]. intros id Hid. apply touch_In in Hid. apply Hid.
  - destruct (Hp 0 Hn) as (w & w1 & l & _ & _ & _ & _ & -> & _). cbn [inter set_mirror set_inter].
    apply (gen_lists_master n sh l HR).
  - intros p k Hpn. destruct (Hp p Hpn) as (w & w1 & l & _ & _ & _ & _ & -> & _). reflexivity.
Qed.

(** the master's lists arrive *)
Definition recv0 (q : nat) (s : lstate) (ids : list nat) : lstate :=
  match ids with
  | [] => s
  | _ => let s1 := set_sc s (match sc s with Some b => rebound b ids | None => None end) in
         let s2 := set_mirror s1 (upd (mirror s1) 0 ids) in
         if in_dec Nat.eq_dec 0 (inter s2 q) then s2 else set_inter s2 (app_at (inter s2) q 0)
  end.
Lemma mirror0_rounds ws : NoDup ws -> (forall w, In w ws -> 1 <= w < n) -> forall (s : nat -> lstate),
  all_matched n (map mirror0_phase ws) s /\
  forall q, rounds (map mirror0_phase ws) s q = if inb q ws then recv0 q (s q) (inter (s 0) q) else s q.
Proof.
  intros Hnd. induction Hnd as [|w ws Hnin Hnd IH]; intros Hws s; cbn [map all_matched rounds].
  - split; [exact I|]. intros q. reflexivity.
  - assert (Hw : 1 <= w < n) by (apply Hws; left; reflexivity).
    assert (E1 : forall q, round (mirror0_phase w) s q = if q =? w then recv0 w (s q) (inter (s 0) w) else s q).
    { intros q. unfold mirror0_phase. rewrite round_one. unfold recv0. destruct (inter (s 0) w); reflexivity. }
    assert (E0 : round (mirror0_phase w) s 0 = s 0).
    { rewrite E1. destruct (Nat.eqb_spec 0 w); [lia|reflexivity]. }
    destruct (IH (fun y Hy => Hws y (or_intror Hy)) (round (mirror0_phase w) s)) as [A B].
    split; [split; [apply matched_one; lia|exact A]|].
    intros q. rewrite B, E0. rewrite E1. destruct (Nat.eqb_spec q w) as [->|Hne].
    + assert (X1 : inb w (w :: ws) = true) by (apply inb_In; left; reflexivity). rewrite X1.
      assert (X2 : inb w ws = false) by (apply inb_nIn; exact Hnin). rewrite X2. reflexivity.
    + assert (X1 : inb q (w :: ws) = inb q ws).
      { apply Bool.eq_iff_eq_true. rewrite !inb_In. cbn. split; [intros [?|?]; [congruence|assumption]|auto]. }
      rewrite X1. reflexivity.
Qed.

Definition bounded_in (w : bodies) (id : nat) : Prop := exists b, nth_error w id = Some (Some b) /\ bounded (bRest b) = true.

Definition S5 (s : nat -> lstate) : Prop :=
  shp (s 0) = Some sh /\
  lists_ok n sh (fun p => inter (s p)) /\
  (forall p, 1 <= p < n -> exists w, sc (s p) = Some w /\ shape w = sh /\ forall id, In id (inter (s 0) p) -> bounded_in w id) /\
  (forall p k, 1 <= p < n -> mirror (s p) k = if k =? 0 then inter (s 0) p else []).

Lemma rebound_bounded ids (w : bodies) : (forall id, In id ids -> at_ (shape w) id <> None) ->
  exists w', rebound w ids = Some w' /\ shape w' = shape w /\
    (forall id, In id ids -> bounded_in w' id) /\ (forall id, bounded_in w id -> bounded_in w' id).
Proof.
  intros H. destruct (rebound_spec ids w H) as (w' & E & Hl & Hnn & Hs). exists w'. split; [exact E|].
  split; [exact (rebound_shape ids w w' E H)|]. split.
  - intros id Hid. specialize (H id Hid). rewrite at_shape in H. destruct (body_at w id) as [b|] eqn:Eb; [|contradiction H; reflexivity].
    apply body_at_some in Eb. exists (set_bounded b true). rewrite (Hs id b Eb). apply inb_In in Hid. rewrite Hid. auto.
  - intros id (b & Hb & Hbb). exists (if inb id ids then set_bounded b true else b). rewrite (Hs id b Hb). split; [reflexivity|].
    destruct (inb id ids); [reflexivity|exact Hbb].
Qed.

Lemma split5 : tri n S4 (map mirror0_phase (workers n)) S5.
Proof.
  intros s (H1 & H2 & H3 & H4 & H5 & H6).
  destruct (mirror0_rounds (workers n) (seq_NoDup _ _) (fun w Hw => proj1 (workers_In n w) Hw) s) as [A B].
  split; [exact A|]. set (s' := rounds (map mirror0_phase (workers n)) s) in *.
  assert (B0 : s' 0 = s 0). { rewrite B. assert (X1 : inb 0 (workers n) = false) by (apply inb_nIn; rewrite workers_In; lia). rewrite X1. reflexivity. }
  assert (Bw : forall p, 1 <= p < n -> s' p = recv0 p (s p) (inter (s 0) p)).
  { intros p Hp. rewrite B. assert (X1 : inb p (workers n) = true) by (apply inb_In, workers_In; exact Hp). rewrite X1. reflexivity. }
  assert (Hno0 : forall p, 1 <= p < n -> ~ In 0 (inter (s p) p)).
  { intros p Hp H0. destruct (H2 p Hp) as [_ Hk]. apply Hk in H0. lia. }
  assert (Hin : forall p, 1 <= p < n -> forall k, inter (s' p) k = if (k =? p) && negb (is_nil (inter (s 0) p)) then inter (s p) p ++ [0] else inter (s p) k).
  { intros p Hp k. rewrite (Bw p Hp). unfold recv0. destruct (inter (s 0) p) as [|i ids] eqn:Ei.
    - cbn. rewrite andb_false_r. reflexivity.
    - cbn [inter set_mirror set_sc is_nil negb]. destruct (in_dec Nat.eq_dec 0 (inter (s p) p)) as [Hc|_]; [contradiction (Hno0 p Hp)|].
      cbn [inter set_inter]. unfold app_at, upd. rewrite andb_true_r. reflexivity. }
  assert (Hgen : forall p k, p < n -> k <> p -> inter (s' p) k = inter (s p) k).
  { intros p k Hp Hne. destruct (Nat.eq_dec p 0) as [->|Hp0]; [rewrite B0; reflexivity|].
    rewrite (Hin p ltac:(lia)). apply Nat.eqb_neq in Hne. rewrite Hne. reflexivity. }
  assert (HinIn : forall p k, 1 <= p < n -> k <> 0 -> (In k (inter (s' p) p) <-> In k (inter (s p) p))).
  { intros p k Hp Hk. rewrite (Hin p Hp p), Nat.eqb_refl. cbn [andb]. destruct (is_nil (inter (s 0) p)); cbn [negb]; [tauto|].
    rewrite in_app_iff. cbn. split; [intros [?|[?|[]]]; [assumption|congruence]|auto]. }
  split; [|split; [|split]].
  - rewrite B0. apply H1. exact Hn.
  - constructor.
    + intros p Hp. destruct (H2 p Hp) as [Hnd Hk]. split.
      * rewrite (Hin p Hp p), Nat.eqb_refl. cbn [andb]. destruct (is_nil (inter (s 0) p)); cbn [negb]; [exact Hnd|].
        apply NoDup_app_intro; [exact Hnd|constructor; [intros []|constructor]|]. intros x Hx [<-|[]]. exact (Hno0 p Hp Hx).
      * intros k Hkk. destruct (Nat.eq_dec k 0) as [->|Hk0]; [lia|]. apply HinIn in Hkk; auto. apply Hk in Hkk. lia.
    + intros p Hp. rewrite B0. rewrite (Hin p Hp p), Nat.eqb_refl. cbn [andb].
      destruct (is_nil (inter (s 0) p)) eqn:Ei; cbn [negb].
      * apply is_nil_true in Ei. split; [intros H0; contradiction (Hno0 p Hp)|congruence].
      * apply is_nil_false in Ei. split; [auto|]. intros _. apply in_app_iff. right; left; reflexivity.
    + intros p k Hp Hk. rewrite (HinIn p k Hp) by lia. rewrite (HinIn k p Hk) by lia. apply H3; assumption.
    + intros p k Hp Hk Hne. rewrite (Hgen p k Hp Hne). apply H4; assumption.
    + rewrite B0. exact H5.
  - intros p Hp. rewrite B0. rewrite (Bw p Hp). specialize (H1 p ltac:(lia)). unfold shp in H1.
    destruct (sc (s p)) as [w|] eqn:Ew; [|discriminate]. cbn in H1. injection H1 as H1.
    unfold recv0. destruct (inter (s 0) p) as [|i ids] eqn:Ei.
    + exists w. split; [exact Ew|]. split; [exact H1|]. intros id [].
    + destruct (rebound_bounded (i :: ids) w) as (w' & E & Hsw & Hb & _).
      { intros id Hid. rewrite H1. rewrite <- Ei in Hid. rewrite (proj2 (H4 0 p Hn Hp ltac:(lia)) id Hid). discriminate. }
      exists w'. rewrite Ew. rewrite E. split; [|split; [congruence|exact Hb]].
      destruct (in_dec Nat.eq_dec 0 _); reflexivity.
  - intros p k Hp. rewrite B0, (Bw p Hp). unfold recv0. destruct (inter (s 0) p) as [|i ids] eqn:Ei.
    + rewrite (H6 p k ltac:(lia)). destruct (k =? 0); reflexivity.
    + assert (Em : forall x : lstate, mirror (if in_dec Nat.eq_dec 0 (inter x p) then x else set_inter x (app_at (inter x) p 0)) = mirror x).
      { intros x. destruct (in_dec Nat.eq_dec 0 (inter x p)); reflexivity. }
      cbv zeta. rewrite Em. cbn [mirror set_mirror set_sc]. unfold upd. rewrite (H6 p k ltac:(lia)). reflexivity.
Qed.

Definition S6 (s : nat -> lstate) : Prop :=
  shp (s 0) = Some sh /\
  lists_ok n sh (fun p => inter (s p)) /\
  (forall p k, 1 <= p < n -> mirror (s p) k = if (k =? 0) || inb k (inter (s p) p) then inter (s k) p else []) /\
  (forall p, 1 <= p < n -> exists w, sc (s p) = Some w /\ shape w = sh /\
     forall id k, In k (inter (s p) p) -> In id (inter (s k) p) -> bounded_in w id).

Lemma fold_mirror (f : nat -> list nat) l : forall (s : lstate) w, sc s = Some w ->
  (forall k id, In k l -> In id (f k) -> at_ (shape w) id <> None) ->
  let s' := fold_left (fun sq k => set_mirror (set_sc sq (match sc sq with Some b => rebound b (f k) | None => None end)) (upd (mirror sq) k (f k))) l s in
  inter s' = inter s /\
  (exists w', sc s' = Some w' /\ shape w' = shape w /\ (forall k id, In k l -> In id (f k) -> bounded_in w' id) /\
     forall id, bounded_in w id -> bounded_in w' id) /\
  (forall j, mirror s' j = if inb j l then f j else mirror s j).
Proof.
  induction l as [|k l IH]; intros s w Hw Hex; cbn [fold_left].
  - split; [reflexivity|]. split; [exists w; split; [exact Hw|]; split; [reflexivity|]; split; [intros k id []|auto]|]. reflexivity.
  - destruct (rebound_bounded (f k) w) as (w1 & E1 & Hs1 & Hb1 & Hm1).
    { intros id Hid. apply (Hex k id (or_introl eq_refl) Hid). }
    set (s1 := set_mirror _ _).
    assert (Hw1 : sc s1 = Some w1). { unfold s1. cbn. rewrite Hw. exact E1. }
    destruct (IH s1 w1 Hw1) as (Hi & (w' & E' & Hs' & Hb' & Hm') & Hmir).
    { intros j id Hj Hid. rewrite Hs1. apply (Hex j id (or_intror Hj) Hid). }
    split; [rewrite Hi; reflexivity|]. split.
    + exists w'. split; [exact E'|]. split; [congruence|]. split.
      * intros j id [<-|Hj] Hid; [apply Hm', Hb1; exact Hid|apply (Hb' j id Hj Hid)].
      * intros id Hid. apply Hm', Hm1. exact Hid.
    + intros j. rewrite Hmir. unfold s1. cbn [mirror set_mirror set_sc]. unfold upd. destruct (inb j l) eqn:Ej.
      * assert (X1 : inb j (k :: l) = true) by (apply inb_In; right; apply inb_In; exact Ej). rewrite X1. reflexivity.
      * destruct (Nat.eqb_spec j k) as [->|Hne].
        { assert (X1 : inb k (k :: l) = true) by (apply inb_In; left; reflexivity). rewrite X1. reflexivity. }
        { assert (X1 : inb j (k :: l) = false). { apply inb_nIn. apply inb_nIn in Ej. cbn. intros [H|H]; [congruence|contradiction]. }
          rewrite X1. reflexivity. }
Qed.

Lemma not0_In k l : In k (not0 l) <-> In k l /\ k <> 0.
Proof. unfold not0. rewrite filter_In. destruct (Nat.eqb_spec k 0); cbn; split; intros [? ?]; split; auto; discriminate. Qed.

Lemma split6 : tri n S5 [mirror_phase] S6.
Proof.
  apply tri_one. intros s (H1 & HL & H3 & H4). split.
  - intros p Hp. cbn. destruct (Nat.eqb_spec p 0) as [->|Hp0].
    + split; [constructor|]. split; [constructor|]. split; [intros q []|]. split; [intros q []|]. intros q Hq. split; [intros []|].
      destruct (q =? 0); [intros []|]. rewrite not0_In. intros [_ H]. congruence.
    + destruct (lo1 _ _ _ HL p ltac:(lia)) as [Hnd Hk].
      split; [apply NoDup_filter', Hnd|]. split; [apply NoDup_filter', Hnd|].
      split; [intros q Hq; apply not0_In in Hq; apply Hk; apply Hq|]. split; [intros q Hq; apply not0_In in Hq; apply Hk; apply Hq|].
      intros q Hq. destruct (Nat.eqb_spec q 0) as [->|Hq0].
      * rewrite not0_In. split; [intros [_ H]; congruence|intros []].
      * rewrite !not0_In. rewrite (lo3 _ _ _ HL p q ltac:(lia) ltac:(lia)). tauto.
  - set (s' := round mirror_phase s).
    assert (Hr : forall q, s' q = fold_left (fun sq k => set_mirror (set_sc sq (match sc sq with Some b => rebound b (inter (s k) q) | None => None end)) (upd (mirror sq) k (inter (s k) q)))
                            (if q =? 0 then [] else not0 (inter (s q) q)) (s q)) by (intros q; reflexivity).
    assert (E0 : s' 0 = s 0) by (rewrite Hr; reflexivity).
    assert (Hw : forall p, 1 <= p < n -> inter (s' p) = inter (s p) /\
       (exists w', sc (s' p) = Some w' /\ shape w' = sh /\ forall id k, In k (inter (s p) p) -> In id (inter (s k) p) -> bounded_in w' id) /\
       (forall j, mirror (s' p) j = if inb j (not0 (inter (s p) p)) then inter (s j) p else mirror (s p) j)).
    { intros p Hp. destruct (H3 p Hp) as (w & Ew & Esw & Hb). rewrite Hr.
      replace (p =? 0) with false by (symmetry; apply Nat.eqb_neq; lia).
      destruct (fold_mirror (fun k => inter (s k) p) (not0 (inter (s p) p)) (s p) w Ew) as (A & (w' & B1 & B2 & B3 & B4) & C).
      { intros k id Hk Hid. apply not0_In in Hk. destruct Hk as [Hk _]. pose proof (proj2 (lo1 _ _ _ HL p Hp) k Hk) as [Hkn Hkp].
        rewrite Esw. rewrite (proj2 (lo4 _ _ _ HL k p Hkn Hp ltac:(congruence)) id Hid). discriminate. }
      split; [exact A|]. split; [|exact C]. exists w'. split; [exact B1|]. split; [congruence|].
      intros id k Hk Hid. destruct (Nat.eq_dec k 0) as [->|Hk0]; [apply B4, Hb; exact Hid|].
      apply (B3 k id); [apply not0_In; auto|exact Hid]. }
    assert (Hi : forall p, p < n -> inter (s' p) = inter (s p)).
    { intros p Hp. destruct (Nat.eq_dec p 0) as [->|Hp0]; [rewrite E0; reflexivity|]. apply (Hw p ltac:(lia)). }
    split; [rewrite E0; exact H1|]. split; [|split].
    + destruct HL as [a b c d e]. constructor.
      * intros p Hp. rewrite (Hi p) by lia. apply a; exact Hp.
      * intros p Hp. rewrite (Hi p) by lia. rewrite (Hi 0) by lia. apply b; exact Hp.
      * intros p k Hp Hk. rewrite (Hi p) by lia. rewrite (Hi k) by lia. apply c; assumption.
      * intros p k Hp Hk. rewrite (Hi p) by lia. apply d; assumption.
      * rewrite (Hi 0) by lia. exact e.
    + intros p k Hp. destruct (Hw p Hp) as (_ & _ & C). rewrite C, (H4 p k Hp), (Hi p) by lia.
      destruct (Nat.eqb_spec k 0) as [->|Hk0]; cbn [orb].
      * assert (X1 : inb 0 (not0 (inter (s p) p)) = false) by (apply inb_nIn; rewrite not0_In; tauto). rewrite X1, E0. reflexivity.
      * assert (X1 : inb k (not0 (inter (s p) p)) = inb k (inter (s p) p)).
        { apply Bool.eq_iff_eq_true. rewrite !inb_In, not0_In. tauto. }
        rewrite X1. destruct (inb k (inter (s p) p)) eqn:Ek; [|reflexivity]. apply inb_In in Ek.
        rewrite (Hi k); [reflexivity|]. apply (lo1 _ _ _ HL p Hp). exact Ek.
    + intros p Hp. destruct (Hw p Hp) as (_ & (w' & B1 & B2 & B3) & _). exists w'. split; [exact B1|]. split; [exact B2|].
      intros id k Hk Hid. rewrite (Hi p) in Hk by lia. assert (Hkn : k < n) by (apply (lo1 _ _ _ HL p Hp); exact Hk).
      rewrite (Hi k Hkn) in Hid. apply (B3 id k Hk Hid).
Qed.

Lemma full_bodies (w : bodies) : shape w = sh -> forall id, id < length w -> exists b, nth_error w id = Some (Some b).
Proof.
  intros E id Hid. assert (H : at_ (shape w) id <> None) by (rewrite E; apply Hfull; rewrite <- E, shape_length; exact Hid).
  rewrite at_shape in H. destruct (body_at w id) as [b|] eqn:Eb; [|contradiction H; reflexivity]. exists b. apply body_at_some. exact Eb.
Qed.

Lemma split7 : tri n S6 [finish_split L] J.
Proof.
  apply tri_one. intros s (H1 & HL & H3 & H4). split; [apply matched_local|].
  set (s' := round (finish_split L) s).
  assert (Hi : forall p, p < n -> inter (s' p) = inter (s p) /\ mirror (s' p) = mirror (s p)).
  { intros p Hp. unfold s', finish_split. rewrite round_local. destruct (sc (s p)) as [w|]; [|auto].
    destruct (if p =? 0 then Some w else erase_remote p w); auto. }
  assert (H0 : shp (s' 0) = Some sh).
  { unfold s', finish_split. rewrite round_local. unfold shp in *. destruct (sc (s 0)) as [w|]; [|discriminate]. cbn in *.
    injection H1 as H1. rewrite (ats_shape _ _ (g_collide _ _ G 0 w (boxes (s 0)))), H1. reflexivity. }
  split; [exact H0|]. split; [|split].
  - destruct HL as [a b c d e]. constructor.
    + intros p Hp. rewrite (proj1 (Hi p ltac:(lia))). apply a; exact Hp.
    + intros p Hp. rewrite (proj1 (Hi p ltac:(lia))), (proj1 (Hi 0 Hn)). apply b; exact Hp.
    + intros p k Hp Hk. rewrite (proj1 (Hi p ltac:(lia))), (proj1 (Hi k ltac:(lia))). apply c; assumption.
    + intros p k Hp Hk. rewrite (proj1 (Hi p ltac:(lia))). apply d; assumption.
    + rewrite (proj1 (Hi 0 Hn)). exact e.
  - intros p k Hp. destruct (Hi p ltac:(lia)) as [-> ->]. rewrite (H3 p k Hp).
    destruct ((k =? 0) || inb k (inter (s p) p)) eqn:Ek; [|reflexivity].
    assert (Hk : k < n).
    { apply orb_true_iff in Ek. destruct Ek as [Ek|Ek]; [apply Nat.eqb_eq in Ek; lia|].
      apply inb_In in Ek. apply (lo1 _ _ _ HL p Hp) in Ek. lia. }
    rewrite (proj1 (Hi k Hk)). reflexivity.
  - intros p Hp. destruct (H4 p Hp) as (w & Ew & Esw & Hb).
    destruct (erase_remote_spec p w (full_bodies w Esw)) as (w1 & E1 & Hl1 & Hs1).
    set (w2 := fst (collide L p w1 (boxes (s p)))).
    assert (E2 : sc (s' p) = Some w2).
    { unfold s', finish_split. rewrite round_local, Ew. replace (p =? 0) with false by (symmetry; apply Nat.eqb_neq; lia). rewrite E1. reflexivity. }
    assert (Esh2 : shape w2 = shape w1) by (apply ats_shape, (g_collide _ _ G)).
    exists (shape w2). split; [unfold shp; rewrite E2; reflexivity|]. rewrite Esh2.
    assert (Hl : length w = length sh) by (rewrite <- Esw, shape_length; reflexivity).
    split; [rewrite shape_length, Hl1; exact Hl|].
    assert (Hat : forall id d i, at_ sh id = Some (d, i) -> exists b, nth_error w id = Some (Some b) /\ subdomain (bRest b) = d /\ isSubdomain (bRest b) = i /\
       nth_error w1 id = Some (if negb (bounded (bRest b)) && negb (d =? p) then None else Some b)).
    { intros id d i Ha. rewrite <- Esw in Ha. destruct (at_some w id d i Ha) as (b & Hb1 & Hb2 & Hb3). exists b.
      rewrite (Hs1 id b Hb1), Hb2. auto. }
    assert (Hkeep : forall id d i b, at_ sh id = Some (d, i) -> nth_error w1 id = Some (Some b) -> subdomain (bRest b) = d -> isSubdomain (bRest b) = i ->
        at_ (shape w1) id = at_ sh id).
    { intros id d i b Ha H5 H6 H7. rewrite at_shape. unfold body_at. rewrite H5. cbn. rewrite H6, H7, Ha. reflexivity. }
    split; [|split].
    + intros id. destruct (at_ sh id) as [[d i]|] eqn:Ea.
      * destruct (Hat id d i Ea) as (b & Hb1 & Hb2 & Hb3 & Hb4).
        destruct (negb (bounded (bRest b)) && negb (d =? p)).
        { right. rewrite at_shape. unfold body_at. rewrite Hb4. reflexivity. }
        { left. rewrite <- Ea. eapply Hkeep; eauto. }
      * left. rewrite at_shape. unfold body_at. destruct (nth_error w1 id) as [[b|]|] eqn:E5; try reflexivity. exfalso.
        assert (id < length sh). { rewrite <- Hl, <- Hl1. apply nth_error_Some. congruence. }
        apply (Hfull id H Ea).
    + intros id i Ea. destruct (Hat id p i Ea) as (b & Hb1 & Hb2 & Hb3 & Hb4). rewrite Nat.eqb_refl in Hb4. cbn [negb] in Hb4.
      rewrite andb_false_r in Hb4. rewrite <- Ea. eapply Hkeep; eauto.
    + intros id k Hk Hid. rewrite (proj1 (Hi p ltac:(lia))) in Hk.
      assert (Hkn : k < n) by (apply (lo1 _ _ _ HL p Hp); exact Hk). rewrite (proj1 (Hi k Hkn)) in Hid.
      destruct (Hb id k Hk Hid) as (b & Hb1 & Hb2).
      destruct (at_ sh id) as [[d i]|] eqn:Ea.
      * destruct (Hat id d i Ea) as (b' & Hb1' & Hb2' & Hb3' & Hb4'). assert (b' = b) by congruence. subst b'.
        rewrite Hb2 in Hb4'. cbn [negb andb] in Hb4'. rewrite <- Ea. eapply Hkeep; eauto.
      * rewrite <- Esw, at_shape in Ea. unfold body_at in Ea. rewrite Hb1 in Ea. discriminate.
Qed.

Lemma split_tri : tri n P0 (split_prog L n) J.
Proof.
  unfold split_prog. eapply tri_app; [apply split1|].
  change ([prepare L; bounds_phase n; detect L]) with ([prepare L] ++ [bounds_phase n] ++ [detect L] : list (phase lstate message)).
  rewrite <- !app_assoc. eapply tri_app; [apply split2|]. eapply tri_app; [apply split3|]. eapply tri_app; [apply split4|].
  eapply tri_app; [apply split5|].
  change ([mirror_phase; finish_split L]) with ([mirror_phase] ++ [finish_split L] : list (phase lstate message)).
  eapply tri_app; [apply split6|apply split7].
Qed.
End Split.
