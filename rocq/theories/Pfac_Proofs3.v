From Coq Require Import List Arith Bool Lia.
From Verif Require Import Pfac_Model Pfac_Spec.
Import ListNotations.

Lemma inb x l : existsb (Nat.eqb x) l = true <-> In x l.
Proof. rewrite existsb_exists. split; [intros (y & H & E); apply Nat.eqb_eq in E; subst; exact H|intros H; exists x; split; [exact H|apply Nat.eqb_refl]]. Qed.
Lemma masked_spec ids : forall done l d, masked ids done = (l, d) -> (forall x, In x d <-> In x done \/ In x ids) /\ (forall x, In x l <-> In x ids /\ ~ In x done) /\ NoDup l.
Proof.
  induction ids as [|i ids IH]; intros done l d E; cbn [masked] in E.
  - injection E as <- <-. split; [intros x; cbn [In]; tauto|]. split; [intros x; cbn [In]; tauto|constructor].
  - destruct (existsb (Nat.eqb i) done) eqn:B.
    + apply inb in B. destruct (IH _ _ _ E) as (A & C & N). split; [|split; [|exact N]]; intros x; [rewrite A|rewrite C]; cbn [In]; split; try tauto; intuition (subst; tauto).
    + assert (NB : ~ In i done) by (intros H; apply inb in H; congruence). destruct (masked ids (i :: done)) as (l1, d1) eqn:E1. injection E as <- <-. destruct (IH _ _ _ E1) as (A & C & N). split; [|split].
      * intros x. rewrite A. cbn [In]. tauto.
      * intros x. cbn [In]. rewrite C. cbn [In]. destruct (Nat.eq_dec i x) as [-> |Q]; tauto.
      * constructor; [|exact N]. rewrite C. cbn [In]. tauto.
Qed.
Lemma put_same I k l : put I k l k = I k ++ l.
Proof. unfold put. rewrite Nat.eqb_refl. reflexivity. Qed.
Lemma put_other I k l j : j <> k -> put I k l j = I j.
Proof. intros H. unfold put. apply Nat.eqb_neq in H. rewrite H. reflexivity. Qed.
Definition gridk (w : list mbody) (x : nat) : Prop := kind_at w x = Some KNode \/ (exists a b, kind_at w x = Some (KConn a b)) \/ (exists n1 n2 n3 c1 c2 c3, kind_at w x = Some (KFacet n1 n2 n3 c1 c2 c3)).
Lemma include_spec w k st o b : nth_error w o = Some b -> exists l d, include w k st o = (put (fst st) k l, d) /\
  ((exists ids, bodies_of o (mk b) = Some ids /\ parts w o = ids /\ masked ids (snd st) = (l, d)) \/ (bodies_of o (mk b) = None /\ parts w o = [o] /\ l = [o] /\ d = snd st)).
Proof.
  intros E. unfold include, parts. rewrite E. destruct (mk b); cbn [bodies_of]; try (exists [o], (snd st); split; [reflexivity|right; auto]; fail).
  - destruct (masked [o; a; b0] (snd st)) as (l, d) eqn:M. exists l, d. split; [reflexivity|]. left. exists [o; a; b0]. auto.
  - destruct (masked [o; n1; n2; n3; c1; c2; c3] (snd st)) as (l, d) eqn:M. exists l, d. split; [reflexivity|]. left. exists [o; n1; n2; n3; c1; c2; c3]. auto.
Qed.
Lemma gridk_parts w o b ids : sound w -> nth_error w o = Some b -> bodies_of o (mk b) = Some ids -> forall x, In x ids -> gridk w x.
Proof.
  intros (SF & SC) E B x H. assert (K : kind_at w o = Some (mk b)) by (unfold kind_at; rewrite E; reflexivity). destruct (mk b) eqn:KB; cbn [bodies_of] in B; try discriminate; injection B as <-.
  - destruct H as [<- |H]; [right; left; exists a, b0; exact K|]. left. destruct (SC o a b0 K) as (A1 & A2). destruct H as [<- |[<- |[]]]; assumption.
  - destruct H as [<- |H]; [right; right; exists n1, n2, n3, c1, c2, c3; exact K|]. destruct (SF o n1 n2 n3 c1 c2 c3 K) as (A1 & A2).
    assert (NQ : forall n, In n [n1; n2; n3] -> gridk w n) by (intros n Q; left; apply A1; exact Q). assert (CQ : forall c, In c [c1; c2; c3] -> gridk w c) by (intros c Q; destruct (A2 c Q) as (a1 & a2 & Z & _); right; left; exists a1, a2; exact Z).
    cbn [In] in H. destruct H as [<- |[<- |[<- |[<- |[<- |[<- |[]]]]]]]; [apply NQ|apply NQ|apply NQ|apply CQ|apply CQ|apply CQ]; cbn [In]; auto.
Qed.

Section Fold.
Variables (w : list mbody) (rank t : nat) (step : (nat -> list nat) * list nat -> nat -> (nat -> list nat) * list nat) (C : nat -> Prop).
Hypothesis SP : forall st o, (C o /\ (exists b, nth_error w o = Some b) /\ step st o = include w t st o) \/ (~ C o /\ snd (step st o) = snd st /\ forall k, k <> rank -> fst (step st o) k = fst st k).
Lemma fold_other k : k <> rank -> k <> t -> forall l st, fst (fold_left step l st) k = fst st k.
Proof.
  intros R T. induction l as [|o l IH]; intros st; cbn [fold_left]; [reflexivity|]. rewrite IH. destruct (SP st o) as [(_ & (b & B) & ->)|(_ & _ & H)]; [|apply H; exact R].
  destruct (include_spec w t st o b B) as (p & d & E & _). rewrite E. cbn [fst]. apply put_other. exact T.
Qed.
Lemma fold_in : t <> rank -> forall l st, (forall x, In x (snd st) -> In x (fst st t)) -> forall x, In x (fst (fold_left step l st) t) <-> In x (fst st t) \/ exists o, In o l /\ C o /\ In x (parts w o).
Proof.
  intros R. induction l as [|o l IH]; intros st H x; cbn [fold_left].
  - split; [tauto|]. intros [Q|(o & [] & _)]. exact Q.
  - destruct (SP st o) as [(CO & (b & B) & E)|(NC & S & F)].
    + rewrite E. destruct (include_spec w t st o b B) as (p & d & E1 & Q). rewrite E1.
      assert (PP : (forall y, In y (fst st t) \/ In y p <-> In y (fst st t) \/ In y (parts w o)) /\ (forall y, In y d -> In y (fst st t) \/ In y p)).
      { destruct Q as [(ids & _ & Q & M)|(_ & Q & -> & ->)].
        - destruct (masked_spec ids _ _ _ M) as (A & L & _). rewrite Q. split; intros y; [rewrite L|rewrite A, L]; destruct (in_dec Nat.eq_dec y (snd st)) as [I|I]; try (specialize (H y I)); tauto.
        - rewrite Q. split; intros y; [tauto|]. intros I. left. apply H. exact I. }
      destruct PP as (P1 & P2). rewrite IH by (intros y Y; cbn [fst snd] in *; rewrite put_same, in_app_iff; apply P2; exact Y). cbn [fst]. rewrite put_same, in_app_iff, P1. split.
      * intros [[I|I]|(q & I & J)]; [left; exact I|right; exists o; split; [left; reflexivity|split; assumption]|right; exists q; split; [right; exact I|exact J]].
      * intros [I|(q & [<- |I] & J & K)]; [left; left; exact I|left; right; exact K|right; exists q; auto].
    + rewrite IH by (intros y; rewrite S, (F t R); apply H). rewrite (F t R). split.
      * intros [I|(q & I & J)]; [left; exact I|right; exists q; split; [right; exact I|exact J]].
      * intros [I|(q & [<- |I] & J & K)]; [left; exact I|contradiction|right; exists q; auto].
Qed.
Lemma fold_nodup : t <> rank -> sound w -> (forall o, C o -> kind_at w o <> Some KNode) -> forall l pre st, NoDup (pre ++ l) -> NoDup (fst st t) -> (forall x, In x (snd st) -> In x (fst st t) /\ gridk w x) -> (forall x, In x (fst st t) -> In x (snd st) \/ (~ gridk w x /\ In x pre)) -> NoDup (fst (fold_left step l st) t).
Proof.
  intros R SO NN. induction l as [|o l IH]; intros pre st N NI H1 H2; cbn [fold_left]; [exact NI|].
  assert (N' : NoDup ((pre ++ [o]) ++ l)) by (rewrite <- app_assoc; exact N).
  assert (NO : ~ In o pre) by (intros Q; apply (NoDup_remove_2 _ _ _ N); apply in_app_iff; left; exact Q).
  destruct (SP st o) as [(CO & (b & B) & E)|(NC & S & F)].
  - rewrite E. destruct (include_spec w t st o b B) as (p & d & E1 & Q). rewrite E1.
    assert (AP : forall (u v : list nat), NoDup u -> NoDup v -> (forall x, In x u -> ~ In x v) -> NoDup (u ++ v)).
    { clear. intros u v U V D. induction U as [|a u A U IH]; [exact V|]. cbn [app]. constructor; [rewrite in_app_iff; intros [I|I]; [contradiction|apply (D a (or_introl eq_refl) I)]|]. apply IH. intros x X. apply D. right. exact X. }
    destruct Q as [(ids & BO & Q & M)|(BO & Q & -> & ->)].
    + destruct (masked_spec ids _ _ _ M) as (A & L & NP). pose proof (gridk_parts w o b ids SO B BO) as GP. apply (IH (pre ++ [o])); [exact N'| | |]; cbn [fst snd]; rewrite put_same.
      * apply AP; [exact NI|exact NP|]. intros x X Y. apply L in Y as (Y1 & Y2). destruct (H2 x X) as [Z|(Z & _)]; [contradiction|]. apply Z. apply GP. exact Y1.
      * intros x X. apply A in X. rewrite in_app_iff, L. destruct (in_dec Nat.eq_dec x (snd st)) as [I|I]; [destruct (H1 x I); auto|]. destruct X as [X|X]; [contradiction|]. auto.
      * intros x X. rewrite A. apply in_app_iff in X as [X|X]; [destruct (H2 x X) as [Z|(Z & Y)]; [auto|right; split; [exact Z|apply in_app_iff; left; exact Y]]|]. apply L in X. tauto.
    + assert (NG : ~ gridk w o). { assert (K : kind_at w o = Some (mk b)) by (unfold kind_at; rewrite B; reflexivity). pose proof (NN o CO) as NK. intros [G|[(u & v & G)|(n1 & n2 & n3 & c1 & c2 & c3 & G)]]; [contradiction| |]; rewrite K in G; injection G as G; rewrite G in BO; discriminate. }
      apply (IH (pre ++ [o])); [exact N'| | |]; cbn [fst snd]; rewrite put_same.
      * apply AP; [exact NI|constructor; [intros []|constructor]|]. intros x X [<- |[]]. destruct (H2 o X) as [Z|(_ & Z)]; [apply NG; apply (H1 o Z)|contradiction].
      * intros x X. destruct (H1 x X) as (Y1 & Y2). split; [apply in_app_iff; left; exact Y1|exact Y2].
      * intros x X. apply in_app_iff in X as [X|[<- |[]]]; [destruct (H2 x X) as [Z|(Z & Y)]; [auto|right; split; [exact Z|apply in_app_iff; left; exact Y]]|]. right. split; [exact NG|apply in_app_iff; right; left; reflexivity].
  - apply (IH (pre ++ [o])); [exact N'| | |].
    + rewrite (F t R). exact NI.
    + intros x. rewrite S, (F t R). apply H1.
    + intros x. rewrite S, (F t R). intros X. destruct (H2 x X) as [Z|(Z & Y)]; [auto|right; split; [exact Z|apply in_app_iff; left; exact Y]].
Qed.
End Fold.

(** the two loops *)
Definition stepA (w : list mbody) := fun st o => match nth_error w o with Some b => if msub b =? 0 then include w 0 st o else st | None => st end.
Definition stepB (rank : nat) (w : list mbody) (k : nat) := fun (st : (nat -> list nat) * list nat) o => match nth_error w o with
  | Some b => if negb (msub b =? rank) then st else match mk b with KSubdomain => (put (fst st) rank [k], snd st) | _ => include w k st o end | None => st end.
Lemma stepA_spec w rank st o : (owner w o = Some 0 /\ (exists b, nth_error w o = Some b) /\ stepA w st o = include w 0 st o) \/ (owner w o <> Some 0 /\ snd (stepA w st o) = snd st /\ forall k, k <> rank -> fst (stepA w st o) k = fst st k).
Proof.
  unfold stepA, owner. destruct (nth_error w o) as [b|]; cbn [option_map]; [|right; split; [discriminate|auto]]. destruct (Nat.eqb_spec (msub b) 0) as [E|E]; [left; rewrite E; split; [reflexivity|split; [exists b; reflexivity|reflexivity]]|right; split; [congruence|auto]].
Qed.
Lemma stepB_spec rank w k st o : ((owner w o = Some rank /\ ~ subdomain w o) /\ (exists b, nth_error w o = Some b) /\ stepB rank w k st o = include w k st o) \/ (~ (owner w o = Some rank /\ ~ subdomain w o) /\ snd (stepB rank w k st o) = snd st /\ forall j, j <> rank -> fst (stepB rank w k st o) j = fst st j).
Proof.
  unfold stepB, owner, subdomain, kind_at. destruct (nth_error w o) as [b|]; cbn [option_map]; [|right; split; [intros (H & _); discriminate|auto]]. destruct (Nat.eqb_spec (msub b) rank) as [E|E]; cbn [negb]; [|right; split; [intros (H & _); congruence|auto]].
  destruct (mk b) eqn:K; try (left; split; [split; [congruence|discriminate]|split; [exists b; reflexivity|reflexivity]]). right. split; [intros (_ & H); apply H; reflexivity|]. cbn [fst snd]. split; [reflexivity|]. intros j J. apply put_other. exact J.
Qed.
Lemma gen1_cases rank w touch I sd s k : nth_error w sd = Some s -> k <> rank ->
  gen1 rank w touch I sd k = if msub s =? rank then fst (fold_left (stepA w) (touch sd) (I, [])) k else fst (fold_left (stepB rank w (msub s)) (touch sd) (I, [])) k.
Proof.
  intros E R. unfold gen1. rewrite E. fold (stepA w). fold (stepB rank w (msub s)). destruct (Nat.eqb_spec (msub s) rank) as [Q|Q]; cbv zeta.
  - destruct (fst (fold_left (stepA w) (touch sd) (I, [])) 0); [reflexivity|]. apply put_other. congruence.
  - destruct (Nat.eqb_spec rank 0) as [Z|Z]; cbn [andb]; [|reflexivity]. match goal with |- (if ?c then _ else _) k = _ => destruct c end; [apply put_other; congruence|reflexivity].
Qed.
(** the number of the list filled for a subdomain *)
Definition target (rank : nat) (w : list mbody) (sd : nat) : option nat := option_map (fun j => if j =? rank then 0 else j) (owner w sd).
Definition wanted (rank : nat) (w : list mbody) (sd o : nat) : Prop := exists j, owner w sd = Some j /\ ((j <> rank /\ owner w o = Some rank /\ ~ subdomain w o) \/ (j = rank /\ owner w o = Some 0)).
Lemma gen1_other rank w touch I sd k : k <> rank -> target rank w sd <> Some k -> gen1 rank w touch I sd k = I k.
Proof.
  intros R T. destruct (nth_error w sd) as [s|] eqn:E; [|unfold gen1; rewrite E; reflexivity]. rewrite (gen1_cases _ _ _ _ _ _ _ E R). unfold target, owner in T. rewrite E in T. cbn [option_map] in T. destruct (msub s =? rank) eqn:Q.
  - exact (fold_other w rank 0 (stepA w) (fun o => owner w o = Some 0) (stepA_spec w rank) k R ltac:(congruence) (touch sd) (I, [])).
  - exact (fold_other w rank (msub s) (stepB rank w (msub s)) (fun o => owner w o = Some rank /\ ~ subdomain w o) (stepB_spec rank w (msub s)) k R ltac:(congruence) (touch sd) (I, [])).
Qed.
Lemma gen1_in rank w touch I sd k : k <> rank -> target rank w sd = Some k -> forall x, In x (gen1 rank w touch I sd k) <-> In x (I k) \/ exists o, In o (touch sd) /\ wanted rank w sd o /\ In x (parts w o).
Proof.
  intros R T x. unfold target, owner in T. destruct (nth_error w sd) as [s|] eqn:E; [|discriminate]. cbn [option_map] in T. rewrite (gen1_cases _ _ _ _ _ _ _ E R). assert (OW : owner w sd = Some (msub s)) by (unfold owner; rewrite E; reflexivity). destruct (Nat.eqb_spec (msub s) rank) as [Q|Q].
  - injection T as <-. rewrite (fold_in w rank 0 (stepA w) (fun o => owner w o = Some 0) (stepA_spec w rank) R (touch sd) (I, [])) by (intros y []). cbn [fst]. split; (intros [A|(o & A & B & C)]; [left; exact A|right; exists o; split; [exact A|split; [|exact C]]]).
    + exists (msub s). split; [exact OW|right; split; assumption].
    + destruct B as (j & J & [(N & _)|(_ & H)]); [congruence|exact H].
  - injection T as <-. rewrite (fold_in w rank (msub s) (stepB rank w (msub s)) (fun o => owner w o = Some rank /\ ~ subdomain w o) (stepB_spec rank w (msub s)) R (touch sd) (I, [])) by (intros y []). cbn [fst]. split; (intros [A|(o & A & B & C)]; [left; exact A|right; exists o; split; [exact A|split; [|exact C]]]).
    + exists (msub s). split; [exact OW|left; split; assumption].
    + destruct B as (j & J & [(N & H)|(H & _)]); [exact H|congruence].
Qed.
Lemma gen1_nodup rank w touch I sd k : sound w -> no_nodes w touch -> once touch -> k <> rank -> target rank w sd = Some k -> I k = [] -> NoDup (gen1 rank w touch I sd k).
Proof.
  intros SO NN ON R T IK. unfold target, owner in T. destruct (nth_error w sd) as [s|] eqn:E; [|discriminate]. cbn [option_map] in T. rewrite (gen1_cases _ _ _ _ _ _ _ E R).
  assert (G : forall t stp (Q : nat -> Prop), t <> rank -> I t = [] -> (forall st o, (Q o /\ (exists b, nth_error w o = Some b) /\ stp st o = include w t st o) \/ (~ Q o /\ snd (stp st o) = snd st /\ forall k, k <> rank -> fst (stp st o) k = fst st k)) -> NoDup (fst (fold_left stp (touch sd) (I, [])) t)).
  { intros t stp Q TR IT SP.
    (* only bodies in the list matter *)
    assert (H : forall l, incl l (touch sd) -> forall pre st, NoDup (pre ++ l) -> NoDup (fst st t) -> (forall x, In x (snd st) -> In x (fst st t) /\ gridk w x) -> (forall x, In x (fst st t) -> In x (snd st) \/ (~ gridk w x /\ In x pre)) -> NoDup (fst (fold_left stp l st) t)).
    { intros l IN pre st. pose (stp' := fun st o => if in_dec Nat.eq_dec o (touch sd) then stp st o else st). assert (EQ : forall l, incl l (touch sd) -> forall st, fold_left stp l st = fold_left stp' l st).
      { clear. intros l. induction l as [|o l IH]; intros IN st; cbn [fold_left]; [reflexivity|]. unfold stp' at 2. destruct (in_dec Nat.eq_dec o (touch sd)) as [_|N]; [apply IH; intros x X; apply IN; right; exact X|]. exfalso. apply N. apply IN. left. reflexivity. }
      rewrite (EQ l IN). apply (fold_nodup w rank t stp' (fun o => Q o /\ In o (touch sd))); [|exact TR|exact SO|intros o (_ & O); exact (NN sd o O)].
      intros st0 o. unfold stp'. destruct (in_dec Nat.eq_dec o (touch sd)) as [Y|N]; [|right; split; [tauto|auto]]. destruct (SP st0 o) as [(A & B & C)|(A & B & C)]; [left; auto|right; split; [tauto|auto]]. }
    apply (H (touch sd) (incl_refl _) []); cbn [app fst snd]; [apply ON|rewrite IT; constructor|intros x []|rewrite IT; intros x []]. }
  destruct (Nat.eqb_spec (msub s) rank) as [Q|Q]; injection T as <-.
  - exact (G 0 (stepA w) (fun o => owner w o = Some 0) R IK (stepA_spec w rank)).
  - exact (G (msub s) (stepB rank w (msub s)) (fun o => owner w o = Some rank /\ ~ subdomain w o) R IK (stepB_spec rank w (msub s))).
Qed.
Lemma is_sd_spec w o : is_sd w o = true <-> subdomain w o.
Proof. unfold is_sd, subdomain, kind_at. destruct (nth_error w o) as [b|]; cbn [option_map]; [destruct (mk b); split; intros; congruence|split; discriminate]. Qed.
Lemma sds_in w sd : In sd (filter (is_sd w) (seq 0 (length w))) <-> subdomain w sd.
Proof.
  rewrite filter_In, in_seq, is_sd_spec. split; [tauto|]. intros H. split; [|exact H]. split; [lia|]. cbn [Nat.add]. apply nth_error_Some. unfold subdomain, kind_at in H. destruct (nth_error w sd); [discriminate|discriminate H].
Qed.

(** ** C221 *)
Lemma listed rank w touch k : k <> rank -> forall x, In x (gen rank w touch k) <-> exists o, touches rank w touch k o /\ In x (parts w o).
Proof.
  intros R x. unfold gen.
  assert (G : forall l I, In x (fold_left (gen1 rank w touch) l I k) <-> In x (I k) \/ exists sd o, In sd l /\ target rank w sd = Some k /\ In o (touch sd) /\ wanted rank w sd o /\ In x (parts w o)).
  { induction l as [|sd l IH]; intros I; cbn [fold_left]; [split; [tauto|intros [H|(sd & o & [] & _)]; exact H]|]. rewrite IH.
    assert (DT : target rank w sd = Some k \/ target rank w sd <> Some k) by (destruct (target rank w sd) as [j|]; [destruct (Nat.eq_dec j k); [left; congruence|right; congruence]|right; discriminate]). destruct DT as [T|T].
    - rewrite (gen1_in _ _ _ _ _ _ R T). split.
      + intros [[A|(o & A)]|(sd' & o & A & B)]; [left; exact A|right; exists sd, o; split; [left; reflexivity|split; [exact T|exact A]]|right; exists sd', o; split; [right; exact A|exact B]].
      + intros [A|(sd' & o & [<- |A] & B & C)]; [left; left; exact A|left; right; exists o; exact C|right; exists sd', o; auto].
    - rewrite (gen1_other _ _ _ _ _ _ R T). split.
      + intros [A|(sd' & o & A & B)]; [left; exact A|right; exists sd', o; split; [right; exact A|exact B]].
      + intros [A|(sd' & o & [<- |A] & B & C)]; [left; exact A|contradiction|right; exists sd', o; auto]. }
  rewrite G. clear G. split.
  - intros [[]|(sd & o & A & T & B & (j & J & W) & X)]. exists o. split; [|exact X]. exists sd, j. apply sds_in in A. split; [exact A|]. split; [exact J|]. split; [exact B|]. unfold target in T. rewrite J in T. cbn [option_map] in T. destruct (Nat.eqb_spec j rank) as [Q|Q]; injection T as <-; destruct W as [(W1 & W2 & W3)|(W1 & W2)]; try contradiction; [right|left]; auto.
  - intros (o & (sd & j & A & J & B & W) & X). right. exists sd, o. split; [apply sds_in; exact A|]. unfold target, wanted. rewrite J. cbn [option_map]. split; [|split; [exact B|split; [exists j; split; [reflexivity|]|exact X]]]; destruct W as [(W1 & W2 & W3 & W4)|(W1 & W2 & W3)].
    + apply Nat.eqb_neq in W2. rewrite W2. congruence.
    + apply Nat.eqb_eq in W2. rewrite W2. congruence.
    + left. auto.
    + right. auto.
Qed.
(** ** C222 *)
Lemma listed_once rank w touch k : sound w -> numbered w -> no_nodes w touch -> once touch -> k <> rank -> NoDup (gen rank w touch k).
Proof.
  intros SO (N1 & N0) NN ON R. unfold gen.
  assert (TI : forall a b, subdomain w a -> subdomain w b -> target rank w a = Some k -> target rank w b = Some k -> a = b).
  { intros a b A B TA TB. unfold target in TA, TB. pose proof (N0 a A) as ZA. pose proof (N0 b B) as ZB. destruct (owner w a) as [i|] eqn:OA; [|discriminate]. destruct (owner w b) as [j|] eqn:OB; [|discriminate]. cbn [option_map] in TA, TB. apply (N1 a b i A B OA). rewrite OB. f_equal. destruct (Nat.eqb_spec i rank), (Nat.eqb_spec j rank); congruence. }
  assert (G : forall l I, (forall sd, In sd l -> subdomain w sd) -> NoDup l -> (I k = [] \/ (NoDup (I k) /\ forall sd, In sd l -> target rank w sd <> Some k)) -> NoDup (fold_left (gen1 rank w touch) l I k)).
  { induction l as [|sd l IH]; intros I S D H; cbn [fold_left]; [destruct H as [-> |(H & _)]; [constructor|exact H]|]. apply NoDup_cons_iff in D as (D1 & D2). apply IH; [intros q Q; apply S; right; exact Q|exact D2|].
    assert (DT : target rank w sd = Some k \/ target rank w sd <> Some k) by (destruct (target rank w sd) as [j|]; [destruct (Nat.eq_dec j k); [left; congruence|right; congruence]|right; discriminate]). destruct DT as [T|T].
    - right. split.
      + destruct H as [H|(_ & H)]; [apply gen1_nodup; assumption|]. exfalso. exact (H sd (or_introl eq_refl) T).
      + intros q Q TQ. assert (q = sd) by (apply TI; [apply S; right; exact Q|apply S; left; reflexivity|exact TQ|exact T]). subst. contradiction.
    - rewrite (gen1_other _ _ _ _ _ _ R T). destruct H as [H|(H1 & H2)]; [left; exact H|right; split; [exact H1|intros q Q; apply H2; right; exact Q]]. }
  apply G; [intros sd H; apply sds_in; exact H|apply NoDup_filter; apply seq_NoDup|left; reflexivity].
Qed.
Lemma receive_once {F} (Fadd : F -> F -> F) (f : nat -> F) : forall ids acc x, NoDup ids -> (In x ids -> receive Fadd (report ids f) acc x = Fadd (acc x) (f x)) /\ (~ In x ids -> receive Fadd (report ids f) acc x = acc x).
Proof.
  unfold receive, report. induction ids as [|i ids IH]; intros acc x ND; cbn [map fold_left]; [split; [intros []|reflexivity]|]. apply NoDup_cons_iff in ND as (N & ND). cbn [fst snd]. set (acc' := fun j => if j =? i then Fadd (acc j) (f i) else acc j). destruct (IH acc' x ND) as (A & B). split.
  - intros [<- |H]; [rewrite (B N); unfold acc'; rewrite Nat.eqb_refl; reflexivity|]. rewrite (A H). unfold acc'. destruct (Nat.eqb_spec x i) as [-> |_]; [contradiction|reflexivity].
  - intros H. rewrite B by (intros Q; apply H; right; exact Q). unfold acc'. destruct (Nat.eqb_spec x i) as [-> |_]; [exfalso; apply H; left; reflexivity|reflexivity].
Qed.
Lemma forces_once {F} (Fadd : F -> F -> F) rank w touch k (f acc : nat -> F) : sound w -> numbered w -> no_nodes w touch -> once touch -> k <> rank ->
  NoDup (gen rank w touch k) /\ forall x, ((exists o, touches rank w touch k o /\ In x (parts w o)) -> receive Fadd (report (gen rank w touch k) f) acc x = Fadd (acc x) (f x)) /\ (~ (exists o, touches rank w touch k o /\ In x (parts w o)) -> receive Fadd (report (gen rank w touch k) f) acc x = acc x).
Proof.
  intros SO NU NN ON R. pose proof (listed_once rank w touch k SO NU NN ON R) as ND. split; [exact ND|]. intros x. rewrite <- (listed rank w touch k R x). apply receive_once. exact ND.
Qed.
(** ** C223 *)
Lemma listed_own rank w touch k : whole w -> k <> 0 -> k <> rank -> forall x, In x (gen rank w touch k) -> owner w x = Some rank.
Proof.
  intros W K R x H. apply (listed rank w touch k R x) in H as (o & (sd & j & _ & _ & _ & [(_ & _ & O & _)|(Z & _)]) & X); [|contradiction]. rewrite (W o x X). exact O.
Qed.
(** ** C224 *)
Lemma parts_closed w o : sound w -> forall p q, In p (parts w o) -> In q (parts w p) -> In q (parts w o).
Proof.
  intros (SF & SC) p q P Q. assert (KN : forall n, kind_at w n = Some KNode -> parts w n = [n]) by (intros n H; unfold kind_at in H; unfold parts; destruct (nth_error w n) as [c|]; [|discriminate]; cbn [option_map] in H; injection H as ->; reflexivity).
  unfold parts in P at 1. destruct (nth_error w o) as [b|] eqn:E; [|destruct P]. assert (K : kind_at w o = Some (mk b)) by (unfold kind_at; rewrite E; reflexivity).
  assert (PO : parts w o = match mk b with KFacet n1 n2 n3 c1 c2 c3 => [o; n1; n2; n3; c1; c2; c3] | KConn a b => [o; a; b] | _ => [o] end) by (unfold parts; rewrite E; reflexivity).
  destruct (mk b) eqn:KB.
  - destruct P as [<- |[]]. exact Q.
  - destruct P as [<- |P]; [exact Q|]. destruct (SC o a b0 K) as (A1 & A2). rewrite PO. destruct P as [<- |[<- |[]]]; [rewrite (KN _ A1) in Q|rewrite (KN _ A2) in Q]; destruct Q as [<- |[]]; cbn [In]; auto.
  - destruct P as [<- |P]; [exact Q|]. destruct (SF o n1 n2 n3 c1 c2 c3 K) as (A1 & A2). rewrite PO.
    assert (HN : forall n, In n [n1; n2; n3] -> In q (parts w n) -> In q [o; n1; n2; n3; c1; c2; c3]) by (intros n I J; rewrite (KN n (A1 n I)) in J; destruct J as [<- |[]]; cbn [In] in *; tauto).
    assert (HC : forall c, In c [c1; c2; c3] -> In q (parts w c) -> In q [o; n1; n2; n3; c1; c2; c3]).
    { intros c I J. destruct (A2 c I) as (u & v & KC & IU & IV). assert (PC : parts w c = [c; u; v]) by (unfold kind_at in KC; unfold parts; destruct (nth_error w c) as [y|]; [|discriminate]; cbn [option_map] in KC; injection KC as ->; reflexivity). rewrite PC in J. destruct J as [<- |[<- |[<- |[]]]]; cbn [In] in *; tauto. }
    cbn [In] in P. destruct P as [<- |[<- |[<- |[<- |[<- |[<- |[]]]]]]]; [apply (HN n1)|apply (HN n2)|apply (HN n3)|apply (HC c1)|apply (HC c2)|apply (HC c3)]; try exact Q; cbn [In]; auto.
  - destruct P as [<- |[]]. exact Q.
  - destruct P as [<- |[]]. exact Q.
Qed.
Lemma rebound_nth ids : forall w k i, nth_error (rebound ids k w) i = option_map (fun b => if existsb (Nat.eqb (k + i)) ids && negb (match mk b with KNode => true | _ => false end) then mkM (mk b) (msub b) true else b) (nth_error w i).
Proof.
  induction w as [|b w IH]; intros k [|i]; cbn [rebound nth_error option_map]; try reflexivity.
  - rewrite Nat.add_0_r. reflexivity.
  - rewrite IH. replace (S k + i) with (k + S i) by lia. reflexivity.
Qed.
Lemma split_nth rank m w i : nth_error (split_worker rank m w) i = option_map (fun b => if existsb (Nat.eqb i) m && negb (match mk b with KNode => true | _ => false end) then mkM (mk b) (msub b) true else match mk b with KSubdomain => b | _ => if msub b =? rank then b else mkM (mk b) (msub b) false end) (nth_error w i).
Proof.
  unfold split_worker, unbound. rewrite rebound_nth. cbn [Nat.add]. rewrite nth_error_map. destruct (nth_error w i) as [b|]; [|reflexivity]. cbn [option_map]. destruct (mk b) eqn:K; rewrite ?K; cbn [mk msub]; try (destruct (msub b =? rank)); cbn [mk msub]; rewrite ?K; destruct (existsb (Nat.eqb i) m); reflexivity.
Qed.
Lemma received_closed rank w T ks : sound w -> ~ In rank ks -> forall o p, In o (received rank w T ks) -> In p (parts w o) -> In p (received rank w T ks).
Proof.
  intros SO R o p H P. unfold received in *. apply in_flat_map in H as (k & K & H). apply in_flat_map. exists k. split; [exact K|]. assert (KR : rank <> k) by (intros ->; contradiction). apply (listed k w (T k) rank KR) in H as (q & TQ & OQ). apply (listed k w (T k) rank KR). exists q. split; [exact TQ|]. eapply parts_closed; eassumption.
Qed.
Lemma kept_parts rank w T ks : sound w -> whole w -> ~ In rank ks -> let v := split_worker rank (received rank w T ks) w in forall o, kept rank v o = true -> forall p, In p (parts w o) -> kept rank v p = true.
Proof.
  intros SO WH R v o KO p PO. unfold v in *. set (m := received rank w T ks) in *. pose proof KO as K0. unfold kept in KO. rewrite split_nth in KO.
  destruct (nth_error w o) as [b|] eqn:E; [|discriminate]. cbn [option_map] in KO.
  assert (PB : exists bp, nth_error w p = Some bp /\ msub bp = msub b).
  { pose proof (WH o p PO) as H. unfold owner in H. rewrite E in H. cbn [option_map] in H. destruct (nth_error w p) as [bp|]; [|discriminate]. cbn [option_map] in H. injection H as H. exists bp. auto. }
  destruct PB as (bp & BP & MS).
  destruct (Nat.eqb_spec (msub b) rank) as [Q|Q].
  { unfold kept. rewrite split_nth, BP. cbn [option_map]. match goal with |- mbounded ?z || _ || _ = true => assert (Z : msub z = rank) end.
    { destruct (existsb (Nat.eqb p) m && _); cbn [msub]; [congruence|]. destruct (mk bp); cbn [msub]; try congruence; destruct (msub bp =? rank); cbn [msub]; congruence. }
    rewrite Z, Nat.eqb_refl, orb_true_r. reflexivity. }
  destruct (match mk b with KFacet _ _ _ _ _ _ | KConn _ _ => true | _ => false end) eqn:KB.
  2:{ assert (p = o) by (unfold parts in PO; rewrite E in PO; destruct (mk b); try discriminate; destruct PO as [<- |[]]; reflexivity). subst p. exact K0. }
  assert (OM : existsb (Nat.eqb o) m = true).
  { destruct (existsb (Nat.eqb o) m); [reflexivity|]. cbn [andb] in KO. destruct (mk b) eqn:KK; try discriminate; cbn [mbounded msub mk orb] in KO; apply Nat.eqb_neq in Q; rewrite Q in KO; discriminate. }
  apply inb in OM. pose proof (received_closed rank w T ks SO R o p OM PO) as PM. fold m in PM. apply inb in PM. apply inb in OM. unfold kept. rewrite split_nth, BP. cbn [option_map]. rewrite PM. cbn [andb]. destruct (mk bp) eqn:KP; try reflexivity. cbn [negb].
  assert (X : existsb (fun x => uses p (mk x) && mbounded x) (split_worker rank m w) = true).
  2:{ rewrite X. rewrite ?orb_true_r. destruct (msub bp =? rank); cbn [mk mbounded msub]; rewrite ?KP, ?orb_true_r; reflexivity. }
  apply existsb_exists. exists (mkM (mk b) (msub b) true). split.
  - eapply nth_error_In with (n := o). rewrite split_nth, E. cbn [option_map]. rewrite OM. destruct (mk b); try discriminate KB; reflexivity.
  - cbn [mbounded mk]. rewrite andb_true_r. assert (NK : kind_at w p = Some KNode) by (unfold kind_at; rewrite BP; cbn [option_map]; congruence). assert (KO' : kind_at w o = Some (mk b)) by (unfold kind_at; rewrite E; reflexivity). destruct SO as (SF & SC). unfold parts in PO. rewrite E in PO. destruct (mk b) eqn:KK; try discriminate KB; cbn [uses].
    + destruct PO as [<- |[<- |[<- |[]]]]; [congruence| |]; rewrite Nat.eqb_refl; rewrite ?orb_true_r; reflexivity.
    + destruct (SF _ _ _ _ _ _ _ KO') as (_ & A2). assert (NC : forall c, In c [c1; c2; c3] -> c <> p) by (intros c C ->; destruct (A2 p C) as (u & z & Y & _); congruence).
      cbn [In] in PO, NC. destruct PO as [<- |[<- |[<- |[<- |[Z|[Z|[Z|[]]]]]]]]; [congruence| | | |exfalso; apply (NC c1); auto|exfalso; apply (NC c2); auto|exfalso; apply (NC c3); auto 6]; rewrite Nat.eqb_refl; rewrite ?orb_true_r; reflexivity.
Qed.
(** ** C225 *)
Lemma owned_in w k i b : nth_error w i = Some b -> existsb (Nat.eqb i) (owned w k) = (msub b =? k).
Proof.
  intros E. destruct (msub b =? k) eqn:Q.
  - apply inb. unfold owned. apply filter_In. split; [apply in_seq; split; [lia|]; cbn [Nat.add]; apply nth_error_Some; congruence|]. rewrite E. exact Q.
  - destruct (existsb (Nat.eqb i) (owned w k)) eqn:H; [|reflexivity]. apply inb in H. unfold owned in H. apply filter_In in H as (_ & H). rewrite E in H. congruence.
Qed.
Lemma merge_fold : forall ks w i, nth_error (fold_left (fun w k => rebound (owned w k) 0 w) ks w) i = option_map (fun b => if existsb (Nat.eqb (msub b)) ks && negb (match mk b with KNode => true | _ => false end) then mkM (mk b) (msub b) true else b) (nth_error w i).
Proof.
  induction ks as [|k ks IH]; intros w i; cbn [fold_left].
  - destruct (nth_error w i); reflexivity.
  - rewrite IH, rebound_nth. cbn [Nat.add]. destruct (nth_error w i) as [b|] eqn:E; [|reflexivity]. cbn [option_map]. rewrite (owned_in w k i b E). cbn [existsb]. destruct (msub b =? k); cbn [andb orb].
    + destruct (mk b) eqn:K; cbn [negb mk msub]; rewrite ?K, ?andb_false_r, ?andb_true_r; cbn [negb]; try reflexivity; destruct (existsb (Nat.eqb (msub b)) ks); reflexivity.
    + reflexivity.
Qed.
Lemma flags_kept n w : (forall i b, nth_error w i = Some b -> msub b < n) -> forall i b, nth_error w i = Some b -> msub b = 0 \/ usual b -> nth_error (split_merge n w) i = Some b.
Proof.
  intros N i b E U. unfold split_merge. rewrite merge_fold. unfold unbound. rewrite nth_error_map, E. cbn [option_map]. f_equal. pose proof (N i b E) as L. unfold usual in U. destruct b as [k s f]. cbn [mk msub mbounded] in *.
  destruct (Nat.eq_dec s 0) as [-> |S0].
  - assert (Z : existsb (Nat.eqb 0) (seq 1 (n - 1)) = false) by (destruct (existsb (Nat.eqb 0) (seq 1 (n - 1))) eqn:H; [|reflexivity]; apply inb, in_seq in H; lia).
    destruct k; cbn [mk msub]; rewrite ?Nat.eqb_refl; cbn [mk msub]; rewrite Z; reflexivity.
  - destruct U as [U|U]; [contradiction|]. assert (Z : existsb (Nat.eqb s) (seq 1 (n - 1)) = true) by (apply inb, in_seq; lia). apply Nat.eqb_neq in S0. destruct k; cbn [mk msub]; rewrite ?S0; cbn [mk msub]; rewrite Z; cbn [andb negb]; rewrite U; reflexivity.
Qed.
Lemma others_kept n w : length (split_merge n w) = length w /\ forall i, kind_at (split_merge n w) i = kind_at w i /\ owner (split_merge n w) i = owner w i.
Proof.
  assert (H : forall i, kind_at (split_merge n w) i = kind_at w i /\ owner (split_merge n w) i = owner w i).
  { intros i. unfold kind_at, owner, split_merge. rewrite merge_fold. unfold unbound. rewrite nth_error_map. destruct (nth_error w i) as [b|]; [|split; reflexivity]. cbn [option_map]. destruct (mk b) eqn:K; try (destruct (msub b =? 0)); cbn [mk msub]; rewrite ?K; match goal with |- context[existsb ?f ?l] => destruct (existsb f l) end; cbn [andb negb mk msub]; rewrite ?K; split; reflexivity. }
  split; [|exact H]. assert (forall a c : list mbody, (forall i, kind_at a i = kind_at c i) -> length a = length c); [|apply H0; intros i; apply H].
  clear. intros a. induction a as [|x a IH]; intros [|y c] H; [reflexivity|discriminate (H 0)|discriminate (H 0)|]. cbn [length]. f_equal. apply IH. intros i. exact (H (S i)).
Qed.
(** witnesses *)
Lemma triangle_sound d : sound (triangle d).
Proof.
  split.
  - intros o n1 n2 n3 c1 c2 c3 H. destruct o as [|[|[|[|[|[|[|[|[|o]]]]]]]]]; try discriminate H; [|destruct o; discriminate H]. injection H as <- <- <- <- <- <-. split.
    + intros n [<- |[<- |[<- |[]]]]; reflexivity.
    + intros c [<- |[<- |[<- |[]]]]; [exists 0, 1|exists 1, 2|exists 2, 0]; (split; [reflexivity|cbn [In]; auto]).
  - intros o a b H. destruct o as [|[|[|[|[|[|[|[|[|o]]]]]]]]]; try discriminate H; try (injection H as <- <-; split; reflexivity). destruct o; discriminate H.
Qed.
Lemma triangle_numbered d : numbered (triangle d).
Proof.
  assert (S : forall a, subdomain (triangle d) a -> a = 7 \/ a = 8) by (intros a H; destruct a as [|[|[|[|[|[|[|[|[|a]]]]]]]]]; try discriminate H; auto; destruct a; discriminate H).
  split.
  - intros a b k A B. destruct (S a A) as [-> | ->], (S b B) as [-> | ->]; cbn; intros; congruence.
  - intros a A. destruct (S a A) as [-> | ->]; discriminate.
Qed.
Lemma triangle_whole : whole (triangle 1).
Proof. intros o p H. do 9 (destruct o as [|o]; [cbn [parts triangle nth_error mk In] in H; repeat (destruct H as [<- |H]; [reflexivity|]); destruct H|]). destruct o; destruct H. Qed.
Lemma listed_own_refuted : exists w touch x, sound w /\ numbered w /\ no_nodes w touch /\ once touch /\ In x (gen 1 w touch 2) /\ owner w x = Some 2.
Proof.
  exists (triangle 2), (touched [6]), 2. split; [apply triangle_sound|]. split; [apply triangle_numbered|]. split; [|split; [|split; [|reflexivity]]].
  - intros sd o. unfold touched. destruct (sd =? 8); [|intros []]. intros [<- |[]]. discriminate.
  - intros sd. unfold touched. destruct (sd =? 8); [constructor; [intros []|constructor]|constructor].
  - cbn. tauto.
Qed.
Lemma kept_parts_refuted : exists w T ks o p, sound w /\ numbered w /\ ~ In 1 ks /\ let v := split_worker 1 (received 1 w T ks) w in kept 1 v o = true /\ owner w o = Some 1 /\ In p (parts w o) /\ kept 1 v p = false.
Proof.
  exists (triangle 2), (fun _ => touched []), [2], 6, 4. split; [apply triangle_sound|]. split; [apply triangle_numbered|]. split; [intros [H|[]]; discriminate|]. cbv zeta. split; [reflexivity|]. split; [reflexivity|]. split; [cbn; tauto|reflexivity].
Qed.
Lemma flags_refuted : exists w i b, sound w /\ whole w /\ numbered w /\ (forall j c, nth_error w j = Some c -> msub c < 3) /\ nth_error w i = Some b /\ mbounded b = false /\ option_map mbounded (nth_error (split_merge 3 w) i) = Some true.
Proof.
  exists (triangle 1), 3, (mkM (KConn 0 1) 1 false). split; [apply triangle_sound|]. split; [apply triangle_whole|]. split; [apply triangle_numbered|]. split; [|split; [reflexivity|split; reflexivity]].
  intros j c H. do 9 (destruct j as [|j]; [injection H as <-; cbn [msub]; lia|]). destruct j; discriminate H.
Qed.
