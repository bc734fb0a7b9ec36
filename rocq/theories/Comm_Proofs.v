From Coq Require Import List Arith Bool Lia.
From Verif Require Import Comm_Model Comm_Spec.
Import ListNotations.

Ltac sp := repeat match goal with |- _ /\ _ => split end.

Lemma mem_In x l : mem x l = true <-> In x l.
Proof. unfold mem. destruct (in_dec act_eq_dec x l); split; auto; discriminate. Qed.
Lemma mem_nIn x l : mem x l = false <-> ~ In x l.
Proof. unfold mem. destruct (in_dec act_eq_dec x l); split; auto; try discriminate. intros H; contradiction. Qed.
Lemma mem_app x l l' : mem x (l ++ l') = mem x l || mem x l'.
Proof.
  apply Bool.eq_iff_eq_true. rewrite orb_true_iff, !mem_In. apply in_app_iff.
Qed.

Definition waits (l : list act) : list nat := flat_map (fun x => match x with Wait a => [a] | _ => [] end) l.
Lemma waits_app l l' : waits (l ++ l') = waits l ++ waits l'.
Proof. unfold waits. apply flat_map_app. Qed.
Lemma waits_Post l : waits (map Post l) = [].
Proof. induction l; cbn; auto. Qed.
Lemma waits_Send l : waits (map Send l) = [].
Proof. induction l; cbn; auto. Qed.
Lemma waits_Wait l : waits (map Wait l) = l.
Proof. induction l; cbn; auto. f_equal. exact IHl. Qed.

Section Proofs.
Context {S M : Type} (n : nat) (prog : list (phase S M)) (s0 : nat -> S).
Notation conf := (conf S M).
Notation phase := (phase S M).

(** states when all processes are together at the start of phase i *)
Definition B (i : nat) : nat -> S := rounds (firstn i prog) s0.

Lemma rounds_app (l l' : list phase) s : rounds (l ++ l') s = rounds l' (rounds l s).
Proof. revert s. induction l; intros; cbn; auto. Qed.
Lemma firstn_snoc i ph : nth_error prog i = Some ph -> firstn (Datatypes.S i) prog = firstn i prog ++ [ph].
Proof.
  revert i. induction prog as [|y l IH]; intros [|i] H; cbn in H; try discriminate.
  - injection H as ->. reflexivity.
  - cbn [firstn app]. f_equal. apply IH. exact H.
Qed.
Lemma B_S i ph : nth_error prog i = Some ph -> B (Datatypes.S i) = round ph (B i).
Proof. intros H. unfold B. rewrite (firstn_snoc _ _ H), rounds_app. reflexivity. Qed.
Lemma all_matched_nth : all_matched n prog s0 -> forall i ph, nth_error prog i = Some ph -> matched n ph (B i).
Proof.
  unfold B. generalize s0. induction prog as [|y l IH]; intros s H [|i] ph Hn; cbn in Hn; try discriminate.
  - injection Hn as <-. apply H.
  - cbn. apply IH; [apply H|exact Hn].
Qed.

(** what process p has done *)
Definition did (c : conf) (p j : nat) (x : act) : bool :=
  match nth_error prog j with
  | Some ph => mem x (actions ph p (B j p)) &&
               ((j <? pc (procs c p)) || ((j =? pc (procs c p)) && mem x (dne (procs c p))))
  | None => false
  end.
Definition mj (j a b : nat) : list M :=
  match nth_error prog j with Some ph => [msg ph a (B j a) b] | None => [] end.
Definition tagof (j : nat) : option nat := option_map tag (nth_error prog j).
Definition tagged (j t : nat) : bool := match tagof j with Some t' => t' =? t | None => false end.
Definition flight (c : conf) (a b t j : nat) : list M :=
  if tagged j t && did c a j (Send b) && negb (did c b j (Wait a)) then mj j a b else [].

Definition got (ph : phase) (i p : nat) (l : list nat) : S :=
  fold_left (fun sq a => recv ph p sq a (msg ph a (B i a) p)) l (B i p).

Definition pinv (c : conf) (p : nat) : Prop :=
  pc (procs c p) <= length prog /\
  match nth_error prog (pc (procs c p)) with
  | Some ph => dne (procs c p) ++ todo (procs c p) = actions ph p (B (pc (procs c p)) p) /\
               todo (procs c p) <> [] /\
               lst (procs c p) = got ph (pc (procs c p)) p (waits (dne (procs c p)))
  | None => lst (procs c p) = B (pc (procs c p)) p /\ todo (procs c p) = []
  end.

Definition Inv (c : conf) : Prop :=
  (forall p, p < n -> pinv c p) /\
  (forall a b j, a < n -> b < n -> did c b j (Wait a) = true -> did c a j (Send b) = true) /\
  (forall a b t, a < n -> b < n -> chan c a b t = flat_map (flight c a b t) (seq 0 (length prog))).

Context (HM : all_matched n prog s0).

Lemma M_ i ph : nth_error prog i = Some ph -> matched n ph (B i).
Proof. apply all_matched_nth. exact HM. Qed.

(** ** shape of the action list *)
Lemma In_Post (ph : phase) p s a : In (Post a) (actions ph p s) <-> In a (srcs ph p s).
Proof.
  unfold actions. rewrite !in_app_iff, !in_map_iff. split.
  - intros [(x & E & H)|[(x & E & H)|[(x & E & H)|[E|[]]]]]; try discriminate. injection E as <-. exact H.
  - intros H. left. exists a. auto.
Qed.
Lemma In_Send (ph : phase) p s a : In (Send a) (actions ph p s) <-> In a (dests ph p s).
Proof.
  unfold actions. rewrite !in_app_iff, !in_map_iff. split.
  - intros [(x & E & H)|[(x & E & H)|[(x & E & H)|[E|[]]]]]; try discriminate. injection E as <-. exact H.
  - intros H. right. left. exists a. auto.
Qed.
Lemma In_Wait (ph : phase) p s a : In (Wait a) (actions ph p s) <-> In a (srcs ph p s).
Proof.
  unfold actions. rewrite !in_app_iff, !in_map_iff. split.
  - intros [(x & E & H)|[(x & E & H)|[(x & E & H)|[E|[]]]]]; try discriminate. injection E as <-. exact H.
  - intros H. right. right. left. exists a. auto.
Qed.

Lemma NoDup_app_intro {A} (l l' : list A) : NoDup l -> NoDup l' -> (forall x, In x l -> ~ In x l') -> NoDup (l ++ l').
Proof.
  induction l as [|x l IH]; intros H1 H2 H3; [exact H2|]. cbn. inversion H1; subst. constructor.
  - rewrite in_app_iff. intros [H|H]; [contradiction|]. exact (H3 x (or_introl eq_refl) H).
  - apply IH; auto. intros y Hy. apply H3. right; exact Hy.
Qed.
Lemma NoDup_map_inj {A C} (f : A -> C) l : (forall x y, f x = f y -> x = y) -> NoDup l -> NoDup (map f l).
Proof.
  intros Hf H. induction H; cbn; constructor; auto.
  rewrite in_map_iff. intros (y & E & Hy). apply Hf in E. subst. contradiction.
Qed.
Lemma NoDup_actions (ph : phase) p s : NoDup (srcs ph p s) -> NoDup (dests ph p s) -> NoDup (actions ph p s).
Proof.
  intros H1 H2. unfold actions.
  assert (HP : forall x, In x (map Post (srcs ph p s)) -> exists a, x = Post a).
  { intros x. rewrite in_map_iff. intros (a & <- & _). eauto. }
  assert (HS : forall x, In x (map Send (dests ph p s)) -> exists a, x = Send a).
  { intros x. rewrite in_map_iff. intros (a & <- & _). eauto. }
  assert (HW : forall x, In x (map Wait (srcs ph p s)) -> exists a, x = Wait a).
  { intros x. rewrite in_map_iff. intros (a & <- & _). eauto. }
  apply NoDup_app_intro; [apply NoDup_map_inj; auto; congruence|apply NoDup_app_intro; [apply NoDup_map_inj; auto; congruence|apply NoDup_app_intro|]|].
  - apply NoDup_map_inj; auto; congruence.
  - constructor; [intros []|constructor].
  - intros x Hx [<-|[]]. apply HW in Hx. destruct Hx; discriminate.
  - intros x Hx. rewrite in_app_iff. intros [H|[<-|[]]]; apply HS in Hx; destruct Hx as [? Hx]; try discriminate.
    apply HW in H. destruct H. congruence.
  - intros x Hx. rewrite !in_app_iff. apply HP in Hx; destruct Hx as [? Hx].
    intros [H|[H|[<-|[]]]]; try discriminate; [apply HS in H|apply HW in H]; destruct H; congruence.
Qed.

(** ** facts from the invariant *)
Lemma acts_nodup c p ph : p < n -> pinv c p -> nth_error prog (pc (procs c p)) = Some ph ->
  NoDup (dne (procs c p) ++ todo (procs c p)).
Proof.
  intros Hp [_ H] E. rewrite E in H. destruct H as (-> & _ & _).
  destruct (M_ _ _ E p Hp) as (H1 & H2 & _). apply NoDup_actions; assumption.
Qed.
Lemma nodup_mid {A} (l l' : list A) x : NoDup (l ++ x :: l') -> ~ In x l /\ ~ In x l'.
Proof.
  intros H. apply NoDup_remove in H. destruct H as [_ H]. rewrite in_app_iff in H. tauto.
Qed.

Lemma did_past c p j x ph : nth_error prog j = Some ph -> j < pc (procs c p) ->
  In x (actions ph p (B j p)) -> did c p j x = true.
Proof.
  intros E Hj Hx. unfold did. rewrite E. apply mem_In in Hx. rewrite Hx.
  apply Nat.ltb_lt in Hj. rewrite Hj. reflexivity.
Qed.
Lemma did_future c p j x : pc (procs c p) < j -> did c p j x = false.
Proof.
  intros H. unfold did. destruct (nth_error prog j); [|reflexivity].
  replace (j <? pc (procs c p)) with false by (symmetry; apply Nat.ltb_ge; lia).
  replace (j =? pc (procs c p)) with false by (symmetry; apply Nat.eqb_neq; lia).
  cbn. apply andb_false_r.
Qed.
Lemma did_In c p j x : did c p j x = true -> exists ph, nth_error prog j = Some ph /\ In x (actions ph p (B j p)) /\
  (j < pc (procs c p) \/ (j = pc (procs c p) /\ In x (dne (procs c p)))).
Proof.
  unfold did. destruct (nth_error prog j) as [ph|]; [|discriminate].
  rewrite andb_true_iff, orb_true_iff, andb_true_iff, Nat.ltb_lt, Nat.eqb_eq, !mem_In.
  intros (H & H'). exists ph. auto.
Qed.
Lemma did_now c p x ph : pinv c p -> nth_error prog (pc (procs c p)) = Some ph ->
  did c p (pc (procs c p)) x = mem x (dne (procs c p)).
Proof.
  intros [_ H] E. rewrite E in H. destruct H as (H & _ & _). unfold did. rewrite E, Nat.ltb_irrefl, Nat.eqb_refl. cbn.
  rewrite <- H, mem_app. destruct (mem x (dne (procs c p))); cbn; [reflexivity|apply andb_false_r].
Qed.

(** a move of p with first action x at phase i changes [did] there only *)
Lemma did_move c c' p x rest : p < n -> pinv c p -> todo (procs c p) = x :: rest ->
  (forall q, q <> p -> procs c' q = procs c q) ->
  (x <> End -> pc (procs c' p) = pc (procs c p) /\ dne (procs c' p) = dne (procs c p) ++ [x]) ->
  (x = End -> pc (procs c' p) = Datatypes.S (pc (procs c p)) /\ dne (procs c' p) = []) ->
  forall q j y, did c' q j y = did c q j y ||
     ((q =? p) && (j =? pc (procs c p)) && (if act_eq_dec y x then true else false)).
Proof.
  intros Hp Hi Ht Hq Hn He q j y.
  destruct (Nat.eqb_spec q p) as [->|Hne]; cbn [andb].
  2:{ unfold did. rewrite (Hq q Hne), orb_false_r. reflexivity. }
  destruct (nth_error prog (pc (procs c p))) as [ph|] eqn:E.
  2:{ destruct Hi as [_ Hi]. rewrite E in Hi. destruct Hi as [_ Hi]. congruence. }
  pose proof (acts_nodup c p ph Hp Hi E) as Hnd.
  destruct Hi as [Hle Hi]. rewrite E in Hi. destruct Hi as (Ha & _ & _). rewrite Ht in *.
  unfold did. destruct (nth_error prog j) as [phj|] eqn:Ej.
  2:{ destruct (Nat.eqb_spec j (pc (procs c p))) as [->|]; [congruence|]. reflexivity. }
  destruct (act_eq_dec x End) as [->|HnE].
  - destruct (He eq_refl) as [-> ->]. cbn [mem in_dec].
    destruct (Nat.eqb_spec j (pc (procs c p))) as [->|Hj]; cbn [andb].
    + rewrite E in Ej. injection Ej as ->.
      replace (pc (procs c p) <? Datatypes.S (pc (procs c p))) with true by (symmetry; apply Nat.ltb_lt; lia).
      rewrite Nat.ltb_irrefl. cbn [orb]. rewrite andb_true_r.
      (* rest = [] since End is last *)
      assert (rest = []) as ->.
      { unfold actions in Ha. rewrite !app_assoc in Ha.
        destruct rest as [|z r] using rev_ind; [reflexivity|].
        exfalso. rewrite app_comm_cons, app_assoc in Ha. apply app_inj_tail in Ha. destruct Ha as [_ ->].
        apply nodup_mid in Hnd. destruct Hnd as [_ Hnd]. apply Hnd. apply in_app_iff. right. left. reflexivity. }
      rewrite <- Ha, mem_app. unfold mem at 2. 
      destruct (act_eq_dec y End) as [->|Hy].
      * destruct (in_dec act_eq_dec End [End]) as [_|H]; [|exfalso; apply H; left; reflexivity]. 
        rewrite !orb_true_r. reflexivity.
      * destruct (in_dec act_eq_dec y [End]) as [[H|[]]|_]; [congruence|].
        destruct (mem y (dne (procs c p))); [reflexivity|]. cbn [orb]. rewrite andb_false_r. reflexivity.
    + rewrite orb_false_r. f_equal. rewrite orb_false_r.
      destruct (Nat.eqb_spec j (Datatypes.S (pc (procs c p)))) as [->|]; cbn [andb].
      * rewrite Nat.ltb_irrefl. cbn [orb mem in_dec]. replace (mem y []) with false by reflexivity. cbn [orb]. symmetry. apply Nat.ltb_ge. lia.
      * rewrite orb_false_r. apply Bool.eq_iff_eq_true. rewrite !Nat.ltb_lt. lia.
  - destruct (Hn HnE) as [-> ->].
    destruct (Nat.eqb_spec j (pc (procs c p))) as [->|Hj]; cbn [andb].
    + rewrite E in Ej. injection Ej as ->. rewrite Nat.ltb_irrefl. cbn [orb].
      rewrite <- Ha, !mem_app. unfold mem at 2 4 6.
      destruct (act_eq_dec y x) as [->|Hy].
      * destruct (in_dec act_eq_dec x (x :: rest)) as [_|H]; [|exfalso; apply H; left; reflexivity].
        destruct (in_dec act_eq_dec x [x]) as [_|H]; [|exfalso; apply H; left; reflexivity].
        rewrite !orb_true_r. reflexivity.
      * destruct (in_dec act_eq_dec y [x]) as [[H|[]]|_]; [congruence|]. rewrite !orb_false_r. reflexivity.
    + rewrite !orb_false_r. reflexivity.
Qed.

Lemma pinv_set c c' p q : q <> p -> (forall q, q <> p -> procs c' q = procs c q) -> pinv c q -> pinv c' q.
Proof. intros Hne H Hi. unfold pinv. rewrite (H q Hne). exact Hi. Qed.

Lemma got_snoc (ph : phase) i p l a : got ph i p (l ++ [a]) = recv ph p (got ph i p l) a (msg ph a (B i a) p).
Proof. unfold got. rewrite fold_left_app. reflexivity. Qed.

(** sends come before waits, posts before sends *)
Lemma app_eq_app' {A} (x1 x2 y1 y2 : list A) : x1 ++ x2 = y1 ++ y2 ->
  exists l, (x1 = y1 ++ l /\ y2 = l ++ x2) \/ (y1 = x1 ++ l /\ x2 = l ++ y2).
Proof.
  revert y1. induction x1 as [|a x1 IH]; intros [|b y1] H; cbn in *.
  - exists []. left. auto.
  - exists (b :: y1). right. auto.
  - exists (a :: x1). left. auto.
  - injection H as -> H. destruct (IH _ H) as (l & [[-> ->]|[-> ->]]); exists l; auto.
Qed.
Lemma sends_before_waits (ph : phase) p s d t b : d ++ t = actions ph p s -> In (Send b) t -> waits d = [].
Proof.
  intros H Hin. unfold actions in H. rewrite app_assoc in H. apply app_eq_app' in H.
  destruct H as (l & [[-> H]|[H ->]]).
  - assert (X : In (Send b) (map Wait (srcs ph p s) ++ [End])) by (rewrite H; apply in_app_iff; right; exact Hin).
    apply in_app_iff in X. rewrite in_map_iff in X. destruct X as [(? & ? & _)|[?|[]]]; discriminate.
  - assert (X : waits (map Post (srcs ph p s) ++ map Send (dests ph p s)) = waits (d ++ l)) by (rewrite H; reflexivity).
    rewrite !waits_app, waits_Post, waits_Send in X. symmetry in X. apply app_eq_nil in X. apply X.
Qed.
Lemma head_post (ph : phase) p s d t a : d ++ t = actions ph p s -> In (Post a) t -> exists b r, t = Post b :: r.
Proof.
  intros H Hin. unfold actions in H. apply app_eq_app' in H.
  destruct H as (l & [[-> H]|[H ->]]).
  - assert (X : In (Post a) (map Send (dests ph p s) ++ map Wait (srcs ph p s) ++ [End])) by (rewrite H; apply in_app_iff; right; exact Hin).
    rewrite !in_app_iff, !in_map_iff in X. destruct X as [(? & ? & _)|[(? & ? & _)|[?|[]]]]; discriminate.
  - apply in_app_iff in Hin. destruct Hin as [Hin|X].
    2:{ rewrite !in_app_iff, !in_map_iff in X. destruct X as [(? & ? & _)|[(? & ? & _)|[?|[]]]]; discriminate. }
    destruct l as [|y l]; [destruct Hin|].
    assert (Y : In y (map Post (srcs ph p s))) by (rewrite H; apply in_app_iff; right; left; reflexivity).
    apply in_map_iff in Y. destruct Y as (b & <- & _). cbn. eauto.
Qed.
Lemma head_send (ph : phase) p s d t a : d ++ t = actions ph p s -> In (Send a) t ->
  (exists b r, t = Post b :: r) \/ (exists b r, t = Send b :: r).
Proof.
  intros H Hin. unfold actions in H. rewrite app_assoc in H. apply app_eq_app' in H.
  destruct H as (l & [[-> H]|[H ->]]).
  - assert (X : In (Send a) (map Wait (srcs ph p s) ++ [End])) by (rewrite H; apply in_app_iff; right; exact Hin).
    apply in_app_iff in X. rewrite in_map_iff in X. destruct X as [(? & ? & _)|[?|[]]]; discriminate.
  - apply in_app_iff in Hin. destruct Hin as [Hin|X].
    2:{ rewrite !in_app_iff, !in_map_iff in X. destruct X as [(? & ? & _)|[?|[]]]; discriminate. }
    destruct l as [|y l]; [destruct Hin|].
    assert (Y : In y (map Post (srcs ph p s) ++ map Send (dests ph p s))) by (rewrite H; apply in_app_iff; right; left; reflexivity).
    rewrite in_app_iff, !in_map_iff in Y. destruct Y as [(b & <- & _)|(b & <- & _)]; [left|right]; cbn; eauto.
Qed.
Lemma last_end (ph : phase) p s d r : d ++ End :: r = actions ph p s -> NoDup (d ++ End :: r) ->
  r = [] /\ waits d = srcs ph p s.
Proof.
  intros Ha Hnd. assert (r = []) as ->.
  { unfold actions in Ha. rewrite !app_assoc in Ha.
    destruct r as [|z r] using rev_ind; [reflexivity|].
    exfalso. rewrite app_comm_cons, app_assoc in Ha. apply app_inj_tail in Ha. destruct Ha as [_ ->].
    apply nodup_mid in Hnd. destruct Hnd as [_ Hnd]. apply Hnd. apply in_app_iff. right. left. reflexivity. }
  split; [reflexivity|]. unfold actions in Ha. rewrite !app_assoc in Ha. apply app_inj_tail in Ha.
  destruct Ha as [-> _]. rewrite !waits_app, waits_Post, waits_Send, waits_Wait. reflexivity.
Qed.

(** ** messages in flight *)
Lemma seq_split i : i < length prog -> seq 0 (length prog) = seq 0 i ++ i :: seq (Datatypes.S i) (length prog - Datatypes.S i).
Proof.
  intros H. replace (length prog) with (i + Datatypes.S (length prog - Datatypes.S i)) at 1 by lia.
  rewrite seq_app. reflexivity.
Qed.
Lemma flat_map_nil {A C} (f : A -> list C) l : (forall x, In x l -> f x = []) -> flat_map f l = [].
Proof. induction l; intros H; [reflexivity|]. cbn. rewrite (H a (or_introl eq_refl)), IHl; auto. intros x Hx. apply H. right; exact Hx. Qed.
Lemma flat_map_ext' {A C} (f g : A -> list C) l : (forall x, In x l -> f x = g x) -> flat_map f l = flat_map g l.
Proof. induction l; intros H; [reflexivity|]. cbn. rewrite (H a (or_introl eq_refl)), IHl; auto. intros x Hx. apply H. right; exact Hx. Qed.

Lemma nth_lt i (ph : phase) : nth_error prog i = Some ph -> i < length prog.
Proof. intros H. apply nth_error_Some. congruence. Qed.

(** what is in flight for b from phases before b's own is nothing *)
Lemma flight_before c a b t j : Inv c -> a < n -> b < n -> j < pc (procs c b) -> flight c a b t j = [].
Proof.
  intros HI Ha Hb Hj. unfold flight.
  destruct (did c a j (Send b)) eqn:Ed; [|rewrite andb_false_r; reflexivity].
  apply did_In in Ed. destruct Ed as (ph & E & Hin & _). apply In_Send in Hin.
  destruct (M_ _ _ E a Ha) as (_ & _ & _ & _ & Hm). apply (Hm b Hb) in Hin.
  rewrite (did_past c b j (Wait a) ph E Hj); [rewrite andb_false_r; reflexivity|].
  apply In_Wait. exact Hin.
Qed.
Lemma flight_after c a b t j : pc (procs c a) < j -> flight c a b t j = [].
Proof. intros H. unfold flight. rewrite (did_future c a j (Send b) H), andb_false_r. reflexivity. Qed.

Lemma step_Inv c c' sync p : Inv c -> p < n -> move prog sync p c = Some c' -> Inv c'.
Proof.
  intros HI Hp Hm. pose proof HI as (HP & HR & HC).
  unfold move in Hm.
  destruct (nth_error prog (pc (procs c p))) as [ph|] eqn:E; [|discriminate].
  destruct (todo (procs c p)) as [|x rest] eqn:Et; [discriminate|].
  pose proof (HP p Hp) as Hpi.
  pose proof (acts_nodup c p ph Hp Hpi E) as Hnd. rewrite Et in Hnd.
  pose proof Hpi as [Hle Hpi']. rewrite E in Hpi'. destruct Hpi' as (Hacts & _ & Hlst). rewrite Et in Hacts.
  set (i := pc (procs c p)) in *.
  assert (Hx : ~ In x (dne (procs c p)) /\ ~ In x rest) by (apply nodup_mid; exact Hnd).
  assert (Hfresh : did c p i x = false).
  { unfold i. rewrite (did_now c p x ph Hpi E). apply mem_nIn. apply Hx. }
  assert (Hxin : In x (actions ph p (B i p))) by (rewrite <- Hacts; apply in_app_iff; right; left; reflexivity).
  pose proof (M_ _ _ E p Hp) as (_ & _ & Hsr & Hde & Hmt).
  assert (Hil : i < length prog) by (eapply nth_lt; exact E).
  assert (Htg : forall t, tagged i t = (tag ph =? t)).
  { intros t. unfold tagged, tagof. rewrite E. reflexivity. }
  (* procs of the others *)
  destruct x as [a|b|a|].
  - (* Post *)
    injection Hm as <-.
    set (c' := set_proc c p _).
    assert (Hoth : forall q, q <> p -> procs c' q = procs c q).
    { intros q Hq. cbn. apply Nat.eqb_neq in Hq. rewrite Hq. reflexivity. }
    assert (Hown : procs c' p = mkProc i (dne (procs c p) ++ [Post a]) rest (lst (procs c p))).
    { cbn. rewrite Nat.eqb_refl. reflexivity. }
    pose proof (did_move c c' p (Post a) rest Hp Hpi Et Hoth) as Hd.
    specialize (Hd ltac:(intros _; rewrite Hown; split; reflexivity) ltac:(discriminate)).
    assert (HdS : forall q j b, did c' q j (Send b) = did c q j (Send b)).
    { intros. rewrite Hd. destruct (act_eq_dec (Send b) (Post a)); [discriminate|]. rewrite andb_false_r, orb_false_r. reflexivity. }
    assert (HdW : forall q j b, did c' q j (Wait b) = did c q j (Wait b)).
    { intros. rewrite Hd. destruct (act_eq_dec (Wait b) (Post a)); [discriminate|]. rewrite andb_false_r, orb_false_r. reflexivity. }
    split; [|split].
    + intros q Hq. destruct (Nat.eq_dec q p) as [->|Hne]; [|eapply pinv_set; eauto].
      unfold pinv. rewrite Hown. cbn [pc dne todo lst]. rewrite E. split; [exact Hle|]. sp.
      * rewrite <- app_assoc. exact Hacts.
      * intros ->. unfold actions in Hacts. rewrite !app_assoc in Hacts. apply app_inj_tail in Hacts. destruct Hacts; discriminate.
      * rewrite waits_app. cbn. rewrite app_nil_r. exact Hlst.
    + intros u v j Hu Hv. rewrite HdS, HdW. apply HR; assumption.
    + intros u v t Hu Hv. cbn [chan set_proc c']. rewrite (HC u v t Hu Hv). apply flat_map_ext'.
      intros j _. unfold flight. rewrite HdS, HdW. reflexivity.
  - (* Send *)
    destruct (sync && _); [discriminate|]. injection Hm as <-.
    set (m := msg ph p (lst (procs c p)) b).
    set (c' := set_chan _ _ _ _ _).
    assert (Hoth : forall q, q <> p -> procs c' q = procs c q).
    { intros q Hq. cbn. apply Nat.eqb_neq in Hq. rewrite Hq. reflexivity. }
    assert (Hown : procs c' p = mkProc i (dne (procs c p) ++ [Send b]) rest (lst (procs c p))).
    { cbn. rewrite Nat.eqb_refl. reflexivity. }
    assert (Hb : b < n). { apply Hde. apply In_Send. exact Hxin. }
    assert (Hms : m = msg ph p (B i p) b).
    { unfold m. rewrite Hlst, (sends_before_waits ph p (B i p) (dne (procs c p)) (Send b :: rest) b Hacts (or_introl eq_refl)). reflexivity. }
    pose proof (did_move c c' p (Send b) rest Hp Hpi Et Hoth) as Hd.
    specialize (Hd ltac:(intros _; rewrite Hown; split; reflexivity) ltac:(discriminate)).
    assert (HdS : forall q j v, did c' q j (Send v) = did c q j (Send v) || ((q =? p) && (j =? i) && (v =? b))).
    { intros. rewrite Hd. destruct (act_eq_dec (Send v) (Send b)) as [e|e].
      - injection e as ->. rewrite Nat.eqb_refl. reflexivity.
      - assert (v <> b) as Hvb by congruence. apply Nat.eqb_neq in Hvb. rewrite Hvb. reflexivity. }
    assert (HdW : forall q j v, did c' q j (Wait v) = did c q j (Wait v)).
    { intros. rewrite Hd. destruct (act_eq_dec (Wait v) (Send b)); [discriminate|]. rewrite andb_false_r, orb_false_r. reflexivity. }
    split; [|split].
    + intros q Hq. destruct (Nat.eq_dec q p) as [->|Hne]; [|eapply pinv_set; eauto].
      unfold pinv. rewrite Hown. cbn [pc dne todo lst]. rewrite E. split; [exact Hle|]. sp.
      * rewrite <- app_assoc. exact Hacts.
      * intros ->. unfold actions in Hacts. rewrite !app_assoc in Hacts. apply app_inj_tail in Hacts. destruct Hacts; discriminate.
      * rewrite waits_app. cbn. rewrite app_nil_r. exact Hlst.
    + intros u v j Hu Hv. rewrite HdS, HdW. intros H. apply (HR u v j Hu Hv) in H. rewrite H. reflexivity.
    + intros u v t Hu Hv. cbn [chan set_chan set_proc c'].
      assert (Heq : forall j, (u <> p \/ v <> b \/ tag ph <> t \/ j <> i) -> flight c' u v t j = flight c u v t j).
      { intros j Hj. unfold flight. rewrite HdS, HdW.
        destruct (Nat.eqb_spec u p) as [->|]; [|cbn [andb]; rewrite orb_false_r; reflexivity].
        destruct (Nat.eqb_spec j i) as [->|]; [|cbn [andb]; rewrite orb_false_r; reflexivity].
        destruct (Nat.eqb_spec v b) as [->|]; [|cbn [andb]; rewrite orb_false_r; reflexivity].
        rewrite Htg. destruct (Nat.eqb_spec (tag ph) t) as [Etg|]; [|reflexivity].
        destruct Hj as [H|[H|[H|H]]]; congruence. }
      destruct ((u =? p) && (v =? b) && (t =? tag ph)) eqn:Ec.
      * apply andb_true_iff in Ec. destruct Ec as [Ec Ht]. apply andb_true_iff in Ec. destruct Ec as [Hup Hvb].
        apply Nat.eqb_eq in Hup, Hvb, Ht. subst u v t.
        rewrite (HC p b (tag ph) Hp Hb). rewrite (seq_split i Hil), !flat_map_app. cbn [flat_map].
        assert (T1 : flat_map (flight c p b (tag ph)) (seq (Datatypes.S i) (length prog - Datatypes.S i)) = []).
        { apply flat_map_nil. intros j Hj. apply in_seq in Hj. apply flight_after. fold i. lia. }
        assert (T2 : flat_map (flight c' p b (tag ph)) (seq (Datatypes.S i) (length prog - Datatypes.S i)) = []).
        { apply flat_map_nil. intros j Hj. apply in_seq in Hj. apply flight_after. rewrite Hown. cbn. lia. }
        rewrite T1, T2, !app_nil_r.
        assert (Hi0 : flight c p b (tag ph) i = []).
        { unfold flight. rewrite Hfresh, andb_false_r. reflexivity. }
        assert (Hi1 : flight c' p b (tag ph) i = [m]).
        { unfold flight. rewrite Htg, Nat.eqb_refl, HdS, Hfresh, !Nat.eqb_refl, HdW. cbn [orb andb].
          destruct (did c b i (Wait p)) eqn:Ew.
          - apply (HR p b i Hp Hb) in Ew. congruence.
          - cbn. unfold mj. rewrite E, Hms. reflexivity. }
        rewrite Hi0, Hi1, app_nil_r. f_equal. apply flat_map_ext'.
        intros j Hj. apply in_seq in Hj. symmetry. apply Heq. right; right; right. lia.
      * rewrite (HC u v t Hu Hv). symmetry. apply flat_map_ext'. intros j _. apply Heq.
        destruct (Nat.eqb_spec u p); [|auto]. destruct (Nat.eqb_spec v b); [|auto].
        destruct (Nat.eqb_spec t (tag ph)); [discriminate|]. right; right; left; congruence.
  - (* Wait *)
    destruct (chan c a p (tag ph)) as [|m l] eqn:Ech; [discriminate|]. injection Hm as <-.
    set (c' := set_chan _ _ _ _ _).
    assert (Hoth : forall q, q <> p -> procs c' q = procs c q).
    { intros q Hq. cbn. apply Nat.eqb_neq in Hq. rewrite Hq. reflexivity. }
    assert (Hown : procs c' p = mkProc i (dne (procs c p) ++ [Wait a]) rest (recv ph p (lst (procs c p)) a m)).
    { cbn. rewrite Nat.eqb_refl. reflexivity. }
    assert (Hain : In a (srcs ph p (B i p))) by (apply In_Wait in Hxin; exact Hxin).
    assert (Ha : a < n) by (apply Hsr; exact Hain).
    pose proof (did_move c c' p (Wait a) rest Hp Hpi Et Hoth) as Hd.
    specialize (Hd ltac:(intros _; rewrite Hown; split; reflexivity) ltac:(discriminate)).
    assert (HdW : forall q j v, did c' q j (Wait v) = did c q j (Wait v) || ((q =? p) && (j =? i) && (v =? a))).
    { intros. rewrite Hd. destruct (act_eq_dec (Wait v) (Wait a)) as [e|e].
      - injection e as ->. rewrite Nat.eqb_refl. reflexivity.
      - assert (v <> a) as Hva by congruence. apply Nat.eqb_neq in Hva. rewrite Hva. reflexivity. }
    assert (HdS : forall q j v, did c' q j (Send v) = did c q j (Send v)).
    { intros. rewrite Hd. destruct (act_eq_dec (Send v) (Wait a)); [discriminate|]. rewrite andb_false_r, orb_false_r. reflexivity. }
    (* the channel *)
    pose proof (HC a p (tag ph) Ha Hp) as Hch. rewrite Ech in Hch.
    rewrite (seq_split i Hil), flat_map_app in Hch. cbn [flat_map] in Hch.
    assert (T0 : flat_map (flight c a p (tag ph)) (seq 0 i) = []).
    { apply flat_map_nil. intros j Hj. apply in_seq in Hj. apply flight_before; auto. fold i. lia. }
    rewrite T0 in Hch. cbn [app] in Hch.
    assert (Hsent : did c a i (Send p) = true).
    { destruct (did c a i (Send p)) eqn:Ed; [reflexivity|]. exfalso.
      assert (Hpa : pc (procs c a) <= i).
      { destruct (Nat.le_gt_cases (pc (procs c a)) i) as [H|H]; [exact H|].
        rewrite (did_past c a i (Send p) ph E H) in Ed; [discriminate|].
        apply In_Send. destruct (M_ _ _ E a Ha) as (_ & _ & _ & _ & Hma). apply Hma; assumption. }
      assert (X : flight c a p (tag ph) i = []) by (unfold flight; rewrite Ed, andb_false_r; reflexivity).
      rewrite X in Hch. cbn [app] in Hch. rewrite flat_map_nil in Hch; [discriminate|].
      intros j Hj. apply in_seq in Hj. apply flight_after. lia. }
    assert (Hfi : flight c a p (tag ph) i = [msg ph a (B i a) p]).
    { unfold flight. rewrite Htg, Nat.eqb_refl, Hsent, Hfresh. cbn. unfold mj. rewrite E. reflexivity. }
    rewrite Hfi in Hch. cbn [app] in Hch. injection Hch as Hm Hl.
    split; [|split].
    + intros q Hq. destruct (Nat.eq_dec q p) as [->|Hne]; [|eapply pinv_set; eauto].
      unfold pinv. rewrite Hown. cbn [pc dne todo lst]. rewrite E. split; [exact Hle|]. sp.
      * rewrite <- app_assoc. exact Hacts.
      * intros ->. unfold actions in Hacts. rewrite !app_assoc in Hacts. apply app_inj_tail in Hacts. destruct Hacts; discriminate.
      * rewrite waits_app. cbn [waits flat_map app]. rewrite got_snoc, <- Hlst, <- Hm. reflexivity.
    + intros u v j Hu Hv. rewrite HdS, HdW. intros H. apply orb_true_iff in H. destruct H as [H|H].
      * apply (HR u v j Hu Hv H).
      * apply andb_true_iff in H. destruct H as [H Hua]. apply andb_true_iff in H. destruct H as [Hvp Hji].
        apply Nat.eqb_eq in Hua, Hvp, Hji. subst. exact Hsent.
    + intros u v t Hu Hv. cbn [chan set_chan set_proc c'].
      assert (Heq : forall j, (u <> a \/ v <> p \/ tag ph <> t \/ j <> i) -> flight c' u v t j = flight c u v t j).
      { intros j Hj. unfold flight. rewrite HdS, HdW.
        destruct (Nat.eqb_spec v p) as [->|]; [|cbn [andb]; rewrite orb_false_r; reflexivity].
        destruct (Nat.eqb_spec j i) as [->|]; [|cbn [andb]; rewrite orb_false_r; reflexivity].
        destruct (Nat.eqb_spec u a) as [->|]; [|cbn [andb]; rewrite orb_false_r; reflexivity].
        rewrite Htg. destruct (Nat.eqb_spec (tag ph) t) as [Etg|]; [|reflexivity].
        destruct Hj as [H|[H|[H|H]]]; congruence. }
      destruct ((u =? a) && (v =? p) && (t =? tag ph)) eqn:Ec.
      * apply andb_true_iff in Ec. destruct Ec as [Ec Ht]. apply andb_true_iff in Ec. destruct Ec as [Hup Hvb].
        apply Nat.eqb_eq in Hup, Hvb, Ht. subst u v t.
        rewrite (seq_split i Hil), flat_map_app. cbn [flat_map].
        rewrite (flat_map_ext' (flight c' a p (tag ph)) (flight c a p (tag ph)) (seq 0 i)), T0.
        2:{ intros j Hj. apply in_seq in Hj. apply Heq. right; right; right. lia. }
        assert (Hi1 : flight c' a p (tag ph) i = []).
        { unfold flight. rewrite HdW, !Nat.eqb_refl. cbn [andb]. rewrite orb_true_r. cbn. rewrite andb_false_r. reflexivity. }
        rewrite Hi1. cbn [app]. rewrite Hl. apply flat_map_ext'.
        intros j Hj. apply in_seq in Hj. symmetry. apply Heq. right; right; right. lia.
      * rewrite (HC u v t Hu Hv). symmetry. apply flat_map_ext'. intros j _. apply Heq.
        destruct (Nat.eqb_spec u a); [|auto]. destruct (Nat.eqb_spec v p); [|auto].
        destruct (Nat.eqb_spec t (tag ph)); [discriminate|]. right; right; left; congruence.
  - (* End *)
    injection Hm as <-.
    set (s' := fin ph p (lst (procs c p))).
    set (c' := set_proc c p _).
    assert (Hoth : forall q, q <> p -> procs c' q = procs c q).
    { intros q Hq. cbn. apply Nat.eqb_neq in Hq. rewrite Hq. reflexivity. }
    assert (Hown : procs c' p = start prog (Datatypes.S i) p s').
    { cbn. rewrite Nat.eqb_refl. reflexivity. }
    assert (Hst : pc (start prog (Datatypes.S i) p s') = Datatypes.S i /\ dne (start prog (Datatypes.S i) p s') = [] /\
                  lst (start prog (Datatypes.S i) p s') = s').
    { unfold start. destruct (nth_error prog (Datatypes.S i)); sp; reflexivity. }
    destruct Hst as (Hst1 & Hst2 & Hst3).
    pose proof (did_move c c' p End rest Hp Hpi Et Hoth ltac:(congruence) ltac:(intros _; rewrite Hown, Hst1, Hst2; split; reflexivity)) as Hd.
    assert (HdS : forall q j b, did c' q j (Send b) = did c q j (Send b)).
    { intros. rewrite Hd. destruct (act_eq_dec (Send b) End); [discriminate|]. rewrite andb_false_r, orb_false_r. reflexivity. }
    assert (HdW : forall q j b, did c' q j (Wait b) = did c q j (Wait b)).
    { intros. rewrite Hd. destruct (act_eq_dec (Wait b) End); [discriminate|]. rewrite andb_false_r, orb_false_r. reflexivity. }
    assert (Hs' : s' = B (Datatypes.S i) p).
    { destruct (last_end ph p (B i p) _ _ Hacts Hnd) as [-> Hw].
      rewrite (B_S i ph E). unfold round, s'. rewrite Hlst, Hw. reflexivity. }
    split; [|split].
    + intros q Hq. destruct (Nat.eq_dec q p) as [->|Hne]; [|eapply pinv_set; eauto].
      unfold pinv. rewrite Hown, Hst1, Hst2, Hst3. split; [lia|].
      unfold start. destruct (nth_error prog (Datatypes.S i)) as [ph'|].
      * cbn [todo]. rewrite <- Hs'. sp; auto. unfold actions. rewrite !app_assoc. intros H. apply app_eq_nil in H. destruct H; discriminate.
      * cbn [todo]. auto.
    + intros u v j Hu Hv. rewrite HdS, HdW. apply HR; assumption.
    + intros u v t Hu Hv. cbn [chan set_proc c']. rewrite (HC u v t Hu Hv). apply flat_map_ext'.
      intros j _. unfold flight. rewrite HdS, HdW. reflexivity.
Qed.

Lemma did_init p j x : did (init prog s0) p j x = false.
Proof.
  unfold did, init. cbn [procs]. destruct (nth_error prog j); [|reflexivity].
  assert (E : pc (start prog 0 p (s0 p)) = 0 /\ dne (start prog 0 p (s0 p)) = []).
  { unfold start. destruct (nth_error prog 0); split; reflexivity. }
  destruct E as [-> ->]. cbn [mem in_dec]. cbn. rewrite andb_false_r. cbn. rewrite andb_false_r. reflexivity.
Qed.
Lemma init_Inv : Inv (init prog s0).
Proof.
  split; [|split].
  - intros p Hp. unfold pinv, init. cbn [procs]. unfold start.
    destruct (nth_error prog 0) as [ph|] eqn:E; cbn [pc dne todo lst]; rewrite E.
    + split; [lia|]. sp; auto. unfold actions. rewrite !app_assoc. intros H. apply app_eq_nil in H. destruct H; discriminate.
    + split; [lia|]. split; reflexivity.
  - intros a b j _ _. rewrite !did_init. discriminate.
  - intros a b t _ _. symmetry. cbn [chan init]. apply flat_map_nil. intros j _. unfold flight. rewrite did_init, andb_false_r. reflexivity.
Qed.
Lemma exec_Inv l : forall c c', Inv c -> ranks n l -> exec prog l c = Some c' -> Inv c'.
Proof.
  induction l as [|[sy p] l IH]; intros c c' HI Hr H; cbn in H.
  - injection H as <-. exact HI.
  - destruct (move prog sy p c) as [c1|] eqn:Em; [|discriminate]. inversion Hr; subst.
    eapply IH; [|eassumption|exact H]. eapply step_Inv; eauto.
Qed.

(** ** progress *)
Lemma todo_cons c p : p < n -> Inv c -> pc (procs c p) < length prog ->
  exists ph x rest, nth_error prog (pc (procs c p)) = Some ph /\ todo (procs c p) = x :: rest /\
    dne (procs c p) ++ x :: rest = actions ph p (B (pc (procs c p)) p) /\ NoDup (dne (procs c p) ++ x :: rest).
Proof.
  intros Hp (HP & _ & _) Hlt. pose proof (HP p Hp) as Hi.
  destruct (nth_error prog (pc (procs c p))) as [ph|] eqn:E; [|apply nth_error_None in E; lia].
  pose proof (acts_nodup c p ph Hp Hi E) as Hnd.
  destruct Hi as [_ Hi]. rewrite E in Hi. destruct Hi as (Ha & Hne & _).
  destruct (todo (procs c p)) as [|x rest]; [congruence|]. exists ph, x, rest. sp; auto.
Qed.
Lemma move_post c p ph a rest sy : nth_error prog (pc (procs c p)) = Some ph -> todo (procs c p) = Post a :: rest ->
  move prog sy p c <> None.
Proof. intros E Ht. unfold move. rewrite E, Ht. discriminate. Qed.

Lemma send_progress c i : Inv c -> (forall q, q < n -> i <= pc (procs c q)) ->
  forall a b ph, a < n -> pc (procs c a) = i -> nth_error prog i = Some ph -> In (Send b) (todo (procs c a)) ->
  exists q, q < n /\ move prog true q c <> None.
Proof.
  intros HI Hmin a b ph Ha Hpc E Hin.
  assert (Hil : i < length prog) by (eapply nth_lt; exact E).
  destruct (todo_cons c a Ha HI ltac:(lia)) as (ph1 & x & rest & E1 & Ht & Hacts & Hnd).
  rewrite Hpc, E in E1. injection E1 as <-. rewrite Hpc in Hacts. rewrite Ht in Hin.
  destruct (head_send ph a (B i a) _ _ b Hacts Hin) as [(b' & r & Hx)|(b' & r & Hx)]; injection Hx as -> ->.
  - exists a. split; [exact Ha|]. eapply move_post; [rewrite Hpc; exact E|exact Ht].
  - clear b Hin.
    pose proof HI as (HP & HR & HC).
    destruct (M_ _ _ E a Ha) as (_ & _ & _ & Hde & Hmt).
    assert (Hbin : In b' (dests ph a (B i a))).
    { apply In_Send. rewrite <- Hacts. apply in_app_iff. right. left. reflexivity. }
    assert (Hb : b' < n) by (apply Hde; exact Hbin).
    assert (Hsrc : In a (srcs ph b' (B i b'))) by (apply Hmt; assumption).
    assert (Hns : did c a i (Send b') = false).
    { rewrite <- Hpc. rewrite (did_now c a (Send b') ph (HP a Ha)); [|rewrite Hpc; exact E].
      apply mem_nIn. apply nodup_mid in Hnd. apply Hnd. }
    assert (Hnr : did c b' i (Wait a) = false).
    { destruct (did c b' i (Wait a)) eqn:Ed; [|reflexivity]. apply (HR a b' i Ha Hb) in Ed. congruence. }
    assert (Hpb : pc (procs c b') = i).
    { destruct (Nat.eq_dec (pc (procs c b')) i) as [He|He]; [exact He|].
      pose proof (Hmin b' Hb). rewrite (did_past c b' i (Wait a) ph E) in Hnr; [discriminate|lia|].
      apply In_Wait. exact Hsrc. }
    assert (Eb : nth_error prog (pc (procs c b')) = Some ph) by (rewrite Hpb; exact E).
    pose proof (did_now c b' (Wait a) ph (HP b' Hb) Eb) as Hdn. rewrite Hpb, Hnr in Hdn.
    destruct (mem (Post a) (dne (procs c b'))) eqn:Ep.
    + exists a. split; [exact Ha|]. unfold move. rewrite Hpc, E, Ht.
      assert (Hpo : posted prog c a b' (tag ph) = true).
      { unfold posted. rewrite Eb, Nat.eqb_refl, Ep, <- Hdn. reflexivity. }
      assert (Hnil : chan c a b' (tag ph) = []).
      { rewrite (HC a b' (tag ph) Ha Hb). apply flat_map_nil. intros j _.
        destruct (Nat.lt_trichotomy j i) as [Hj|[->|Hj]].
        - apply flight_before; auto. lia.
        - unfold flight. rewrite Hns, andb_false_r. reflexivity.
        - apply flight_after. lia. }
      rewrite Hpo, Hnil. cbn. discriminate.
    + exists b'. split; [exact Hb|].
      destruct (todo_cons c b' Hb HI ltac:(lia)) as (ph2 & x2 & rest2 & E2 & Ht2 & Hacts2 & _).
      rewrite Eb in E2. injection E2 as <-. rewrite Hpb in Hacts2.
      assert (Hin2 : In (Post a) (x2 :: rest2)).
      { assert (X : In (Post a) (dne (procs c b') ++ x2 :: rest2)) by (rewrite Hacts2; apply In_Post; exact Hsrc).
        apply in_app_iff in X. destruct X as [X|X]; [|exact X]. apply mem_In in X. congruence. }
      destruct (head_post ph b' (B i b') _ _ a Hacts2 Hin2) as (y & r2 & Hx2). rewrite Hx2 in Ht2.
      eapply move_post; eauto.
Qed.

Lemma min_exists (f : nat -> nat) m : 0 < m -> exists p, p < m /\ forall q, q < m -> f p <= f q.
Proof.
  induction m as [|m IH]; [lia|]. intros _. destruct m as [|m].
  - exists 0. split; [lia|]. intros q Hq. replace q with 0 by lia. lia.
  - destruct (IH ltac:(lia)) as (p & Hp & Hmin).
    destruct (Nat.le_gt_cases (f p) (f (Datatypes.S m))) as [H|H].
    + exists p. split; [lia|]. intros q Hq. destruct (Nat.eq_dec q (Datatypes.S m)) as [->|]; [exact H|apply Hmin; lia].
    + exists (Datatypes.S m). split; [lia|]. intros q Hq. destruct (Nat.eq_dec q (Datatypes.S m)) as [->|]; [lia|].
      specialize (Hmin q ltac:(lia)). lia.
Qed.

Lemma progress c : Inv c -> (forall p, p < n -> finished prog c p) \/ exists p, p < n /\ move prog true p c <> None.
Proof.
  intros HI. destruct (Nat.eq_dec n 0) as [Hn|Hn]; [left; intros; lia|].
  destruct (min_exists (fun p => pc (procs c p)) n ltac:(lia)) as (p & Hp & Hmin).
  destruct (Nat.le_gt_cases (length prog) (pc (procs c p))) as [H|Hlt].
  - left. intros q Hq. unfold finished. specialize (Hmin q Hq). lia.
  - right. destruct (todo_cons c p Hp HI Hlt) as (ph & x & rest & E & Ht & Hacts & Hnd).
    pose proof HI as (HP & HR & HC).
    set (i := pc (procs c p)) in *.
    destruct x as [a|b|a|].
    + exists p. split; [exact Hp|]. eapply move_post; eauto.
    + eapply (send_progress c i HI Hmin p b ph Hp); auto. rewrite Ht. left; reflexivity.
    + assert (Hain : In a (srcs ph p (B i p))).
      { apply In_Wait. rewrite <- Hacts. apply in_app_iff. right. left. reflexivity. }
      destruct (M_ _ _ E p Hp) as (_ & _ & Hsr & _ & _). assert (Ha : a < n) by (apply Hsr; exact Hain).
      destruct (M_ _ _ E a Ha) as (_ & _ & _ & _ & Hma).
      assert (Hdst : In p (dests ph a (B i a))) by (apply Hma; assumption).
      destruct (did c a i (Send p)) eqn:Ed.
      * exists p. split; [exact Hp|]. unfold move. fold i. rewrite E, Ht.
        rewrite (HC a p (tag ph) Ha Hp), (seq_split i ltac:(eapply nth_lt; exact E)), flat_map_app. cbn [flat_map].
        assert (Hf : flight c a p (tag ph) i = [msg ph a (B i a) p]).
        { unfold flight, tagged, tagof. rewrite E. cbn [option_map]. rewrite Nat.eqb_refl, Ed.
          unfold i. rewrite (did_now c p (Wait a) ph (HP p Hp) E).
          assert (X : mem (Wait a) (dne (procs c p)) = false) by (apply mem_nIn; apply nodup_mid in Hnd; apply Hnd).
          rewrite X. cbn. unfold mj. fold i. rewrite E. reflexivity. }
        rewrite Hf. destruct (flat_map (flight c a p (tag ph)) (seq 0 i)); discriminate.
      * assert (Hpa : pc (procs c a) = i).
        { pose proof (Hmin a Ha). destruct (Nat.eq_dec (pc (procs c a)) i) as [He|He]; [exact He|].
          rewrite (did_past c a i (Send p) ph E) in Ed; [discriminate|lia|]. apply In_Send. exact Hdst. }
        destruct (todo_cons c a Ha HI ltac:(lia)) as (ph2 & x2 & rest2 & E2 & Ht2 & Hacts2 & _).
        rewrite Hpa, E in E2. injection E2 as <-. rewrite Hpa in Hacts2.
        eapply (send_progress c i HI Hmin a p ph Ha Hpa E).
        rewrite Ht2. assert (X : In (Send p) (dne (procs c a) ++ x2 :: rest2)) by (rewrite Hacts2; apply In_Send; exact Hdst).
        apply in_app_iff in X. destruct X as [X|X]; [|exact X].
        rewrite <- Hpa in Ed. rewrite (did_now c a (Send p) ph (HP a Ha)) in Ed; [|rewrite Hpa; exact E].
        apply mem_nIn in Ed. contradiction.
    + exists p. split; [exact Hp|]. unfold move. fold i. rewrite E, Ht. discriminate.
Qed.

(** when all are finished: states and channels *)
Lemma all_done c : Inv c -> (forall p, p < n -> finished prog c p) ->
  (forall p, p < n -> lst (procs c p) = rounds prog s0 p) /\
  (forall a b t, a < n -> b < n -> chan c a b t = []).
Proof.
  intros HI Hf. pose proof HI as (HP & _ & HC). split.
  - intros p Hp. destruct (HP p Hp) as [Hle Hi]. specialize (Hf p Hp). unfold finished in Hf.
    assert (E : pc (procs c p) = length prog) by lia. rewrite E in Hi.
    assert (E2 : nth_error prog (length prog) = None) by (apply nth_error_None; lia). rewrite E2 in Hi.
    destruct Hi as [-> _]. unfold B. rewrite firstn_all. reflexivity.
  - intros a b t Ha Hb. rewrite (HC a b t Ha Hb). apply flat_map_nil. intros j Hj. apply in_seq in Hj.
    apply flight_before; auto. specialize (Hf b Hb). unfold finished in Hf. lia.
Qed.

(** ** every move reduces the remaining work by one *)
Definition alen (p j : nat) : nat := match nth_error prog j with Some ph => length (actions ph p (B j p)) | None => 0 end.
Definition later (p j : nat) : nat := list_sum (map (alen p) (seq j (length prog - j))).
Definition rem (c : conf) (p : nat) : nat := length (todo (procs c p)) + later p (Datatypes.S (pc (procs c p))).

Lemma later_cons p j : j < length prog -> later p j = alen p j + later p (Datatypes.S j).
Proof.
  intros H. unfold later. replace (length prog - j) with (Datatypes.S (length prog - Datatypes.S j)) by lia. reflexivity.
Qed.
Lemma sum_to_ext m f g : (forall p, p < m -> f p = g p) -> sum_to m f = sum_to m g.
Proof. induction m; intros H; [reflexivity|]. cbn. rewrite IHm, H; auto. Qed.
Lemma sum_to_dec m f g p : p < m -> f p = Datatypes.S (g p) -> (forall q, q < m -> q <> p -> f q = g q) ->
  sum_to m f = Datatypes.S (sum_to m g).
Proof.
  induction m as [|m IH]; intros Hp H1 H2; [lia|]. cbn.
  destruct (Nat.eq_dec p m) as [->|Hne].
  - rewrite H1, (sum_to_ext m f g); [lia|]. intros q Hq. apply H2; lia.
  - rewrite IH, (H2 m); auto; try lia.
Qed.
Lemma rem_move c c' sy p : Inv c -> p < n -> move prog sy p c = Some c' ->
  rem c p = Datatypes.S (rem c' p) /\ forall q, q <> p -> rem c' q = rem c q.
Proof.
  intros HI Hp Hm. unfold move in Hm.
  destruct (nth_error prog (pc (procs c p))) as [ph|] eqn:E; [|discriminate].
  destruct (todo (procs c p)) as [|x rest] eqn:Et; [discriminate|].
  assert (Hgen : forall s' ch, c' = mkConf (fun q => if q =? p then mkProc (pc (procs c p)) (dne (procs c p) ++ [x]) rest s' else procs c q) ch ->
    rem c p = Datatypes.S (rem c' p) /\ forall q, q <> p -> rem c' q = rem c q).
  { intros s' ch ->. split.
    - unfold rem. cbn [procs]. rewrite Nat.eqb_refl, Et. reflexivity.
    - intros q Hq. unfold rem. cbn [procs]. apply Nat.eqb_neq in Hq. rewrite Hq. reflexivity. }
  destruct x as [a|b|a|].
  - injection Hm as <-. eapply Hgen. reflexivity.
  - destruct (sy && _); [discriminate|]. injection Hm as <-. eapply Hgen. reflexivity.
  - destruct (chan c a p (tag ph)); [discriminate|]. injection Hm as <-. eapply Hgen. reflexivity.
  - injection Hm as <-. pose proof HI as (HP & _ & _). pose proof (HP p Hp) as Hpi.
    pose proof (acts_nodup c p ph Hp Hpi E) as Hnd. rewrite Et in Hnd.
    destruct Hpi as [_ Hpi]. rewrite E in Hpi. destruct Hpi as (Hacts & _ & Hl). rewrite Et in Hacts.
    destruct (last_end ph p _ _ _ Hacts Hnd) as [-> Hw].
    split.
    + unfold rem. cbn [procs set_proc]. rewrite Nat.eqb_refl, Et. cbn [length].
      set (i := pc (procs c p)) in *.
      assert (Hs : fin ph p (lst (procs c p)) = B (Datatypes.S i) p).
      { rewrite (B_S i ph E). unfold round. rewrite Hl, Hw. reflexivity. }
      rewrite Hs. unfold start. destruct (nth_error prog (Datatypes.S i)) as [ph'|] eqn:E'; cbn [todo pc].
      * rewrite (later_cons p (Datatypes.S i)); [|eapply nth_lt; exact E']. unfold alen. rewrite E'. lia.
      * apply nth_error_None in E'. unfold later.
        replace (length prog - Datatypes.S i) with 0 by lia.
        replace (length prog - Datatypes.S (Datatypes.S i)) with 0 by lia. reflexivity.
    + intros q Hq. unfold rem. cbn [procs set_proc]. apply Nat.eqb_neq in Hq. rewrite Hq. reflexivity.
Qed.
Lemma exec_rem l : forall c c', Inv c -> ranks n l -> exec prog l c = Some c' ->
  length l + sum_to n (rem c') = sum_to n (rem c).
Proof.
  induction l as [|[sy p] l IH]; intros c c' HI Hr H; cbn in H.
  - injection H as <-. reflexivity.
  - destruct (move prog sy p c) as [c1|] eqn:Em; [|discriminate]. inversion Hr as [|? ? Hp Hr']; subst. cbn in Hp.
    destruct (rem_move c c1 sy p HI Hp Em) as [H1 H2].
    rewrite (sum_to_dec n (rem c) (rem c1) p Hp H1) by (intros q _ Hq; symmetry; apply H2; exact Hq).
    rewrite <- (IH c1 c'); auto. eapply step_Inv; eauto.
Qed.
Lemma rem_init p : rem (init prog s0) p = later p 0.
Proof.
  unfold rem, init. cbn [procs]. unfold start. destruct (nth_error prog 0) as [ph|] eqn:E; cbn [todo pc].
  - rewrite (later_cons p 0); [|eapply nth_lt; exact E]. unfold alen. rewrite E. reflexivity.
  - apply nth_error_None in E. unfold later. replace (length prog) with 0 by lia. reflexivity.
Qed.
Lemma rem_zero c : Inv c -> ((forall p, p < n -> finished prog c p) <-> sum_to n (rem c) = 0).
Proof.
  intros HI.
  assert (Hz : forall m f, sum_to m f = 0 <-> forall p, p < m -> f p = 0).
  { induction m as [|m IH]; intros f; cbn; [split; auto; lia|].
    rewrite Nat.eq_add_0, IH. split.
    - intros [H1 H2] p Hp. destruct (Nat.eq_dec p m) as [->|]; [exact H2|apply H1; lia].
    - intros H. split; [intros; apply H; lia|apply H; lia]. }
  rewrite Hz. split; intros H p Hp; specialize (H p Hp).
  - unfold finished in H. unfold rem, later. replace (length prog - Datatypes.S (pc (procs c p))) with 0 by lia.
    destruct HI as (HP & _ & _). destruct (HP p Hp) as [_ Hi].
    assert (E : nth_error prog (pc (procs c p)) = None) by (apply nth_error_None; lia). rewrite E in Hi.
    destruct Hi as [_ ->]. reflexivity.
  - unfold finished. destruct (Nat.le_gt_cases (length prog) (pc (procs c p))) as [Hle|Hlt]; [exact Hle|].
    destruct (todo_cons c p Hp HI Hlt) as (? & x & rest & _ & Ht & _). unfold rem in H. rewrite Ht in H. cbn in H. lia.
Qed.
End Proofs.

(** total work, phase by phase or process by process *)
Lemma sum_to_add m f g : sum_to m (fun p => f p + g p) = sum_to m f + sum_to m g.
Proof. induction m; cbn; lia. Qed.
Lemma later_shift {S M} (ph : phase S M) prog s0 p j : later (ph :: prog) s0 p (Datatypes.S j) = later prog (round ph s0) p j.
Proof.
  unfold later. cbn [length]. replace (Datatypes.S (length prog) - Datatypes.S j) with (length prog - j) by lia.
  f_equal. rewrite <- seq_shift, map_map. apply map_ext. intros k. reflexivity.
Qed.
Lemma work_later {S M} n (prog : list (phase S M)) : forall s0, work n prog s0 = sum_to n (fun p => later prog s0 p 0).
Proof.
  induction prog as [|ph prog IH]; intros s0; cbn [work].
  - rewrite (sum_to_ext n _ (fun _ => 0)) by reflexivity. induction n as [|n' IHn]; cbn; auto. rewrite <- IHn. reflexivity.
  - rewrite IH, <- sum_to_add. apply sum_to_ext. intros p _.
    rewrite (later_cons (ph :: prog) s0 p 0); [|cbn; lia]. rewrite later_shift. reflexivity.
Qed.

(** ** the theorem used by all properties on message passing *)
Lemma comm_main {S M} (n : nat) (prog : list (phase S M)) (s0 : nat -> S) : all_matched n prog s0 ->
  forall l c, ranks n l -> exec prog l (init prog s0) = Some c ->
    ((forall p, p < n -> finished prog c p) \/ exists p, p < n /\ move prog true p c <> None) /\
    length l <= work n prog s0 /\
    ((forall p, p < n -> finished prog c p) <-> length l = work n prog s0) /\
    ((forall p, p < n -> finished prog c p) ->
       (forall p, p < n -> lst (procs c p) = rounds prog s0 p) /\
       (forall a b t, a < n -> b < n -> chan c a b t = [])).
Proof.
  intros HM l c Hr He.
  assert (HI : Inv n prog s0 c) by (eapply exec_Inv; eauto; apply init_Inv).
  pose proof (exec_rem n prog s0 HM l _ _ (init_Inv n prog s0) Hr He) as Hrem.
  assert (Hw : sum_to n (rem prog s0 (init prog s0)) = work n prog s0).
  { rewrite work_later. apply sum_to_ext. intros p _. apply rem_init. }
  rewrite Hw in Hrem. split; [|split; [|split]].
  - eapply progress; eauto.
  - lia.
  - rewrite (rem_zero n prog s0 HM c HI). lia.
  - intros Hf. eapply all_done; eauto.
Qed.
