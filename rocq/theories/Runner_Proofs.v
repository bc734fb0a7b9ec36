From Coq Require Import List ZArith Bool Arith Lia.
From Verif Require Import Runner_Model Runner_Spec.
Import ListNotations.
Open Scope Z_scope.
Ltac sp := repeat match goal with |- _ /\ _ => split end.

Lemma set_nth_length {A} i (x : A) l : length (set_nth i x l) = length l.
Proof. revert i; induction l as [|y l IH]; intros [|i]; cbn; auto. Qed.

Lemma nth_set_nth {A} i (x : A) l j :
  nth_error (set_nth i x l) j =
  if (j =? i)%nat then (if (i <? length l)%nat then Some x else None) else nth_error l j.
Proof.
  revert i j; induction l as [|y l IH]; intros [|i] [|j]; cbn; auto.
  - destruct (j =? i)%nat; reflexivity.
  - rewrite IH. change (S i <? S (length l))%nat with (i <? length l)%nat. reflexivity.
Qed.

Lemma nth_set_same {A} i (x y : A) l : nth_error l i = Some y -> nth_error (set_nth i x l) i = Some x.
Proof.
  intros H. rewrite nth_set_nth, Nat.eqb_refl.
  assert (i < length l)%nat by (apply nth_error_Some; congruence).
  apply Nat.ltb_lt in H0. rewrite H0. reflexivity.
Qed.
Lemma nth_set_other {A} i (x : A) l j : j <> i -> nth_error (set_nth i x l) j = nth_error l j.
Proof. intros H. rewrite nth_set_nth. destruct (Nat.eqb_spec j i); [contradiction|reflexivity]. Qed.

(** pcs at which a thread holds m_runmutex / m_callmutex *)
Definition holds_run (p : rpc) : bool :=
  match p with RWaitRun | RDone | RZombie => false | _ => true end.
Definition holds_call (p : rpc) : bool :=
  match p with RClear | RInStep | RPost | RUnlockCall | RUnlockExc => true | _ => false end.

(** mutex invariant: exactly the recorded holder is inside *)
Definition mutexI (s : st) : Prop :=
  forall i p, nth_error (threads s) i = Some p ->
    (holds_run p = true <-> runm s = Some i) /\ (holds_call p = true <-> callm s = Some i).

Definition holderI (s : st) : Prop :=
  (forall i, runm s = Some i -> (i < length (threads s))%nat) /\
  (forall i, callm s = Some i -> (i < length (threads s))%nat).

Lemma holds_call_run p : holds_call p = true -> holds_run p = true.
Proof. destruct p; cbn; congruence. Qed.

(** generic update lemma *)
Lemma mutex_goto s s' i p p' :
  mutexI s -> holderI s -> nth_error (threads s) i = Some p ->
  threads s' = set_nth i p' (threads s) ->
  runm s' = (if holds_run p' then Some i else if holds_run p then None else runm s) ->
  callm s' = (if holds_call p' then Some i else if holds_call p then None else callm s) ->
  (holds_run p' = true -> holds_run p = true \/ runm s = None) ->
  (holds_call p' = true -> holds_call p = true \/ callm s = None) ->
  mutexI s' /\ holderI s'.
Proof.
  intros I [HR HC] Hp Ht Hr Hc Er Ec.
  assert (Hi : (i < length (threads s))%nat) by (apply nth_error_Some; congruence).
  destruct (I i p Hp) as [Ir Ic]. split.
  - intros j q Hq. rewrite Ht in Hq.
    destruct (Nat.eq_dec j i) as [->|Hne].
    + rewrite (nth_set_same i p' p) in Hq by assumption. injection Hq as <-.
      rewrite Hr, Hc. split.
      * destruct (holds_run p') eqn:E; [tauto|]. split; [discriminate|].
        destruct (holds_run p) eqn:E2; [discriminate|]. intros H; apply Ir in H; discriminate.
      * destruct (holds_call p') eqn:E; [tauto|]. split; [discriminate|].
        destruct (holds_call p) eqn:E2; [discriminate|]. intros H; apply Ic in H; discriminate.
    + rewrite nth_set_other in Hq by assumption. destruct (I j q Hq) as [Jr Jc]. rewrite Hr, Hc. split.
      * destruct (holds_run p') eqn:E.
        { split; [|congruence]. intros H. apply Jr in H.
          destruct (Er eq_refl) as [H'|H']; [apply Ir in H'|]; congruence. }
        destruct (holds_run p) eqn:E2; [|exact Jr].
        split; [|discriminate]. intros H. apply Jr in H. assert (runm s = Some i) by (apply Ir; reflexivity). congruence.
      * destruct (holds_call p') eqn:E.
        { split; [|congruence]. intros H. apply Jc in H.
          destruct (Ec eq_refl) as [H'|H']; [apply Ic in H'|]; congruence. }
        destruct (holds_call p) eqn:E2; [|exact Jc].
        split; [|discriminate]. intros H. apply Jc in H. assert (callm s = Some i) by (apply Ic; reflexivity). congruence.
  - split; intros j Hj; rewrite Ht, set_nth_length.
    + rewrite Hr in Hj. destruct (holds_run p'); [congruence|]. destruct (holds_run p); [discriminate|auto].
    + rewrite Hc in Hj. destruct (holds_call p'); [congruence|]. destruct (holds_call p); [discriminate|auto].
Qed.

Lemma thread_move_mutex s i exc s' :
  mutexI s -> holderI s -> thread_move s i exc = Some s' -> mutexI s' /\ holderI s'.
Proof.
  intros I H M. unfold thread_move in M.
  destruct (nth_error (threads s) i) as [p|] eqn:Ep; [|discriminate].
  destruct (I i p Ep) as [Ir Ic].
  assert (Ir1 : holds_run p = true -> runm s = Some i) by tauto.
  assert (Ic1 : holds_call p = true -> callm s = Some i) by tauto.
  destruct p; cbn in Ir1, Ic1; clear Ir Ic;
    try specialize (Ir1 eq_refl); try specialize (Ic1 eq_refl).
  - destruct (runm s) eqn:Er; [discriminate|]. injection M as <-.
    (eapply mutex_goto; [exact I|exact H|exact Ep|reflexivity|..]; cbn; auto; try (intros; discriminate)).
  - injection M as <-. destruct (looping s); (eapply mutex_goto; [exact I|exact H|exact Ep|reflexivity|..]; cbn; auto; try (intros; discriminate)).
  - destruct (callm s) eqn:Er; [discriminate|]. injection M as <-.
    (eapply mutex_goto; [exact I|exact H|exact Ep|reflexivity|..]; cbn; auto; try (intros; discriminate)).
  - injection M as <-. (eapply mutex_goto; [exact I|exact H|exact Ep|reflexivity|..]; cbn; auto; try (intros; discriminate)).
  - destruct exc; injection M as <-; (eapply mutex_goto; [exact I|exact H|exact Ep|reflexivity|..]; cbn; auto; try (intros; discriminate)).
  - injection M as <-. (eapply mutex_goto; [exact I|exact H|exact Ep|reflexivity|..]; cbn; auto; try (intros; discriminate)).
  - injection M as <-. (eapply mutex_goto; [exact I|exact H|exact Ep|reflexivity|..]; cbn; auto; try (intros; discriminate)).
  - injection M as <-. destruct (term s); (eapply mutex_goto; [exact I|exact H|exact Ep|reflexivity|..]; cbn; auto; try (intros; discriminate)).
  - injection M as <-. (eapply mutex_goto; [exact I|exact H|exact Ep|reflexivity|..]; cbn; auto; try (intros; discriminate)).
  - injection M as <-. (eapply mutex_goto; [exact I|exact H|exact Ep|reflexivity|..]; cbn; auto; try (intros; discriminate)).
  - injection M as <-. (eapply mutex_goto; [exact I|exact H|exact Ep|reflexivity|..]; cbn; auto; try (intros; discriminate)).
  - discriminate.
  - injection M as <-. split; [exact I|exact H].
Qed.

Lemma cmd_move_same s c s' : cmd_move s c = Some s' ->
  threads s' = threads s /\ runm s' = runm s /\ callm s' = callm s /\ iter s' = iter s /\ crashed s' = crashed s /\ caller s = CIdle.
Proof.
  unfold cmd_move. destruct (caller s); try discriminate.
  destruct c; intros H; try (injection H as <-; cbn; auto 8).
  destruct (looping s); injection H as <-; cbn; auto 8.
Qed.

Lemma move_mutex s a s' : mutexI s -> holderI s -> move s a = Some s' -> mutexI s' /\ holderI s'.
Proof.
  intros I H M. destruct a as [c| |i exc]; cbn in M.
  - apply cmd_move_same in M as (Et & Er & Ec & _). unfold mutexI, holderI. rewrite Et, Er, Ec. auto.
  - unfold caller_move in M. destruct (caller s) as [|w| | |]; try discriminate.
    + destruct (looping s); injection M as <-; [split; [exact I|exact H]|]. unfold mutexI, holderI. cbn.
      destruct H as [HR HC]. split.
      * intros i p Hp. destruct (Nat.lt_ge_cases i (length (threads s))) as [Hl|Hl].
        { rewrite nth_error_app1 in Hp by assumption. apply I; assumption. }
        rewrite nth_error_app2 in Hp by assumption.
        assert (i = length (threads s)).
        { destruct (i - length (threads s))%nat as [|k] eqn:Ek; [lia|]. cbn in Hp. destruct k; discriminate. }
        subst i. rewrite Nat.sub_diag in Hp. cbn in Hp. injection Hp as <-. cbn. split.
        { split; [discriminate|]. intros Hc. apply HR in Hc. lia. }
        { split; [discriminate|]. intros Hc. apply HC in Hc. lia. }
      * rewrite app_length. cbn. split; intros i Hi; [apply HR in Hi|apply HC in Hi]; lia.
    + destruct (looping s); [discriminate|]. injection M as <-. split; [exact I|exact H].
    + injection M as <-. split; [exact I|exact H].
    + destruct (runm s) eqn:Er; [discriminate|]. destruct (callm s) eqn:Ec; [discriminate|]. injection M as <-.
      unfold mutexI, holderI. cbn. split; [|split; discriminate].
      intros i p Hp. rewrite nth_error_map in Hp. destruct (nth_error (threads s) i) as [q|] eqn:Eq; [|discriminate].
      cbn in Hp. injection Hp as <-. destruct q; cbn; split; split; discriminate.
  - eapply thread_move_mutex; eassumption.
Qed.

Lemma exec_inv (P : st -> Prop) l : forall s s',
  (forall s a s', In a l -> P s -> move s a = Some s' -> P s') -> P s -> exec s l = Some s' -> P s'.
Proof.
  induction l as [|a l IH]; intros s s' Hstep Hs E; cbn in E; [congruence|].
  destruct (move s a) as [s1|] eqn:Em; [|discriminate].
  eapply IH; [|eapply Hstep; [left; reflexivity|exact Hs|exact Em]|exact E].
  intros; eapply Hstep; eauto. right; assumption.
Qed.

Lemma init_mutex it : mutexI (init it) /\ holderI (init it).
Proof.
  split; [intros i p Hp; destruct i; discriminate|]. split; intros i Hi; discriminate.
Qed.

Lemma reach_mutex it l s : exec (init it) l = Some s -> mutexI s /\ holderI s.
Proof.
  apply (exec_inv (fun s => mutexI s /\ holderI s)); [|apply init_mutex].
  intros s1 a s2 _ [I H] M. eapply move_mutex; eassumption.
Qed.

Lemma background_exclusive it l s i j :
  exec (init it) l = Some s -> in_step s i -> in_step s j -> i = j.
Proof.
  intros E Hi Hj. destruct (reach_mutex _ _ _ E) as [I _].
  assert (Hx : callm s = Some i) by (apply (I i RInStep Hi); reflexivity).
  assert (Hy : callm s = Some j) by (apply (I j RInStep Hj); reflexivity).
  congruence.
Qed.

(** ** without pause: when O.running is False no background step is executing *)
Definition resting (p : rpc) : bool :=
  match p with RWaitRun | RCheck | RUnlockRun | RDone | RZombie => true | _ => false end.

Definition restI (s : st) : Prop :=
  (looping s = false -> caller s <> CDestroy -> forall i p, nth_error (threads s) i = Some p -> resting p = true) /\
  (caller s = CInStep -> looping s = false) /\ (caller s = CDestroy -> looping s = false).

Lemma thread_move_rest s i exc s' :
  mutexI s -> holderI s -> restI s -> thread_move s i exc = Some s' -> restI s'.
Proof.
  intros I HH (R & R2 & R3) M. unfold thread_move in M.
  destruct (nth_error (threads s) i) as [p|] eqn:Ep; [|discriminate].
  assert (Upd : forall p', looping s = false -> caller s <> CDestroy -> resting p' = true ->
    forall j q, nth_error (set_nth i p' (threads s)) j = Some q -> resting q = true).
  { intros p' Hl Hc Hr j q Hq. destruct (Nat.eq_dec j i) as [->|Hne].
    - rewrite (nth_set_same i p' p) in Hq by assumption. injection Hq as <-. exact Hr.
    - rewrite nth_set_other in Hq by assumption. eapply R; eassumption. }
  assert (Bad : looping s = false -> caller s <> CDestroy -> resting p = true) by (intros; eapply R; eassumption).
  destruct p.
  1:{ destruct (runm s); [discriminate|]. injection M as <-. split; [|split; [exact R2|exact R3]].
      cbn. intros Hl Hc. apply Upd; auto. }
  1:{ injection M as <-. split; [|split; [exact R2|exact R3]]. cbn. intros Hl Hc. rewrite Hl. apply Upd; auto. }
  1:{ destruct (callm s); [discriminate|]. injection M as <-. split; [|split; [exact R2|exact R3]].
      cbn. intros Hl Hc. specialize (Bad Hl Hc). discriminate. }
  1,3,4,5,6: injection M as <-; (split; [|split; [exact R2|exact R3]]);
      cbn; intros Hl Hc; specialize (Bad Hl Hc); discriminate.
  1:{ destruct exc; injection M as <-; (split; [|split; [exact R2|exact R3]]);
      cbn; intros Hl Hc; specialize (Bad Hl Hc); discriminate. }
  1:{ (* RStop : the holder of runm stops the loop; everybody else is outside *)
      injection M as <-. split; [|split; cbn; reflexivity]. cbn. intros _ Hc j q Hq.
      destruct (Nat.eq_dec j i) as [->|Hne].
      - rewrite (nth_set_same i RUnlockRun RStop) in Hq by assumption. injection Hq as <-. reflexivity.
      - rewrite nth_set_other in Hq by assumption.
        assert (Hr : runm s = Some i) by (apply (I i RStop Ep); reflexivity).
        destruct (holds_run q) eqn:Eh.
        + assert (runm s = Some j) by (apply (I j q Hq); exact Eh). congruence.
        + destruct q; try discriminate; reflexivity. }
  1:{ injection M as <-. split; [|split; [exact R2|exact R3]]. cbn. intros Hl Hc. apply Upd; auto. }
  1: discriminate.
  injection M as <-. split; [exact R|split; [exact R2|exact R3]].
Qed.

Lemma move_rest s a s' :
  ~ is_pause a -> mutexI s -> holderI s -> restI s -> move s a = Some s' -> restI s'.
Proof.
  intros NP I H R M. destruct a as [c| |i exc]; cbn in M.
  - destruct R as (R & R2 & R3). unfold cmd_move in M. destruct (caller s) eqn:Ec; try discriminate.
    destruct c.
    + injection M as <-. split; [|split]; cbn; try discriminate. intros Hl _. apply R; [exact Hl|discriminate].
    + exfalso; apply NP; reflexivity.
    + destruct (looping s) eqn:El; injection M as <-; (split; [|split]); cbn; try discriminate; auto.
      * intros _ _. apply R; [reflexivity|discriminate].
    + injection M as <-. split; [|split]; cbn; try discriminate. intros Hl _. apply R; [exact Hl|discriminate].
    + injection M as <-. split; [|split]; cbn; try discriminate; auto.
  - unfold caller_move in M. destruct R as (R & R2 & R3). destruct (caller s) as [|w| | |] eqn:Ec; try discriminate.
    + destruct (looping s) eqn:El; injection M as <-; (split; [|split]); cbn; try congruence.
      all: destruct w; discriminate.
    + destruct (looping s) eqn:El; [discriminate|]. injection M as <-. split; [|split]; cbn; try discriminate.
      intros _ _. apply R; [reflexivity|discriminate].
    + injection M as <-. split; [|split]; cbn; try discriminate. intros Hl _. apply R; [exact Hl|discriminate].
    + destruct (runm s) eqn:Er; [discriminate|]. destruct (callm s) eqn:Ek; [discriminate|]. injection M as <-.
      split; [|split]; cbn; try discriminate. intros _ _ i p Hp. rewrite nth_error_map in Hp.
      destruct (nth_error (threads s) i) as [q|] eqn:Eq; [|discriminate]. cbn in Hp. injection Hp as <-.
      destruct q; reflexivity.
  - eapply thread_move_rest; eassumption.
Qed.

Lemma reach_rest it l s : Forall (fun a => ~ is_pause a) l -> exec (init it) l = Some s -> mutexI s /\ holderI s /\ restI s.
Proof.
  intros HF. apply (exec_inv (fun s => mutexI s /\ holderI s /\ restI s)).
  - intros s1 a s2 Hin (I & H & R) M. destruct (move_mutex _ _ _ I H M) as [I2 H2].
    split; [exact I2|]. split; [exact H2|]. refine (move_rest _ _ _ _ I H R M).
    rewrite Forall_forall in HF. apply HF, Hin.
  - destruct (init_mutex it) as [I H]. split; [exact I|]. split; [exact H|].
    split; [|split; discriminate]. intros _ _ [|i] p; discriminate.
Qed.

Lemma steps_exclusive_no_pause it l s i :
  Forall (fun a => ~ is_pause a) l -> exec (init it) l = Some s ->
  caller_in_step s -> in_step s i -> False.
Proof.
  intros HF E Hc Hi. destruct (reach_rest _ _ _ HF E) as (_ & _ & R & R2 & _).
  unfold caller_in_step in Hc. assert (Hl := R2 Hc).
  assert (X : resting RInStep = true) by (apply (R Hl ltac:(congruence) i RInStep Hi)). discriminate.
Qed.

Definition overlap_schedule : list action :=
  [ACmd (CmdRun 10 false); ACaller; AThread 0 false; AThread 0 false; AThread 0 false; AThread 0 false;
   ACmd CmdPause; ACmd CmdStep].
Lemma steps_overlap :
  exists s, exec (init 0) overlap_schedule = Some s /\ caller_in_step s /\ in_step s 0.
Proof. eexists. split; [vm_compute; reflexivity|]. split; reflexivity. Qed.

(** ** O.run(n,wait=True) on an idle simulation *)
Definition rank (p : rpc) : Z :=
  match p with
  | RWaitRun => 8 | RCheck => 7 | RWaitCall => 6 | RClear => 5 | RInStep => 4
  | RPost => 11 | RUnlockCall => 10 | RShould => 9 | RStop => 2 | RUnlockRun => 1
  | _ => 0 end.

(** phases of the run; [d] finished threads, then ours *)
Inductive phase (d : list rpc) (it n : Z) : st -> Prop :=
| Ph0 s : caller s = CRun true -> looping s = false -> runm s = None -> callm s = None ->
          threads s = d -> iter s = it -> stopAt s = it + n -> phase d it n s
| Ph1 s p : caller s = CWaiting -> looping s = true -> threads s = d ++ [p] -> stopAt s = it + n -> it <= iter s ->
          runm s = (if holds_run p then Some (length d) else None) ->
          callm s = (if holds_call p then Some (length d) else None) ->
          match p with
          | RWaitRun | RCheck | RWaitCall | RClear => iter s < it + n
          | RInStep => iter s < it + n /\ term s = false
          | RPost => iter s <= it + n /\ term s = false
          | RUnlockCall | RShould => iter s <= it + n /\ (term s = true <-> iter s = it + n)
          | RStop => iter s = it + n
          | _ => False end -> phase d it n s
| Ph2 s p : (caller s = CWaiting \/ caller s = CIdle) -> looping s = false -> threads s = d ++ [p] -> iter s = it + n ->
          (p = RUnlockRun \/ p = RDone) -> runm s = (if holds_run p then Some (length d) else None) -> callm s = None ->
          phase d it n s.

Local Arguments Z.mul : simpl never.
Local Arguments Z.add : simpl never.
Local Arguments Z.sub : simpl never.
Definition measure (d : list rpc) (it n : Z) (s : st) : Z :=
  match caller s with
  | CRun _ => 8 * n + 20
  | c => 8 * (it + n - iter s) + rank (nth (length d) (threads s) RDone) + (match c with CWaiting => 1 | _ => 0 end)
  end.

Lemma nth_error_mid {A} (d : list A) p i q : nth_error (d ++ [p]) i = Some q -> (i < length d)%nat /\ nth_error d i = Some q \/ i = length d /\ q = p.
Proof.
  intros H. destruct (Nat.lt_ge_cases i (length d)) as [Hl|Hl].
  - left. rewrite nth_error_app1 in H by assumption. auto.
  - right. rewrite nth_error_app2 in H by assumption.
    destruct (i - length d)%nat as [|k] eqn:Ek; cbn in H; [|destruct k; discriminate].
    injection H as <-. split; [lia|reflexivity].
Qed.

Lemma set_nth_mid {A} (d : list A) p p' : set_nth (length d) p' (d ++ [p]) = d ++ [p'].
Proof. induction d as [|x d IH]; cbn; [reflexivity|rewrite IH; reflexivity]. Qed.

Lemma nth_mid {A} (d : list A) p x : nth (length d) (d ++ [p]) x = p.
Proof. rewrite app_nth2, Nat.sub_diag by lia. reflexivity. Qed.

Lemma phase_step d it n s a s' :
  Forall (fun p => p = RDone) d -> 0 <= it -> 0 < n ->
  ~ is_exc a -> ~ is_cmd a -> phase d it n s -> move s a = Some s' ->
  phase d it n s' /\ measure d it n s' < measure d it n s /\ 0 <= measure d it n s'.
Proof.
  intros HD Hit Hn NX NC P M.
  assert (Hdone : forall i q, nth_error d i = Some q -> q = RDone).
  { intros i q Hq. rewrite Forall_forall in HD. apply HD. eapply nth_error_In; eassumption. }
  destruct a as [c| |i exc]; [exfalso; apply NC; eexists; reflexivity| |].
  - cbn in M. unfold caller_move in M. destruct P as [s Hc Hl Hr Hk Ht Hi Hs|s p Hc Hl Ht Hs Hi Hr Hk Hp|s p Hc Hl Ht Hi Hp Hr Hk].
    + rewrite Hc, Hl in M. injection M as <-. split.
      * eapply Ph1 with (p := RWaitRun); cbn; auto; try congruence; try lia.
      * unfold measure. cbn. rewrite Hc, Ht, nth_mid, Hi. cbn. lia.
    + rewrite Hc, Hl in M. discriminate.
    + destruct Hc as [Hc|Hc]; rewrite Hc in M; [|discriminate]. rewrite Hl in M. injection M as <-. split.
      * eapply Ph2 with (p := p); cbn; auto.
      * unfold measure. cbn. rewrite Hc, Ht, nth_mid, Hi. destruct Hp as [-> | ->]; cbn; lia.
  - assert (exc = false) by (destruct exc; [exfalso; apply NX; eexists; reflexivity|reflexivity]). subst exc.
    cbn in M. unfold thread_move in M.
    destruct (nth_error (threads s) i) as [q|] eqn:Eq; [|discriminate].
    destruct P as [s Hc Hl Hr Hk Ht Hi Hs|s p Hc Hl Ht Hs Hi Hr Hk Hp|s p Hc Hl Ht Hi Hp Hr Hk].
    + rewrite Ht in Eq. rewrite (Hdone _ _ Eq) in M. discriminate.
    + rewrite Ht in Eq. apply nth_error_mid in Eq as [[_ Eq]|[-> ->]]; [rewrite (Hdone _ _ Eq) in M; discriminate|].
      destruct p; cbn in Hr, Hk; try contradiction.
      * rewrite Hr in M. injection M as <-. split.
        { eapply Ph1 with (p := RCheck); cbn; auto. rewrite Ht; apply set_nth_mid. }
        unfold measure; cbn; rewrite Hc, Ht, set_nth_mid, !nth_mid; cbn; lia.
      * rewrite Hl in M. injection M as <-. split.
        { eapply Ph1 with (p := RWaitCall); cbn; auto. rewrite Ht; apply set_nth_mid. }
        unfold measure; cbn; rewrite Hc, Ht, set_nth_mid, !nth_mid; cbn; lia.
      * rewrite Hk in M. injection M as <-. split.
        { eapply Ph1 with (p := RClear); cbn; auto. rewrite Ht; apply set_nth_mid. }
        unfold measure; cbn; rewrite Hc, Ht, set_nth_mid, !nth_mid; cbn; lia.
      * injection M as <-. split.
        { eapply Ph1 with (p := RInStep); cbn; auto. rewrite Ht; apply set_nth_mid. }
        unfold measure; cbn; rewrite Hc, Ht, set_nth_mid, !nth_mid; cbn; lia.
      * injection M as <-. destruct Hp as [Hp1 Hp2]. split.
        { eapply Ph1 with (p := RPost); cbn; auto; [rewrite Ht; apply set_nth_mid|lia|split; [lia|assumption]]. }
        unfold measure; cbn; rewrite Hc, Ht, set_nth_mid, !nth_mid; cbn; lia.
      * injection M as <-. destruct Hp as [Hp1 Hp2]. split.
        { eapply Ph1 with (p := RUnlockCall); cbn; auto; [rewrite Ht; apply set_nth_mid|].
          split; [lia|]. rewrite Hs. destruct (Z.ltb_spec 0 (it + n)); [|lia]. cbn.
          destruct (Z.eqb_spec (iter s) (it + n)); split; intros; try congruence; try lia. }
        unfold measure; cbn; rewrite Hc, Ht, set_nth_mid, !nth_mid; cbn; lia.
      * injection M as <-. split.
        { eapply Ph1 with (p := RShould); cbn; auto. rewrite Ht; apply set_nth_mid. }
        unfold measure; cbn; rewrite Hc, Ht, set_nth_mid, !nth_mid; cbn; lia.
      * injection M as <-. destruct Hp as [Hp1 Hp2]. destruct (term s) eqn:Et.
        { assert (iter s = it + n) by (apply Hp2; reflexivity). split.
          { eapply Ph1 with (p := RStop); cbn; auto. rewrite Ht; apply set_nth_mid. }
          unfold measure; cbn; rewrite Hc, Ht, set_nth_mid, !nth_mid; cbn; lia. }
        { assert (iter s <> it + n) by (intros Hx; apply Hp2 in Hx; discriminate). split.
          { eapply Ph1 with (p := RCheck); cbn; auto; [rewrite Ht; apply set_nth_mid|lia]. }
          unfold measure; cbn; rewrite Hc, Ht, set_nth_mid, !nth_mid; cbn; lia. }
      * injection M as <-. split.
        { eapply Ph2 with (p := RUnlockRun); cbn; auto. rewrite Ht; apply set_nth_mid. }
        unfold measure; cbn; rewrite Hc, Ht, set_nth_mid, !nth_mid; cbn; lia.
    + rewrite Ht in Eq. apply nth_error_mid in Eq as [[_ Eq]|[-> ->]]; [rewrite (Hdone _ _ Eq) in M; discriminate|].
      destruct Hp as [-> | ->]; [|discriminate]. injection M as <-. split.
      { eapply Ph2 with (p := RDone); cbn; auto. rewrite Ht; apply set_nth_mid. }
      unfold measure; cbn; rewrite Ht, set_nth_mid, !nth_mid, Hi. destruct Hc as [-> | ->]; cbn; lia.
Qed.

Lemma phase_quiescent d it n s :
  Forall (fun p => p = RDone) d -> phase d it n s -> quiescent s -> idle s /\ iter s = it + n.
Proof.
  intros HD P [Q1 Q2].
  destruct P as [s Hc Hl Hr Hk Ht Hi Hs|s p Hc Hl Ht Hs Hi Hr Hk Hp|s p Hc Hl Ht Hi Hp Hr Hk].
  - cbn in Q1. unfold caller_move in Q1. rewrite Hc, Hl in Q1. discriminate.
  - exfalso. specialize (Q2 (length d) false). cbn in Q2. unfold thread_move in Q2.
    assert (En : nth_error (threads s) (length d) = Some p) by (rewrite Ht, nth_error_app2, Nat.sub_diag by lia; reflexivity).
    rewrite En in Q2. destruct p; cbn in Hr, Hk; try contradiction; try (rewrite ?Hr, ?Hk in Q2; discriminate).
  - assert (p = RDone).
    { destruct Hp as [-> | ->]; [|reflexivity]. exfalso. specialize (Q2 (length d) false). cbn in Q2. unfold thread_move in Q2.
      rewrite Ht, nth_error_app2, Nat.sub_diag in Q2 by lia. discriminate. }
    subst p. cbn in Hr. split; [|exact Hi]. split; [exact Hl|]. split; [exact Hr|]. split; [exact Hk|].
    split; [|rewrite Ht; apply Forall_app; split; [assumption|repeat constructor]].
    destruct Hc as [Hc|Hc]; [|exact Hc]. cbn in Q1. unfold caller_move in Q1. rewrite Hc, Hl in Q1. discriminate.
Qed.

Lemma phase_exec d it n l : forall s s',
  Forall (fun p => p = RDone) d -> 0 <= it -> 0 < n ->
  Forall (fun a => ~ is_exc a /\ ~ is_cmd a) l -> phase d it n s -> exec s l = Some s' ->
  phase d it n s' /\ (l = [] \/ 0 <= measure d it n s' /\ measure d it n s' + Z.of_nat (length l) <= measure d it n s).
Proof.
  induction l as [|a l IH]; intros s s' HD Hit Hn HF P E; cbn in E.
  - injection E as <-. auto.
  - destruct (move s a) as [s1|] eqn:Em; [|discriminate]. inversion HF as [|? ? [HX HC] HF']; subst.
    destruct (phase_step d it n s a s1 HD Hit Hn HX HC P Em) as (P1 & M1 & M0).
    destruct (IH s1 s' HD Hit Hn HF' P1 E) as [P2 [->|[M2 M3]]].
    + split; [exact P2|]. right. cbn in E. injection E as <-. cbn. lia.
    + split; [exact P2|]. right. split; [exact M2|]. change (length (a :: l)) with (S (length l)). lia.
Qed.

Lemma run_n_exact s n l s' :
  idle s -> 0 <= iter s -> 0 < n ->
  Forall (fun a => ~ is_exc a /\ ~ is_cmd a) l ->
  exec s (ACmd (CmdRun n true) :: l) = Some s' ->
  (Z.of_nat (length l) <= 8 * n + 20) /\ iter s' <= iter s + n /\
  (caller s' = CIdle -> iter s' = iter s + n) /\
  (quiescent s' -> idle s' /\ iter s' = iter s + n).
Proof.
  intros (Hl & Hr & Hk & Hc & HD) Hi Hn HF E. cbn in E. unfold cmd_move in E. rewrite Hc in E.
  set (s0 := mkSt _ _ _ _ _ _ _ _ _ _) in E.
  assert (P0 : phase (threads s) (iter s) n s0).
  { apply Ph0; try reflexivity; try assumption. cbn. destruct (Z.ltb_spec 0 n); [reflexivity|lia]. }
  destruct (phase_exec (threads s) (iter s) n l s0 s' HD Hi Hn HF P0 E) as [P Hlen].
  split; [|split; [|split]].
  - destruct Hlen as [->|[Hpos Hlen]]; [cbn; lia|].
    assert (Hm : measure (threads s) (iter s) n s0 = 8 * n + 20) by reflexivity. lia.
  - destruct P as [x Hc' Hl' Hr' Hk' Ht' Hi' Hs'|x p Hc' Hl' Ht' Hs' Hi' Hr' Hk' Hp'|x p Hc' Hl' Ht' Hi' Hp' Hr' Hk']; try lia.
    destruct p; cbn in Hp'; try contradiction; try lia.
  - intros Hidle. destruct P; try congruence.
  - intros Q. eapply phase_quiescent; eassumption.
Qed.

(** a maximal execution exists / the run cannot get stuck before: progress *)
Lemma run_n_progress s n l s' :
  idle s -> 0 <= iter s -> 0 < n ->
  Forall (fun a => ~ is_exc a /\ ~ is_cmd a) l ->
  exec s (ACmd (CmdRun n true) :: l) = Some s' -> ~ (idle s' /\ iter s' = iter s + n) ->
  exists a s2, ~ is_exc a /\ ~ is_cmd a /\ move s' a = Some s2.
Proof.
  intros (Hl & Hr & Hk & Hc & HD) Hi Hn HF E NQ. cbn in E. unfold cmd_move in E. rewrite Hc in E.
  set (s0 := mkSt _ _ _ _ _ _ _ _ _ _) in E.
  assert (P0 : phase (threads s) (iter s) n s0).
  { apply Ph0; try reflexivity; try assumption. cbn. destruct (Z.ltb_spec 0 n); [reflexivity|lia]. }
  destruct (phase_exec (threads s) (iter s) n l s0 s' HD Hi Hn HF P0 E) as [P _].
  assert (NA : ~ is_exc ACaller /\ ~ is_cmd ACaller) by (split; intros [x Hx]; discriminate).
  assert (NT : forall i, ~ is_exc (AThread i false) /\ ~ is_cmd (AThread i false)) by (intros i; split; intros [x Hx]; discriminate).
  destruct (caller_move s') as [s2|] eqn:Ec.
  { exists ACaller, s2. destruct NA. auto. }
  destruct (thread_move s' (length (threads s)) false) as [s2|] eqn:Et.
  { exists (AThread (length (threads s)) false), s2. destruct (NT (length (threads s))). auto. }
  exfalso. apply NQ.
  destruct P as [x Hc' Hl' Hr' Hk' Ht' Hi' Hs'|x p Hc' Hl' Ht' Hs' Hi' Hr' Hk' Hp'|x p Hc' Hl' Ht' Hi' Hp' Hr' Hk'].
  - unfold caller_move in Ec. rewrite Hc', Hl' in Ec. discriminate.
  - exfalso. unfold thread_move in Et.
    assert (En : nth_error (threads x) (length (threads s)) = Some p) by (rewrite Ht', nth_error_app2, Nat.sub_diag by lia; reflexivity).
    rewrite En in Et. destruct p; cbn in Hr', Hk'; try contradiction; try (rewrite ?Hr', ?Hk' in Et; discriminate).
  - assert (p = RDone).
    { destruct Hp' as [-> | ->]; [|reflexivity]. exfalso. unfold thread_move in Et.
      rewrite Ht', nth_error_app2, Nat.sub_diag in Et by lia. discriminate. }
    subst p. split; [|exact Hi']. split; [exact Hl'|]. split; [exact Hr'|]. split; [exact Hk'|].
    split; [|rewrite Ht'; apply Forall_app; split; [assumption|repeat constructor]].
    destruct Hc' as [Hc'|Hc']; [|exact Hc']. unfold caller_move in Ec. rewrite Hc', Hl' in Ec. discriminate.
Qed.

(** ** pause then run *)
(** the background thread is between its last step and the test of the stop
    request; O.pause, then O.run(5,wait=True): the old request stops the new run *)
Definition lost_run : list action :=
  [ACmd (CmdRun 1 false); ACaller] ++ repeat (AThread 0 false) 7 ++
  [ACmd CmdPause; ACmd (CmdRun 5 true); ACaller; AThread 0 false; AThread 0 false; AThread 0 false; ACaller;
   AThread 1 false; AThread 1 false; AThread 1 false].
Lemma run_after_pause_lost :
  exists s, exec (init 0) lost_run = Some s /\ idle s /\ quiescent s /\ iter s = 1 /\ stopAt s = 6.
Proof.
  eexists. split; [vm_compute; reflexivity|]. split.
  - repeat split; cbn; repeat constructor.
  - split; [|split; reflexivity]. split; [reflexivity|]. intros [|[|[|i]]] exc; reflexivity.
Qed.

(** ** destruction *)
Definition crash_schedule : list action :=
  [ACmd (CmdRun 10 false); ACaller; ACmd CmdDestroy; ACaller; AThread 0 false].
Lemma destroy_crash : exists s, exec (init 0) crash_schedule = Some s /\ crashed s = true.
Proof. eexists. split; [vm_compute; reflexivity|]. reflexivity. Qed.


Definition no_zombie (s : st) : Prop := crashed s = false /\ forall i, nth_error (threads s) i <> Some RZombie.

Lemma no_zombie_step s a s' :
  mutexI s -> holderI s -> no_zombie s -> (a = ACaller -> caller s = CDestroy -> started s) ->
  move s a = Some s' -> no_zombie s'.
Proof.
  intros I H [Hc Hz] Hst M. destruct a as [c| |i exc]; cbn in M.
  - apply cmd_move_same in M as (Et & _ & _ & _ & Ec & _). split; [congruence|]. rewrite Et. exact Hz.
  - unfold caller_move in M. destruct (caller s) as [|w| | |] eqn:Ec; try discriminate.
    + destruct (looping s); injection M as <-; (split; [exact Hc|]); cbn; [exact Hz|].
      intros i Hi. destruct (Nat.lt_ge_cases i (length (threads s))) as [Hl|Hl].
      * rewrite nth_error_app1 in Hi by assumption. apply (Hz i Hi).
      * rewrite nth_error_app2 in Hi by assumption. destruct (i - length (threads s))%nat as [|[|k]]; discriminate.
    + destruct (looping s); [discriminate|]. injection M as <-. split; [exact Hc|exact Hz].
    + injection M as <-. split; [exact Hc|exact Hz].
    + destruct (runm s) eqn:Er; [discriminate|]. destruct (callm s) eqn:Ek; [discriminate|]. injection M as <-.
      split; [exact Hc|]. cbn. intros i Hi. rewrite nth_error_map in Hi.
      destruct (nth_error (threads s) i) as [q|] eqn:Eq; [|discriminate]. cbn in Hi.
      assert (Hq : holds_run q = false).
      { destruct (holds_run q) eqn:Eh; [|reflexivity]. apply (I i q Eq) in Eh. congruence. }
      destruct q; try discriminate.
      * apply (Hst eq_refl eq_refl i Eq).
      * apply (Hz i Eq).
  - unfold thread_move in M. destruct (nth_error (threads s) i) as [p|] eqn:Ep; [|discriminate].
    assert (U : forall p', p' <> RZombie -> forall j, nth_error (set_nth i p' (threads s)) j <> Some RZombie).
    { intros p' Hp' j Hj. destruct (Nat.eq_dec j i) as [->|Hne].
      - rewrite (nth_set_same i p' p) in Hj by assumption. congruence.
      - rewrite nth_set_other in Hj by assumption. apply (Hz j Hj). }
    destruct p; try discriminate.
    + destruct (runm s); [discriminate|]. injection M as <-. split; [exact Hc|]. apply U; discriminate.
    + injection M as <-. split; [exact Hc|]. apply U. destruct (looping s); discriminate.
    + destruct (callm s); [discriminate|]. injection M as <-. split; [exact Hc|]. apply U; discriminate.
    + injection M as <-. split; [exact Hc|]. apply U; discriminate.
    + destruct exc; injection M as <-; (split; [exact Hc|]); apply U; discriminate.
    + injection M as <-. split; [exact Hc|]. apply U; discriminate.
    + injection M as <-. split; [exact Hc|]. apply U; discriminate.
    + injection M as <-. split; [exact Hc|]. apply U; destruct (term s); discriminate.
    + injection M as <-. split; [exact Hc|]. apply U; discriminate.
    + injection M as <-. split; [exact Hc|]. apply U; discriminate.
    + injection M as <-. split; [exact Hc|]. apply U; discriminate.
    + exfalso. apply (Hz i Ep).
Qed.

Lemma no_crash it l s : safe_destroy (init it) l -> exec (init it) l = Some s -> crashed s = false.
Proof.
  assert (G : forall l s0, mutexI s0 -> holderI s0 -> no_zombie s0 -> safe_destroy s0 l -> exec s0 l = Some s -> crashed s = false).
  { clear l. induction l as [|a l IH]; intros s0 I H Z S E; cbn in E; [injection E as <-; apply Z|].
    destruct S as [S1 S2]. destruct (move s0 a) as [s1|] eqn:Em; [|discriminate].
    destruct (move_mutex _ _ _ I H Em) as [I1 H1]. refine (IH s1 I1 H1 (no_zombie_step _ _ _ I H Z S1 Em) S2 E). }
  intros S E. destruct (init_mutex it) as [I H]. eapply G; eauto.
  split; [reflexivity|]. intros [|i]; discriminate.
Qed.

Lemma reach_idle it l s :
  exec (init it) l = Some s -> looping s = false -> caller s = CIdle ->
  Forall (fun p => p = RDone) (threads s) -> idle s.
Proof.
  intros E Hl Hc HD. destruct (reach_mutex _ _ _ E) as [I [HR HC]].
  rewrite Forall_forall in HD.
  assert (N : forall i, runm s = Some i \/ callm s = Some i -> False).
  { intros i Hi. assert (Hlt : (i < length (threads s))%nat) by (destruct Hi; auto).
    destruct (nth_error (threads s) i) as [p|] eqn:Ep; [|apply nth_error_None in Ep; lia].
    assert (p = RDone) by (apply HD; eapply nth_error_In; eassumption). subst p.
    destruct (I i RDone Ep) as [Ir Ic]. destruct Hi as [Hi|Hi]; [apply Ir in Hi|apply Ic in Hi]; discriminate. }
  split; [exact Hl|]. split; [destruct (runm s) as [i|]; [exfalso; apply (N i); auto|reflexivity]|].
  split; [destruct (callm s) as [i|]; [exfalso; apply (N i); auto|reflexivity]|].
  split; [exact Hc|]. rewrite Forall_forall. exact HD.
Qed.

Lemma iter_mono s a s' : move s a = Some s' -> iter s <= iter s'.
Proof.
  intros M. destruct a as [c| |i exc]; cbn in M.
  - apply cmd_move_same in M as (_ & _ & _ & E & _). lia.
  - unfold caller_move in M. destruct (caller s) as [|w| | |]; try discriminate.
    + destruct (looping s); injection M as <-; cbn; lia.
    + destruct (looping s); [discriminate|]. injection M as <-; cbn; lia.
    + injection M as <-; cbn; lia.
    + destruct (runm s); [discriminate|]. destruct (callm s); [discriminate|]. injection M as <-; cbn; lia.
  - unfold thread_move in M. destruct (nth_error (threads s) i) as [p|]; [|discriminate].
    destruct p; try (injection M as <-; cbn; lia); try discriminate.
    + destruct (runm s); [discriminate|]. injection M as <-; cbn; lia.
    + destruct (callm s); [discriminate|]. injection M as <-; cbn; lia.
    + destruct exc; injection M as <-; cbn; lia.
Qed.

Lemma reach_iter it l s : 0 <= it -> exec (init it) l = Some s -> 0 <= iter s.
Proof.
  intros Hi. apply (exec_inv (fun s => 0 <= iter s)); [|exact Hi].
  intros s1 a s2 _ H M. apply iter_mono in M. lia.
Qed.

(** ** after an exception in a background step *)
Definition after_step (p : rpc) : bool :=
  match p with RWaitRun | RCheck | RUnlockRun | RDone | RZombie => true | _ => false end.
Definition endingI (s : st) : Prop :=
  mutexI s /\ holderI s /\ caller s <> CInStep /\ (forall w, caller s <> CRun w) /\
  ((exists i p, nth_error (threads s) i = Some p /\ (p = RUnlockExc \/ p = RStop)) \/
   (looping s = false /\ forall j p, nth_error (threads s) j = Some p -> after_step p = true)).


Lemma ending_others s i p j q : mutexI s -> nth_error (threads s) i = Some p -> (p = RUnlockExc \/ p = RStop) ->
  nth_error (threads s) j = Some q -> j <> i -> holds_run q = false.
Proof.
  intros I Hi Hp Hj Hne. destruct (I i p Hi) as [Ir _]. destruct (I j q Hj) as [Jr _].
  assert (R : runm s = Some i) by (apply Ir; destruct Hp as [-> | ->]; reflexivity).
  destruct (holds_run q) eqn:E; [|reflexivity]. assert (runm s = Some j) by (apply Jr; reflexivity). congruence.
Qed.

Lemma ending_step s a s' : (forall c, a = ACmd c -> ~ starts_steps c) -> endingI s -> move s a = Some s' ->
  endingI s' /\ iter s' = iter s.
Proof.
  intros Ha (I & H & Hc & Hr & D) M.
  destruct (move_mutex s a s' I H M) as [I' H'].
  destruct a as [c| |k exc]; cbn in M.
  - pose proof (cmd_move_same s c s' M) as (Et & _ & _ & Ei & _ & Ec).
    split; [|exact Ei]. unfold endingI. sp; auto.
    + unfold cmd_move in M. rewrite Ec in M. destruct c; try (exfalso; apply (Ha _ eq_refl); exact Logic.I); injection M as <-; cbn; discriminate.
    + intros w. unfold cmd_move in M. rewrite Ec in M. destruct c; try (exfalso; apply (Ha _ eq_refl); exact Logic.I); injection M as <-; cbn; discriminate.
    + rewrite Et. destruct D as [D|[L D]]; [left; exact D|right]. split; [|exact D].
      unfold cmd_move in M. rewrite Ec in M. destruct c; try (exfalso; apply (Ha _ eq_refl); exact Logic.I); injection M as <-; cbn; auto.
  - unfold caller_move in M. destruct (caller s) as [|w| | |] eqn:Ec; try discriminate; try congruence.
    + destruct (looping s) eqn:L; [discriminate|]. injection M as <-. split; [|reflexivity].
      unfold endingI. sp; auto; cbn; try discriminate.
      destruct D as [D|[_ D]]; [left; exact D|right; split; auto].
    + destruct (runm s) eqn:Er; [discriminate|]. destruct (callm s); [discriminate|]. injection M as <-. split; [|reflexivity].
      unfold endingI. sp; auto; cbn; try discriminate.
      right. split; [reflexivity|]. intros j p Hp. rewrite nth_error_map in Hp.
      destruct (nth_error (threads s) j) as [q|]; [|discriminate]. cbn in Hp. injection Hp as <-. destruct q; reflexivity.
  - unfold thread_move in M. destruct (nth_error (threads s) k) as [p|] eqn:Ep; [|discriminate].
    assert (Hk : (k < length (threads s))%nat) by (apply nth_error_Some; congruence).
    assert (E1 : caller s' = caller s /\ iter s' = iter s \/ p = RInStep).
    { destruct p; auto; left.
      - destruct (runm s); [discriminate|]. injection M as <-. auto.
      - injection M as <-. auto.
      - destruct (callm s); [discriminate|]. injection M as <-. auto.
      - injection M as <-. auto.
      - injection M as <-. auto.
      - injection M as <-. auto.
      - injection M as <-. auto.
      - injection M as <-. auto.
      - injection M as <-. auto.
      - injection M as <-. auto.
      - discriminate.
      - injection M as <-. auto. }
    destruct D as [(i & q & Hi & Hq)|[L D]].
    + destruct (Nat.eq_dec k i) as [->|Hne].
      * assert (q = p) by congruence. subst q.
        destruct E1 as [[E1 E2]| ->]; [|destruct Hq; discriminate].
        split; [|exact E2]. unfold endingI. rewrite E1. sp; auto.
        destruct Hq as [-> | ->]; injection M as <-; cbn [threads looping goto].
        { left. exists i, RStop. split; [eapply nth_set_same; exact Ep|auto]. }
        right. split; [reflexivity|]. intros j r Hj. destruct (Nat.eq_dec j i) as [->|Hji].
        { rewrite (nth_set_same i RUnlockRun RStop) in Hj by assumption. injection Hj as <-. reflexivity. }
        rewrite nth_set_other in Hj by assumption.
        pose proof (ending_others s i RStop j r I Hi (or_intror eq_refl) Hj Hji) as X. destruct r; try discriminate; reflexivity.
      * pose proof (ending_others s i q k p I Hi Hq Ep Hne) as X.
        assert (R : runm s = Some i) by (apply (I i q Hi); destruct Hq as [-> | ->]; reflexivity).
        destruct p; try discriminate; rewrite ?R in M; try discriminate. injection M as <-. split; [|reflexivity].
        unfold endingI. sp; auto. left. exists i, q. auto.
    + pose proof (D k p Ep) as X.
      destruct E1 as [[E1 E2]| ->]; [|discriminate].
      split; [|exact E2]. unfold endingI. rewrite E1. sp; auto. right.
      assert (Gen : forall p', after_step p' = true -> threads s' = set_nth k p' (threads s) -> looping s' = false ->
        looping s' = false /\ forall j r, nth_error (threads s') j = Some r -> after_step r = true).
      { intros p' Hp' -> Hl. split; [exact Hl|]. intros j r Hj. destruct (Nat.eq_dec j k) as [->|Hjk].
        - rewrite (nth_set_same k p' p) in Hj by assumption. congruence.
        - rewrite nth_set_other in Hj by assumption. eapply D; exact Hj. }
      destruct p; try discriminate.
      * destruct (runm s); [discriminate|]. injection M as <-. apply (Gen RCheck); auto.
      * rewrite L in M. injection M as <-. apply (Gen RUnlockRun); auto.
      * injection M as <-. apply (Gen RDone); auto.
      * injection M as <-. cbn. auto.
Qed.

Lemma exception_ends_run it h s i l s' :
  exec (init it) h = Some s -> in_step s i -> caller s <> CInStep -> (forall w, caller s <> CRun w) ->
  Forall (fun a => forall c, a = ACmd c -> ~ starts_steps c) l ->
  exec s (AThread i true :: l) = Some s' ->
  iter s' = iter s /\ (forall j, ~ in_step s' j) /\
  (quiescent s' -> looping s' = false /\ caller s' = CIdle /\ Forall (fun p => p = RDone) (threads s')).
Proof.
  intros Eh Hin Hc Hr HF E. destruct (reach_mutex _ _ _ Eh) as [I H].
  cbn [exec] in E. destruct (move s (AThread i true)) as [s1|] eqn:Em; [|discriminate].
  destruct (move_mutex _ _ _ I H Em) as [I1 H1].
  cbn in Em. unfold thread_move in Em. unfold in_step in Hin. rewrite Hin in Em.
  assert (Es1 : s1 = goto s i RUnlockExc) by congruence. clear Em.
  assert (E1 : endingI s1).
  { unfold endingI. sp; auto; rewrite Es1; cbn; auto.
    left. exists i, RUnlockExc. split; [eapply nth_set_same; exact Hin|auto]. }
  assert (Ei1 : iter s1 = iter s) by (rewrite Es1; reflexivity).
  assert (Inv : endingI s' /\ iter s' = iter s1).
  { clear - E E1 HF. revert s1 E E1. induction HF as [|a l Ha HF IH]; intros s1 E E1; cbn in E.
    - injection E as <-. auto.
    - destruct (move s1 a) as [s2|] eqn:Em; [|discriminate].
      destruct (ending_step s1 a s2 Ha E1 Em) as [E2 Hi]. destruct (IH s2 E E2) as [A B]. split; [exact A|congruence]. }
  destruct Inv as [(I' & H' & Hc' & Hr' & D) Hit]. split; [congruence|]. split.
  - intros j Hj. unfold in_step in Hj. destruct D as [(k & q & Hk & Hq)|[_ D]].
    + destruct (Nat.eq_dec j k) as [->|Hne]; [destruct Hq; congruence|].
      pose proof (ending_others s' k q j RInStep I' Hk Hq Hj Hne). discriminate.
    + specialize (D j RInStep Hj). discriminate.
  - intros [Qc Qt].
    assert (All : forall j p, nth_error (threads s') j = Some p -> p = RDone \/ p = RWaitRun).
    { intros j p Hj. specialize (Qt j false). cbn in Qt. unfold thread_move in Qt. rewrite Hj in Qt.
      destruct p; try discriminate; auto. exfalso.
      destruct D as [(k & q & Hk & Hq)|[_ D]].
      - destruct (Nat.eq_dec j k) as [->|Hne]; [destruct Hq; congruence|].
        pose proof (ending_others s' k q j RWaitCall I' Hk Hq Hj Hne). discriminate.
      - specialize (D j RWaitCall Hj). discriminate. }
    assert (Rn : runm s' = None).
    { destruct (runm s') as [k|] eqn:Er; [|reflexivity]. exfalso. destruct H' as [HR _]. pose proof (HR k Er) as Hk.
      destruct (nth_error (threads s') k) as [p|] eqn:Ep; [|apply nth_error_None in Ep; lia].
      destruct (I' k p Ep) as [[_ X] _]. specialize (X Er). destruct (All k p Ep) as [-> | ->]; discriminate. }
    assert (Cn : callm s' = None).
    { destruct (callm s') as [k|] eqn:Er; [|reflexivity]. exfalso. destruct H' as [_ HC]. pose proof (HC k Er) as Hk.
      destruct (nth_error (threads s') k) as [p|] eqn:Ep; [|apply nth_error_None in Ep; lia].
      destruct (I' k p Ep) as [_ [_ X]]. specialize (X Er). destruct (All k p Ep) as [-> | ->]; discriminate. }
    assert (L : looping s' = false).
    { destruct D as [(k & q & Hk & Hq)|[L _]]; [|exact L].
      destruct (All k q Hk) as [-> | ->]; destruct Hq; discriminate. }
    split; [exact L|]. split.
    + cbn in Qc. unfold caller_move in Qc. destruct (caller s') as [|w| | |] eqn:Ec; auto.
      * exfalso. apply (Hr' w). reflexivity.
      * rewrite L in Qc. discriminate.
      * discriminate.
      * rewrite Rn, Cn in Qc. discriminate.
    + apply Forall_forall. intros p Hp. apply In_nth_error in Hp. destruct Hp as [j Hj].
      destruct (All j p Hj) as [->| ->]; [reflexivity|]. exfalso.
      specialize (Qt j false). cbn in Qt. unfold thread_move in Qt. rewrite Hj, Rn in Qt. discriminate.
Qed.
