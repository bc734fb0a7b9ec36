(** Concrete local computations and scenes, used to show that the hypotheses of the
    theorems of Mpi_Props can be met and as counterexamples. *)
From Coq Require Import List Arith Bool Lia.
From Verif Require Import Subd_Model Subd_Spec Comm_Model Comm_Spec Comm_Proofs Mpi_Model Mpi_Spec Mpi_Proofs1.
Import ListNotations.

Notation B := (body nat unit attrs).
Notation W := (bodies nat unit attrs).
Notation LS := (@lstate nat unit nat nat).
Notation PH := (phase LS (@message nat unit nat nat)).

(** boxes are numbers; neighbours overlap *)
Definition near (x y : nat) : bool := (x <=? y + 1) && (y <=? x + 1).
Lemma near_sym x y : near x y = near y x.
Proof. unfold near. apply andb_comm. Qed.

Section Collide.
Variable T : W -> nat -> B -> bool.   (* does this body touch subdomain k? *)
Definition bd (w : W) (k o : nat) : bool :=
  match body_at w o with Some b => bounded (bRest b) && T w k b | None => false end.
Definition test (w : W) (bx : nat -> nat) (a b : nat) : bool :=
  match at_ (shape w) a, at_ (shape w) b with
  | Some (ka, true), Some (kb, true) => negb (ka =? kb) && near (bx ka) (bx kb)
  | Some (k, true), Some (_, false) => bd w k b
  | Some (_, false), Some (k, true) => bd w k a
  | _, _ => false
  end.
Definition pairs (w : W) (bx : nat -> nat) : list (nat * nat) :=
  filter (fun ab => (fst ab <? snd ab) && test w bx (fst ab) (snd ab)) (list_prod (seq 0 (length w)) (seq 0 (length w))).

Lemma test_sym w bx a b : test w bx a b = test w bx b a.
Proof.
  unfold test. destruct (at_ (shape w) a) as [[ka [|]]|], (at_ (shape w) b) as [[kb [|]]|]; try reflexivity.
  rewrite (Nat.eqb_sym ka kb), near_sym. reflexivity.
Qed.
Lemma NoDup_prod {A C} (l : list A) (l' : list C) : NoDup l -> NoDup l' -> NoDup (list_prod l l').
Proof.
  intros H H'. induction H as [|x l Hx Hl IH]; cbn; [constructor|]. apply NoDup_app_intro; [|exact IH|].
  - apply NoDup_map_inj; [|exact H']. intros a b E. congruence.
  - intros [a b] H1 H2. apply in_map_iff in H1. destruct H1 as (c & E & _). apply in_prod_iff in H2. injection E as -> ->. apply Hx, H2.
Qed.
Lemma NoDup_map_inj_in {A C} (f : A -> C) l : (forall x y, In x l -> In y l -> f x = f y -> x = y) -> NoDup l -> NoDup (map f l).
Proof.
  intros Hf H. induction H as [|x l Hx Hl IH]; cbn; constructor.
  - rewrite in_map_iff. intros (y & E & Hy). apply Hf in E; [|right; exact Hy|left; reflexivity]. subst. contradiction.
  - apply IH. intros a b Ha Hb. apply Hf; right; assumption.
Qed.
Lemma pairs_In w bx a b : In (a, b) (pairs w bx) <-> a < b /\ test w bx a b = true.
Proof.
  unfold pairs. rewrite filter_In, in_prod_iff, !in_seq. cbn [fst snd]. rewrite andb_true_iff, Nat.ltb_lt. split; [tauto|].
  intros [H1 H2]. split; [|auto]. assert (H3 : at_ (shape w) a <> None /\ at_ (shape w) b <> None).
  { unfold test in H2. destruct (at_ (shape w) a) as [[? [|]]|]; [| |discriminate]; destruct (at_ (shape w) b) as [[? [|]]|]; try discriminate; split; discriminate. }
  destruct H3 as [H3 H4]. destruct (at_ (shape w) a) eqn:Ea; [|contradiction]. destruct (at_ (shape w) b) eqn:Eb; [|contradiction].
  apply at_lt in Ea. apply at_lt in Eb. rewrite shape_length in Ea, Eb. lia.
Qed.
Lemma others_In w bx sd o : In o (others sd (pairs w bx)) <-> o <> sd /\ test w bx sd o = true.
Proof.
  unfold others. rewrite in_map_iff. split.
  - intros ([a b] & E & H). apply filter_In in H. destruct H as [H1 H2]. apply pairs_In in H1. destruct H1 as [Hab Ht]. cbn [fst snd] in *.
    apply orb_true_iff in H2. rewrite !Nat.eqb_eq in H2. destruct (Nat.eqb_spec b sd) as [Hb|Hb]; subst o.
    + subst sd. split; [lia|]. rewrite test_sym. exact Ht.
    + destruct H2 as [H2|H2]; [|contradiction]. subst sd. split; [lia|exact Ht].
  - intros [Hne Ht]. destruct (Nat.lt_total sd o) as [H|[H|H]]; [|lia|].
    + exists (sd, o). cbn [fst snd]. destruct (Nat.eqb_spec o sd); [lia|]. split; [reflexivity|]. apply filter_In. rewrite pairs_In. cbn. rewrite Nat.eqb_refl. auto.
    + exists (o, sd). cbn [fst snd]. rewrite Nat.eqb_refl. split; [reflexivity|]. apply filter_In. rewrite pairs_In, test_sym. cbn. rewrite Nat.eqb_refl, orb_true_r. auto.
Qed.
Lemma others_NoDup w bx sd : NoDup (others sd (pairs w bx)).
Proof.
  unfold others. apply NoDup_map_inj_in.
  - intros [a b] [c d] H1 H2. apply filter_In in H1. apply filter_In in H2. destruct H1 as [H1 H1'], H2 as [H2 H2']. apply pairs_In in H1. apply pairs_In in H2.
    cbn [fst snd] in *. apply orb_true_iff in H1'. apply orb_true_iff in H2'. rewrite !Nat.eqb_eq in H1', H2'.
    destruct (Nat.eqb_spec b sd), (Nat.eqb_spec d sd); intros E; f_equal; lia.
  - apply NoDup_filter', NoDup_filter', NoDup_prod; apply seq_NoDup.
Qed.

(** [en]: motion of a body by a process *)
Definition exL (fo : nat -> W -> nat -> nat) (en : nat -> nat -> Subd_Model.state nat unit -> Subd_Model.state nat unit) (ac : nat -> W -> bool) : @locals nat unit nat nat :=
  mkLocals (fun _ w => w) (fun p _ => p) (fun p w bx => (w, pairs w bx)) fo
    (fun p w f => map (fun ib => option_map (fun b => mkBody (en p (fst ib) (bstate b)) (bound b) (bRest b)) (snd ib)) (combine (seq 0 (length w)) w)) ac.

Lemma combine_map_snd {A C E} (g : A -> C -> E) (h : C -> E) : (forall a c, g a c = h c) -> forall (l : list C) i (f : nat -> A),
  map (fun ib => g (f (fst ib)) (snd ib)) (combine (seq i (length l)) l) = map h l.
Proof. intros H. induction l as [|x l IH]; intros i f; cbn; [reflexivity|]. rewrite H, IH. reflexivity. Qed.
Lemma exL_good fo en ac : good (exL fo en ac) near.
Proof.
  constructor; cbn [exL dispatch collide engines fst snd]; try reflexivity.
  - intros p w f. unfold ats. rewrite map_map.
    transitivity (map (fun ib : nat * option B => option_map (@bRest nat unit attrs) (snd ib)) (combine (seq 0 (length w)) w)).
    + apply map_ext. intros [i [b|]]; reflexivity.
    + apply (combine_map_snd (fun _ ob => option_map (@bRest nat unit attrs) ob) (option_map (@bRest nat unit attrs)) (fun _ _ => eq_refl) w 0 (fun i => i)).
  - intros p w bx sd. apply others_NoDup.
  - intros p w bx sd k o d Hsd Ho Hin. apply others_In in Hin. destruct Hin as [_ Ht]. unfold test in Ht. rewrite Hsd, Ho in Ht. unfold bd in Ht.
    destruct (body_at w o) as [b|] eqn:Eb; [|discriminate]. apply andb_true_iff in Ht. exists b. split; [apply body_at_some; exact Eb|apply Ht].
  - intros p w bx a b ka kb Ha Hb Hne _. rewrite others_In. unfold test. rewrite Ha, Hb. apply Nat.eqb_neq in Hne. rewrite Hne. cbn [negb andb].
    apply Nat.eqb_neq in Hne. split; [tauto|]. intros H. split; [intros ->; congruence|exact H].
  - exact near_sym.
Qed.
End Collide.

Definition v3 (x : nat) : vec nat := mkVec x 0 0.
Definition st (x : nat) : Subd_Model.state nat unit := mkState (v3 x) (v3 0) (v3 0) (mkQuat 1 0 0 0) tt.
Definition bdy (x d : nat) (is : bool) : option B := Some (mkBody (st x) None (mkAttrs d is true)).
Definition init_state (w : option W) : LS := mkL w (fun _ => 0) (fun _ => []) (fun _ => []) (fun _ => 0) false.
Definition start_with (w : W) : nat -> LS := fun p => init_state (if p =? 0 then Some w else None).

(** a run in which the first process that can move does so *)
Section Greedy.
Context {S M : Type} (prog : list (phase S M)) (sync : bool) (n : nat).
Fixpoint first (ps : list nat) (c : conf S M) : option (nat * conf S M) :=
  match ps with
  | [] => None
  | p :: ps' => match move prog sync p c with Some c1 => Some (p, c1) | None => first ps' c end
  end.
Fixpoint greedy (fuel : nat) (c : conf S M) : list (bool * nat) * conf S M :=
  match fuel with
  | O => ([], c)
  | Datatypes.S fuel' => match first (seq 0 n) c with
               | Some (p, c1) => let (l, c2) := greedy fuel' c1 in ((sync, p) :: l, c2)
               | None => ([], c)
               end
  end.
Lemma first_ok ps c p c1 : first ps c = Some (p, c1) -> In p ps /\ move prog sync p c = Some c1.
Proof.
  induction ps as [|q ps IH]; cbn; [discriminate|]. destruct (move prog sync q c) as [c2|] eqn:E.
  - intros H. injection H as <- <-. auto.
  - intros H. destruct (IH H). auto.
Qed.
Lemma greedy_exec fuel : forall c, exec prog (fst (greedy fuel c)) c = Some (snd (greedy fuel c)) /\ ranks n (fst (greedy fuel c)).
Proof.
  induction fuel as [|fuel IH]; intros c; cbn [greedy]; [split; [reflexivity|constructor]|].
  destruct (first (seq 0 n) c) as [[p c1]|] eqn:E; [|split; [reflexivity|constructor]].
  destruct (IH c1) as [A R]. destruct (greedy fuel c1) as [l c2]. cbn [fst snd exec] in *.
  apply first_ok in E. destruct E as [Hp E]. rewrite E. split; [exact A|]. constructor; [cbn; apply in_seq in Hp; lia|exact R].
Qed.
Definition stuckb (c : conf S M) : bool := forallb (fun p => match move prog true p c with Some _ => false | None => true end) (seq 0 n).
Definition finishedb (c : conf S M) : bool := forallb (fun p => length prog <=? pc (procs c p)) (seq 0 n).
Lemma stuckb_ok c : stuckb c = true -> all_stuck n prog c.
Proof.
  unfold stuckb. rewrite forallb_forall. intros H p Hp. specialize (H p ltac:(apply in_seq; lia)). destruct (move prog true p c); [discriminate|reflexivity].
Qed.
Lemma finishedb_ok c : finishedb c = true <-> all_finished n prog c.
Proof.
  unfold finishedb. rewrite forallb_forall. unfold all_finished, finished. split.
  - intros H p Hp. apply Nat.leb_le. apply H. apply in_seq; lia.
  - intros H p Hp. apply Nat.leb_le. apply H. apply in_seq in Hp; lia.
Qed.
Lemma greedy_witness fuel c0 (t : conf S M -> bool) (P : conf S M -> Prop) : (forall c, t c = true -> P c) ->
  t (snd (greedy fuel c0)) = true -> exists sched c, ranks n sched /\ exec prog sched c0 = Some c /\ P c.
Proof.
  intros H Ht. exists (fst (greedy fuel c0)), (snd (greedy fuel c0)). destruct (greedy_exec fuel c0) as [E R]. auto.
Qed.
End Greedy.

(** ** counterexamples *)
(** two processes; body 0 of the master, body 1 of the worker, body 2 the subdomain *)
Definition w2 : W := [bdy 0 0 false; bdy 5 1 false; bdy 0 1 true].
Lemma w2_ready : ready 2 w2.
Proof. split; [|reflexivity]. intros [|[|[|id]]] H; cbn in *; try lia; eexists; reflexivity. Qed.

(** the master has nothing touching the worker *)
Definition far_L : @locals nat unit nat nat := exL (fun _ k b => subdomain (bRest b) =? k) (fun _ _ _ => 0) (fun _ _ s => s) (fun _ _ => false).
Definition far_prog : list PH := session Nat.add far_L true 2 false true [Run 1 false].
Lemma far_stuck : exists sched c, ranks 2 sched /\ exec far_prog sched (init far_prog (start_with w2)) = Some c /\
  (all_stuck 2 far_prog c /\ ~ all_finished 2 far_prog c).
Proof.
  apply (greedy_witness far_prog true 2 200 (init far_prog (start_with w2)) (fun c => stuckb far_prog 2 c && negb (finishedb far_prog 2 c))).
  - intros c H. apply andb_true_iff in H. destruct H as [A B]. split; [apply stuckb_ok; exact A|]. intros H. apply finishedb_ok in H. rewrite H in B. discriminate.
  - vm_compute. reflexivity.
Qed.

(** body 0 is moved by the master to where it touches the worker; the worker
    computes forces equal to the position of its own moving body: 7 in the end *)
Definition late_L : @locals nat unit nat nat :=
  exL (fun _ k b => (subdomain (bRest b) =? k) || (v0 (pos (bstate b)) =? k)) (fun p w id => if p =? 1 then match body_at w 1 with Some b => v0 (pos (bstate b)) | None => 0 end else 0)
      (fun p id s => if p =? id then mkState (v3 (S (v0 (pos s)))) (vel s) (angVel s) (ori s) (stRest s) else s) (fun _ _ => false).
Definition late_prog : list PH := session Nat.add late_L true 2 false true [Run 1 false; Merge; Run 1 false] ++ force_part Nat.add late_L true 2.
Definition test_stale (s : nat -> LS) : bool :=
  match sc (s 0), sc (s 1) with
  | Some w0, Some w1 => (frc (s 0) 0 =? 6) && (forces late_L 0 w0 0 =? 0) && (forces late_L 1 w1 0 =? 7) && (if in_dec Nat.eq_dec 0 (mirror (s 1) 0) then true else false)
  | _, _ => false end.
Lemma test_stale_ok (s : nat -> LS) : test_stale s = true -> ~ forces_summed Nat.add late_L 2 s.
Proof.
  unfold test_stale. intros A H. unfold forces_summed in H.
  destruct (sc (s 0)) as [w0|] eqn:E0; [|discriminate]. specialize (H w0 eq_refl 0).
  change (workers 2) with [1] in H. cbn [fold_left] in H.
  destruct (sc (s 1)) as [w1|] eqn:E1; [|discriminate].
  destruct (in_dec Nat.eq_dec 0 (mirror (s 1) 0)) as [Hi|Hi]; [|rewrite andb_false_r in A; discriminate].
  rewrite !andb_true_iff, !Nat.eqb_eq in A. destruct A as [[[A1 A2] A3] _]. rewrite A1, A2, A3 in H. discriminate.
Qed.
Lemma late_not_summed : exists sched c, ranks 2 sched /\ exec late_prog sched (init late_prog (start_with w2)) = Some c /\
  (all_finished 2 late_prog c /\ ~ forces_summed Nat.add late_L 2 (fun p => lst (procs c p))).
Proof.
  apply (greedy_witness late_prog false 2 300 (init late_prog (start_with w2)) (fun c => finishedb late_prog 2 c && test_stale (fun p => lst (procs c p)))).
  - intros c H. apply andb_true_iff in H. destruct H as [A B]. split; [apply finishedb_ok; exact A|apply test_stale_ok; exact B].
  - vm_compute. reflexivity.
Qed.

(** the master has erased its body 0 before splitting *)
Definition w2e : W := [None; bdy 5 1 false; bdy 0 1 true].
Definition er_prog : list PH := session Nat.add far_L false 2 false true [Run 1 false].
Lemma er_fails : exists sched c, ranks 2 sched /\ exec er_prog sched (init er_prog (start_with w2e)) = Some c /\
  (exists p, p < 2 /\ sc (lst (procs c p)) = None).
Proof.
  apply (greedy_witness er_prog true 2 200 (init er_prog (start_with w2e)) (fun c => match sc (lst (procs c 1)) with Some _ => false | None => true end)).
  - intros c H. exists 1. split; [lia|]. destruct (sc (lst (procs c 1))); [discriminate|reflexivity].
  - vm_compute. reflexivity.
Qed.

(** ** a case meeting the hypotheses: four processes in a row *)
Definition w4 : W := [bdy 0 0 false; bdy 10 1 false; bdy 20 2 false; bdy 30 3 false; bdy 21 2 false; bdy 0 1 true; bdy 0 2 true; bdy 0 3 true].
Definition near_L : @locals nat unit nat nat :=
  exL (fun _ k b => (subdomain (bRest b) =? 0) || near (subdomain (bRest b)) k)
      (fun p w id => p * 10 + id) (fun p _ s => mkState (v3 (S (v0 (pos s)))) (vel s) (angVel s) (ori s) (stRest s))
      (fun p w => p =? 2).
Lemma w4_ready : ready 4 w4.
Proof. split; [|reflexivity]. intros id H. do 8 (destruct id as [|id]; [eexists; reflexivity|]). cbn in H. lia. Qed.
Lemma w4_bounded : own_bounded w4.
Proof. intros id b. do 8 (destruct id as [|id]; [cbn; intros E; injection E as <-; intros; reflexivity|]). cbn. destruct id; discriminate. Qed.
Lemma near_touches : master_touches_all near_L (shape w4).
Proof.
  intros w bx sd k Hsh Hob Hsd. exists 0. split; [|reflexivity]. cbn [near_L exL collide snd]. apply others_In.
  assert (H0 : at_ (shape w) 0 = Some (0, false)) by (rewrite Hsh; reflexivity).
  split; [intros <-; rewrite <- Hsh in Hsd; congruence|].
  unfold test. rewrite Hsh, Hsd. rewrite <- Hsh, H0. unfold bd. destruct (at_some w 0 0 false H0) as (b & Hb & H1 & H2).
  assert (Eb : body_at w 0 = Some b) by (apply body_at_some; exact Hb). rewrite Eb, (Hob 0 b Hb H1 H2), H1. reflexivity.
Qed.
Definition calls4 : list call := [Run 2 true; Merge; Run 2 false].
Definition prog4 : list PH := session Nat.add near_L true 4 false true calls4.
Lemma run4 : exists sched c, ranks 4 sched /\ exec prog4 sched (init prog4 (start_with w4)) = Some c /\ all_finished 4 prog4 c.
Proof.
  apply (greedy_witness prog4 true 4 4000 (init prog4 (start_with w4)) (finishedb prog4 4)).
  - intros c. apply finishedb_ok.
  - vm_compute. reflexivity.
Qed.
