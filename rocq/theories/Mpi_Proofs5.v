(** Proofs about the exchanges of mpy.py, part 5: the properties. *)
From Coq Require Import List Arith Bool Lia.
From Verif Require Import Subd_Model Subd_Spec Subd_Proofs Comm_Model Comm_Spec Comm_Proofs Mpi_Model Mpi_Spec Mpi_Proofs1 Mpi_Proofs2 Mpi_Proofs3 Mpi_Proofs4.
Import ListNotations.

Section Final.
Context {D X Bx F : Type} (Fadd : F -> F -> F).
Notation bodies := (bodies D X attrs).
Notation lstate := (@lstate D X Bx F).
Notation message := (@message D X Bx F).
Notation phase := (phase lstate message).
Context (L : @locals D X Bx F) (ovl : Bx -> Bx -> bool) (G : good L ovl).
Context (n : nat) (w : bodies) (Hn : 0 < n) (Hw : ready n w).
Context (acc : bool) (Hacc : acc = true -> own_bounded w /\ master_touches_all L (shape w)).
Context (s0 : nat -> lstate) (Hs0 : sc (s0 0) = Some w).
Notation sh := (shape w).

Lemma ready_full : forall id, id < length sh -> at_ sh id <> None.
Proof.
  intros id Hid. rewrite shape_length in Hid. destruct Hw as [Hf _]. destruct (Hf id Hid) as [b Hb]. rewrite at_shape.
  apply body_at_some in Hb. rewrite Hb. discriminate.
Qed.
Lemma start_inv : P0b sh acc s0.
Proof. exists w. split; [exact Hs0|]. split; [reflexivity|]. intros Ha. apply Hacc. exact Ha. Qed.

Lemma session_ok calls : let prog := session Fadd L acc n false true calls in
  all_matched n prog s0 /\ inv n sh acc (ever false calls) (rounds prog s0).
Proof.
  apply (session_tri Fadd L ovl G n sh (proj2 Hw) ready_full Hn acc (fun Ha => proj2 (Hacc Ha)) calls false true false).
  - discriminate.
  - exact start_inv.
Qed.
Lemma splitted_ever calls : splitted_after calls = true -> ever false calls = true.
Proof.
  unfold splitted_after, ever. cbn [orb].
  assert (H : forall l b, fold_left (fun _ x => match x with Run _ _ => true | Merge => false end) l b = true ->
     b = true \/ existsb (fun x => match x with Run _ _ => true | Merge => false end) l = true).
  { induction l as [|x l IH]; intros b Hb; cbn in *; [auto|]. destruct (IH _ Hb) as [H|H]; [|rewrite H, orb_true_r; auto].
    destruct x; [right; reflexivity|discriminate]. }
  intros Hc. destruct (H calls false Hc); [discriminate|assumption].
Qed.

Lemma ends_rounds (prog : list phase) : all_matched n prog s0 -> ends_in n prog s0 (rounds prog s0).
Proof. intros Hm sched c Hr He Hf. apply (comm_main n prog s0 Hm sched c Hr He). exact Hf. Qed.

Lemma no_deadlock calls : let prog := session Fadd L acc n false true calls in
  (exists s, ends_in n prog s0 s /\ (ever false calls = true -> forall p, p < n -> sc (s p) <> None)) /\
  forall sched c, ranks n sched -> exec prog sched (init prog s0) = Some c ->
    (all_finished n prog c \/ exists p, p < n /\ move prog true p c <> None) /\
    length sched <= work n prog s0 /\
    (all_finished n prog c -> forall a b t, a < n -> b < n -> chan c a b t = []).
Proof.
  cbv zeta. destruct (session_ok calls) as [Hm Hi]. set (prog := session Fadd L acc n false true calls) in *. split.
  - exists (rounds prog s0). split; [apply ends_rounds; exact Hm|]. intros He p Hp. rewrite He in Hi.
    destruct (J_scene n sh Hn _ p (proj1 Hi) Hp) as (v & Ev & _). rewrite Ev. discriminate.
  - intros sched c Hr He. destruct (comm_main n prog s0 Hm sched c Hr He) as (A & B & _ & E). split; [exact A|]. split; [exact B|].
    intros Hf. apply E. exact Hf.
Qed.

Lemma exchanged_of (s : nat -> lstate) : J n sh s -> states_exchanged n s (round state_phase s).
Proof.
  intros HJ. destruct (state_tri n sh Hn s HJ) as (_ & E0 & Hp). split; [exact E0|]. intros p Hpn.
  destruct (Hp p Hpn) as ((v & v' & Ev & Ev' & Hl & Hu & Hc) & _). exists v, v'. split; [exact Ev|]. split; [exact Ev'|]. split; [exact Hl|].
  pose proof HJ as (H1 & HL & H3 & H4).
  assert (Hmir : forall k, In k (inter (s p) p) -> mirror (s p) k = inter (s k) p).
  { intros k Hk. rewrite (H3 p k Hpn). apply inb_In in Hk. rewrite Hk, orb_true_r. reflexivity. }
  split; [exact Hmir|]. intros id. destruct (nth_error v id) as [[b|]|] eqn:Eb.
  - destruct (nth_error v' id) as [[b'|]|] eqn:Eb'.
    + exists b'. split; [reflexivity|]. split.
      * intros Hd Hid. set (k := subdomain (bRest b)) in *.
        assert (Hk : In k (inter (s p) p)).
        { rewrite (H3 p k Hpn) in Hid. destruct (Nat.eqb_spec k 0) as [->|Hk0]; cbn [orb] in Hid.
          - apply (lo2 _ _ _ HL p Hpn). intros E. rewrite E in Hid. exact Hid.
          - destruct (inb k (inter (s p) p)) eqn:Ei; [apply inb_In; exact Ei|destruct Hid]. }
        rewrite (Hmir k Hk) in Hid. destruct (J_mirrored n sh s p k id HJ Hpn Hk Hid) as [Ha _].
        destruct (Hc k id Hk Hid) as (vk & bk & b0 & b1 & A1 & A2 & A3 & A4 & A5 & A6 & A7).
        assert (b0 = b) by congruence. assert (b1 = b') by congruence. subst b0 b1.
        exists bk. split; [exists vk; auto|]. split; [|auto].
        destruct (J_own n sh Hn s k id HJ ltac:(apply (lo1 _ _ _ HL p Hpn); exact Hk) Ha vk A1) as (b2 & B1 & B2). congruence.
      * intros Hd. assert (Hno : forall j, In j (inter (s p) p) -> ~ In id (inter (s j) p)).
        { intros j Hj Hid. destruct (J_mirrored n sh s p j id HJ Hpn Hj Hid) as [_ Ha]. destruct (Ha v Ev) as (b0 & B1 & B2).
          assert (b0 = b) by congruence. subst b0. rewrite B2 in Hd. destruct Hd as [Hd|Hd].
          - apply (lo1 _ _ _ HL p Hpn) in Hj. lia.
          - apply Hd. rewrite (Hmir j Hj). exact Hid. }
        rewrite (Hu id Hno) in Eb'. congruence.
    + exfalso. destruct (existsb (fun k => inb id (inter (s k) p)) (inter (s p) p)) eqn:Ex.
      * apply existsb_exists in Ex. destruct Ex as (k & Hk & Hid). apply inb_In in Hid. destruct (Hc k id Hk Hid) as (? & ? & ? & ? & _ & _ & _ & A & _). congruence.
      * rewrite Hu in Eb'; [congruence|]. intros k Hk Hid. rewrite <- not_true_iff_false in Ex. apply Ex. apply existsb_exists. exists k. split; [exact Hk|apply inb_In; exact Hid].
    + exfalso. apply nth_error_None in Eb'. assert (id < length v) by (apply nth_error_Some; congruence). lia.
  - rewrite Hu; [exact Eb|]. intros k Hk Hid. destruct (J_mirrored n sh s p k id HJ Hpn Hk Hid) as [_ Ha]. destruct (Ha v Ev) as (b0 & B1 & B2). congruence.
  - apply nth_error_None. rewrite Hl. apply nth_error_None. exact Eb.
Qed.

Lemma right_bodies calls : splitted_after calls = true ->
  let pre := session Fadd L acc n false true calls ++ force_part Fadd L acc n ++ [run_engines L] in
  exists s s', ends_in n pre s0 s /\ ends_in n (pre ++ [state_phase]) s0 s' /\ states_exchanged n s s'.
Proof.
  intros Hsp pre. destruct (session_ok calls) as [Hm Hi]. rewrite (splitted_ever calls Hsp) in Hi. unfold pre. clear pre.
  set (prog := session Fadd L acc n false true calls) in *. set (s1 := rounds prog s0) in *.
  destruct (force_part_tri Fadd L n sh Hn acc s1 Hi) as (A & K1 & _ & _). set (fp := force_part Fadd L acc n) in *.
  pose proof (keep_JA n sh Hn acc s1 (rounds fp s1) K1 Hi) as HJ1.
  destruct (engines_tri L n sh Hn (rounds fp s1) (proj1 HJ1)) as [Hme Hc]. set (s2 := round (run_engines L) (rounds fp s1)) in *.
  assert (K2 : keep n (rounds fp s1) s2).
  { intros p Hp. destruct (Hc p Hp) as (v & Ev & ->). cbn. sp; auto. exists v. eexists. sp; [exact Ev|reflexivity|apply (g_engines _ _ G)]. }
  pose proof (keep_JA n sh Hn acc _ s2 K2 HJ1) as HJ2.
  assert (Hpre : all_matched n (prog ++ fp ++ [run_engines L]) s0).
  { apply all_matched_app. split; [exact Hm|]. apply all_matched_app. split; [exact A|]. cbn. auto. }
  assert (Es2 : rounds (prog ++ fp ++ [run_engines L]) s0 = s2) by (rewrite !rounds_app'; reflexivity).
  destruct (state_tri n sh Hn s2 (proj1 HJ2)) as (Hms & _).
  exists s2, (round state_phase s2). split; [rewrite <- Es2; apply ends_rounds; exact Hpre|]. split.
  - assert (E : round state_phase s2 = rounds ((prog ++ fp ++ [run_engines L]) ++ [state_phase]) s0) by (rewrite rounds_app', Es2; reflexivity).
    rewrite E. apply ends_rounds. apply all_matched_app. split; [exact Hpre|]. rewrite Es2. cbn. auto.
  - apply exchanged_of. apply HJ2.
Qed.

Lemma forces_current calls : acc = true -> splitted_after calls = true ->
  exists s, ends_in n (session Fadd L acc n false true calls ++ force_part Fadd L acc n) s0 s /\ forces_summed Fadd L n s.
Proof.
  intros Ha Hsp. destruct (session_ok calls) as [Hm Hi]. rewrite (splitted_ever calls Hsp) in Hi.
  set (prog := session Fadd L acc n false true calls) in *. set (s1 := rounds prog s0) in *.
  destruct (force_part_tri Fadd L n sh Hn acc s1 Hi) as (A & _ & _ & Hsum).
  exists (rounds (prog ++ force_part Fadd L acc n) s0). split.
  - apply ends_rounds. apply all_matched_app. auto.
  - rewrite rounds_app'. apply Hsum. exact Ha.
Qed.

Lemma merge_collects calls : splitted_after calls = true ->
  exists s s', ends_in n (session Fadd L acc n false true calls) s0 s /\
    ends_in n (session Fadd L acc n false true (calls ++ [Merge])) s0 s' /\ scene_merged n s s'.
Proof.
  intros Hsp. destruct (session_ok calls) as [Hm Hi]. rewrite (splitted_ever calls Hsp) in Hi.
  assert (Hses : forall l sp chk, (fold_left (fun _ x => match x with Run _ _ => true | Merge => false end) l sp = true) ->
     session Fadd L acc n sp chk (l ++ [Merge]) = session Fadd L acc n sp chk l ++ merge_prog n).
  { induction l as [|[k ms|] l IH]; intros sp chk Hl; cbn [app session fold_left] in *.
    - rewrite Hl. rewrite app_nil_r. reflexivity.
    - rewrite (IH true _ Hl), !app_assoc. reflexivity.
    - rewrite (IH false _ Hl), !app_assoc. reflexivity. }
  rewrite (Hses calls false true Hsp). set (prog := session Fadd L acc n false true calls) in *. set (s1 := rounds prog s0) in *.
  destruct (merge_tri n sh Hn s1 acc Hi) as (A & _ & B & v & v' & Ev & Er & Hl & Hs & Hc).
  exists s1, (rounds (merge_prog n) s1). split; [apply ends_rounds; exact Hm|]. split.
  - assert (E : rounds (merge_prog n) s1 = rounds (prog ++ merge_prog n) s0) by (rewrite rounds_app'; reflexivity).
    rewrite E. apply ends_rounds. apply all_matched_app. auto.
  - split; [intros k Hk; apply B; lia|]. exists v, v'. split; [exact Ev|]. split; [rewrite Er; reflexivity|]. split; [exact Hl|].
    intros id b Hb. destruct (nth_error v' id) as [[b'|]|] eqn:Eb'.
    + exists b'. split; [reflexivity|]. destruct (Hc id b b' Hb Eb') as [H1 H2]. split.
      * intros Hk. destruct (H2 _ eq_refl) as (wk & bk & A1 & A2 & A3); [apply workers_In; exact Hk|]. exists bk. split; [exists wk; auto|exact A3].
      * intros Hk. apply H1. rewrite workers_In. exact Hk.
    + exfalso. assert (E : nth_error (shape v') id = nth_error (shape v) id) by congruence. unfold shape in E. rewrite !nth_error_map, Hb, Eb' in E. discriminate.
    + exfalso. apply nth_error_None in Eb'. assert (id < length v) by (apply nth_error_Some; congruence). lia.
Qed.
End Final.
