From Coq Require Import List Arith Bool ZArith Lia.
From Verif Require Import Force_Model Force_Spec Force_Proofs Force_Proofs2 Fser_Model Fser_Spec Fser_Proofs.
Import ListNotations.

(** ** Without OpenMP *)
Lemma serial_sum {V} (v0 : V) vadd : vadd v0 v0 = v0 -> forall h : list (scall V), in_range 0 h -> exists s, s_run v0 vadd h = Val s /\
  forall id c, perm_used (calls h) = false \/ c = ChM \/ c = ChR -> exists s', s_get v0 c id s = Val (fold_left vadd (all_values id c (calls h)) v0, s').
Proof.
  intros H0 h I. destruct (runs v0 vadd H0 h I) as (s & E & R). exists s. split; [assumption|]. intros id c Q. rewrite (get_ref v0 c id s _ R). rewrite (plain_sum v0 vadd _ id c Q). eexists. reflexivity.
Qed.
Lemma calls_app {V} (h k : list (scall V)) : calls (h ++ k) = calls h ++ calls k.
Proof. unfold calls. apply flat_map_app. Qed.
Lemma range_snoc {V} (x : scall V) h : forall b, in_range b h -> match x with SAddUnsynced _ _ _ => False | _ => True end -> in_range b (h ++ [x]).
Proof. induction h as [|y h IH]; intros b H X; cbn [in_range app] in *; [split; [destruct x; tauto|exact I]|]. split; [apply H|apply IH; [apply H|assumption]]. Qed.
(** the reading expected: all additions, and the permanent value *)
Lemma serial_once {V} (v0 : V) vadd : vadd v0 v0 = v0 -> forall h : list (scall V), in_range 0 h -> unsummed (calls h) -> exists s, s_run v0 vadd (h ++ [SOp OSync]) = Val s /\
  forall id, exists s1 s2, s_get v0 ChF id s = Val ((if perm_used (calls h) then vadd (fold_left vadd (all_values id ChF (calls h)) v0) (fst (perm_ideal v0 (calls h) id)) else fold_left vadd (all_values id ChF (calls h)) v0), s1) /\
    s_get v0 ChT id s = Val ((if perm_used (calls h) then vadd (fold_left vadd (all_values id ChT (calls h)) v0) (snd (perm_ideal v0 (calls h) id)) else fold_left vadd (all_values id ChT (calls h)) v0), s2).
Proof.
  intros H0 h I U. destruct (runs v0 vadd H0 (h ++ [SOp OSync])) as (s & E & R); [apply range_snoc; [assumption|exact Logic.I]|]. exists s. split; [assumption|]. intros id.
  rewrite (get_ref v0 ChF id s _ R), (get_ref v0 ChT id s _ R). rewrite calls_app. change (calls [@SOp V OSync]) with [@OSync V]. rewrite ab_run_snoc. cbn [ab_step]. rewrite ab_used, ab_perm.
  pose proof (unsummed_sum v0 vadd (calls h) id ChF U) as A. pose proof (unsummed_sum v0 vadd (calls h) id ChT U) as B. cbn [cget] in A, B. rewrite <- A, <- B.
  destruct (perm_used (calls h)); cbn [a_cell cget cF cT]; eexists _, _; split; reflexivity.
Qed.
(** reading from python twice *)
Lemma serial_twice_refuted : exists s v1 s1 v2 s2, s_run 0%Z Z.add [SOp (OSetPerm 0 5 true 7%Z); SOp (OAdd 0 5 ChF 1%Z)] = Val s /\ s_python 0%Z Z.add true 5 true s = Val (v1, s1) /\ s_python 0%Z Z.add true 5 true s1 = Val (v2, s2) /\ v1 = 8%Z /\ v2 = 15%Z.
Proof.
  eexists _, _, _, _, _. split; [vm_compute; reflexivity|]. split; [vm_compute; reflexivity|]. split; [vm_compute; reflexivity|]. split; reflexivity.
Qed.
(** what k syncs do *)
Lemma syncs_sum {V} (v0 : V) vadd : vadd v0 v0 = v0 -> forall (h : list (scall V)) k, in_range 0 h -> unsummed (calls h) -> perm_used (calls h) = true -> exists s, s_run v0 vadd (h ++ repeat (SOp OSync) k) = Val s /\
  forall id, exists s', s_get v0 ChF id s = Val (fold_left vadd (repeat (fst (perm_ideal v0 (calls h) id)) k) (fold_left vadd (all_values id ChF (calls h)) v0), s').
Proof.
  intros H0 h k I U P. assert (RG : in_range 0 (h ++ repeat (SOp OSync) k)).
  { replace (repeat (@SOp V OSync) k) with (rev (repeat (@SOp V OSync) k)). - clear -I. induction k as [|k IH]; [rewrite app_nil_r; assumption|]. cbn [repeat rev]. rewrite app_assoc. apply range_snoc; [assumption|exact Logic.I].
    - clear. induction k as [|k IH]; [reflexivity|]. cbn [repeat rev]. rewrite IH. clear. induction k as [|k IH]; [reflexivity|]. cbn [repeat app]. rewrite IH. reflexivity. }
  destruct (runs v0 vadd H0 _ RG) as (s & E & R). exists s. split; [assumption|]. intros id. rewrite (get_ref v0 ChF id s _ R). rewrite calls_app.
  replace (calls (repeat (SOp OSync) k)) with (repeat (@OSync V) k) by (clear; induction k as [|k IH]; [reflexivity|]; cbn [repeat]; rewrite IH; reflexivity).
  eexists. f_equal. f_equal. unfold ab_run. rewrite fold_left_app. fold (ab_run v0 vadd (calls h)).
  rewrite <- (unsummed_sum v0 vadd (calls h) id ChF U), <- (ab_perm v0 vadd). rewrite <- (ab_used v0 vadd) in P. clear R E RG. generalize dependent (ab_run v0 vadd (calls h)). intros a P.
  revert a P. induction k as [|k IH]; intros a P; [reflexivity|]. cbn [repeat fold_left ab_step]. rewrite P. rewrite IH by reflexivity. reflexivity.
Qed.
Lemma serial_single {V} (v0 : V) vadd : vadd v0 v0 = v0 -> forall h : list (scall V), in_range 0 h -> unsummed (calls h) -> exists s t, s_run v0 vadd h = Val s /\ s_run v0 vadd (h ++ [SOp OSync]) = Val t /\
  forall id c, exists v s' t', s_getSingle v0 vadd c id s = Val (v, s') /\ s_get v0 c id t = Val (v, t').
Proof.
  intros H0 h I U. destruct (runs v0 vadd H0 h I) as (s & E & R). destruct (runs v0 vadd H0 (h ++ [SOp OSync])) as (t & E' & R'); [apply range_snoc; [assumption|exact Logic.I]|]. exists s, t. split; [assumption|]. split; [assumption|].
  intros id c. rewrite (getSingle_ref v0 vadd c id s _ R), (get_ref v0 c id t _ R'). rewrite calls_app. change (calls [@SOp V OSync]) with [@OSync V]. rewrite ab_run_snoc. cbn [ab_step]. destruct (a_used _) eqn:X; destruct c; cbn [a_cell cget cF cT cM cR]; eexists _, _, _; split; reflexivity.
Qed.
Lemma serial_single_refuted : exists s v1 s1 v2 s2, s_run 0%Z Z.add [SOp (OSetPerm 0 5 true 7%Z); SOp OSync] = Val s /\ s_getSingle 0%Z Z.add ChF 5 s = Val (v1, s1) /\ s_get 0%Z ChF 5 s = Val (v2, s2) /\ v1 = 14%Z /\ v2 = 7%Z.
Proof. eexists _, _, _, _, _. split; [vm_compute; reflexivity|]. split; [vm_compute; reflexivity|]. split; [vm_compute; reflexivity|]. split; reflexivity. Qed.
Lemma serial_unsynced {V} (v0 : V) vadd : vadd v0 v0 = v0 -> forall h : list (scall V), in_range 0 h -> perm_used (calls h) = false -> exists s, s_run v0 vadd h = Val s /\
  forall id, exists s', s_getUnsynced v0 true id s = Val (fold_left vadd (all_values id ChF (calls h)) v0, s').
Proof. intros H0 h I P. destruct (serial_sum v0 vadd H0 h I) as (s & E & R). exists s. split; [exact E|]. intros id. apply R. left. exact P. Qed.
Lemma serial_torque_refuted : exists s v1 s1 v2 s2, s_run 0%Z Z.add [SOp (OAdd 0 5 ChT 3%Z)] = Val s /\ s_getUnsynced 0%Z false 5 s = Val (v1, s1) /\ s_get 0%Z ChT 5 s = Val (v2, s2) /\ v1 = 0%Z /\ v2 = 3%Z.
Proof. eexists _, _, _, _, _. split; [vm_compute; reflexivity|]. split; [vm_compute; reflexivity|]. split; [vm_compute; reflexivity|]. split; reflexivity. Qed.
Lemma serial_perm {V} (v0 : V) vadd : vadd v0 v0 = v0 -> forall h : list (scall V), in_range 0 h -> exists s, s_run v0 vadd h = Val s /\
  forall id, exists s1 s2, s_getPerm v0 true id s = Val (fst (perm_ideal v0 (calls h) id), s1) /\ s_getPerm v0 false id s = Val (snd (perm_ideal v0 (calls h) id), s2).
Proof.
  intros H0 h I. destruct (runs v0 vadd H0 h I) as (s & E & R). exists s. split; [assumption|]. intros id. rewrite (getPerm_ref v0 true id s _ R), (getPerm_ref v0 false id s _ R), ab_perm. eexists _, _. split; reflexivity.
Qed.
Lemma out_of_range {V} (v0 : V) vadd id v isF : s_run v0 vadd [SAddUnsynced isF id v] = UB.
Proof. reflexivity. Qed.

(** ** The two builds *)
Lemma calls_ops {V} (h : list (op V)) : calls (map SOp h) = h.
Proof. induction h as [|o h IH]; [reflexivity|]. cbn [map]. unfold calls in *. cbn [flat_map app]. rewrite IH. reflexivity. Qed.
Lemma range_ops {V} (h : list (op V)) : forall b, in_range b (map SOp h).
Proof. induction h as [|o h IH]; intros b; [exact I|]. cbn [map in_range]. split; [exact I|apply IH]. Qed.
Lemma agree {V} (v0 : V) vadd : is_cmonoid v0 vadd -> forall n (h : list (op V)), Forall (valid n) h -> perm_used h = false \/ (unsummed h /\ window h) ->
  exists p s, run v0 vadd n (h ++ [OSync]) = Val p /\ s_run v0 vadd (map SOp (h ++ [OSync])) = Val s /\ forall id c, exists v s', get v0 c id p = Val v /\ s_get v0 c id s = Val (v, s').
Proof.
  intros M n h F Q. pose proof (cm_00 _ _ M) as H0. rewrite map_app. cbn [map].
  destruct (read_after_sync v0 vadd H0 n h F) as (p & E & RD). destruct (runs v0 vadd H0 (map SOp h ++ [SOp OSync])) as (s & E' & R); [apply range_snoc; [apply range_ops|exact I]|]. exists p, s. split; [assumption|]. split; [assumption|].
  rewrite calls_app, calls_ops in R. change (calls [@SOp V OSync]) with [@OSync V] in R. intros id c. rewrite (get_ref v0 c id s _ R). rewrite ab_run_snoc. cbn [ab_step]. rewrite ab_used, ab_perm.
  assert (G : get v0 c id p = Val (reading v0 vadd (if perm_used h then perm_ideal v0 h else fun _ => (v0, v0)) n id c h)).
  { rewrite RD. f_equal. destruct (perm_used h) eqn:PU; [|unfold reading; rewrite PU; reflexivity]. destruct Q as [Q|(_ & W)]; [discriminate|].
    destruct (perm_persist v0 vadd H0 n h F W) as (p' & E2 & RD2). rewrite E in E2. injection E2 as <-. destruct (RD2 id) as (_ & _ & X). specialize (X c). rewrite RD in X. injection X as X. exact X. }
  rewrite G. eexists _, _. split; [reflexivity|]. f_equal. f_equal. unfold reading. rewrite !(grand_all_values v0 vadd M) by assumption.
  destruct (perm_used h) eqn:PU.
  - destruct Q as [Q|(U & _)]; [discriminate|]. destruct c; cbn [a_cell cget cF cT cM cR]; rewrite <- (unsummed_sum v0 vadd h id _ U); reflexivity.
  - rewrite (plain_sum v0 vadd h id c) by (left; assumption). destruct c; reflexivity.
Qed.
Lemma agree_refuted : exists p s s', run 0%Z Z.add 1 [OSetPerm 0 5 true 7%Z; OSync; OSync] = Val p /\ s_run 0%Z Z.add (map SOp [OSetPerm 0 5 true 7%Z; OSync; OSync]) = Val s /\ get 0%Z ChF 5 p = Val 7%Z /\ s_get 0%Z ChF 5 s = Val (14%Z, s').
Proof. eexists _, _, _. split; [vm_compute; reflexivity|]. split; [vm_compute; reflexivity|]. split; vm_compute; reflexivity. Qed.

(** ** Additions to summed forces, with OpenMP *)
Lemma sync_still {V} (v0 : V) vadd (s : fc V) : synced s = true -> (forall i, nth i (maxId s) 0 = 0) -> sync v0 vadd s = Val s.
Proof.
  intros S0 Z. unfold sync. rewrite S0. assert (X : existsb (fun m => 0 <? m) (maxId s) = false).
  { apply not_true_is_false. intros H. apply existsb_exists in H as (x & Hx & Hlt). apply In_nth with (d := 0) in Hx as (i & _ & Hi). rewrite Z in Hi. subst x. discriminate. }
  rewrite X. reflexivity.
Qed.
Lemma unsynced_seen {V} (v0 : V) vadd : vadd v0 v0 = v0 -> forall n (h : list (op V)) s isF id v s', Forall (valid n) h -> run v0 vadd n (h ++ [OSync]) = Val s -> addUnsynced vadd isF id v s = Val s' ->
  (exists x, get v0 (if isF then ChF else ChT) id s = Val x /\ get v0 (if isF then ChF else ChT) id s' = Val (vadd x v)) /\
  (forall j c, j <> id \/ c <> (if isF then ChF else ChT) -> get v0 c j s' = get v0 c j s) /\ sync v0 vadd s' = Val s'.
Proof.
  intros H0 n h s isF id v s' F E A. destruct (run_inv v0 vadd H0 n h F) as (r & E0 & I0). rewrite run_snoc, E0 in E. cbn [bindr step] in E. destruct (sync_inv v0 vadd H0 n h r I0) as (r' & E1 & I1 & SY & MZ). cbn [Force_Model.step] in E. rewrite E1 in E. injection E as <-.
  unfold addUnsynced in A. destruct (Nat.ltb_spec id (length (sums r'))) as [L|L]; [|discriminate]. injection A as <-.
  destruct (i_ss _ _ _ _ _ I1 (i_sy _ _ _ _ _ I1 SY)) as (_ & LS & _). set (k := if isF then ChF else ChT). split; [|split].
  - exists (cget k (nth id (sums r') (cell0 v0))). unfold get. cbn [synced size sums]. rewrite SY. cbn [negb]. assert (id <? size r' = true) as -> by (apply Nat.ltb_lt; lia).
    rewrite (nth_error_nth_lt _ _ (cell0 v0)) by assumption. split; [reflexivity|]. rewrite nth_error_upd, Nat.eqb_refl, (nth_error_nth_lt _ _ (cell0 v0)) by assumption. cbn [option_map]. f_equal. unfold k. destruct isF; reflexivity.
  - intros j c Q. unfold get. cbn [synced size sums]. rewrite SY. cbn [negb]. destruct (j <? size r'); [|reflexivity]. rewrite nth_error_upd. destruct (Nat.eqb_spec j id) as [-> |N]; [|reflexivity]. destruct (nth_error (sums r') id) as [x|]; [|reflexivity]. cbn [option_map]. f_equal. destruct Q as [Q|Q]; [congruence|]. fold k. fold k in Q. unfold k in *. destruct isF, c; try congruence; reflexivity.
  - apply sync_still; assumption.
Qed.
Lemma unsynced_lost : exists s1 s2 s3 s4, run 0%Z Z.add 1 [OAdd 0 5 ChF 1%Z; OSync] = Val s1 /\ addUnsynced Z.add true 5 10%Z s1 = Val s2 /\ get 0%Z ChF 5 s2 = Val 11%Z /\ step 0%Z Z.add s2 (OAdd 0 6 ChF 1%Z) = Val s3 /\ step 0%Z Z.add s3 OSync = Val s4 /\ get 0%Z ChF 5 s4 = Val 1%Z.
Proof. eexists _, _, _, _. split; [vm_compute; reflexivity|]. split; [vm_compute; reflexivity|]. split; [vm_compute; reflexivity|]. split; [vm_compute; reflexivity|]. split; vm_compute; reflexivity. Qed.

(** sizes *)
Section Cover.
Context {V : Type} (v0 : V) (vadd : V -> V -> V).
Hypothesis H00 : vadd v0 v0 = v0.
Definition cover (n k : nat) (s : fc V) : Prop := forall id, 0 < id < k -> id < size s \/ exists t, t < n /\ id <= nth t (maxId s) 0.
Lemma ensure_size n h (s s' : fc V) id t : InvW v0 vadd n h s -> t < n -> ensureSize v0 id t s = Val s' -> size s <= size s' /\ nth t (maxId s) 0 < size s' /\ maxId s' = upd t (fun _ => 0) (maxId s).
Proof.
  intros I T E. unfold ensureSize in E. pose proof (szT_nth _ _ _ _ _ _ I T) as Z. rewrite Z in E. rewrite (nth_error_nth_lt (maxId s) t 0) in E by (rewrite (w_maxId _ _ _ _ _ I); assumption).
  pose proof (Forall_nth_lt _ _ [] t (w_le _ _ _ _ _ I)) as LE. rewrite (w_data _ _ _ _ _ I) in LE. specialize (LE T). cbn beta in LE. destruct (Nat.leb_spec (length (nth t (data s) [])) (Nat.max id (nth t (maxId s) 0))) as [L|L]; injection E as <-.
  - cbn [resize set_maxId size maxId]. rewrite newSize_eq. split; [destruct (Nat.ltb_spec (size s) (Nat.max id (nth t (maxId s) 0) + 100)); lia|]. split; [destruct (Nat.ltb_spec (size s) (Nat.max id (nth t (maxId s) 0) + 100)); lia|reflexivity].
  - cbn [set_maxId size maxId]. split; [lia|]. split; [lia|reflexivity].
Qed.
Lemma cover_ensure n k h (s s' : fc V) id t : InvW v0 vadd n h s -> t < n -> cover n k s -> ensureSize v0 id t s = Val s' -> cover n k s'.
Proof.
  intros I T C E j J. destruct (ensure_size _ _ _ _ _ _ I T E) as (A & B & M). destruct (C j J) as [X|(u & U & X)]; [left; lia|]. destruct (Nat.eq_dec u t) as [-> |N]; [left; lia|]. right. exists u. split; [assumption|]. rewrite M, nth_upd by (rewrite (w_maxId _ _ _ _ _ I); assumption). destruct (Nat.eqb_spec u t); [contradiction|assumption].
Qed.
Lemma cover_maxIds n k h l : forall s s', Forall (fun i => i < n) l -> InvW v0 vadd n h s -> cover n k s -> fold_left (fun r i => bindr r (fun s => match nth_error (maxId s) i with Some m => if 0 <? m then ensureSize v0 m i s else Val s | None => UB end)) l (Val s) = Val s' -> cover n k s'.
Proof.
  induction l as [|i l IH]; intros s s' F I C E; cbn [fold_left] in E; [injection E as <-; assumption|]. inversion F as [|? ? Hi F']; subst. cbn [bindr] in E. rewrite (nth_error_nth_lt (maxId s) i 0) in E by (rewrite (w_maxId _ _ _ _ _ I); assumption). destruct (0 <? nth i (maxId s) 0); [|exact (IH s s' F' I C E)].
  destruct (ensureSize_W v0 vadd n h s (nth i (maxId s) 0) i I Hi) as (s1 & E1 & I1 & _). rewrite E1 in E. apply (IH s1 s' F' I1); [exact (cover_ensure n k h s s1 _ i I Hi C E1)|exact E].
Qed.
Lemma cover_sync n k h s s' : Inv v0 vadd n h s -> cover n k s -> sync v0 vadd s = Val s' -> cover n k s'.
Proof.
  intros I C E. unfold sync in E. destruct (synced s && _); [injection E as <-; assumption|]. pose proof (Inv_W _ _ _ _ _ I) as W. unfold syncMaxIds in E.
  destruct (fold_left _ (seq 0 (length (maxId s))) (Val s)) as [s1| |] eqn:E1; [|discriminate|discriminate]. cbn [bindr] in E.
  assert (FF : Forall (fun i => i < n) (seq 0 (length (maxId s)))) by (apply Forall_forall; intros x Hx; apply in_seq in Hx; rewrite (w_maxId _ _ _ _ _ W) in Hx; lia).
  pose proof (cover_maxIds n k h _ s s1 FF W C E1) as C1. destruct (syncMaxIds_fold v0 vadd n h _ s FF W) as (s1' & E1' & W1 & _). rewrite E1 in E1'. injection E1' as <-.
  destruct (syncSizes_W v0 vadd n h s1 W1) as (_ & _ & Hsz & _ & _ & Hmx & _). revert E. cbv zeta. set (s2 := syncSizes v0 s1) in *. clearbody s2. destruct (length (sums s2) =? size s2); [|discriminate].
  destruct (syncCells v0 vadd s2 0 (sums s2)) as [cs| |]; [|discriminate|discriminate]. cbn [bindr]. intros E. injection E as <-. intros j J. cbn [size maxId]. rewrite Hsz, Hmx. exact (C1 j J).
Qed.
Lemma cover_step n k h s o s' : Inv v0 vadd n h s -> valid n o -> match o with OMaxId _ _ => False | _ => True end -> cover n k s -> step v0 vadd s o = Val s' -> cover n k s'.
Proof.
  intros I VA NM C E. pose proof (Inv_W _ _ _ _ _ I) as W. destruct o as [t id c v|t id|g id isF v| |it all]; cbn [step] in E; [|contradiction| | |].
  - unfold add in E. destruct (ensureSize v0 id t s) as [s1| |] eqn:E1; [|discriminate|discriminate]. pose proof (cover_ensure _ _ _ _ _ _ _ W VA C E1) as C1. destruct (nth_error (data s1) t); [|discriminate]. destruct (id <? _); [|discriminate]. injection E as <-. exact C1.
  - unfold setPerm, ensureSizePerm, resizePerm in E. cbv zeta in E. cbn [perm] in E. destruct (id <? _); [|discriminate]. injection E as <-. intros j J. cbn [size maxId]. set (q := newSize _). destruct (C j J) as [X|X]; [left|right; exact X]. destruct (Nat.ltb_spec (size s) q); lia.
  - eapply cover_sync; eassumption.
  - unfold reset in E. destruct (syncSizes_W v0 vadd n h s W) as (_ & _ & Hsz & _ & _ & Hmx & _). revert E. cbv zeta. set (s2 := syncSizes v0 s) in *. clearbody s2. destruct (_ || _ || _); [discriminate|]. intros E. injection E as <-. intros j J. cbn [size maxId]. rewrite Hsz, Hmx. exact (C j J).
Qed.
Lemma cover_life n h k : life h k -> Forall (valid n) h -> exists s, run v0 vadd n h = Val s /\ Inv v0 vadd n h s /\ cover n k s.
Proof.
  induction 1 as [|h m t H IH|h m t H IH|h m o H IH NM]; intros F.
  - exists (init n). split; [reflexivity|]. split; [apply init_inv; assumption|]. intros id J. lia.
  - apply Forall_app in F as [F G]. inversion G as [|? ? T _]; subst. cbn [valid] in T. destruct (IH F) as (s & E & I & C). rewrite run_snoc, E. cbn [bindr step]. destruct (step_inv v0 vadd H00 n h s (OMaxId t m) I T) as (s' & E' & I'). exists s'. split; [exact E'|]. split; [exact I'|].
    cbn [step] in E'. unfold addMaxId in E'. destruct (Nat.ltb_spec t (length (maxId s))) as [L|L]; [|discriminate]. injection E' as <-. intros id J. right. exists t. split; [exact T|]. cbn [set_maxId maxId]. rewrite nth_upd, Nat.eqb_refl by assumption. lia.
  - apply Forall_app in F as [F G]. inversion G as [|? ? T _]; subst. cbn [valid] in T. destruct (IH F) as (s & E & I & C). rewrite run_snoc, E. cbn [bindr step]. destruct (step_inv v0 vadd H00 n h s (OMaxId t (2 * m)) I T) as (s' & E' & I'). exists s'. split; [exact E'|]. split; [exact I'|].
    cbn [step] in E'. unfold addMaxId in E'. destruct (Nat.ltb_spec t (length (maxId s))) as [L|L]; [|discriminate]. injection E' as <-. intros id J. right. exists t. split; [exact T|]. cbn [set_maxId maxId]. rewrite nth_upd, Nat.eqb_refl by assumption. lia.
  - apply Forall_app in F as [F G]. inversion G as [|? ? T _]; subst. destruct (IH F) as (s & E & I & C). rewrite run_snoc, E. cbn [bindr]. destruct (step_inv v0 vadd H00 n h s o I T) as (s' & E' & I'). exists s'. split; [exact E'|]. split; [exact I'|]. exact (cover_step n m h s o s' I T NM C E').
Qed.
Lemma covered n h k : life h k -> Forall (valid n) h -> exists s, run v0 vadd n (h ++ [OSync]) = Val s /\ forall isF id v, 0 < id < k -> exists s', addUnsynced vadd isF id v s = Val s'.
Proof.
  intros L F. destruct (cover_life n h k L F) as (s & E & I & C). destruct (sync_inv v0 vadd H00 n h s I) as (s' & E' & I' & SY & MZ). exists s'. split; [rewrite run_snoc, E; exact E'|]. intros isF id v J.
  destruct (cover_sync n k h s s' I C E' id J) as [X|(t & _ & X)]; [|rewrite MZ in X; lia]. destruct (i_ss _ _ _ _ _ I' (i_sy _ _ _ _ _ I' SY)) as (_ & LS & _). unfold addUnsynced. assert (id <? length (sums s') = true) as -> by (apply Nat.ltb_lt; lia). eexists. reflexivity.
Qed.
End Cover.
Lemma zero_refuted : exists s, life [@OMaxId Z 0 0] 1 /\ Forall (valid 1) [@OMaxId Z 0 0] /\ run 0%Z Z.add 1 ([OMaxId 0 0] ++ [OSync]) = Val s /\ addUnsynced Z.add true 0 1%Z s = UB.
Proof. eexists. split; [exact (LInsert [] 0 0 L0)|]. split; [constructor; [cbn [valid]; lia|constructor]|]. split; [vm_compute; reflexivity|reflexivity]. Qed.
