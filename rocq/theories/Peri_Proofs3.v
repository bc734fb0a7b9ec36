(** The collider in a periodic scene: a run from scratch, and all histories. *)
From Coq Require Import List ZArith Arith Bool Lia Permutation.
From Verif Require Import Coll_Model Coll_Spec Coll_Proofs2 Peri_Model Peri_Spec Peri_Sort Peri_Refine Peri_Proofs1 Peri_Proofs2.
Import ListNotations.
Local Open Scope Z_scope.

Definition bounds_of (nb : nat) : list ident := flat_map (fun i => [(i, true); (i, false)]) (seq 0 nb).
Lemma bounds_in nb i b : In (i, b) (bounds_of nb) <-> (i < nb)%nat.
Proof.
  unfold bounds_of. rewrite in_flat_map. split.
  - intros (j & Hj & K). apply in_seq in Hj. cbn [In] in K. destruct K as [K|[K|[]]]; injection K; intros; subst; lia.
  - intros H. exists i. split; [apply in_seq; lia|]. destruct b; cbn [In]; auto.
Qed.
Lemma bounds_nodup nb : NoDup (bounds_of nb).
Proof.
  unfold bounds_of. assert (K : forall l, NoDup l -> NoDup (flat_map (fun i : nat => [(i, true); (i, false)]) l)); [|apply K, seq_NoDup].
  induction l as [|x l IH]; intros N; [constructor|]. inversion N as [|? ? Nx Nl]; subst. cbn [flat_map app].
  assert (Z : forall b, ~ In (x, b) (flat_map (fun i : nat => [(i, true); (i, false)]) l)).
  { intros b Hin. apply in_flat_map in Hin. destruct Hin as (j & Hj & K). cbn [In] in K. apply Nx. destruct K as [K|[K|[]]]; injection K; intros; subst; assumption. }
  constructor; [cbn [In]; intros [C|C]; [discriminate|exact (Z true C)]|]. constructor; [apply Z|apply IH; exact Nl].
Qed.

Definition bb_ok (nb : nat) (u : arr) : Prop := Permutation (map who (elems (2 * nb) u)) (bounds_of nb).
Definition even_at (n : Z) (u : arr) : Prop := forall k k', 0 <= k < n -> 0 <= k' < n -> pid (u k) = pid (u k') -> per (u k) = per (u k').

Lemma elems_in m u x : In x (elems m u) <-> exists k, 0 <= k < Z.of_nat m /\ u k = x.
Proof.
  unfold elems. rewrite in_map_iff. split.
  - intros (k & <- & Hk). apply in_seq in Hk. exists (Z.of_nat k). split; [lia|reflexivity].
  - intros (k & Hk & <-). exists (Z.to_nat k). split; [f_equal; lia|apply in_seq; lia].
Qed.
Lemma elems_map m u g : elems m (fun k => g (u k)) = map g (elems m u).
Proof. unfold elems. rewrite map_map. reflexivity. Qed.

Definition same (e e' : ident) : bool := (fst e =? fst e')%nat && Bool.eqb (snd e) (snd e').
Lemma same_spec e e' : same e e' = true <-> e = e'.
Proof.
  destruct e as [i b], e' as [j b']. unfold same. cbn [fst snd]. rewrite andb_true_iff, Nat.eqb_eq, eqb_true_iff. split; [intros [-> ->]; reflexivity|intros K; injection K; auto].
Qed.
Definition look (l : list pent) (e : ident) : option pent := find (fun x => same (who x) e) l.
Lemma look_in l x : NoDup (map who l) -> In x l -> look l (who x) = Some x.
Proof.
  unfold look. induction l as [|y l IH]; intros N Hx; [destruct Hx|]. cbn [map] in N. inversion N as [|? ? Ny Nl]; subst. cbn [find].
  destruct (same (who y) (who x)) eqn:E.
  - apply same_spec in E. destruct Hx as [->|Hx]; [reflexivity|]. exfalso. apply Ny. rewrite E. apply in_map. exact Hx.
  - destruct Hx as [->|Hx]; [rewrite (proj2 (same_spec (who x) (who x)) eq_refl) in E; discriminate|apply IH; assumption].
Qed.

Definition lookX (d : Z) (l : list pent) (e : ident) : Z := match look l e with Some x => pco x + d * per x | None => 0 end.
Definition lookH (l : list pent) (e : ident) : bool := match look l e with Some x => phas x | None => false end.

Lemma nodup_pos m w k k' : NoDup (map who (elems m w)) -> 0 <= k < Z.of_nat m -> 0 <= k' < Z.of_nat m -> who (w k) = who (w k') -> k = k'.
Proof.
  intros N Hk Hk' E. unfold elems in N. rewrite map_map in N.
  assert (Z.to_nat k = Z.to_nat k'); [|lia].
  apply (proj1 (NoDup_nth (map (fun x => who (w (Z.of_nat x))) (seq 0 m)) (0%nat, true)) N); rewrite ?map_length, ?seq_length; [lia|lia|].
  rewrite (nth_indep _ _ (who (w (Z.of_nat 0)))) by (rewrite map_length, seq_length; lia).
  rewrite (nth_indep (map _ _) (0%nat, true) (who (w (Z.of_nat 0)))) by (rewrite map_length, seq_length; lia).
  rewrite !(map_nth (fun x => who (w (Z.of_nat x)))), !seq_nth by lia. rewrite !Nat.add_0_l, !Z2Nat.id by lia. exact E.
Qed.

(** a sorted list of coordinates in [0,d) with the split at 0 *)
Lemma start_rep nb d w : (0 < nb)%nat -> 0 < d -> bb_ok nb w ->
  let n := Z.of_nat (2 * nb) in
  let A := fun i => (who (w (i mod n)), i / n - per (w (i mod n))) in
  let l := elems (2 * nb) w in
  rep n d (mkVb w 0) A (lookX d l) (lookH l) /\ injA n A /\
  ((forall k, 0 <= k < n -> 0 <= pco (w k) < d) -> (forall k, 0 <= k -> k + 1 < n -> pco (w k) <= pco (w (k + 1))) -> sortedA d (lookX d l) A) /\
  (forall i b, (i < nb)%nat -> exists p, fst (A p) = (i, b)) /\ (forall p, (fst (fst (A p)) < nb)%nat).
Proof.
  intros Hnb Hd B n A l. assert (Hn : 1 < n) by (unfold n; lia).
  assert (ND : NoDup (map who l)). { unfold l. eapply Permutation_NoDup; [apply Permutation_sym; exact B|apply bounds_nodup]. }
  assert (MB : forall i, 0 <= i mod n < n) by (intros i; apply Z.mod_pos_bound; lia).
  assert (LK : forall i, look l (who (w (i mod n))) = Some (w (i mod n))).
  { intros i. apply look_in; [exact ND|]. apply elems_in. exists (i mod n). split; [apply MB|reflexivity]. }
  assert (R : rep n d (mkVb w 0) A (lookX d l) (lookH l)).
  { exists 0. cbn [vec loIdx]. split; [rewrite Z.mod_0_l by lia; reflexivity|]. repeat split; intros i; unfold A, lookX, lookH; rewrite ?LK, ?Z.sub_0_r; reflexivity. }
  split; [exact R|]. split; [|split; [|split]].
  - intros p q. unfold A. cbn [fst snd]. intros E. apply (nodup_pos _ _ _ _ ND (MB p) (MB q)) in E. rewrite E.
    pose proof (Z.div_mod p n ltac:(lia)). pose proof (Z.div_mod q n ltac:(lia)). nia.
  - intros HC HSo p. unfold cov, A. cbn [fst snd]. unfold lookX. rewrite !LK.
    pose proof (MB p) as Mp. pose proof (Z.div_mod p n ltac:(lia)) as Dp. pose proof (div_step n p Hn) as DS. destruct ((p + 1) mod n =? 0) eqn:Z0.
    + pose proof (HC _ (MB p)). pose proof (HC _ (MB (p + 1))). rewrite DS. nia.
    + rewrite DS. pose proof (Z.div_mod (p + 1) n ltac:(lia)) as Dq. rewrite DS in Dq. assert (Eq : (p + 1) mod n = p mod n + 1) by lia. rewrite Eq.
      pose proof (MB (p + 1)). rewrite Eq in *. specialize (HSo (p mod n) ltac:(lia) ltac:(lia)). lia.
  - intros i b Hi. assert (Hin : In (i, b) (map who l)). { unfold l. eapply Permutation_in; [apply Permutation_sym; exact B|apply bounds_in; exact Hi]. }
    apply in_map_iff in Hin. destruct Hin as (x & Ex & Hx). apply elems_in in Hx. destruct Hx as (k & Hk & Ek). exists k. unfold A. cbn [fst].
    rewrite Z.mod_small by exact Hk. rewrite Ek. exact Ex.
  - intros p. unfold A. cbn [fst].
    assert (Hin : In (who (w (p mod n))) (bounds_of nb)). { eapply Permutation_in; [exact B|]. apply in_map, elems_in. exists (p mod n). split; [apply MB|reflexivity]. }
    destruct (who (w (p mod n))) as [i b]. cbn [fst]. apply bounds_in in Hin. exact Hin.
Qed.

Definition shift_of (l : list pent) (i : nat) : Z := match find (fun x => (pid x =? i)%nat) l with Some x => per x | None => 0 end.
Lemma shift_even nb u k : even_at (Z.of_nat (2 * nb)) u -> 0 <= k < Z.of_nat (2 * nb) -> shift_of (elems (2 * nb) u) (pid (u k)) = per (u k).
Proof.
  intros Ev Hk. unfold shift_of. destruct (find _ _) as [x|] eqn:F.
  - apply find_some in F. destruct F as [Hx F]. apply Nat.eqb_eq in F. apply elems_in in Hx. destruct Hx as (k' & Hk' & <-). apply Ev; assumption.
  - exfalso. assert (Hin : In (u k) (elems (2 * nb) u)) by (apply elems_in; exists k; auto).
    pose proof (find_none _ _ F (u k) Hin) as K. cbv beta in K. rewrite Nat.eqb_refl in K. discriminate K.
Qed.

Lemma start_good s nb d bs a u : psettings_ok s -> (0 < nb)%nat -> 0 < d -> bb_ok nb u -> even_at (Z.of_nat (2 * nb)) u ->
  (forall k, 0 <= k < Z.of_nat (2 * nb) -> body_at bs (pid (u k)) = None -> pco (u k) = 0) ->
  length bs = nb -> (forall i x, has_box bs i x -> lo x a < hi x a < lo x a + d) ->
  let n := Z.of_nat (2 * nb) in
  let w := psort s n (fun k => prefresh true d bs a (u k)) in
  let l := elems (2 * nb) w in
  good nb d bs (mkVb w 0) (fun i => (who (w (i mod n)), i / n - per (w (i mod n)))) (lookX d l) (lookH l) /\
  (forall i x, has_box bs i x -> lookX d l (i, true) = lo x a - d * shift_of (elems (2 * nb) u) i /\
                                 lookX d l (i, false) = hi x a - d * shift_of (elems (2 * nb) u) i).
Proof.
  intros (_ & _ & HS) Hnb Hd B Ev Go HL HF n w l. set (r := fun k => prefresh true d bs a (u k)) in *.
  destruct (HS (2 * nb)%nat r) as [HP HSo]. fold n in HP, HSo. change (psort s n r) with w in HP, HSo.
  assert (Wr : forall k, who (r k) = who (u k)).
  { intros k. unfold r, prefresh, who. destruct (body_at bs (pid (u k))) as [b|]; [|reflexivity]. destruct (bbox b); reflexivity. }
  assert (Br : bb_ok nb r).
  { unfold bb_ok, elems in *. rewrite map_map in *. erewrite map_ext; [exact B|]. intros k. apply Wr. }
  assert (Bw : bb_ok nb w).
  { unfold bb_ok in *. eapply Permutation_trans; [apply Permutation_map, Permutation_sym; exact HP|exact Br]. }
  assert (ND : NoDup (map who l)). { eapply Permutation_NoDup; [apply Permutation_sym; exact Bw|apply bounds_nodup]. }
  assert (LK : forall k, 0 <= k < n -> look l (who (u k)) = Some (r k)).
  { intros k Hk. rewrite <- Wr. apply look_in; [exact ND|]. eapply Permutation_in; [exact HP|]. apply elems_in. exists k. auto. }
  assert (Rng : forall k, 0 <= k < n -> 0 <= pco (r k) < d).
  { intros k Hk. unfold r, prefresh. destruct (body_at bs (pid (u k))) as [b|] eqn:Bd; [unfold cellWrap; cbn [pco]; apply Z.mod_pos_bound; exact Hd|].
    cbn [pco]. rewrite (Go k Hk Bd). lia. }
  assert (RngW : forall k, 0 <= k < n -> 0 <= pco (w k) < d).
  { intros k Hk. assert (Hin : In (w k) (elems (2 * nb) r)). { eapply Permutation_in; [apply Permutation_sym; exact HP|]. apply elems_in. exists k. auto. }
    apply elems_in in Hin. destruct Hin as (k' & Hk' & <-). apply Rng. exact Hk'. }
  destruct (start_rep nb d w Hnb Hd Bw) as (R & J & SO & OC & RG). fold n in R, J, SO, OC, RG. fold l in R, J, SO.
  specialize (SO RngW HSo).
  assert (At : forall i b, (i < nb)%nat -> exists k, 0 <= k < n /\ who (u k) = (i, b)).
  { intros i b Hi. assert (Hin : In (i, b) (map who (elems (2 * nb) u))). { eapply Permutation_in; [apply Permutation_sym; exact B|apply bounds_in; exact Hi]. }
    apply in_map_iff in Hin. destruct Hin as (x & Ex & Hx). apply elems_in in Hx. destruct Hx as (k & Hk & <-). exists k. auto. }
  assert (Val : forall i b, (i < nb)%nat ->
     lookX d l (i, b) = match body_at bs i with
                        | Some y => match bbox y with Some x => if b then lo x a else hi x a | None => pos y a end - d * shift_of (elems (2 * nb) u) i
                        | None => d * shift_of (elems (2 * nb) u) i
                        end /\
     lookH l (i, b) = match body_at bs i with Some y => match bbox y with Some _ => true | None => false end | None => false end).
  { intros i b Hi. destruct (At i b Hi) as (k & Hk & Ek). pose proof (LK k Hk) as Lk. rewrite Ek in Lk. unfold lookX, lookH. rewrite Lk.
    unfold who in Ek. injection Ek as E1 E2. pose proof (shift_even nb u k Ev Hk) as Sh. rewrite E1 in Sh.
    unfold r, prefresh. rewrite E1, E2. pose proof (Go k Hk) as Gk. rewrite E1 in Gk. destruct (body_at bs i) as [y|].
    - destruct (bbox y) as [x|]; unfold cellWrap; cbn [pco per phas]; rewrite Sh; (split; [|reflexivity]);
        match goal with |- ?m mod ?q + ?q * (?m / ?q) = _ => pose proof (Z.div_mod m q ltac:(lia)); lia end.
    - cbn [pco per phas]. rewrite Sh, (Gk eq_refl). split; [lia|reflexivity]. }
  assert (Sh : forall i x, has_box bs i x -> lookX d l (i, true) = lo x a - d * shift_of (elems (2 * nb) u) i /\
                                 lookX d l (i, false) = hi x a - d * shift_of (elems (2 * nb) u) i).
  { intros i x Hx. pose proof (has_box_lt _ _ _ Hx) as Hi. rewrite HL in Hi. destruct Hx as (y & Hy & By).
    destruct (Val i true Hi) as [V1 _]. destruct (Val i false Hi) as [V2 _]. rewrite Hy, By in V1, V2. auto. }
  split; [|exact Sh].
  constructor; try assumption.
  - intros i Hi. destruct (Val i true Hi) as [V1 _]. destruct (Val i false Hi) as [V2 _]. rewrite V1, V2.
    destruct (body_at bs i) as [y|] eqn:By; [|lia]. destruct (bbox y) as [x|] eqn:Bx; [|lia]. specialize (HF i x (ex_intro _ y (conj By Bx))). lia.
  - intros i x Hx. pose proof (has_box_lt _ _ _ Hx) as Hi. rewrite HL in Hi. destruct (Sh i x Hx) as [E1 E2]. pose proof (HF i x Hx) as F. destruct Hx as (y & Hy & By).
    destruct (Val i true Hi) as [_ V1]. destruct (Val i false Hi) as [_ V2]. rewrite Hy, By in V1, V2. repeat split; [lia|exact V1|exact V2].
  - intros i b Hi Hh. destruct (Val i b Hi) as [_ V]. rewrite V in Hh. destruct (body_at bs i) as [y|] eqn:By; [|discriminate]. destruct (bbox y) as [x|] eqn:Bx; [|discriminate].
    exists x, y. auto.
Qed.

(** ** the entries before the sort *)
Lemma map_nodup {T U} (f : T -> U) l : (forall x y, In x l -> In y l -> f x = f y -> x = y) -> NoDup l -> NoDup (map f l).
Proof.
  induction l as [|x l IH]; intros Hf N; [constructor|]. inversion N as [|? ? Nx Nl]; subst. cbn [map]. constructor.
  - intros Hin. apply in_map_iff in Hin. destruct Hin as (y & E & Hy). apply Nx. rewrite <- (Hf y x); [exact Hy|right; exact Hy|left; reflexivity|exact E].
  - apply IH; [|exact Nl]. intros y z Hy Hz. apply Hf; right; assumption.
Qed.
Lemma good_bb nb d bs v A X H : (0 < nb)%nat -> good nb d bs v A X H -> bb_ok nb (vec v).
Proof.
  intros Hnb G. set (n := Z.of_nat (2 * nb)). assert (Hn : 1 < n) by (unfold n; lia).
  destruct (g_rep _ _ _ _ _ _ _ G) as (L & EL & R1 & R2 & R3). fold n in R1.
  assert (W : forall k, 0 <= k < n -> who (vec v k) = fst (A k)). { intros k Hk. rewrite R1. cbn [fst]. rewrite Z.mod_small by exact Hk. reflexivity. }
  unfold bb_ok, elems. rewrite map_map. apply NoDup_Permutation.
  - apply map_nodup; [|apply seq_NoDup]. intros x y Hx Hy E. apply in_seq in Hx, Hy. rewrite !W in E by (unfold n; lia).
    apply (g_inj _ _ _ _ _ _ _ G) in E. fold n in E. set (c := snd (A (Z.of_nat y)) - snd (A (Z.of_nat x))) in *.
    assert (- n < c * n < n) by (unfold n in *; lia). destruct (Z.lt_trichotomy c 0) as [|[->|]]; [nia|lia|nia].
  - apply bounds_nodup.
  - intros [i b]. rewrite bounds_in. rewrite in_map_iff. split.
    + intros (k & E & Hk). apply in_seq in Hk. rewrite W in E by (unfold n; lia). pose proof (g_rng _ _ _ _ _ _ _ G (Z.of_nat k)) as K. rewrite E in K. exact K.
    + intros Hi. destruct (g_occ _ _ _ _ _ _ _ G i b Hi) as [p Ep]. pose proof (Z.mod_pos_bound p n ltac:(lia)) as MB.
      exists (Z.to_nat (p mod n)). rewrite Z2Nat.id by lia. split; [rewrite R1 in Ep; exact Ep|apply in_seq; unfold n in *; lia].
Qed.
Lemma appended_old len from u k : k < Z.of_nat len -> appended len from u k = u k.
Proof. intros H. unfold appended. rewrite (proj2 (Z.ltb_lt _ _) H). reflexivity. Qed.
Lemma appended_new len from u t : appended len from u (Z.of_nat (len + 2 * t)) = mkP 0 0 (from + t) true false /\
  appended len from u (Z.of_nat (len + 2 * t + 1)) = mkP 0 0 (from + t) false false.
Proof.
  unfold appended. rewrite !(proj2 (Z.ltb_ge _ _)) by lia.
  replace (Z.of_nat (len + 2 * t) - Z.of_nat len) with (2 * Z.of_nat t) by lia.
  replace (Z.of_nat (len + 2 * t + 1) - Z.of_nat len) with (2 * Z.of_nat t + 1) by lia.
  rewrite Z.even_add, Z.even_mul. cbn [Z.even orb Bool.eqb].
  rewrite (Z.mul_comm 2), Z.div_mul by lia. rewrite Z.div_add_l by lia. change (1 / 2) with 0. rewrite Z.add_0_r, Nat2Z.id. split; reflexivity.
Qed.
Lemma appended_tail nb0 u m : forall t, map (fun k => who (appended (2 * nb0) nb0 u (Z.of_nat k))) (seq (2 * nb0 + 2 * t) (2 * m)) =
  flat_map (fun i => [(i, true); (i, false)]) (seq (nb0 + t) m).
Proof.
  induction m as [|m IH]; intros t; [reflexivity|]. replace (2 * S m)%nat with (S (S (2 * m))) by lia. cbn [seq map flat_map app].
  destruct (appended_new (2 * nb0) nb0 u t) as [E1 E2]. rewrite E1. replace (S (2 * nb0 + 2 * t)) with (2 * nb0 + 2 * t + 1)%nat by lia. rewrite E2.
  unfold who at 1 2. cbn [pid pmin]. do 2 f_equal. replace (S (2 * nb0 + 2 * t + 1)) with (2 * nb0 + 2 * S t)%nat by lia. rewrite IH. f_equal. f_equal. lia.
Qed.
Lemma appended_bb nb0 nb u : (nb0 <= nb)%nat -> bb_ok nb0 u -> bb_ok nb (appended (2 * nb0) nb0 u).
Proof.
  intros Hle B. unfold bb_ok, bounds_of, elems in *. rewrite map_map in *.
  replace (2 * nb)%nat with (2 * nb0 + 2 * (nb - nb0))%nat by lia. rewrite (seq_app (2 * nb0)), map_app.
  replace (seq 0 nb) with (seq 0 nb0 ++ seq (0 + nb0) (nb - nb0)) by (rewrite <- seq_app; f_equal; lia). rewrite flat_map_app. apply Permutation_app.
  - erewrite map_ext_in; [exact B|]. intros k Hk. apply in_seq in Hk. cbv beta. rewrite appended_old by lia. reflexivity.
  - pose proof (appended_tail nb0 u (nb - nb0) 0) as T. replace (0 + 2 * nb0)%nat with (2 * nb0 + 2 * 0)%nat by lia. rewrite T.
    replace (nb0 + 0)%nat with (0 + nb0)%nat by lia. apply Permutation_refl.
Qed.
Lemma appended_cases nb0 u k : 0 <= k -> k < Z.of_nat (2 * nb0) /\ appended (2 * nb0) nb0 u k = u k \/
  (nb0 <= pid (appended (2 * nb0) nb0 u k))%nat /\ per (appended (2 * nb0) nb0 u k) = 0 /\ pco (appended (2 * nb0) nb0 u k) = 0.
Proof.
  intros Hk. unfold appended. destruct (Z.ltb_spec k (Z.of_nat (2 * nb0))); [left; auto|right]. cbn [pid per pco]. repeat split; lia.
Qed.
Lemma bb_pid nb u k : bb_ok nb u -> 0 <= k < Z.of_nat (2 * nb) -> (pid (u k) < nb)%nat.
Proof.
  intros B Hk. assert (Hin : In (who (u k)) (bounds_of nb)). { eapply Permutation_in; [exact B|]. apply in_map, elems_in. exists k. auto. }
  unfold who in Hin. apply bounds_in in Hin. exact Hin.
Qed.
Lemma appended_even nb0 u n : bb_ok nb0 u -> even_at (Z.of_nat (2 * nb0)) u -> even_at n (appended (2 * nb0) nb0 u).
Proof.
  intros B Ev k k' Hk Hk'.
  destruct (appended_cases nb0 u k ltac:(lia)) as [[L ->]|(P & Q & _)]; destruct (appended_cases nb0 u k' ltac:(lia)) as [[L' ->]|(P' & Q' & _)]; intros E.
  - apply Ev; [lia|lia|exact E].
  - pose proof (bb_pid nb0 u k B ltac:(lia)). lia.
  - pose proof (bb_pid nb0 u k' B ltac:(lia)). lia.
  - congruence.
Qed.

(** ** a run from scratch *)
Lemma init_ok f s c bs I c' I' : psettings_ok s -> all_fit (pcell s) bs -> bs <> [] ->
  let nb := length bs in
  let c1 := padjust (detect_periodicity c) nb in
  pinit_run s (detect_periodicity c) nb = true -> psize c1 = (2 * nb)%nat -> plen c1 = (2 * nb)%nat ->
  (exists mm, pmm c1 = resize mm nb) ->
  (forall a, (a < 3)%nat -> bb_ok nb (vec (pbb c1 a)) /\ even_at (Z.of_nat (2 * nb)) (vec (pbb c1 a)) /\
     forall k, 0 <= k < Z.of_nat (2 * nb) -> body_at bs (pid (vec (pbb c1 a) k)) = None -> pco (vec (pbb c1 a) k) = 0) ->
  paction f s c bs I = Ok (c', I') -> exists A X H sh, state_ok s c' bs I' A X H sh.
Proof.
  intros Hs Hf Hne nb c1 In1 Sz Ln (mm0 & Mm) HU E. unfold paction in E. fold nb in E. fold c1 in E. rewrite In1 in E.
  destruct (_ || _); [discriminate|]. apply bind_ok in E. destruct E as (I0 & E0 & E). apply bind_ok in E. destruct E as (l & El & E). apply bind_ok in E. destruct E as (I1 & E1 & E). injection E as <- <-.
  assert (Hnb : (0 < nb)%nat). { unfold nb. destruct bs; [congruence|cbn [length]; lia]. }
  set (u := fun a => vec (pbb c1 a)) in *. set (n := Z.of_nat (2 * nb)) in *.
  set (w := fun a => psort s n (fun k => prefresh true (dim (pcell s) a) bs a (u a k))).
  set (A := fun a i => (who (w a (i mod n)), i / n - per (w a (i mod n)))).
  set (X := fun a => lookX (dim (pcell s) a) (elems (2 * nb) (w a))). set (H := fun a => lookH (elems (2 * nb) (w a))).
  set (sh := fun a => shift_of (elems (2 * nb) (u a))).
  assert (HF : forall a i x, (a < 3)%nat -> has_box bs i x -> lo x a < hi x a < lo x a + dim (pcell s) a).
  { intros a i x Ha Hx. pose proof (Hf i x Hx a Ha). lia. }
  assert (GS : forall a, (a < 3)%nat -> good nb (dim (pcell s) a) bs (mkVb (w a) 0) (A a) (X a) (H a) /\
     forall i x, has_box bs i x -> X a (i, true) = lo x a - dim (pcell s) a * sh a i /\ X a (i, false) = hi x a - dim (pcell s) a * sh a i).
  { intros a Ha. destruct (HU a Ha) as (U1 & U2 & U3).
    apply (start_good s nb (dim (pcell s) a) bs a (u a)); try assumption; [apply dims; assumption|reflexivity|]. intros i x Hx. exact (HF a i x Ha Hx). }
  exists A, X, H, sh. constructor; try assumption.
  - reflexivity.
  - intros a Ha. exact (proj1 (GS a Ha)).
  - intros a i x Ha. exact (proj2 (GS a Ha) i x).
  - intros i j x y Nij Hx Hy Al O.
    destruct (ordov_meets (pcell s) nb bs (fun a => mkVb (w a) 0) A X H sh i j x y) as [kk M]; try assumption; [intros a Ha; exact (proj1 (GS a Ha))|intros a i0 x0 Ha; exact (proj2 (GS a Ha) i0 x0)|].
    pose proof Hs as (HA & Hc & _).
    eapply (handle_all_links s bs (refresh_boxes bs (pmm c1))); [exact Hc|exact Hf|rewrite Mm; apply known_refresh; reflexivity|exact Hx|exact Hy|exact M|exact Al| |exact E1].
    destruct (O (psortAxis s) HA) as [k Ok].
    eapply (traverse_finds nb (dim (pcell s) (psortAxis s)) bs (mkVb (w (psortAxis s)) 0)); [exact (proj1 (GS _ HA))|exact Hnb|apply Hc; exact HA|exact Nij|exact Hx|exact Hy| | |exact El|exact Ok].
    + exact (has_box_lt _ _ _ Hx).
    + exact (has_box_lt _ _ _ Hy).
Qed.

(** ** all histories *)
(** what a run from scratch needs to find after the lists have been brought to the right length *)
Definition start_facts (s : psettings) (c : pcoll) (bs : bodies) : Prop :=
  let nb := length bs in
  let c1 := padjust (detect_periodicity c) nb in
  pinit_run s (detect_periodicity c) nb = true /\ psize c1 = (2 * nb)%nat /\ plen c1 = (2 * nb)%nat /\
  (exists mm, pmm c1 = resize mm nb) /\
  (forall a, (a < 3)%nat -> bb_ok nb (vec (pbb c1 a)) /\ even_at (Z.of_nat (2 * nb)) (vec (pbb c1 a)) /\
     forall k, 0 <= k < Z.of_nat (2 * nb) -> body_at bs (pid (vec (pbb c1 a) k)) = None -> pco (vec (pbb c1 a) k) = 0).
Lemma scratch_facts s c bs : bs <> [] -> psize c = 0%nat -> plen c = 0%nat -> start_facts s c bs.
Proof.
  intros Hne Sz Ln. assert (Hnb : (0 < length bs)%nat) by (destruct bs; [congruence|cbn [length]; lia]).
  assert (S0 : psize (detect_periodicity c) = 0%nat /\ plen (detect_periodicity c) = 0%nat).
  { unfold detect_periodicity. destruct (pperiodic c); cbn [psize plen]; auto. }
  destruct S0 as [S0 L0]. unfold start_facts. split; [|split; [|split; [|split]]].
  - unfold pinit_run. rewrite S0, (proj2 (Nat.eqb_neq 0 (2 * length bs))) by lia. rewrite Nat.eqb_refl. cbn [negb andb]. rewrite !orb_true_r. reflexivity.
  - unfold padjust. rewrite S0, (proj2 (Nat.eqb_neq 0 (2 * length bs))) by lia. rewrite (proj2 (Nat.ltb_ge (2 * length bs) 0)) by lia. rewrite L0. cbn [psize]. change (0 / 2)%nat with 0%nat. lia.
  - unfold padjust. rewrite S0, (proj2 (Nat.eqb_neq 0 (2 * length bs))) by lia. rewrite (proj2 (Nat.ltb_ge (2 * length bs) 0)) by lia. rewrite L0. cbn [plen]. change (0 / 2)%nat with 0%nat. lia.
  - unfold padjust. rewrite S0, (proj2 (Nat.eqb_neq 0 (2 * length bs))) by lia. cbn [pmm]. eexists. reflexivity.
  - intros a Ha. unfold padjust. rewrite S0, (proj2 (Nat.eqb_neq 0 (2 * length bs))) by lia. rewrite (proj2 (Nat.ltb_ge (2 * length bs) 0)) by lia. rewrite L0. cbn [pbb vec]. change (0 / 2)%nat with 0%nat.
    set (v := vec (pbb (detect_periodicity c) a)). split; [|split].
    + apply (appended_bb 0 (length bs) v); [lia|]. unfold bb_ok. constructor.
    + apply (appended_even 0 v). unfold bb_ok; constructor. intros k k' Hk. lia.
    + intros k Hk _. destruct (appended_cases 0 v k ltac:(lia)) as [[L _]|(_ & _ & P)]; [lia|exact P].
Qed.

Lemma restart_facts s c bs I A X H sh s' bs' : state_ok s c bs I A X H sh ->
  restarts s' c bs' -> even c -> (length bs <= length bs')%nat -> (forall i, (i < length bs')%nat -> body_at bs' i <> None) ->
  bs' <> [] /\ start_facts s' c bs'.
Proof.
  intros K Rs Ev Le Al. pose proof (k_pos _ _ _ _ _ _ _ _ K) as Hnb. pose proof (k_size _ _ _ _ _ _ _ _ K) as Sz. pose proof (k_len _ _ _ _ _ _ _ _ K) as Ln.
  assert (D : detect_periodicity c = c). { unfold detect_periodicity. rewrite (k_peri _ _ _ _ _ _ _ _ K). reflexivity. }
  assert (BB : forall a, (a < 3)%nat -> bb_ok (length bs) (vec (pbb c a))). { intros a Ha. eapply good_bb; [exact Hnb|exact (k_good _ _ _ _ _ _ _ _ K a Ha)]. }
  assert (EE : forall a, (a < 3)%nat -> even_at (Z.of_nat (2 * length bs)) (vec (pbb c a))). { intros a Ha k k' Hk Hk'. apply Ev; [exact Ha|rewrite Ln; exact Hk|rewrite Ln; exact Hk']. }
  assert (Gone : forall nb u, nb = length bs' -> bb_ok nb u -> forall k, 0 <= k < Z.of_nat (2 * nb) -> body_at bs' (pid (u k)) = None -> pco (u k) = 0).
  { intros nb u -> B k Hk N. exfalso. exact (Al _ (bb_pid _ _ _ B Hk) N). }
  split; [intros ->; cbn [length] in Le; lia|]. unfold start_facts. rewrite D. split; [|split; [|split; [|split]]].
  - unfold pinit_run. destruct Rs as [R|[R|[R|R]]].
    + rewrite R. reflexivity.
    + rewrite R, orb_true_r. reflexivity.
    + lia.
    + rewrite (proj2 (Nat.eqb_neq (psize c) (2 * length bs'))) by lia. rewrite (proj2 (Nat.ltb_lt 200 _)) by lia. cbn [negb andb orb]. rewrite orb_true_r. reflexivity.
  - unfold padjust. destruct (Nat.eqb_spec (psize c) (2 * length bs')) as [Q|Q]; [exact Q|]. rewrite (proj2 (Nat.ltb_ge (2 * length bs') (psize c))) by lia.
    rewrite Sz, Ln. cbn [psize]. rewrite Nat.mul_comm, Nat.div_mul by lia. lia.
  - unfold padjust. destruct (Nat.eqb_spec (psize c) (2 * length bs')) as [Q|Q]; [cbn [plen]; lia|]. rewrite (proj2 (Nat.ltb_ge (2 * length bs') (psize c))) by lia.
    rewrite Sz, Ln. cbn [plen]. rewrite Nat.mul_comm, Nat.div_mul by lia. lia.
  - unfold padjust. destruct (psize c =? 2 * length bs')%nat; eexists; reflexivity.
  - intros a Ha. unfold padjust. destruct (Nat.eqb_spec (psize c) (2 * length bs')) as [Q|Q].
    + cbn [pbb]. assert (Q' : length bs' = length bs) by lia. rewrite Q'. split; [apply BB; exact Ha|split; [apply EE; exact Ha|]].
      apply Gone; [symmetry; exact Q'|apply BB; exact Ha].
    + rewrite (proj2 (Nat.ltb_ge (2 * length bs') (psize c))) by lia. rewrite Sz, Ln. cbn [pbb vec].
      replace (2 * length bs / 2)%nat with (length bs) by (rewrite Nat.mul_comm, Nat.div_mul by lia; reflexivity).
      assert (Bn : bb_ok (length bs') (appended (2 * length bs) (length bs) (vec (pbb c a)))) by (apply appended_bb; [exact Le|apply BB; exact Ha]).
      split; [exact Bn|split; [apply appended_even; [apply BB; exact Ha|apply EE; exact Ha]|]].
      apply Gone; [reflexivity|exact Bn].
Qed.

Lemma facts_ok f s c bs I c' I' : psettings_ok s -> all_fit (pcell s) bs -> bs <> [] -> start_facts s c bs ->
  paction f s c bs I = Ok (c', I') -> exists A X H sh, state_ok s c' bs I' A X H sh.
Proof. intros Hs Hf Hne (F1 & F2 & F3 & F4 & F5). apply init_ok; assumption. Qed.
Lemma follows_ok f s c bs I A X H sh s' c1 bs' I' c'' I'' : state_ok s c bs I A X H sh -> psettings_ok s' -> all_fit (pcell s') bs' ->
  follows s c bs I s' c1 bs' I' -> paction f s' c1 bs' I' = Ok (c'', I'') -> exists A X H sh, state_ok s' c'' bs' I'' A X H sh.
Proof.
  intros K Hs Hf Fo E. destruct Fo as [bs' I' Hne|bs' I' D1 D2 T|bs' I' Rs Ev Le Al].
  - eapply facts_ok; try eassumption. apply scratch_facts; [exact Hne|reflexivity|reflexivity].
  - destruct (regular_ok s c bs I A X H sh f s' bs' I' c'' I'' K Hs Hf D1 D2 T E) as [A' K']. eauto 6.
  - destruct (restart_facts s c bs I A X H sh s' bs' K Rs Ev Le Al) as [Hne SF]. eapply facts_ok; eassumption.
Qed.
Lemma preached_ok s c bs I : preached s c bs I -> exists A X H sh, state_ok s c bs I A X H sh.
Proof.
  induction 1 as [f b s bs I c' I' Hs Hf Hne E|f s c bs I s' c1 bs' I' c'' I'' HR IH Hs Hf Fo E].
  - eapply facts_ok; try eassumption. apply scratch_facts; [exact Hne|reflexivity|reflexivity].
  - destruct IH as (A & X & H & sh & K). eapply follows_ok; eassumption.
Qed.
Lemma preached_complete s c bs I : preached s c bs I -> pcomplete s bs I.
Proof. intros HR. destruct (preached_ok s c bs I HR) as (A & X & H & sh & K). exact (state_complete _ _ _ _ _ _ _ _ K). Qed.
