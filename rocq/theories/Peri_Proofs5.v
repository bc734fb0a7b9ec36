(** The collider in a periodic scene: a run from scratch finds all pairs, whatever the stored cell numbers. *)
From Coq Require Import List ZArith Arith Bool Lia Permutation.
From Verif Require Import Coll_Model Coll_Spec Coll_Proofs2 Peri_Model Peri_Spec Peri_Sort Peri_Refine Peri_Proofs1 Peri_Proofs2 Peri_Proofs3 Peri_Proofs4.
Import ListNotations.
Local Open Scope Z_scope.

(** the traversal does not read the numbers of the cells *)
Definition alike (w w' : arr) : Prop := forall k, pid (w k) = pid (w' k) /\ pmin (w k) = pmin (w' k) /\ phas (w k) = phas (w' k).
Lemma mins_alike fuel n w w' i : alike w w' -> forall j, mins_from fuel n w i j = mins_from fuel n w' i j.
Proof.
  intros Al. induction fuel as [|f IH]; intros j; [reflexivity|]. cbn [mins_from]. destruct (Al j) as (-> & -> & ->). rewrite IH. reflexivity.
Qed.
Lemma traverse_alike fuel n w w' K : alike w w' -> forall i, ptraverse fuel n w K i = ptraverse fuel n w' K i.
Proof.
  intros Al. induction K as [|K IH]; intros i; [reflexivity|]. cbn [ptraverse]. rewrite IH. destruct (Al i) as (-> & -> & ->). rewrite (mins_alike fuel n w w' _ Al). reflexivity.
Qed.

Definition val (bs : bodies) (a : nat) (e : ident) : Z :=
  match body_at bs (fst e) with
  | Some b => match bbox b with Some x => if snd e then lo x a else hi x a | None => pos b a end
  | None => 0
  end.
Lemma wrapped_good s nb d bs a u : psettings_ok s -> (0 < nb)%nat -> 0 < d -> bb_ok nb u -> length bs = nb ->
  (forall i, (i < nb)%nat -> body_at bs i <> None) -> (forall i x, has_box bs i x -> lo x a < hi x a < lo x a + d) ->
  let n := Z.of_nat (2 * nb) in
  let w := psort s n (fun k => prefresh true d bs a (u k)) in
  let w' := fun k => mkP (pco (w k)) ((val bs a (who (w k)) - pco (w k)) / d) (pid (w k)) (pmin (w k)) (phas (w k)) in
  let l := elems (2 * nb) w' in
  good nb d bs (mkVb w' 0) (fun i => (who (w' (i mod n)), i / n - per (w' (i mod n)))) (lookX d l) (lookH l) /\
  (forall i x, has_box bs i x -> lookX d l (i, true) = lo x a - d * 0 /\ lookX d l (i, false) = hi x a - d * 0).
Proof.
  intros (_ & _ & HS) Hnb Hd B HL Al HF n w w' l. set (r := fun k => prefresh true d bs a (u k)) in *.
  destruct (HS (2 * nb)%nat r) as [HP HSo]. fold n in HP, HSo. change (psort s n r) with w in HP, HSo.
  assert (Wr : forall k, who (r k) = who (u k)).
  { intros k. unfold r, prefresh, who. destruct (body_at bs (pid (u k))) as [b|]; [|reflexivity]. destruct (bbox b); reflexivity. }
  assert (Br : bb_ok nb r). { unfold bb_ok, elems in *. rewrite map_map in *. erewrite map_ext; [exact B|]. intros k. apply Wr. }
  assert (Bw : bb_ok nb w). { unfold bb_ok in *. eapply Permutation_trans; [apply Permutation_map, Permutation_sym; exact HP|exact Br]. }
  assert (Bw' : bb_ok nb w'). { unfold bb_ok, elems in *. rewrite map_map in *. exact Bw. }
  assert (ND : NoDup (map who l)). { eapply Permutation_NoDup; [apply Permutation_sym; exact Bw'|apply bounds_nodup]. }
  assert (En : forall k, 0 <= k < n -> exists z, pco (w k) = val bs a (who (w k)) + z * d /\ 0 <= pco (w k) < d /\ phas (w k) = newH bs (who (w k))).
  { intros k Hk. assert (Hin : In (w k) (elems (2 * nb) r)). { eapply Permutation_in; [apply Permutation_sym; exact HP|]. apply elems_in. exists k. auto. }
    apply elems_in in Hin. destruct Hin as (k' & Hk' & <-). rewrite Wr. unfold val, newH, r, prefresh, who. cbn [fst snd].
    pose proof (Al (pid (u k')) (bb_pid nb u k' B Hk')) as NN.
    destruct (body_at bs (pid (u k'))) as [b|]; [|congruence]. destruct (bbox b) as [x|]; unfold cellWrap; cbn [pco phas];
      match goal with |- exists z, ?m mod ?q = ?v + _ /\ _ => exists (- (m / q) - per (u k')); pose proof (Z.div_mod m q ltac:(lia)); pose proof (Z.mod_pos_bound m q Hd) end; repeat split; lia. }
  assert (Pw : forall k, 0 <= k < n -> pco (w' k) + d * per (w' k) = val bs a (who (w' k)) /\ phas (w' k) = newH bs (who (w' k))).
  { intros k Hk. destruct (En k Hk) as (z & E & R & P). change (who (w' k)) with (who (w k)). unfold w'. cbn [pco per phas]. split; [|exact P].
    replace (val bs a (who (w k)) - pco (w k)) with ((- z) * d) by lia. rewrite Z.div_mul by lia. lia. }
  assert (LK : forall k, 0 <= k < n -> look l (who (w' k)) = Some (w' k)). { intros k Hk. apply look_in; [exact ND|]. apply elems_in. exists k. auto. }
  destruct (start_rep nb d w' Hnb Hd Bw') as (R & J & SO & OC & RG). fold n in R, J, SO, OC, RG. fold l in R, J, SO.
  assert (SO' : sortedA d (lookX d l) (fun i => (who (w' (i mod n)), i / n - per (w' (i mod n))))).
  { apply SO; [intros k Hk; destruct (En k Hk) as (z & _ & K & _); exact K|exact HSo]. }
  assert (Val : forall i b, (i < nb)%nat -> lookX d l (i, b) = val bs a (i, b) /\ lookH l (i, b) = newH bs (i, b)).
  { intros i b Hi. assert (Hin : In (i, b) (map who l)). { eapply Permutation_in; [apply Permutation_sym; exact Bw'|apply bounds_in; exact Hi]. }
    apply in_map_iff in Hin. destruct Hin as (x & Ex & Hx). apply elems_in in Hx. destruct Hx as (k & Hk & <-). rewrite <- Ex. unfold lookX, lookH. rewrite (LK k Hk). exact (Pw k Hk). }
  assert (Sh : forall i x, has_box bs i x -> lookX d l (i, true) = lo x a - d * 0 /\ lookX d l (i, false) = hi x a - d * 0).
  { intros i x Hx. pose proof (has_box_lt _ _ _ Hx) as Hi. rewrite HL in Hi. destruct Hx as (y & Hy & By).
    destruct (Val i true Hi) as [-> _]. destruct (Val i false Hi) as [-> _]. unfold val. cbn [fst snd]. rewrite Hy, By. lia. }
  split; [|exact Sh]. constructor; try assumption.
  - intros i Hi. destruct (Val i true Hi) as [-> _]. destruct (Val i false Hi) as [-> _]. unfold val. cbn [fst snd].
    destruct (body_at bs i) as [y|] eqn:By; [|lia]. destruct (bbox y) as [x|] eqn:Bx; [|lia]. specialize (HF i x (ex_intro _ y (conj By Bx))). lia.
  - intros i x Hx. pose proof (has_box_lt _ _ _ Hx) as Hi. rewrite HL in Hi. destruct (Sh i x Hx) as [E1 E2]. pose proof (HF i x Hx) as F.
    destruct (Val i true Hi) as [_ V1]. destruct (Val i false Hi) as [_ V2]. rewrite V1, V2, !(newH_box bs i x) by exact Hx. repeat split; lia.
  - intros i b Hi Hh. destruct (Val i b Hi) as [_ V]. rewrite V in Hh. unfold newH in Hh. cbn [fst] in Hh.
    destruct (body_at bs i) as [y|] eqn:By; [|discriminate]. destruct (bbox y) as [x|] eqn:Bx; [|discriminate]. exists x, y. auto.
Qed.

Lemma scratch_complete f s c bs I c' I' : psettings_ok s -> all_fit (pcell s) bs -> bs <> [] -> (forall i, (i < length bs)%nat -> body_at bs i <> None) ->
  pperiodic c = true -> restarts s c bs -> (psize c <= 2 * length bs)%nat ->
  (exists m, psize c = (2 * m)%nat /\ plen c = (2 * m)%nat /\ forall a, (a < 3)%nat -> both_bounds m (pbb c a)) ->
  paction f s c bs I = Ok (c', I') -> pcomplete s bs I'.
Proof.
  intros Hs Hf Hne Al Pc Rs Le (m & Sz & Ln & BB) E. set (nb := length bs) in *. assert (Hnb : (0 < nb)%nat) by (unfold nb; destruct bs; [congruence|cbn [length]; lia]).
  pose proof Hs as (HA & Hc & _).
  assert (D : detect_periodicity c = c) by (unfold detect_periodicity; rewrite Pc; reflexivity).
  set (c1 := padjust c nb).
  assert (In1 : pinit_run s c nb = true).
  { unfold pinit_run. destruct Rs as [R|[R|[R|R]]].
    + rewrite R. reflexivity.
    + rewrite R, orb_true_r. reflexivity.
    + rewrite R, (proj2 (Nat.eqb_neq 0 (2 * nb))) by lia. rewrite Nat.eqb_refl. cbn [negb andb]. rewrite !orb_true_r. reflexivity.
    + fold nb in R. rewrite (proj2 (Nat.eqb_neq (psize c) (2 * nb))) by lia. rewrite (proj2 (Nat.ltb_lt 200 _)) by lia. cbn [negb andb orb]. rewrite orb_true_r. reflexivity. }
  assert (B1 : bb_ok nb (vec (pbb c1 (psortAxis s))) /\ exists mm, pmm c1 = resize mm nb).
  { unfold c1, padjust. destruct (Nat.eqb_spec (psize c) (2 * nb)) as [Q|Q].
    - cbn [pbb pmm]. split; [|eauto]. replace nb with m by lia. exact (BB _ HA).
    - rewrite (proj2 (Nat.ltb_ge (2 * nb) (psize c))) by exact Le. cbn [pbb pmm vec]. split; [|eauto]. rewrite Sz, Ln.
      replace (2 * m / 2)%nat with m by (rewrite Nat.mul_comm, Nat.div_mul by lia; reflexivity).
      apply appended_bb; [lia|]. exact (BB _ HA). }
  destruct B1 as [B1 (mm0 & Mm)].
  unfold paction in E. fold nb in E. rewrite D in E. fold c1 in E. rewrite In1 in E.
  destruct (_ || _); [discriminate|]. apply bind_ok in E. destruct E as (I0 & E0 & E). apply bind_ok in E. destruct E as (l & El & E). apply bind_ok in E. destruct E as (I1 & E1 & E). injection E as <- <-.
  intros i j x y k Nij Hx Hy M Hal. set (a := psortAxis s) in *.
  destruct (wrapped_good s nb (dim (pcell s) a) bs a (vec (pbb c1 a)) Hs Hnb (dims _ _ Hs HA) B1 eq_refl Al) as [G Sh].
  { intros i0 x0 Hx0. pose proof (Hf i0 x0 Hx0 a HA). lia. }
  assert (MM : box_meets (pcell s) x y k). { intros a' Ha'. specialize (M a' Ha'). unfold meets, meets_inside in *. lia. }
  eapply (handle_all_links s bs (refresh_boxes bs (pmm c1))); [exact Hc|exact Hf|rewrite Mm; apply known_refresh; reflexivity|exact Hx|exact Hy|exact MM|exact Hal| |exact E1].
  cbn zeta in El. erewrite traverse_alike in El; [|].
  - eapply (traverse_finds nb (dim (pcell s) a) bs _ _ _ _ f l i j x y (image_of k a) G Hnb (dims _ _ Hs HA) Nij Hx Hy (has_box_lt _ _ _ Hx) (has_box_lt _ _ _ Hy)); [exact El|].
    destruct (M a HA) as [M1 M2]. destruct (Sh i x Hx) as [S1 S2]. destruct (Sh j y Hy) as [S3 S4].
    split; eapply good_before; try exact G; try exact Hnb; try exact (has_box_lt _ _ _ Hx); try exact (has_box_lt _ _ _ Hy); lia.
  - intros q. cbn [vec pid pmin phas]. auto.
Qed.

(** the image of a new interaction *)
Lemma effect_new s bs I I' x y z : effect s bs I I' -> In x I' -> ~ In x I -> has_box bs (fst (ids x)) y -> has_box bs (snd (ids x)) z ->
  box_nearly_meets (pcell s) y z (cellDist x).
Proof.
  intros (K & N & -> & S & _ & _ & HN & _) Hx Hn By Bz. apply in_app_or in Hx. destruct Hx as [Hx|Hx].
  - exfalso. apply Hn. clear - S Hx. induction S as [|w l l' S IH|w l l' S IH]; [exact Hx|destruct Hx as [<- |Hx]; [left; reflexivity|right; apply IH; exact Hx]|right; apply IH; exact Hx].
  - destruct (HN x Hx) as [(_ & _ & _ & y' & z' & By' & Bz' & M) _].
    destruct By as (b1 & B1 & X1), By' as (b1' & B1' & X1'), Bz as (b2 & B2 & X2), Bz' as (b2' & B2' & X2'). assert (y = y') by congruence. assert (z = z') by congruence. subst. exact M.
Qed.
Lemma new_image s c bs I s' c1 bs' I' f c'' I'' : preached s c bs I -> psettings_ok s' -> all_fit (pcell s') bs' ->
  follows s c bs I s' c1 bs' I' -> paction f s' c1 bs' I' = Ok (c'', I'') ->
  forall x y z, In x I'' -> ~ In x I' -> has_box bs' (fst (ids x)) y -> has_box bs' (snd (ids x)) z -> box_nearly_meets (pcell s') y z (cellDist x).
Proof.
  intros R Hs Hf Fo E x y z. apply effect_new. exact (proj1 (next_run s c bs I s' c1 bs' I' R Hs Hf Fo) f c'' I'' E).
Qed.
