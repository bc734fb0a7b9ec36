(** Recursive bisection: the exchanges. *)
From Coq Require Import List ZArith Arith Bool Lia Permutation.
From Verif Require Import Comm_Model Comm_Spec Comm_Proofs Mpi_Spec Mpi_Proofs2 Tree_Model Tree_Spec Tree_Proofs1.
Import ListNotations.

(** ** gathering, as a function of m *)
Section Gather.
Variables (n L : nat) (P0 : nat -> list (nat * nat)).
Definition collect_step (lev : nat) (P : nat -> list (nat * nat)) (m : nat) : list (nat * nat) :=
  if (m <? 2 ^ lev) && (m + 2 ^ lev <? n) then P m ++ P (m + 2 ^ lev) else P m.
Fixpoint collect (k : nat) : nat -> list (nat * nat) :=
  match k with O => P0 | S k' => collect_step (L - 1 - k') (collect k') end.
Lemma collect_perm k : k <= L -> Permutation (flat_map (collect k) (seq 0 (Nat.min (2 ^ (L - k)) n))) (flat_map P0 (seq 0 (Nat.min (2 ^ L) n))).
Proof.
  induction k as [|k IH]; intros Hk.
  - rewrite Nat.sub_0_r. apply Permutation_refl.
  - eapply Permutation_trans; [|apply IH; lia]. clear IH. replace (L - S k) with (L - 1 - k) by lia. set (lev := L - 1 - k). replace (L - k) with (S lev) by (unfold lev; lia).
    cbn [collect]. fold lev. pose proof (pow_pos lev) as Pp. change (2 ^ S lev) with (2 * 2 ^ lev). set (P := 2 ^ lev) in *. destruct (Nat.le_gt_cases n P) as [C|C].
    + replace (Nat.min P n) with n by lia. replace (Nat.min (2 * P) n) with n by lia. rewrite (flat_ext _ (collect k)); [apply Permutation_refl|].
      intros i Hi. apply in_seq in Hi. unfold collect_step. fold P. rewrite (proj2 (Nat.ltb_ge (i + P) n)) by lia. rewrite andb_false_r. reflexivity.
    + set (q := Nat.min P (n - P)). replace (Nat.min P n) with P by lia. replace (Nat.min (2 * P) n) with (q + (P - q) + q) by (unfold q; lia).
      replace (seq 0 P) with (seq 0 q ++ seq q (P - q)) by (rewrite <- seq_app; f_equal; unfold q; lia).
      rewrite !seq_app, !flat_map_app. cbn [Nat.add].
      rewrite (flat_ext _ (collect k) (seq q (P - q))).
      2: { intros i Hi. apply in_seq in Hi. unfold collect_step. fold P. unfold q in Hi. rewrite (proj2 (Nat.ltb_ge (i + P) n)) by lia. rewrite andb_false_r. reflexivity. }
      replace (q + (P - q)) with P by (unfold q; lia). rewrite <- app_assoc. eapply Permutation_trans; [|apply Permutation_app_head, Permutation_app_comm]. rewrite app_assoc. apply Permutation_app_tail.
      rewrite (flat_shift (collect k) P q). apply flat_perm. intros i Hi. apply in_seq in Hi. unfold q in Hi. unfold collect_step. fold P.
      rewrite (proj2 (Nat.ltb_lt i P)), (proj2 (Nat.ltb_lt (i + P) n)) by lia. apply Permutation_refl.
Qed.
Lemma collect_all : 0 < n -> (forall m, 2 ^ L <= m -> P0 m = []) -> Permutation (collect L 0) (flat_map P0 (seq 0 n)).
Proof.
  intros Hn He. pose proof (collect_perm L (le_n L)) as C. rewrite Nat.sub_diag in C. cbn [Nat.pow] in C. replace (Nat.min 1 n) with 1 in C by lia. cbn [seq flat_map] in C. rewrite app_nil_r in C.
  eapply Permutation_trans; [exact C|]. destruct (Nat.le_gt_cases n (2 ^ L)) as [H|H].
  - replace (Nat.min (2 ^ L) n) with n by lia. apply Permutation_refl.
  - replace (Nat.min (2 ^ L) n) with (2 ^ L) by lia. replace n with (2 ^ L + (n - 2 ^ L)) by lia. rewrite seq_app, flat_map_app. cbn [Nat.add].
    rewrite (flat_nil P0 (seq (2 ^ L) _)); [rewrite app_nil_r; apply Permutation_refl|]. intros i Hi. apply in_seq in Hi. apply He. lia.
Qed.
End Gather.

(** ** phases *)
Definition holds (n : nat) (x0 : node) (D : nat -> list item) (P : nat -> list (nat * nat)) (f : nat -> nat) (s : nat -> node) : Prop :=
  s 0 = x0 /\ forall m, m < n -> s (m + 1) = mkNode (D m) (P m) f false.
Lemma holds_at n x0 D P f s p : holds n x0 D P f s -> p < n + 1 -> p = 0 /\ s p = x0 \/ exists m, p = m + 1 /\ m < n /\ s p = mkNode (D m) (P m) f false.
Proof. intros [H0 H] Hp. destruct p as [|m]; [left; auto|]. right. exists m. rewrite Nat.add_1_r. split; [reflexivity|]. split; [lia|]. rewrite <- Nat.add_1_r. apply H. lia. Qed.

Lemma first_phase n sph f : 0 < n -> matched (n + 1) (to_first n) (at_start sph f) /\
  holds n (mkNode sph [] f false) (spread 1 n sph 0) (fun _ => []) f (round (to_first n) (at_start sph f)).
Proof.
  intros Hn. assert (N1 : (1 <=? n) = true) by (apply Nat.leb_le; lia). split.
  - intros p Hp. cbn [srcs dests to_first]. rewrite N1, !andb_true_r.
    split; [destruct (p =? 1); repeat constructor; intros []|]. split; [destruct (p =? 0); repeat constructor; intros []|].
    split; [intros q; destruct (p =? 1); intros H; [destruct H as [<- |[]]; lia|destruct H]|]. split; [intros q; destruct (p =? 0); intros H; [destruct H as [<- |[]]; lia|destruct H]|].
    intros q Hq. destruct (Nat.eqb_spec p 0) as [-> |Hp0]; destruct (Nat.eqb_spec q 1) as [-> |Hq1]; rewrite ?andb_true_r; cbn [In andb]; split; intros H; repeat (destruct H as [H|H]); try (exfalso; exact H); try (exfalso; lia); auto.
  - split; [reflexivity|]. intros m Hm. unfold round, at_start. cbn [srcs fin to_first recv msg]. rewrite N1, andb_true_r.
    destruct (Nat.eqb_spec (m + 1) 1) as [E|E].
    + replace m with 0 by lia. reflexivity.
    + rewrite (proj2 (Nat.eqb_neq (m + 1) 0)) by lia. cbn [fold_left spread]. rewrite (proj2 (Nat.eqb_neq m 0)) by lia. reflexivity.
Qed.

Lemma nodup1 {A} (x : A) : NoDup [x]. Proof. repeat constructor. intros []. Qed.
Lemma scatter_phase ndim n lev x0 D P f s : holds n x0 D P f s -> (forall m, m < 2 ^ lev -> m + 2 ^ lev < n -> D m <> []) -> (forall m, 2 ^ lev <= m -> D m = []) ->
  matched (n + 1) (scatter ndim n lev) s /\ holds n x0 (spread_step ndim n lev D) P f (round (scatter ndim n lev) s).
Proof.
  intros Hs Hne Hem. pose proof (pow_pos lev) as Pp. pose proof (pow_S lev) as PS.
  (* the partners of worker m *)
  assert (SR : forall m, m < n -> srcs (scatter ndim n lev) (m + 1) (s (m + 1)) = if (2 ^ lev <=? m) && (m <? 2 ^ (lev + 1)) then [m - 2 ^ lev + 1] else []).
  { intros m Hm. rewrite (proj2 Hs m Hm). cbn [srcs scatter]. unfold takes_part. cbn [failed]. rewrite (proj2 (Nat.eqb_neq (m + 1) 0)) by lia. cbn [negb andb].
    unfold if_scatter_recv. replace (m + 1 - 1) with m by lia. destruct ((2 ^ lev <=? m) && _); reflexivity. }
  assert (DS : forall m, m < n -> dests (scatter ndim n lev) (m + 1) (s (m + 1)) = if (m <? 2 ^ lev) && (m + 2 ^ lev <? n) then [m + 2 ^ lev + 1] else []).
  { intros m Hm. rewrite (proj2 Hs m Hm). cbn [dests scatter]. unfold takes_part. cbn [failed data]. rewrite (proj2 (Nat.eqb_neq (m + 1) 0)) by lia. cbn [negb andb].
    unfold if_scatter_send. replace (m + 1 - 1) with m by lia. destruct (Nat.ltb_spec m (2 ^ lev)) as [C|C]; [|reflexivity]. cbn [andb].
    destruct (Nat.ltb_spec (m + 2 ^ lev) n) as [C2|C2].
    - rewrite (proj2 (Nat.leb_gt n (m + 2 ^ lev)) C2). destruct (process_some ndim lev (D m) (Hne m C C2)) as (k & t & ->). reflexivity.
    - rewrite (proj2 (Nat.leb_le n (m + 2 ^ lev)) C2). reflexivity. }
  assert (Z0 : srcs (scatter ndim n lev) 0 (s 0) = [] /\ dests (scatter ndim n lev) 0 (s 0) = []) by (split; reflexivity).
  split.
  - intros p Hp.
    assert (A : (NoDup (srcs (scatter ndim n lev) p (s p)) /\ forall q, In q (srcs (scatter ndim n lev) p (s p)) -> q < n + 1) /\
                (NoDup (dests (scatter ndim n lev) p (s p)) /\ forall q, In q (dests (scatter ndim n lev) p (s p)) -> q < n + 1)).
    { destruct (holds_at _ _ _ _ _ _ p Hs Hp) as [[-> _]|(m & -> & Hm & _)].
      - destruct Z0 as [-> ->]. split; (split; [constructor|intros q []]).
      - rewrite SR, DS by exact Hm. split.
        + destruct ((2 ^ lev <=? m) && (m <? 2 ^ (lev + 1))) eqn:E; [|split; [constructor|intros q []]]. split; [apply nodup1|]. intros q [<- |[]]. lia.
        + destruct ((m <? 2 ^ lev) && (m + 2 ^ lev <? n)) eqn:E; [|split; [constructor|intros q []]]. split; [apply nodup1|]. intros q [<- |[]]. apply andb_true_iff in E. rewrite !Nat.ltb_lt in E. lia. }
    destruct A as [[A1 A2] [A3 A4]]. repeat split; auto.
    + intros Hq. destruct (holds_at _ _ _ _ _ _ p Hs Hp) as [[-> _]|(m & -> & Hm & _)]; [rewrite (proj2 Z0) in Hq; destruct Hq|]. rewrite DS in Hq by exact Hm.
      destruct ((m <? 2 ^ lev) && (m + 2 ^ lev <? n)) eqn:E; [|destruct Hq]. destruct Hq as [<- |[]]. apply andb_true_iff in E. rewrite !Nat.ltb_lt in E. rewrite SR by lia.
      rewrite (proj2 (Nat.leb_le (2 ^ lev) (m + 2 ^ lev))), (proj2 (Nat.ltb_lt (m + 2 ^ lev) (2 ^ (lev + 1)))) by lia. cbn [andb]. left. lia.
    + intros Hq. rename H into Hq1. destruct (holds_at _ _ _ _ _ _ q Hs Hq1) as [[-> _]|(m & -> & Hm & _)]; [rewrite (proj1 Z0) in Hq; destruct Hq|]. rewrite SR in Hq by exact Hm.
      destruct ((2 ^ lev <=? m) && (m <? 2 ^ (lev + 1))) eqn:E; [|destruct Hq]. destruct Hq as [<- |[]]. apply andb_true_iff in E. rewrite Nat.leb_le, Nat.ltb_lt in E. rewrite DS by lia.
      rewrite (proj2 (Nat.ltb_lt (m - 2 ^ lev) (2 ^ lev))), (proj2 (Nat.ltb_lt (m - 2 ^ lev + 2 ^ lev) n)) by lia. cbn [andb]. left. lia.
  - split.
    + unfold round. rewrite (proj1 Z0). cbn [fold_left fin scatter]. unfold takes_part. cbn [Nat.eqb negb andb]. exact (proj1 Hs).
    + intros m Hm. unfold round. rewrite SR by exact Hm. unfold spread_step. rewrite (proj2 (Nat.ltb_lt m n) Hm), andb_true_r.
      destruct (Nat.ltb_spec m (2 ^ lev)) as [C|C].
      * rewrite (proj2 (Nat.leb_gt (2 ^ lev) m) C). cbn [andb fold_left fin scatter]. rewrite (proj2 Hs m Hm). unfold takes_part. cbn [failed]. rewrite (proj2 (Nat.eqb_neq (m + 1) 0)) by lia. cbn [negb andb].
        unfold if_scatter_send. replace (m + 1 - 1) with m by lia. rewrite (proj2 (Nat.ltb_lt m (2 ^ lev)) C). destruct (Nat.ltb_spec (m + 2 ^ lev) n) as [C2|C2].
        -- rewrite (proj2 (Nat.leb_gt n (m + 2 ^ lev)) C2). cbn [data part subd]. unfold halves. destruct (process_some ndim lev (D m) (Hne m C C2)) as (k & t & ->). reflexivity.
        -- rewrite (proj2 (Nat.leb_le n (m + 2 ^ lev)) C2). reflexivity.
      * rewrite (proj2 (Nat.leb_le (2 ^ lev) m) C). cbn [andb]. destruct (Nat.ltb_spec m (2 ^ (lev + 1))) as [C2|C2].
        -- cbn [fold_left recv scatter]. replace (m - 2 ^ lev + 1) with ((m - 2 ^ lev) + 1) by lia. rewrite (proj2 Hs m Hm), (proj2 Hs (m - 2 ^ lev) ltac:(lia)). cbn [msg scatter data].
           unfold halves. destruct (process_some ndim lev (D (m - 2 ^ lev)) (Hne (m - 2 ^ lev) ltac:(lia) ltac:(lia))) as (k & t & ->). cbn [fin scatter part subd failed]. unfold takes_part. cbn [failed].
           rewrite (proj2 (Nat.eqb_neq (m + 1) 0)) by lia. cbn [negb andb]. unfold if_scatter_send. replace (m + 1 - 1) with m by lia. rewrite (proj2 (Nat.ltb_ge m (2 ^ lev)) C). reflexivity.
        -- cbn [fold_left fin scatter]. rewrite (proj2 Hs m Hm). unfold takes_part. cbn [failed]. rewrite (proj2 (Nat.eqb_neq (m + 1) 0)) by lia. cbn [negb andb].
           unfold if_scatter_send. replace (m + 1 - 1) with m by lia. rewrite (proj2 (Nat.ltb_ge m (2 ^ lev)) C). reflexivity.
Qed.

Lemma label_phase n x0 D P f s : failed x0 = false -> holds n x0 D P f s ->
  matched (n + 1) label s /\ holds n x0 D (fun m => map (fun x => (bid x, m + 1)) (D m)) f (round label s).
Proof.
  intros _ Hs. split.
  - intros p Hp. cbn [srcs dests label]. split; [constructor|]. split; [constructor|]. split; [intros q []|]. split; [intros q []|]. intros q _. split; intros [].
  - split; [exact (proj1 Hs)|]. intros m Hm. unfold round. cbn [srcs label fold_left fin]. rewrite (proj2 Hs m Hm). unfold takes_part. cbn [failed]. rewrite (proj2 (Nat.eqb_neq (m + 1) 0)) by lia. reflexivity.
Qed.

Lemma gather_phase n lev x0 D P f s : holds n x0 D P f s ->
  matched (n + 1) (gather n lev) s /\ holds n x0 D (collect_step n lev P) f (round (gather n lev) s).
Proof.
  intros Hs. pose proof (pow_pos lev) as Pp. pose proof (pow_S lev) as PS.
  assert (L0 : lev = 0 -> 2 ^ lev = 1) by (intros ->; reflexivity).
  assert (SR : forall m, m < n -> srcs (gather n lev) (m + 1) (s (m + 1)) = if (m <? 2 ^ lev) && (m + 2 ^ lev <? n) then [m + 2 ^ lev + 1] else []).
  { intros m Hm. rewrite (proj2 Hs m Hm). cbn [srcs gather]. unfold takes_part. cbn [failed]. rewrite (proj2 (Nat.eqb_neq (m + 1) 0)) by lia. cbn [negb andb].
    unfold if_gather_recv. replace (m + 1 - 1) with m by lia. destruct (Nat.eqb_spec lev 0) as [E|E]; cbn [andb].
    - rewrite (L0 E). destruct (Nat.ltb_spec 0 m) as [C|C].
      + rewrite (proj2 (Nat.ltb_ge m 1)) by lia. reflexivity.
      + rewrite (proj2 (Nat.ltb_lt m 1)) by lia. cbn [andb]. destruct (Nat.ltb_spec (m + 1) n) as [C2|C2]; [rewrite (proj2 (Nat.leb_gt n (m + 1)) C2)|rewrite (proj2 (Nat.leb_le n (m + 1)) C2)]; reflexivity.
    - destruct (m <? 2 ^ lev); [|reflexivity]. cbn [andb]. destruct (Nat.ltb_spec (m + 2 ^ lev) n) as [C2|C2]; [rewrite (proj2 (Nat.leb_gt n (m + 2 ^ lev)) C2)|rewrite (proj2 (Nat.leb_le n (m + 2 ^ lev)) C2)]; reflexivity. }
  assert (DS : forall m, m < n -> dests (gather n lev) (m + 1) (s (m + 1)) = if (2 ^ lev <=? m) && (m <? 2 ^ (lev + 1)) then [m - 2 ^ lev + 1] else []).
  { intros m Hm. rewrite (proj2 Hs m Hm). cbn [dests gather]. unfold takes_part. cbn [failed]. rewrite (proj2 (Nat.eqb_neq (m + 1) 0)) by lia. cbn [negb andb].
    unfold if_gather_send. replace (m + 1 - 1) with m by lia. rewrite PS. destruct (Nat.eqb_spec lev 0) as [E|E]; cbn [andb].
    - rewrite (L0 E). destruct (Nat.ltb_spec 1 m) as [C|C].
      + rewrite (proj2 (Nat.ltb_ge m (2 * 1))) by lia. rewrite andb_false_r. reflexivity.
      + destruct ((1 <=? m) && _); reflexivity.
    - destruct ((2 ^ lev <=? m) && _); reflexivity. }
  assert (Z0 : srcs (gather n lev) 0 (s 0) = [] /\ dests (gather n lev) 0 (s 0) = []) by (split; reflexivity).
  split.
  - intros p Hp.
    assert (A : (NoDup (srcs (gather n lev) p (s p)) /\ forall q, In q (srcs (gather n lev) p (s p)) -> q < n + 1) /\
                (NoDup (dests (gather n lev) p (s p)) /\ forall q, In q (dests (gather n lev) p (s p)) -> q < n + 1)).
    { destruct (holds_at _ _ _ _ _ _ p Hs Hp) as [[-> _]|(m & -> & Hm & _)].
      - destruct Z0 as [-> ->]. split; (split; [constructor|intros q []]).
      - rewrite SR, DS by exact Hm. split.
        + destruct ((m <? 2 ^ lev) && (m + 2 ^ lev <? n)) eqn:E; [|split; [constructor|intros q []]]. split; [apply nodup1|]. intros q [<- |[]]. apply andb_true_iff in E. rewrite !Nat.ltb_lt in E. lia.
        + destruct ((2 ^ lev <=? m) && (m <? 2 ^ (lev + 1))) eqn:E; [|split; [constructor|intros q []]]. split; [apply nodup1|]. intros q [<- |[]]. lia. }
    destruct A as [[A1 A2] [A3 A4]]. repeat split; auto.
    + intros Hq. destruct (holds_at _ _ _ _ _ _ p Hs Hp) as [[-> _]|(m & -> & Hm & _)]; [rewrite (proj2 Z0) in Hq; destruct Hq|]. rewrite DS in Hq by exact Hm.
      destruct ((2 ^ lev <=? m) && (m <? 2 ^ (lev + 1))) eqn:E; [|destruct Hq]. destruct Hq as [<- |[]]. apply andb_true_iff in E. rewrite Nat.leb_le, Nat.ltb_lt in E. rewrite SR by lia.
      rewrite (proj2 (Nat.ltb_lt (m - 2 ^ lev) (2 ^ lev))), (proj2 (Nat.ltb_lt (m - 2 ^ lev + 2 ^ lev) n)) by lia. cbn [andb]. left. lia.
    + intros Hq. rename H into Hq1. destruct (holds_at _ _ _ _ _ _ q Hs Hq1) as [[-> _]|(m & -> & Hm & _)]; [rewrite (proj1 Z0) in Hq; destruct Hq|]. rewrite SR in Hq by exact Hm.
      destruct ((m <? 2 ^ lev) && (m + 2 ^ lev <? n)) eqn:E; [|destruct Hq]. destruct Hq as [<- |[]]. apply andb_true_iff in E. rewrite !Nat.ltb_lt in E. rewrite DS by lia.
      rewrite (proj2 (Nat.leb_le (2 ^ lev) (m + 2 ^ lev))), (proj2 (Nat.ltb_lt (m + 2 ^ lev) (2 ^ (lev + 1)))) by lia. cbn [andb]. left. lia.
  - split.
    + unfold round. rewrite (proj1 Z0). exact (proj1 Hs).
    + intros m Hm. unfold round. rewrite SR by exact Hm. unfold collect_step. destruct ((m <? 2 ^ lev) && (m + 2 ^ lev <? n)) eqn:E.
      * apply andb_true_iff in E. rewrite !Nat.ltb_lt in E. cbn [fold_left recv gather fin msg]. rewrite (proj2 Hs m Hm), (proj2 Hs (m + 2 ^ lev) ltac:(lia)). reflexivity.
      * cbn [fold_left fin gather]. apply (proj2 Hs). exact Hm.
Qed.

Lemma master_phase n sph D P f s : 0 < n -> holds n (mkNode sph [] f false) D P f s ->
  matched (n + 1) (to_master n) s /\ holds n (mkNode sph (P 0) (fold_left set_subd (P 0) f) false) D P f (round (to_master n) s).
Proof.
  intros Hn Hs. assert (N1 : (1 <=? n) = true) by (apply Nat.leb_le; lia). pose proof (proj2 Hs 0 Hn) as H1. cbn [Nat.add] in H1. split.
  - intros p Hp. cbn [srcs dests to_master]. rewrite N1, !andb_true_r.
    assert (Fp : p = 1 -> failed (s p) = false) by (intros ->; rewrite H1; reflexivity).
    split; [destruct (p =? 0); [apply nodup1|constructor]|]. split; [destruct ((p =? 1) && _); [apply nodup1|constructor]|].
    split; [intros q; destruct (p =? 0); intros H; [destruct H as [<- |[]]; lia|destruct H]|]. split; [intros q; destruct ((p =? 1) && _); intros H; [destruct H as [<- |[]]; lia|destruct H]|].
    intros q Hq. destruct (Nat.eqb_spec p 1) as [-> |Hp0].
    + rewrite Fp by reflexivity. cbn [negb andb]. destruct (Nat.eqb_spec q 0) as [-> |Hq0]; rewrite ?andb_true_r; cbn [In andb]; split; intros H; repeat (destruct H as [H|H]); try (exfalso; exact H); try (exfalso; lia); auto.
    + cbn [andb]. destruct (Nat.eqb_spec q 0) as [-> |Hq0]; rewrite ?andb_true_r; cbn [In andb]; split; intros H; repeat (destruct H as [H|H]); try (exfalso; exact H); try (exfalso; lia); auto.
  - split.
    + unfold round. cbn [srcs to_master]. rewrite N1. cbn [Nat.eqb andb fold_left recv to_master msg fin]. rewrite H1, (proj1 Hs). reflexivity.
    + intros m Hm. unfold round. cbn [srcs to_master]. rewrite (proj2 (Nat.eqb_neq (m + 1) 0)) by lia. cbn [andb fold_left fin]. apply (proj2 Hs). exact Hm.
Qed.

(** ** the whole program *)
Lemma scatter_all ndim n sph x0 P f k : forall l s, holds n x0 (spread ndim n sph l) P f s -> enough n (l + k) (length sph) ->
  all_matched (n + 1) (map (scatter ndim n) (seq l k)) s /\ holds n x0 (spread ndim n sph (l + k)) P f (rounds (map (scatter ndim n) (seq l k)) s).
Proof.
  induction k as [|k IH]; intros l s Hs En; cbn [seq map all_matched rounds].
  - rewrite Nat.add_0_r. auto.
  - destruct (scatter_phase ndim n l x0 (spread ndim n sph l) P f s Hs) as [M H].
    { intros m H1 H2. apply (sender_nonempty ndim n sph (l + S k) l m En); [lia|exact H1|exact H2]. }
    { intros m Hm. apply spread_empty. exact Hm. }
    destruct (IH (S l) _ H) as [A B]; [replace (S l + k) with (l + S k) by lia; exact En|]. replace (S l + k) with (l + S k) in B by lia. auto.
Qed.
Lemma gather_all n L x0 D P0 f j : forall k s, holds n x0 D (collect n L P0 k) f s -> k + j = L ->
  all_matched (n + 1) (map (gather n) (rev (seq 0 j))) s /\ holds n x0 D (collect n L P0 L) f (rounds (map (gather n) (rev (seq 0 j))) s).
Proof.
  induction j as [|j IH]; intros k s Hs E.
  - cbn [seq rev map all_matched rounds]. replace k with L in Hs by lia. auto.
  - rewrite seq_S, rev_app_distr. cbn [rev app map all_matched rounds]. cbn [Nat.add]. destruct (gather_phase n j x0 D _ f s Hs) as [M H].
    destruct (IH (S k) (round (gather n j) s)) as [A B]; [cbn [collect]; replace (L - 1 - k) with j by lia; exact H|lia|]. auto.
Qed.

Lemma decompose_ok ndim n L sph f : 0 < n -> enough n L (length sph) ->
  all_matched (n + 1) (decompose ndim n L) (at_start sph f) /\
  exists G, Permutation G (flat_map (fun m => map (fun x => (bid x, m + 1)) (spread ndim n sph L m)) (seq 0 n)) /\
    let s := rounds (decompose ndim n L) (at_start sph f) in
    s 0 = mkNode sph G (fold_left set_subd G f) false /\
    forall m, m < n -> data (s (m + 1)) = spread ndim n sph L m /\ failed (s (m + 1)) = false /\ subd (s (m + 1)) = f.
Proof.
  intros Hn En. set (x0 := mkNode sph [] f false). destruct (first_phase n sph f Hn) as [M1 H1]. fold x0 in H1. change (spread 1 n sph 0) with (spread ndim n sph 0) in H1.
  set (s1 := round (to_first n) (at_start sph f)) in *. destruct (scatter_all ndim n sph x0 (fun _ => []) f L 0 s1 H1) as [M2 H2]; [exact En|]. cbn [Nat.add] in H2.
  set (s2 := rounds (map (scatter ndim n) (seq 0 L)) s1) in *. destruct (label_phase n x0 _ _ f s2 eq_refl H2) as [M3 H3]. set (s3 := round label s2) in *.
  set (P0 := fun m => map (fun x => (bid x, m + 1)) (spread ndim n sph L m)) in *.
  destruct (gather_all n L x0 (spread ndim n sph L) P0 f L 0 s3 H3 eq_refl) as [M4 H4]. set (s4 := rounds (map (gather n) (rev (seq 0 L))) s3) in *.
  destruct (master_phase n sph _ _ f s4 Hn H4) as [M5 H5].
  split.
  - unfold decompose. cbn [all_matched]. split; [exact M1|]. apply all_matched_app. split; [exact M2|]. fold s1 s2. cbn [all_matched]. split; [exact M3|]. fold s3.
    apply all_matched_app. split; [exact M4|]. cbn [all_matched]. split; [exact M5|exact I].
  - exists (collect n L P0 L 0). split.
    + apply collect_all; [exact Hn|]. intros m Hm. unfold P0. rewrite spread_empty by exact Hm. reflexivity.
    + assert (Er : rounds (decompose ndim n L) (at_start sph f) = round (to_master n) s4).
      { unfold decompose. cbn [rounds]. fold s1. rewrite rounds_app'. fold s2. cbn [rounds]. fold s3. rewrite rounds_app'. fold s4. reflexivity. }
      cbv zeta. rewrite Er. split; [exact (proj1 H5)|]. intros m Hm. rewrite (proj2 H5 m Hm). auto.
Qed.

(** ** what the user sees *)
Lemma set_subd_all G : forall f i, (forall p q, In (i, p) G -> In (i, q) G -> p = q) ->
  (forall p, In (i, p) G -> fold_left set_subd G f i = p) /\ ((forall p, ~ In (i, p) G) -> fold_left set_subd G f i = f i).
Proof.
  induction G as [|[j r] G IH]; intros f i Hu; [split; [intros p []|reflexivity]|]. cbn [fold_left].
  destruct (IH (set_subd f (j, r)) i) as [A B]; [intros p q Hp Hq; apply Hu; right; assumption|]. split.
  - intros p [Hp|Hp]; [|apply A; exact Hp]. injection Hp as -> ->.
    destruct (in_dec (fun x y : nat * nat => ltac:(decide equality; apply Nat.eq_dec)) (i, p) G) as [Hi|Hi]; [apply A; exact Hi|].
    rewrite B; [unfold set_subd; cbn [fst snd]; rewrite Nat.eqb_refl; reflexivity|]. intros q Hq. apply Hi. replace p with q; [exact Hq|]. apply Hu; [right; exact Hq|left; reflexivity].
  - intros Hn. rewrite B; [|intros p Hp; apply (Hn p); right; exact Hp]. unfold set_subd. cbn [fst snd]. destruct (Nat.eqb_spec i j) as [-> |]; [|reflexivity]. exfalso. apply (Hn r). left. reflexivity.
Qed.
Lemma in_shared n s x : In x (shared n s) <-> exists p, 1 <= p <= n /\ In x (data (s p)).
Proof.
  unfold shared. rewrite in_flat_map. split.
  - intros (m & Hm & Hx). apply in_seq in Hm. exists (m + 1). split; [lia|exact Hx].
  - intros (p & Hp & Hx). exists (p - 1). split; [apply in_seq; lia|]. replace (p - 1 + 1) with p by lia. exact Hx.
Qed.
(** a list of lists without repetition: an element is in one of them only *)
Lemma flat_unique {A B} (g : A -> B) (F : nat -> list A) n : NoDup (map g (flat_map F (seq 0 n))) -> forall a b x y, a < n -> b < n -> In x (F a) -> In y (F b) -> g x = g y -> a = b.
Proof.
  assert (K : forall k l, NoDup (map g (flat_map F (seq k l))) -> forall a b x y, k <= a < k + l -> k <= b < k + l -> In x (F a) -> In y (F b) -> g x = g y -> a < b -> False).
  { intros k l. revert k. induction l as [|l IH]; intros k Nd a b x y Ha Hb Hx Hy E Hlt; [lia|]. cbn [seq flat_map] in Nd. rewrite map_app in Nd.
    destruct (Nat.eq_dec a k) as [-> |Hak].
    - assert (Hy' : In (g y) (map g (flat_map F (seq (S k) l)))) by (apply in_map, in_flat_map; exists b; split; [apply in_seq; lia|exact Hy]).
      assert (Hx' : In (g y) (map g (F k))) by (rewrite <- E; apply in_map; exact Hx).
      clear - Nd Hx' Hy'. induction (map g (F k)) as [|z zs IHz]; [destruct Hx'|]. cbn [app] in Nd. inversion Nd as [|? ? N1 N2]; subst. destruct Hx' as [-> |Hx']; [apply N1; apply in_or_app; right; exact Hy'|apply IHz; assumption].
    - apply (IH (S k)) with (a := a) (b := b) (x := x) (y := y); try assumption; try lia. clear - Nd. induction (map g (F k)) as [|z zs IHz]; [exact Nd|]. apply IHz. inversion Nd; assumption. }
  intros Nd a b x y Ha Hb Hx Hy E. destruct (Nat.lt_trichotomy a b) as [C|[C|C]]; [|exact C|]; exfalso.
  - apply (K 0 n Nd a b x y); try lia; assumption.
  - apply (K 0 n Nd b a y x); try lia; try assumption. symmetry. exact E.
Qed.

Definition outcome (ndim n L : nat) (sph : list item) (f : nat -> nat) : nat -> node := rounds (decompose ndim n L) (at_start sph f).
Lemma outcome_ends ndim n L sph f : 0 < n -> enough n L (length sph) ->
  ends_in (n + 1) (decompose ndim n L) (at_start sph f) (outcome ndim n L sph f) /\
  forall sched c, ranks (n + 1) sched -> exec (decompose ndim n L) sched (init (decompose ndim n L) (at_start sph f)) = Some c ->
    (all_finished (n + 1) (decompose ndim n L) c \/ exists p, p < n + 1 /\ move (decompose ndim n L) true p c <> None) /\
    length sched <= work (n + 1) (decompose ndim n L) (at_start sph f) /\
    (all_finished (n + 1) (decompose ndim n L) c -> forall a b t, a < n + 1 -> b < n + 1 -> chan c a b t = []).
Proof.
  intros Hn En. destruct (decompose_ok ndim n L sph f Hn En) as [M _]. split.
  - intros sched c R E F p Hp. exact (proj1 (proj2 (proj2 (proj2 (comm_main _ _ _ M sched c R E))) F) p Hp).
  - intros sched c R E. destruct (comm_main _ _ _ M sched c R E) as (A & B & _ & D). split; [exact A|]. split; [exact B|]. intros F. exact (proj2 (D F)).
Qed.
Lemma outcome_no_error ndim n L sph f p : 0 < n -> enough n L (length sph) -> p <= n -> failed (outcome ndim n L sph f p) = false.
Proof.
  intros Hn En Hp. destruct (decompose_ok ndim n L sph f Hn En) as (_ & G & _ & S0 & S1). unfold outcome. destruct p as [|m]; [rewrite S0; reflexivity|].
  replace (S m) with (m + 1) by lia. exact (proj1 (proj2 (S1 m ltac:(lia)))).
Qed.
Lemma outcome_data ndim n L sph f m : 0 < n -> enough n L (length sph) -> m < n -> data (outcome ndim n L sph f (m + 1)) = spread ndim n sph L m.
Proof. intros Hn En Hm. destruct (decompose_ok ndim n L sph f Hn En) as (_ & G & _ & _ & S1). exact (proj1 (S1 m Hm)). Qed.
Lemma outcome_shared ndim n L sph f : 0 < n -> enough n L (length sph) -> Permutation (shared n (outcome ndim n L sph f)) sph.
Proof.
  intros Hn En. unfold shared. rewrite (flat_ext _ (spread ndim n sph L)); [apply spread_perm; assumption|]. intros m Hm. apply in_seq in Hm. apply outcome_data; [assumption|assumption|lia].
Qed.
Lemma outcome_subd ndim n L sph f : 0 < n -> enough n L (length sph) -> NoDup (map bid sph) ->
  (forall p x, 1 <= p <= n -> In x (data (outcome ndim n L sph f p)) -> subd (outcome ndim n L sph f 0) (bid x) = p) /\
  forall i, (forall x, In x sph -> bid x <> i) -> subd (outcome ndim n L sph f 0) i = f i.
Proof.
  intros Hn En Nd. destruct (decompose_ok ndim n L sph f Hn En) as (_ & G & PG & S0 & S1).
  assert (Es : subd (outcome ndim n L sph f 0) = fold_left set_subd G f) by (unfold outcome; rewrite S0; reflexivity).
  assert (IG : forall i p, In (i, p) G <-> exists m x, m < n /\ p = m + 1 /\ In x (spread ndim n sph L m) /\ bid x = i).
  { intros i p. split.
    - intros H. apply (Permutation_in _ PG) in H. apply in_flat_map in H. destruct H as (m & Hm & H). apply in_seq in Hm. apply in_map_iff in H. destruct H as (x & E & Hx). injection E as <- <-. exists m, x. repeat split; [lia|exact Hx].
    - intros (m & x & Hm & -> & Hx & <-). apply (Permutation_in _ (Permutation_sym PG)). apply in_flat_map. exists m. split; [apply in_seq; lia|]. apply in_map_iff. exists x. auto. }
  assert (Ps : Permutation (flat_map (spread ndim n sph L) (seq 0 n)) sph) by (apply spread_perm; assumption).
  assert (Nd' : NoDup (map bid (flat_map (spread ndim n sph L) (seq 0 n)))) by (eapply Permutation_NoDup; [apply Permutation_map, Permutation_sym; exact Ps|exact Nd]).
  assert (U : forall i p q, In (i, p) G -> In (i, q) G -> p = q).
  { intros i p q Hp Hq. apply IG in Hp, Hq. destruct Hp as (m & x & Hm & -> & Hx & Ex), Hq as (m' & y & Hm' & -> & Hy & Ey). f_equal.
    apply (flat_unique bid (spread ndim n sph L) n Nd' m m' x y Hm Hm' Hx Hy). congruence. }
  split.
  - intros p x Hp Hx. rewrite Es. apply (proj1 (set_subd_all G f (bid x) (U (bid x)))). apply IG. exists (p - 1), x. repeat split; [lia|lia|].
    replace p with ((p - 1) + 1) in Hx by lia. rewrite outcome_data in Hx; [exact Hx|exact Hn|exact En|lia].
  - intros i Hi. rewrite Es. apply (proj2 (set_subd_all G f i (U i))). intros p Hp. apply IG in Hp. destruct Hp as (m & x & Hm & -> & Hx & Ex). apply (Hi x); [|exact Ex].
    apply (Permutation_in _ Ps). apply in_flat_map. exists m. split; [apply in_seq; lia|exact Hx].
Qed.
