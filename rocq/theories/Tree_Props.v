(** Distribution of the bodies by recursive bisection: C91-C96. *)
From Coq Require Import List ZArith Arith Bool Lia Permutation Reals.
From Verif Require Import Comm_Model Comm_Spec Mpi_Spec Tree_Model Tree_Spec Tree_Proofs1 Tree_Proofs2 Tree_Proofs3 Tree_Example.
Import ListNotations.

(** C91: with enough bodies, in every execution, with any number of workers and levels: no process
    is ever stuck before all have finished, the number of moves is bounded, the processes end
    in the same states, none with an exception, and no message is left *)
Theorem C91_ends_partial : forall ndim n L sph f, 0 < n -> enough n L (length sph) ->
  exists s, (forall p, p <= n -> failed (s p) = false) /\
  forall sched c, ranks (n + 1) sched -> exec (decompose ndim n L) sched (init (decompose ndim n L) (at_start sph f)) = Some c ->
    (all_finished (n + 1) (decompose ndim n L) c \/ exists p, p < n + 1 /\ move (decompose ndim n L) true p c <> None) /\
    length sched <= work (n + 1) (decompose ndim n L) (at_start sph f) /\
    (all_finished (n + 1) (decompose ndim n L) c -> (forall p, p < n + 1 -> lst (procs c p) = s p) /\ forall a b t, a < n + 1 -> b < n + 1 -> chan c a b t = []).
Proof.
  intros ndim n L sph f Hn En. exists (outcome ndim n L sph f). split; [intros p; exact (outcome_no_error ndim n L sph f p Hn En)|].
  intros sched c R E. destruct (outcome_ends ndim n L sph f Hn En) as [A B]. destruct (B sched c R E) as (B1 & B2 & B3). split; [exact B1|]. split; [exact B2|]. intros F. split; [exact (A sched c R E F)|exact (B3 F)].
Qed.
Print Assumptions C91_ends_partial.
Example C91_ends_ex : enough 5 3 5 /\ enough 4 3 2. Proof. split; intros l Hl; destruct l as [|[|[|l]]]; cbn; lia. Qed.

(** C91: as many bodies as workers is enough *)
Theorem C91_enough : forall n L N, n <= N -> enough n L N.
Proof. exact enough_many. Qed.
Print Assumptions C91_enough.
Example C91_enough_ex : 3 <= 7. Proof. lia. Qed.

(** C91 refuted: one sphere and three workers; rank 1 ends with an exception, and the others wait for ever *)
Theorem C91_few_refuted : exists ndim n L sph f sched c, levels_of n L /\ 0 < length sph /\ ranks (n + 1) sched /\
  exec (decompose ndim n L) sched (init (decompose ndim n L) (at_start sph f)) = Some c /\
  all_stuck (n + 1) (decompose ndim n L) c /\ ~ all_finished (n + 1) (decompose ndim n L) c /\ failed (lst (procs c 1)) = true.
Proof.
  destruct few_stuck as (sched & c & R & E & A & B & C). exists 3, 3, 3, (balls 1), zero, sched, c. split; [exact levels_3|]. split; [cbn; lia|]. auto.
Qed.
Print Assumptions C91_few_refuted.

(** C92: every sphere is given to exactly one worker: the master's numbers say to which, the other
    bodies keep theirs, nothing is lost and nothing is duplicated *)
Theorem C92_assigned_partial : forall ndim n L sph f s, 0 < n -> enough n L (length sph) -> NoDup (map bid sph) -> split_done ndim n L sph f s ->
  Permutation (shared n s) sph /\
  (forall x, In x sph -> 1 <= subd (s 0) (bid x) <= n /\ In x (data (s (subd (s 0) (bid x))))) /\
  (forall p x, 1 <= p <= n -> In x (data (s p)) -> subd (s 0) (bid x) = p) /\
  (forall i, (forall x, In x sph -> bid x <> i) -> subd (s 0) i = f i).
Proof. exact done_assigned. Qed.
Print Assumptions C92_assigned_partial.
Example C92_assigned_ex : enough 3 3 (length (balls 7)) /\ NoDup (map bid (balls 7)) /\ exists s, split_done 2 3 3 (balls 7) zero s.
Proof. split; [apply enough_many; cbn; lia|]. split; [apply balls_distinct|exact done_3_7]. Qed.

(** C93: if the number of workers is a power of two, 2, 4, 8 or 16, the shares differ by at most one body *)
Theorem C93_balance_partial : forall ndim n L sph f s j, levels_of n L -> n = 2 ^ j -> n <= 16 -> n <= length sph -> split_done ndim n L sph f s ->
  forall p, 1 <= p <= n -> length sph / n <= length (data (s p)) <= ceil_div (length sph) n /\ data (s p) <> [].
Proof.
  intros ndim n L sph f s j HL Hn H16 HN D p Hp. pose proof (pow_pos j) as Pj. assert (Hd : deep n L) by (apply levels_deep; [lia|exact HL]). unfold deep in Hd.
  assert (Hj : j <= L) by (apply (Nat.pow_le_mono_r_iff 2); [lia|rewrite <- Hn; exact Hd]).
  destruct (done_equal ndim n L sph f s j (enough_many n L _ HN) D Hj Hn p Hp) as [A B]. split; [auto|]. intros E. rewrite E in A. cbn [length] in A. pose proof (Nat.div_str_pos (length sph) n ltac:(lia)). lia.
Qed.
Print Assumptions C93_balance_partial.
Example C93_balance_ex : (exists L, levels_of 4 L) /\ 4 = 2 ^ 2 /\ 4 <= length (balls 9) /\ exists s, split_done 2 4 3 (balls 9) zero s.
Proof. split; [apply levels_exist; lia|]. split; [reflexivity|]. split; [cbn; lia|exact done_4_9]. Qed.

(** C93: for any number of workers up to 16: the shares differ by a factor of two, up to rounding;
    with 2^(j+1) bodies nobody is left without *)
Theorem C93_factor_two_partial : forall ndim n L sph f s j, levels_of n L -> n <= 16 -> n <= length sph -> 2 ^ j < n <= 2 ^ (j + 1) -> split_done ndim n L sph f s ->
  forall p, 1 <= p <= n -> length sph / 2 ^ (j + 1) <= length (data (s p)) <= ceil_div (length sph) (2 ^ j).
Proof.
  intros ndim n L sph f s j HL H16 HN Hj D p Hp. pose proof (pow_pos j) as Pj. assert (Hd : deep n L) by (apply levels_deep; [lia|exact HL]). unfold deep in Hd.
  apply (done_sizes ndim n L sph f s j); try assumption; try lia; [apply enough_many; exact HN|]. apply (Nat.pow_lt_mono_r_iff 2); lia.
Qed.
Print Assumptions C93_factor_two_partial.
Example C93_factor_two_ex : levels_of 3 3 /\ 2 ^ 1 < 3 <= 2 ^ (1 + 1) /\ exists s, split_done 2 3 3 (balls 7) zero s.
Proof. split; [exact levels_3|]. split; [cbn; lia|exact done_3_7]. Qed.

(** C93 refuted: as the number of levels comes from the natural logarithm, with 17, 18, or at least 65
    workers some worker never gets a body, however many bodies there are *)
Theorem C93_levels_refuted : forall n L, 17 <= n <= 18 \/ 65 <= n -> levels_of n L ->
  exists p, 1 <= p <= n /\ forall ndim sph f s, n <= length sph -> split_done ndim n L sph f s -> data (s p) = [].
Proof.
  intros n L Hn HL. assert (H : 2 ^ L < n) by (destruct Hn as [Hn|Hn]; [apply levels_17; assumption|apply levels_few; assumption]).
  exists n. split; [lia|]. intros ndim sph f s HN D. apply (done_idle ndim n L sph f s n); [lia|apply enough_many; exact HN|exact D|lia].
Qed.
Print Assumptions C93_levels_refuted.
Example C93_levels_ex : levels_of 17 4 /\ 17 <= length (balls 40) /\ exists s, split_done 2 17 4 (balls 40) zero s.
Proof. split; [exact levels_17_4|]. split; [cbn; lia|exact done_17_40]. Qed.

(** C93 refuted: three spheres, three workers: one of them gets none *)
Theorem C93_nothing_refuted : exists ndim n L sph f s p, levels_of n L /\ n = length sph /\ split_done ndim n L sph f s /\ 1 <= p <= n /\ data (s p) = [].
Proof.
  destruct done_3_3 as [s D]. exists 3, 3, 3, (balls 3), zero, s, 1. split; [exact levels_3|]. split; [reflexivity|]. split; [exact D|]. split; [lia|]. exact (empty_share s zero D).
Qed.
Print Assumptions C93_nothing_refuted.

(** C94: the bodies of any two workers are separated along one of the axes *)
Theorem C94_separated_partial : forall ndim n L sph f s p q, 0 < ndim -> 0 < n -> enough n L (length sph) -> split_done ndim n L sph f s -> 1 <= p <= n -> 1 <= q <= n -> p <> q ->
  exists a, a < ndim /\ ((forall x y, In x (data (s p)) -> In y (data (s q)) -> (coord x a <= coord y a)%Z) \/ (forall x y, In x (data (s p)) -> In y (data (s q)) -> (coord y a <= coord x a)%Z)).
Proof. exact done_separated. Qed.
Print Assumptions C94_separated_partial.
Example C94_separated_ex : enough 3 3 (length (balls 7)) /\ exists s, split_done 2 3 3 (balls 7) zero s.
Proof. split; [apply enough_many; cbn; lia|exact done_3_7]. Qed.

(** C94: which axis: the one of the level at which they were separated *)
Theorem C94_axis_partial : forall ndim n L sph f s level p q, 0 < n -> enough n L (length sph) -> split_done ndim n L sph f s -> level < L -> 1 <= p <= n -> 1 <= q <= n -> parted level p q ->
  forall x y, In x (data (s p)) -> In y (data (s q)) -> (coord x (level mod ndim) <= coord y (level mod ndim))%Z.
Proof. exact done_parted. Qed.
Print Assumptions C94_axis_partial.
Example C94_axis_ex : parted 1 1 3 /\ parted 0 1 2 /\ parted 0 3 2. Proof. repeat split. Qed.

(** C95 refuted: two spheres, two to four workers: they never stay together, also if they are members of one clump *)
Theorem C95_clump_split_refuted : forall ndim n L x y f s, 2 <= n <= 4 -> 1 <= L -> bid x <> bid y -> split_done ndim n L [x; y] f s -> subd (s 0) (bid x) <> subd (s 0) (bid y).
Proof. exact done_pair. Qed.
Print Assumptions C95_clump_split_refuted.
Example C95_clump_split_ex : bid (ball 0) <> bid (ball 1) /\ exists s, split_done 2 2 2 [ball 0; ball 1] zero s.
Proof. split; [discriminate|exact done_2_2]. Qed.

(** C96: as long as the body of the subdomain is not among its members (first split), the bounds are
    the smallest box around those of the members, whatever they were before *)
Theorem C96_bounds_partial : forall own ids last bound, ~ In own ids -> tight_box bound ids (refresh own ids last bound).
Proof. exact refresh_first. Qed.
Print Assumptions C96_bounds_partial.
Example C96_bounds_ex : members 1 bodies1 = [0; 2] /\ ~ In 9 (members 1 bodies1) /\ refresh 9 (members 1 bodies1) (Some (0, 90)%Z) near = Some (0, 20)%Z.
Proof. split; [reflexivity|]. split; [cbn; lia|reflexivity]. Qed.

(** C96 refuted: when the subdomains are assigned anew the body of the subdomain is one of the members, and
    the bounds never shrink *)
Theorem C96_grow_refuted : forall own k bs l h bound, In (own, k) bs ->
  exists l' h', refresh own (members k bs) (Some (l, h)) bound = Some (l', h') /\ (l' <= l)%Z /\ (h <= h')%Z.
Proof. intros own k bs l h bound H. apply refresh_grows. apply members_own. exact H. Qed.
Print Assumptions C96_grow_refuted.
Example C96_grow_ex : In (9, 1) with_own /\ let r := refresh 9 (members 1 with_own) (refresh 9 (members 1 with_own) None far) near in
  r = Some (0, 90)%Z /\ ~ tight_box near (members 1 bodies1) r.
Proof.
  split; [cbn; tauto|]. cbv zeta. change (refresh 9 (members 1 with_own) (refresh 9 (members 1 with_own) None far) near) with (Some (0, 90)%Z). split; [reflexivity|].
  intros (_ & _ & (i & b & Hi & Hb & E)). cbn in Hi. destruct Hi as [<- |[<- |[]]]; cbn in Hb; injection Hb as <-; discriminate E.
Qed.
