(** Concrete cases for the recursive bisection. *)
From Coq Require Import List ZArith Arith Bool Lia Reals Lra.
From Verif Require Import Comm_Model Comm_Spec Comm_Proofs Mpi_Spec Mpi_Proofs2 Mpi_Example Tree_Model Tree_Spec Tree_Proofs1 Tree_Proofs2 Tree_Proofs3.
Import ListNotations.

(** spheres in a row along x, and one of them along y *)
Definition ball (i : nat) : item := mkItem (fun a => match a with O => Z.of_nat ((i * 5) mod 7) | _ => Z.of_nat i end) i.
Definition balls (k : nat) : list item := map ball (seq 0 k).
Lemma balls_distinct k : NoDup (map bid (balls k)).
Proof. unfold balls. rewrite map_map. cbn [bid ball]. rewrite map_id. apply seq_NoDup. Qed.

(** some execution finishes *)
Lemma done_exists ndim n L sph f fuel : (let prog := decompose ndim n L in finishedb prog (n + 1) (snd (greedy prog true (n + 1) fuel (init prog (at_start sph f))))) = true -> exists s, split_done ndim n L sph f s.
Proof.
  cbv zeta. intros H. set (prog := decompose ndim n L) in *. destruct (greedy_witness prog true (n + 1) fuel (init prog (at_start sph f)) (finishedb prog (n + 1)) (all_finished (n + 1) prog)) as (sched & c & R & E & F).
  - intros c. apply finishedb_ok.
  - exact H.
  - exists (fun p => lst (procs c p)). exists sched, c. auto.
Qed.
Definition zero (_ : nat) : nat := 0.
Lemma done_3_7 : exists s, split_done 2 3 3 (balls 7) zero s. Proof. apply (done_exists 2 3 3 (balls 7) zero 300). vm_compute. reflexivity. Qed.
Lemma done_4_9 : exists s, split_done 2 4 3 (balls 9) zero s. Proof. apply (done_exists 2 4 3 (balls 9) zero 300). vm_compute. reflexivity. Qed.
Lemma done_17_40 : exists s, split_done 2 17 4 (balls 40) zero s. Proof. apply (done_exists 2 17 4 (balls 40) zero 2000). vm_compute. reflexivity. Qed.
Lemma done_2_2 : exists s, split_done 2 2 2 (balls 2) zero s. Proof. apply (done_exists 2 2 2 (balls 2) zero 300). vm_compute. reflexivity. Qed.
Lemma done_3_3 : exists s, split_done 3 3 3 (balls 3) zero s. Proof. apply (done_exists 3 3 3 (balls 3) zero 300). vm_compute. reflexivity. Qed.

(** one sphere, three workers *)
Definition few : list (phase node message) := decompose 3 3 3.
Lemma few_stuck : exists sched c, ranks 4 sched /\ exec few sched (init few (at_start (balls 1) zero)) = Some c /\
  (all_stuck 4 few c /\ ~ all_finished 4 few c /\ failed (lst (procs c 1)) = true).
Proof.
  apply (greedy_witness few true 4 300 (init few (at_start (balls 1) zero)) (fun c => stuckb few 4 c && negb (finishedb few 4 c) && failed (lst (procs c 1)))).
  - intros c H. apply andb_true_iff in H. destruct H as [H C]. apply andb_true_iff in H. destruct H as [A B]. split; [apply stuckb_ok; exact A|]. split; [|exact C].
    intros H. apply finishedb_ok in H. rewrite H in B. discriminate.
  - vm_compute. reflexivity.
Qed.

(** three spheres, three workers: rank 1 is left with nothing *)
Lemma empty_share s f : split_done 3 3 3 (balls 3) f s -> data (s 1) = [].
Proof.
  intros D. rewrite (done_rank 3 3 3 (balls 3) f s 1 ltac:(lia) (enough_many 3 3 3 (le_n 3)) D ltac:(lia)). vm_compute. reflexivity.
Qed.

(** number of levels *)
Lemma levels_3 : levels_of 3 3.
Proof.
  destruct (levels_exist 3 ltac:(lia)) as (L & H). replace L with 3 in H; [exact H|]. destruct (levels_bounds 3 L ltac:(lia) H) as (_ & U & V). pose proof e_low. pose proof e_high.
  destruct (Nat.le_gt_cases L 2) as [C|C].
  - exfalso. assert (exp 1 ^ (L - 1) <= exp 1 ^ 1)%R by (apply Rle_pow; [lra|lia]). cbn [INR pow] in *. lra.
  - destruct (Nat.le_gt_cases L 3) as [C2|C2]; [lia|]. exfalso. specialize (V ltac:(lia)). assert (exp 1 ^ 2 <= exp 1 ^ (L - 2))%R by (apply Rle_pow; [lra|lia]).
    assert ((264 / 100) ^ 2 <= exp 1 ^ 2)%R by (apply pow_incr; lra). cbn [INR pow] in *. lra.
Qed.
Lemma levels_17_4 : levels_of 17 4.
Proof.
  destruct (levels_exist 17 ltac:(lia)) as (L & H). replace L with 4 in H; [exact H|]. destruct (levels_bounds 17 L ltac:(lia) H) as (_ & U & V). pose proof e_low. pose proof e_high.
  destruct (Nat.le_gt_cases L 3) as [C|C].
  - exfalso. assert (exp 1 ^ (L - 1) <= exp 1 ^ 2)%R by (apply Rle_pow; [lra|lia]). assert (exp 1 ^ 2 <= (2828 / 1000) ^ 2)%R by (apply pow_incr; lra). cbn [INR pow] in *. lra.
  - destruct (Nat.le_gt_cases L 4) as [C2|C2]; [lia|]. exfalso. specialize (V ltac:(lia)). assert (exp 1 ^ 3 <= exp 1 ^ (L - 2))%R by (apply Rle_pow; [lra|lia]).
    assert ((264 / 100) ^ 3 <= exp 1 ^ 3)%R by (apply pow_incr; lra). cbn [INR pow] in *. lra.
Qed.

(** the members of subdomain 1 and its body, number 9, first with a wide box *)
Definition bodies1 : list (nat * nat) := [(0, 1); (1, 2); (2, 1)].
Definition with_own : list (nat * nat) := bodies1 ++ [(9, 1)].
Definition far : nat -> option (Z * Z) := fun i => if i =? 0 then Some (0, 10)%Z else if i =? 2 then Some (5, 90)%Z else None.
Definition near : nat -> option (Z * Z) := fun i => if i =? 0 then Some (0, 10)%Z else if i =? 2 then Some (5, 20)%Z else None.
