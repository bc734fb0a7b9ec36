(** C97-C100: decomposition of the domain into blocks and around points. *)
From Verif Require Import Vec_Model Dom_Model Dom_Spec Dom_Proofs Dom_Proofs2 Dom_Example.
From Coq Require Import Reals List ZArith QArith Arith Lia Lra.
Import ListNotations.
Local Open Scope R_scope.

(** C97: with numbers of blocks given for all directions there is one block for each worker, the blocks
    fill the domain and do not overlap. *)
Theorem C97_manual_partial : forall mn mx nx ny nz, below mn mx -> (0 < nx)%nat -> (0 < ny)%nat -> (0 < nz)%nat ->
  tiles mn mx (nx * ny * nz) (manual mn mx nx ny nz).
Proof. intros mn mx nx ny nz B X Y Z. rewrite <- (Nat.add_0_r (nx * ny * nz)) at 1. apply blocks_tile; auto. apply Nat.le_0_l. Qed.
Print Assumptions C97_manual_partial.
Example C97_manual_ex : tiles (V 0 0 0) (V 1 1 1) 24 (manual (V 0 0 0) (V 1 1 1) 2 3 4).
Proof. apply (C97_manual_partial (V 0 0 0) (V 1 1 1) 2 3 4); [exact unit_below|auto with arith|auto with arith|auto with arith]. Qed.

(** ... but a direction that is left out gives no block at all, and every point belongs to the master. *)
Theorem C97_missing_refuted : forall mn mx nx ny nz, (nx * ny * nz = 0)%nat ->
  manual mn mx nx ny nz = [] /\ forall p, findSubdomain (manual mn mx nx ny nz) p = 0%nat.
Proof. exact missing. Qed.
Print Assumptions C97_missing_refuted.
Example C97_missing_ex : (4 * 0 * 0 = 0)%nat. Proof. reflexivity. Qed.

(** C98: a point inside a block of a regular decomposition is given to the worker of this block ... *)
Theorem C98_find_partial : forall mn mx nx ny nz sd p, below mn mx -> (0 < nx)%nat -> (0 < ny)%nat -> (0 < nz)%nat ->
  In sd (manual mn mx nx ny nz) -> inside_sub sd p -> totalDist (points sd) p < 10000000 ->
  findSubdomain (manual mn mx nx ny nz) p = worker sd.
Proof. exact manual_find. Qed.
Print Assumptions C98_find_partial.
Example C98_find_ex : exists sd, In sd (manual v0 v1 1 1 1) /\ inside_sub sd centre /\ totalDist (points sd) centre < 10000000.
Proof. exact unit_centre. Qed.

(** ... in the whole domain, if it is not too large; *)
Theorem C98_everywhere_partial : forall mn mx nx ny nz p, below mn mx -> (0 < nx)%nat -> (0 < ny)%nat -> (0 < nz)%nat ->
  Dom_Spec.between mn mx p -> vx mx - vx mn <= 400000 -> vy mx - vy mn <= 400000 -> vz mx - vz mn <= 400000 ->
  exists sd, In sd (manual mn mx nx ny nz) /\ findSubdomain (manual mn mx nx ny nz) p = worker sd /\ in_sub sd p.
Proof. exact manual_everywhere. Qed.
Print Assumptions C98_everywhere_partial.
Example C98_everywhere_ex : below v0 v1 /\ Dom_Spec.between v0 v1 centre /\ vx v1 - vx v0 <= 400000 /\ vy v1 - vy v0 <= 400000 /\ vz v1 - vz v0 <= 400000.
Proof. unfold below, Dom_Spec.between, v0, v1, centre. cbn [vx vy vz]. lra. Qed.

(** but not if the decomposition contains halved blocks (9 workers in a cube of 1 cm), *)
Theorem C98_halves_refuted : exists mn mx x s sd p, below mn mx /\ edges mn mx x x x /\ loop 9 1 (first_guess x x x) = Some s /\
  In sd (automatic mn mx 9 s) /\ inside_sub sd p /\ findSubdomain (automatic mn mx 9 s) p <> worker sd.
Proof.
  destruct halves_find as (sd & H). exists v0, v9, (1 # 100)%Q, s9, sd, p9. split; [exact v9_below|]. split; [exact v9_edges|]. split; [exact cube9|exact H].
Qed.
Print Assumptions C98_halves_refuted.

(** nor if the domain is too large. *)
Theorem C98_large_refuted : exists mn mx p, below mn mx /\
  (exists sd, In sd (manual mn mx 1 1 1) /\ inside_sub sd p /\ worker sd = 1%nat) /\ findSubdomain (manual mn mx 1 1 1) p = 0%nat.
Proof. exists v0, vbig, pbig. exact big_find. Qed.
Print Assumptions C98_large_refuted.

(** C99: if the automatic decomposition comes to an end, there is exactly one block for each worker ... *)
Theorem C99_automatic_partial : forall mn mx n x y z fuel s, below mn mx -> (0 < n)%Z -> edges mn mx x y z ->
  loop n fuel (first_guess x y z) = Some s -> tiles mn mx (Z.to_nat n) (automatic mn mx n s).
Proof. exact edges_tiles. Qed.
Print Assumptions C99_automatic_partial.
Example C99_automatic_ex : below v0 v9 /\ edges v0 v9 (1 # 100) (1 # 100) (1 # 100) /\ exists s, loop 9 1 (first_guess (1 # 100) (1 # 100) (1 # 100)) = Some s.
Proof. split; [exact v9_below|]. split; [exact v9_edges|]. exists s9. exact cube9. Qed.

(** ... but it does not come to an end if an edge in x or z is shorter than 5 mm, *)
Theorem C99_thin_refuted : forall x y z n fuel, (0 < n)%Z -> (0 <= x)%Q -> (0 <= z)%Q -> (x < 1 # 200 \/ z < 1 # 200)%Q ->
  loop n fuel (first_guess x y z) = None.
Proof. exact thin_never. Qed.
Print Assumptions C99_thin_refuted.
Example C99_thin_ex : (0 < 2)%Z /\ (0 <= 1 # 1000)%Q /\ (0 <= 1)%Q /\ (1 # 1000 < 1 # 200 \/ 1 < 1 # 200)%Q.
Proof. repeat split; try discriminate. left. reflexivity. Qed.

(** nor if an edge in x or z is shorter than 1 cm and the others are long. *)
Theorem C99_long_refuted : forall x y z n fuel, (0 < n < int (200 * x) * int (200 * y) * int (200 * z))%Z ->
  int (200 * x) = 1%Z \/ int (200 * z) = 1%Z -> loop n fuel (first_guess x y z) = None.
Proof. exact long_never. Qed.
Print Assumptions C99_long_refuted.
Example C99_long_ex : (0 < 4 < int (200 * 1) * int (200 * 1) * int (200 * (7 # 1000)))%Z /\ int (200 * (7 # 1000)) = 1%Z.
Proof. split; [split|]; reflexivity. Qed.

(** C100: a point belongs to the worker whose point of the cloud is nearest. *)
Theorem C100_nearest_partial : forall sub p, (exists q, In q sub /\ norm (vsub p q) < 10000000) ->
  exists i q, nth_error sub i = Some q /\ findSubdomainCloud sub p = (i + 1)%nat /\ is_nearest sub p (norm (vsub p q)).
Proof. exact cloud_nearest. Qed.
Print Assumptions C100_nearest_partial.
Example C100_nearest_ex : exists q, In q [near; V 0 0 0] /\ norm (vsub (V 0 0 0) q) < 10000000.
Proof. exact near_ex. Qed.

(** The candidate with the largest distance from its nearest point is chosen, *)
Theorem C100_remote_partial : forall others cands p, findMostRemotePointNN others cands = Some p ->
  In p cands /\ forall q, In q cands -> nearestNeighborDist others q <= nearestNeighborDist others p.
Proof. exact most_remote. Qed.
Print Assumptions C100_remote_partial.
Theorem C100_distance_partial : forall pts p, (exists q, In q pts /\ norm (vsub p q) < 1000000) -> is_nearest pts p (nearestNeighborDist pts p).
Proof. exact nn_nearest. Qed.
Print Assumptions C100_distance_partial.
Example C100_distance_ex : nearestNeighborDist (makeDomainCornerPoints v0 v1) near = 1 / 10.
Proof. exact nn_near. Qed.

(** but the cloud consists of the last drawn points, whatever is drawn before, *)
Theorem C100_last_partial : forall cp draws pts, generateRandomCloud cp [] draws = Some pts ->
  pts = map (fun d => last d v0) draws /\ Forall (fun d => d <> []) draws.
Proof. intros cp draws pts. exact (cloud_last cp draws [] pts). Qed.
Print Assumptions C100_last_partial.

(** and so not of the most remote ones. *)
Theorem C100_remote_refuted : exists c draw p q, generateRandomCloud c [] [draw] = Some [p] /\ In q draw /\
  nearestNeighborDist c p < nearestNeighborDist c q.
Proof.
  exists (makeDomainCornerPoints v0 v1), [centre; near], near, centre. split; [exact last_kept|]. split; [left; reflexivity|].
  rewrite nn_near. eapply Rlt_le_trans; [|exact nn_centre]. lra.
Qed.
Print Assumptions C100_remote_refuted.
