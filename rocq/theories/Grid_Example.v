(** Examples for the grid collider. *)
From Coq Require Import List ZArith Bool Arith Reals Lra Lia.
From Verif Require Import Vec_Model Vec_Proofs Cell_Proofs Loop_Model.
From Verif Require Import Grid_Model Grid_Spec Grid_Proofs.
Import ListNotations.
Local Open Scope R_scope.

(** the lower corner is not on the diagonal; cells of 1 *)
Definition A1 : attrs := mkA (V 0 (-10) 0) (V 20 10 20) 1 0.
(** one cell *)
Definition A2 : attrs := mkA (V 0 0 0) (V 10 10 10) 10 0.
(** 2000 x 2000 x 2000 cells *)
Definition A3 : attrs := mkA (V 0 0 0) (V 2000 2000 2000) 1 0.
Definition all (_ _ : nat) : bool := true.
Definition ball (x y z : R) : option body := Some (mkB (Ball 1) (V x y z)).
Definition bs1 := [ball (1/2) (1/2) (1/2); ball (3/2) (1/2) (1/2)].
Definition bs2 := [ball 4 5 5; ball 6 5 5].

Lemma ceil_Z z : ceil (IZR z) = z.
Proof. unfold ceil. rewrite <- opp_IZR. rewrite (int_part_spec _ (- z)%Z) by lra. lia. Qed.
Lemma floor_is x z : IZR z <= x < IZR z + 1 -> floor x = z. Proof. exact (int_part_spec x z). Qed.
Lemma grid1 : updateGrid A1 = Done (mkG 20 20 20 (V 0 (-10) 0) 1, repeat [] (Z.to_nat (20 * 20 * 20))).
Proof.
  unfold updateGrid, A1. cbn [stepA aabbMax aabbMin vsub vx vy vz]. repeat (match goal with |- context[Rle_dec ?x 0] => destruct (Rle_dec x 0) as [L|_]; [lra|] end). cbv zeta.
  replace ((20 - 0) / 1) with (IZR 20) by lra. replace ((10 - -10) / 1) with (IZR 20) by lra. rewrite !ceil_Z. cbn [sx sy sz]. reflexivity.
Qed.
Lemma grid2 : updateGrid A2 = Done (mkG 1 1 1 (V 0 0 0) 10, [[]]).
Proof.
  unfold updateGrid, A2. cbn [stepA aabbMax aabbMin vsub vx vy vz]. repeat (match goal with |- context[Rle_dec ?x 0] => destruct (Rle_dec x 0) as [L|_]; [lra|] end). cbv zeta.
  replace ((10 - 0) / 10) with (IZR 1) by lra. rewrite !ceil_Z. cbn [sx sy sz]. reflexivity.
Qed.
Lemma grid3 : updateGrid A3 = UB.
Proof.
  unfold updateGrid, A3. cbn [stepA aabbMax aabbMin vsub vx vy vz]. repeat (match goal with |- context[Rle_dec ?x 0] => destruct (Rle_dec x 0) as [L|_]; [lra|] end). cbv zeta.
  replace ((2000 - 0) / 1) with (IZR 2000) by lra. rewrite !ceil_Z. cbn [sx sy sz]. reflexivity.
Qed.
Lemma balls_handled x1 y1 z1 x2 y2 z2 : handled [ball x1 y1 z1; ball x2 y2 z2].
Proof. intros [|[|a]] b H; cbn in H; try (injection H as <-; discriminate). destruct a; discriminate. Qed.
Lemma touch1 : touch bs1 0 1.
Proof. exists 1, 1, (V (1/2) (1/2) (1/2)), (V (3/2) (1/2) (1/2)). repeat (split; [eexists; split; [reflexivity|split; reflexivity]|]). split; [lra|]. split; [lra|]. unfold norm2, dot. cbn [vsub vx vy vz]. lra. Qed.
Lemma touch2 : touch bs2 0 1.
Proof. exists 1, 1, (V 4 5 5), (V 6 5 5). repeat (split; [eexists; split; [reflexivity|split; reflexivity]|]). split; [lra|]. split; [lra|]. unfold norm2, dot. cbn [vsub vx vy vz]. lra. Qed.

(** with [A1] a ball is put only into cells with the first coordinate of its centre *)
Lemma column1 x p c r : p = V x (1/2) (1/2) -> c = mkG 20 20 20 (V 0 (-10) 0) 1 -> r = 1 + 0 -> (0 <= x < 2) -> forall i j k, In (i, j, k) (cells_of c p r) -> i = floor (x + 10).
Proof.
  intros -> -> -> Hx i j k H. apply in_cells in H. cbn [mn step vx vy vz] in H. destruct H as ((Hi & _) & Hd). assert (B := norm2_coord _ 1 ltac:(lra) ltac:(replace (1 * 1) with ((1 + 0) * (1 + 0)) by ring; exact Hd)).
  destruct B as (B & _). cbn [ccp pt2int mn step vx vy vz vsub] in B. replace ((x - -10) / 1) with (x + 10) in B by lra. unfold closest in B. destruct (i =? floor (x + 10))%Z eqn:E; [apply Z.eqb_eq in E; exact E|]. exfalso.
  assert (Hl : (8 <= i)%Z). { eapply Z.le_trans; [|apply Hi]. rewrite <- (floor_is 8 8) by lra. apply floor_mono. lra. }
  assert (IZR 8 <= IZR i) by (apply IZR_le; exact Hl). destruct (i <? floor (x + 10))%Z; rewrite plus_IZR in B; lra.
Qed.
Lemma missed1 : exists is', action A1 all 5 bs1 [] = Done is' /\ ~ known is' 0 1.
Proof.
  destruct (action_ok A1 all 5 bs1 []) as (g & is' & Eg & Ea & data & Ed & L & P); [eexists; exact grid1|apply balls_handled|]. exists is'. split; [exact Ea|]. rewrite Ed. intros K. unfold updateCollisions in K. apply collide_from in K.
  rewrite grid1 in Eg. injection Eg as Eg _. assert (Both : forall v, In v data -> In 0%nat v -> In 1%nat v -> False).
  { intros v Hv I0 I1. apply In_nth_error in Hv. destruct Hv as (j & Ej). apply (P j v Ej) in I0. apply (P j v Ej) in I1. destruct I0 as (b0 & r0 & [[x0 y0] z0] & N0 & S0 & C0 & J0). destruct I1 as (b1 & r1 & [[x1 y1] z1] & N1 & S1 & C1 & J1).
    cbn in N0. injection N0 as <-. cbn in N1. injection N1 as <-. cbn [shape] in S0, S1. injection S0 as <-. injection S1 as <-. cbn [pos] in C0, C1. rewrite <- Eg in *.
    apply (column1 (1/2)) in C0; [|reflexivity|reflexivity|reflexivity|lra]. apply (column1 (3/2)) in C1; [|reflexivity|reflexivity|reflexivity|lra]. rewrite (floor_is _ 10) in C0 by lra. rewrite (floor_is _ 11) in C1 by lra. subst x0 x1.
    rewrite J0 in J1. cbn [fitGrid lin sx sy sz] in J1. assert (F0 := fit_bounds y0 20 ltac:(lia)). assert (F1 := fit_bounds z0 20 ltac:(lia)). assert (F2 := fit_bounds y1 20 ltac:(lia)). assert (F3 := fit_bounds z1 20 ltac:(lia)).
    set (a := fit y0 20) in *. set (b := fit z0 20) in *. set (c := fit y1 20) in *. set (d := fit z1 20) in *. clearbody a b c d.
    assert (G : forall t, (0 <= t < 20)%Z -> fit t 20 = t) by (intros t Ht; unfold fit; lia). rewrite (G a), (G b), (G c), (G d) in J1 by lia. change (fit (fit 10 20) 20) with 10%Z in J1. change (fit (fit 11 20) 20) with 11%Z in J1. lia. }
  destruct K as [(i & [] & _)|[K|K]]; apply in_flat_map in K; destruct K as (v & Hv & K); apply pairs_from in K; destruct K as [K1 K2]; eapply Both; eassumption.
Qed.

(** the ball is in the only cell *)
Lemma cells2 x : 1 <= x < 9 -> cells_of (mkG 1 1 1 (V 0 0 0) 10) (V x 5 5) (1 + 0) = [(0, 0, 0)%Z].
Proof.
  intros Hx. unfold cells_of, pt2int. cbn [vsub vadd vx vy vz mn step]. repeat (match goal with |- context[floor ?t] => rewrite (floor_is t 0) by lra end). change (range 0 0) with [0%Z]. cbn [flat_map map app filter ccp closest Z.eqb].
  destruct (Rle_dec _ _) as [L|L]; [reflexivity|]. exfalso. apply L. unfold norm2, dot. cbn [vsub vx vy vz]. lra.
Qed.
Lemma late2 it : Grid_Model.action A2 all it bs2 [] = Done [mkI 0 1 (-1)].
Proof.
  unfold action. rewrite grid2. cbn [bind fst snd]. unfold existing, bs2, ball. cbn [length seq combine flat_map fst snd app]. cbn [foldM]. unfold updateBodyCells. cbn [shape snd fst pos verletDist A2].
  rewrite !cells2 by lra. reflexivity.
Qed.
(** a simulation in which the balls approach and touch *)
Definition A4 : attrs := mkA (V 0 0 0) (V 10 10 10) 10 1.
Definition bs4 := [ball 4 5 5; ball (13/2) 5 5].
Definition steps4 : list (Z * R * list (option body)) := [(1%Z, 0, bs4); (2%Z, 1/2, bs2)].
Lemma moves4 : moves bs4 steps4 /\ Forall (fun s => 0 <= snd (fst s)) steps4.
Proof.
  split; [|repeat constructor; cbn; lra]. cbn [moves steps4]. split; [apply moved_refl|]. split; [apply balls_handled|]. split; [|split; [apply balls_handled|exact I]].
  intros [|[|a]] b H; cbn in H; try (injection H as <-; eexists; split; [reflexivity|split; [reflexivity|]]; cbn [pos]; apply norm_le; [lra|]; unfold norm2, dot; cbn [vsub vx vy vz]; lra). destruct a; discriminate.
Qed.
Lemma cells4 x : 2 <= x < 8 -> cells_of (mkG 1 1 1 (V 0 0 0) 10) (V x 5 5) (1 + 1) = [(0, 0, 0)%Z].
Proof.
  intros Hx. unfold cells_of, pt2int. cbn [vsub vadd vx vy vz mn step]. repeat (match goal with |- context[floor ?t] => rewrite (floor_is t 0) by lra end). change (range 0 0) with [0%Z]. cbn [flat_map map app filter ccp closest Z.eqb].
  destruct (Rle_dec _ _) as [L|L]; [reflexivity|]. exfalso. apply L. unfold norm2, dot. cbn [vsub vx vy vz]. lra.
Qed.
Lemma sim4 : exists st, sim A4 all bs4 steps4 (mkE false 0, []) = Done (bs2, st).
Proof.
  cbn [sim steps4]. unfold turn at 1. cbn [isActivated newton fst snd]. assert (G : updateGrid A4 = updateGrid A2) by reflexivity. unfold action. rewrite G, grid2. cbn [bind fst snd]. unfold existing, bs4, ball. cbn [length seq combine flat_map fst snd app foldM]. unfold updateBodyCells. cbn [shape snd fst pos verletDist A4].
  rewrite !cells4 by lra. cbn -[turn]. unfold turn, isActivated. cbn [newton fst snd fastest verletDist A4]. destruct (Rlt_dec 1 (0 + 1/2)) as [L|L]; [lra|]. eexists. reflexivity.
Qed.
