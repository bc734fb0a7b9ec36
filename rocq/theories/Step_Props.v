(** Contacts and motion together: C73. *)
From Coq Require Import Reals Lra Lia List NArith ZArith Bool Permutation.
From Verif Require Import Vec_Model Vec_Proofs Rigid_Model Rigid_Spec Law_Model Law_Spec Law_Example Newton_Model Newton_Spec Newton_Proofs Newton_Proofs2 Step_Spec Step_Proofs Step_Example.
Import ListNotations.
Local Open Scope R_scope.

(** C73: in a step, the momentum of a scene of free bodies and clumps changes by time step times
    all forces (each body counted, members of clumps as well) and weights *)
Theorem C73_momentum : forall c ids w w', clumps_ok w -> NoDup ids -> (forall i b, nb w i = Some b -> In i ids) -> one_process c w -> plain_conf c ->
  (forall i b, nb w i = Some b -> whole (i, b) = true -> free c b) -> action c ids w = Some w' ->
  total_momentum (existing ids w') = vadd (total_momentum (existing ids w)) (smul (Newton_Model.dt c) (vadd (over ids w (fun i _ => force w i)) (total_weight c (existing ids w)))).
Proof. exact momentum_step. Qed.
Print Assumptions C73_momentum.
(** and the angular momentum about any point by time step times their moments *)
Theorem C73_angular_momentum : forall c ids w w' o, clumps_ok w -> NoDup ids -> (forall i b, nb w i = Some b -> In i ids) -> one_process c w -> plain_conf c ->
  (forall i b, nb w i = Some b -> whole (i, b) = true -> free c b /\ isotropic c b) -> action c ids w = Some w' ->
  total_angular_momentum o (existing ids w') = vadd (total_angular_momentum o (existing ids w)) (smul (Newton_Model.dt c) (vadd (over ids w (fun i b => moment o (pos (rs (st b))) (force w i) (torque w i))) (weight_moment c o (existing ids w)))).
Proof. exact angular_momentum_step. Qed.
Print Assumptions C73_angular_momentum.
(** so if the only forces are those of contacts between spheres, both are conserved *)
Theorem C73_conservation : forall S balls cs cs' a c ids w w' o,
  loop S balls cs = Some (cs', a) -> (forall k, In k cs -> shift2 k = vzero) -> spheres_of w balls ->
  (forall i, force w i = force_on a i) -> (forall i, torque w i = torque_on a i) -> gravity c = vzero ->
  clumps_ok w -> NoDup ids -> (forall i b, nb w i = Some b -> In i ids) -> one_process c w -> plain_conf c ->
  (forall i b, nb w i = Some b -> whole (i, b) = true -> free c b /\ isotropic c b) -> action c ids w = Some w' ->
  total_momentum (existing ids w') = total_momentum (existing ids w) /\
  total_angular_momentum o (existing ids w') = total_angular_momentum o (existing ids w).
Proof.
  intros S balls cs cs' a c ids w w' o E Z Sp Ff Ft G K Hd Ha O P F A. destruct (contacts_balance S balls cs cs' a w ids o E Z Sp Hd Ha Ff Ft) as [TF TM].
  rewrite (momentum_step c ids w w' K Hd Ha O P (fun i b X Y => proj1 (F i b X Y)) A), (angular_momentum_step c ids w w' o K Hd Ha O P F A), TF, TM.
  assert (W0 : total_weight c (existing ids w) = vzero) by (unfold total_weight; apply vsum_zero; intros p _; rewrite G; vring).
  assert (W1 : weight_moment c o (existing ids w) = vzero) by (unfold weight_moment; apply vsum_zero; intros p _; rewrite G; generalize (pos (rs (st (snd p)))) (mass (rs (st (snd p)))); vring).
  rewrite W0, W1. split; generalize (total_momentum (existing ids w)) (total_angular_momentum o (existing ids w)); vring.
Qed.
Print Assumptions C73_conservation.
(** sphere 0 pushes against sphere 1, a member of a clump *)
Example C73_conservation_ex : exists cs' a f t w', loop sim0 balls0 [ct0; ct1] = Some (cs', a) /\ In (0%nat, (f, t)) a /\ vx f = -2 /\
  (forall k, In k [ct0; ct1] -> shift2 k = vzero) /\ spheres_of (scene1 a) balls0 /\ gravity conf1 = vzero /\ clumps_ok (scene1 a) /\
  one_process conf1 (scene1 a) /\ plain_conf conf1 /\ (forall i b, nb (scene1 a) i = Some b -> whole (i, b) = true -> free conf1 b /\ isotropic conf1 b) /\
  action conf1 [0; 1; 2; 3]%nat (scene1 a) = Some w'.
Proof.
  destruct loop0 as (cs' & a & f & t & E & H & F). destruct (action_exact conf1 (scene1 a) [0; 1; 2; 3]%nat (scene1_ok a)) as (w' & A & _); [repeat (constructor; [cbn [In]; lia|]); constructor|apply scene1_listed|]. exists cs', a, f, t, w'. split; [exact E|]. split; [exact H|]. split; [exact F|]. split; [intros k [<-|[<-|[]]]; reflexivity|]. split; [apply scene1_spheres|]. split; [reflexivity|]. split; [apply scene1_ok|]. split; [apply scene1_process|]. split; [repeat split|]. split; [apply scene1_free|exact A].
Qed.
