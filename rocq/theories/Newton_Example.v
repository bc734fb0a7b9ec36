(** Concrete bodies and scenes for the motion integrator. *)
From Coq Require Import Reals Lra Lia List NArith ZArith Bool.
From Verif Require Import Vec_Model Vec_Proofs Rigid_Model Rigid_Spec Rigid_Example Newton_Model Newton_Spec Newton_Proofs2.
Import ListNotations.
Local Open Scope R_scope.

Definition conf0 : conf := mkC (1/10) (1/5) (V 0 0 (-10)) (-1) false true false 2 mzero mzero false (fun _ => vzero) (fun _ => vzero) 1.
Definition state0 (p : vec) (d : N) : nstate := mkS (mkR p qid (V 1 0 0) (V 0 0 1) 2 (V 1 1 1)) vzero d true 1.
Definition body0 (p : vec) (k : option nat) (ms : list (nat * se3)) (sub : nat) (issub : bool) : nbody := mkB (state0 p 0) false 1 k ms sub issub.
(** 0 alone, 1 and 2 in the clump 3, 4 in another subdomain, 5 a subdomain body *)
Definition scene0 : nworld := mkW (fun i => match i with
  | 0%nat => Some (body0 vzero None [] 1 false)
  | 1%nat => Some (body0 (V 0 2 0) (Some 3%nat) [] 1 false)
  | 2%nat => Some (body0 (V 0 (-2) 0) (Some 3%nat) [] 1 false)
  | 3%nat => Some (body0 vzero (Some 3%nat) [(1%nat, mkSe3 (V 0 2 0) qid); (2%nat, mkSe3 (V 0 (-2) 0) qid)] 1 false)
  | 4%nat => Some (body0 (V 9 9 9) None [] 2 false)
  | 5%nat => Some (body0 vzero None [] 1 true)
  | _ => None end) (fun i => match i with 1%nat => V 4 0 0 | _ => vzero end) (fun _ => vzero).
Lemma scene0_ids i b : nb scene0 i = Some b -> (i < 6)%nat.
Proof. destruct i as [|[|[|[|[|[|i]]]]]]; cbn [scene0 nb]; try discriminate; lia. Qed.
Lemma scene0_ok : clumps_ok scene0.
Proof.
  split.
  - intros i b E Ec. pose proof (scene0_ids i b E) as L. destruct i as [|[|[|[|[|[|i]]]]]]; [| | | | | |lia]; cbn [scene0 nb] in E; injection E as <-; cbn [body0 clumpId] in Ec; try discriminate.
    cbn [body0 members map fst]. split; [constructor; [intros [X|[]]; discriminate|constructor; [intros []|constructor]]|]. intros j [<-|[<-|[]]]; (split; [lia|]); eexists; (split; [reflexivity|reflexivity]).
  - intros i b k E Ec Hn. pose proof (scene0_ids i b E) as L. destruct i as [|[|[|[|[|[|i]]]]]]; [| | | | | |lia]; cbn [scene0 nb] in E; injection E as <-; cbn [body0 clumpId] in Ec; try discriminate; injection Ec as <-; try (exfalso; apply Hn; reflexivity).
    + eexists. split; [reflexivity|]. split; [reflexivity|left; reflexivity].
    + eexists. split; [reflexivity|]. split; [reflexivity|right; left; reflexivity].
Qed.
Lemma scene0_listed i b : nb scene0 i = Some b -> In i [0; 1; 2; 3; 4; 5]%nat.
Proof. intros E. apply scene0_ids in E. cbn [In]. lia. Qed.
Lemma scene0_unit : unit_world scene0.
Proof.
  intros i b E. pose proof (scene0_ids i b E) as L. destruct i as [|[|[|[|[|[|i]]]]]]; [| | | | | |lia]; cbn [scene0 nb] in E; injection E as <-; (split; [unfold unit_ori; cbn [body0 st state0 rs ori]; vgoal; ring|]); cbn [body0 members In]; intros p Hp; repeat (destruct Hp as [<-|Hp]; [cbn [snd s_ori]; vgoal; ring|]); destruct Hp.
Qed.
(** a body turned about the z axis, with three different moments of inertia *)
Definition brick : nbody := mkB (mkS (mkR vzero qz vzero (V 1 1 0) 1 (V 1 2 3)) vzero 0 true 1) true 1 None [] 0 false.
(** a body thrown upwards which turns round within the step *)
Definition falling : nbody := mkB (mkS (mkR vzero qid (V 0 0 (3/5)) vzero 1 (V 1 1 1)) vzero 0 true 1) false 1 None [] 1 false.
Lemma falling_vel d : vel (rs (advance conf0 0 (mkB (mkS (mkR vzero qid (V 0 0 (3/5)) vzero 1 (V 1 1 1)) vzero 0 d 1) false 1 None [] 1 false) vzero vzero)) = V 0 0 (if d then -3/5 else -2/5).
Proof.
  rewrite advance_vel. rewrite mean_field_none by reflexivity. rewrite vadd_0_r. cbn [st blockedDOFs rs]. change ((0 =? Attr_Model.DOF_ALL)%N) with false. cbv iota. unfold lin_accel, damped, scaled_by, fluctVel, computeAccel, conf0. cbn [st isDamped rs mass blockedDOFs gravity densityScaling isPeriodic damping dt vel N.eqb].
  destruct d; vgoal.
  - unfold cundallDamp2nd, damp2. cbn [vx vy vz]. unfold Sign. repeat match goal with |- context[Rlt_dec ?a ?b] => destruct (Rlt_dec a b); try (exfalso; lra) end; f_equal; field.
  - f_equal; field.
Qed.

(** rotation with given angular momentum: no forces, step 2 *)
Definition conf2 (mask : Z) : conf := mkC 2 0 vzero mask false true false 2 mzero mzero false (fun _ => vzero) (fun _ => vzero) 0.
Definition spinning (q : quat) (L : vec) : nbody := mkB (mkS (mkR vzero q vzero vzero 1 (V 1 2 3)) L 0 false 1) true 1 None [] 0 false.
Lemma spinning_advance k q L : let s := advance (conf2 k) 0 (spinning q L) vzero vzero in
  let w := vquot (mulv (qmat (qconj q)) L) (V 1 2 3) in let q1 := qadd q (qscale 2 (DotQ w (qadd q (DotQ w q)))) in
  angMom s = L /\ angVel (rs s) = qrot q1 w /\ ori (rs s) = qnormalize q1.
Proof.
  cbv zeta. unfold advance. change (useAspherical (conf2 k) (spinning q L)) with true. unfold accelerate. change (blockedDOFs (st (spinning q L)) =? Attr_Model.DOF_ALL)%N with false. change (useAspherical (conf2 k) (spinning q L)) with true. cbv iota. cbn [spinning st isDamped conf2].
  unfold leapfrogAsphericalRotate. cbv zeta. cbn [angMom rs angVel ori leapfrogTranslate set_vel impose_rot scaled_by conf2 moveRotUsed densityScaling dt inertia].
  assert (E : V (if bit 0 0 true then 0 else vx vzero) (if bit 0 1 true then 0 else vy vzero) (if bit 0 2 true then 0 else vz vzero) = vzero) by reflexivity. cbn [blockedDOFs]. rewrite E. clear E.
  replace (smul (2 / 2) vzero) with vzero by (vgoal; f_equal; field). replace (smul 2 vzero) with vzero by (vgoal; f_equal; ring). rewrite vadd_0_r. replace (2 / 2) with 1 by field.
  assert (H : forall x, qscale 1 x = x) by (intros; vring). rewrite H. auto.
Qed.
