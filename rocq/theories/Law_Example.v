(** Concrete cases for Law_Props.v. *)
From Coq Require Import Reals Lra List ZArith Bool.
From Verif Require Import Vec_Model Vec_Proofs Rigid_Model Rigid_Spec Law_Model Law_Spec Law_Proofs Law_Proofs2.
Import ListNotations.
Local Open Scope R_scope.

Definition n0 : vec := V 1 0 0.
Lemma n0_unit : norm2 n0 = 1. Proof. unfold n0. vring. Qed.
(** a sphere at the origin, and one at distance d that turns *)
Definition here (v w : vec) : rstate := mkR vzero qid v w 1 (V 1 1 1).
Definition there (d : R) (v w : vec) : rstate := mkR (vadd vzero (smul d n0)) qid v w 1 (V 1 1 1).
Definition g_old : scgeom := mkG n0 n0 (1/2) 1 1 vzero vzero vzero.
Definition mat0 : material := mkMat 0 2 (1/2) 0.
Definition p_old : fphys := mkP 4 2 (1/2) vzero vzero.
Definition p_sheared : fphys := mkP 4 2 (1/2) vzero (V 0 3 0).
Definition L0 : lawconf := mkL false true false false false.

Definition at_dir (n : vec) (d : R) (v w : vec) : rstate := mkR (vadd vzero (smul d n)) qid v w 1 (V 1 1 1).
Lemma line_dir n dt av r1 r2 d a w old : norm2 n = 1 -> 0 < d ->
  exists g, ig2 dt 1 av r1 r2 (here vzero vzero) (at_dir n d (smul a n) w) vzero vzero true true old = Contact g /\
  shearInc g = smul (- dt * (if av then r2 else r2 - 1/2 * (r1 + r2 - d))) (cross w n) /\ normal g = n /\ penetrationDepth g = r1 + r2 - d.
Proof.
  intros U D. destruct (ig2_line dt r1 r2 av vzero n qid qid (V 1 1 1) (V 1 1 1) 1 1 d a w old U D) as (g & E & S). exists g. split; [exact E|]. split; [exact S|]. clear S. unfold ig2 in E. cbv zeta in E. cbn [negb andb pos] in E. assert (X : vsub (vadd (vadd vzero (smul d n)) vzero) vzero = smul d n) by vring. rewrite X, (norm_unit_scale d n U D) in E. destruct (Req_EM_T d 0) as [|N]; [lra|]. injection E as <-. unfold precompute. cbv zeta. cbn [normal penetrationDepth]. split; [|reflexivity]. destruct n. vgoal. f_equal; field; exact N.
Qed.
Lemma line dt av r1 r2 d a w old : 0 < d ->
  exists g, ig2 dt 1 av r1 r2 (here vzero vzero) (there d (smul a n0) w) vzero vzero true true old = Contact g /\
  shearInc g = smul (- dt * (if av then r2 else r2 - 1/2 * (r1 + r2 - d))) (cross w n0) /\ normal g = n0 /\ penetrationDepth g = r1 + r2 - d.
Proof. exact (line_dir n0 dt av r1 r2 d a w old n0_unit). Qed.

(** a scene with two spheres that overlap and turn, and a far one *)
Definition balls0 (i : nat) : option ball :=
  match i with
  | O => Some (mkBall 1 mat0 (here vzero vzero))
  | 1%nat => Some (mkBall 1 mat0 (there (3/2) (smul (-1) n0) (V 0 0 1)))
  | 2%nat => Some (mkBall 1 mat0 (there 9 vzero vzero))
  | _ => None
  end.
Definition sim0 : sim := mkSim (1/10) 1 true None L0.
Definition ct0 : contact := mkCt 0 1 (Some g_old) (Some p_old) vzero vzero.
Definition ct1 : contact := mkCt 1 2 None None vzero vzero.
Lemma treat0 : exists c' e, treat sim0 ct0 (mkBall 1 mat0 (here vzero vzero)) (mkBall 1 mat0 (there (3/2) (smul (-1) n0) (V 0 0 1))) = Kept c' e /\
  exists f t1 t2, added e = [(0%nat, (f, t1)); (1%nat, (vopp f, t2))] /\ vx f = -2.
Proof.
  destruct (line (1/10) true 1 1 (3/2) (-1) (V 0 0 1) (Some g_old) ltac:(lra)) as (g & E & S & N & D).
  unfold treat. cbv zeta. cbn [ct0 geom phys Law_Model.dt sim0 factor avoid radius state shift2 shiftVel frictAngle mat_ lawc id1 id2 pos here there].
  change (mkR vzero qid vzero vzero 1 (V 1 1 1)) with (here vzero vzero). change (mkR (vadd vzero (smul (3/2) n0)) qid (smul (-1) n0) (V 0 0 1) 1 (V 1 1 1)) with (there (3/2) (smul (-1) n0) (V 0 0 1)).
  assert (E' : ig2 (1/10) 1 true 1 1 (here vzero vzero) (there (3/2) (smul (-1) n0) (V 0 0 1)) vzero vzero false true (Some g_old) = Contact g) by exact E. rewrite E'. cbn [ip2].
  assert (LL : exists p' e, law L0 g p_old 0 vzero 1 (vadd vzero (smul (3/2) n0)) = Some (p', e)).
  { destruct (law L0 g p_old 0 vzero 1 (vadd vzero (smul (3/2) n0))) as [[p' e]|] eqn:X; [eauto|]. apply law_resets in X. rewrite D in X. lra. }
  destruct LL as (p' & e & El). rewrite El. eexists _, e. split; [reflexivity|]. pose proof (law_shape _ _ _ _ _ _ _ _ _ El) as Sh. cbv zeta in Sh. cbn [L0 negb periodic sphericalBodies andb] in Sh. do 3 eexists. split; [exact Sh|].
  pose proof (law_forces _ _ _ _ _ _ _ _ _ El) as (Fn & (Ad & Nr) & _). rewrite N, D in Fn. rewrite Rmax_left in Fn by lra. cbn [kn p_old] in Fn. rewrite Fn.
  (* the shear force has no component along the normal *)
  unfold law in El. cbv zeta in El. rewrite D in El. destruct (Rlt_dec (1 + 1 - 3/2) 0); [lra|]. cbn [negb andb neverErase L0] in El.
  destruct (slip p_old _ _) as [fs dis] eqn:Sl. injection El as <- <-. cbn [shearForce]. apply slip_spec in Sl. destruct Sl as (_ & _ & k & _ & ->). rewrite S. cbn [p_old shearForce ks]. unfold rotate, n0. generalize (orthonormal_axis g) (twist_axis g). clear. intros [a b c] [a1 b1 c1]. vgoal. field.
Qed.
Lemma loop0 : exists cs' a f t, loop sim0 balls0 [ct0; ct1] = Some (cs', a) /\ In (0%nat, (f, t)) a /\ vx f = -2.
Proof.
  destruct treat0 as (c' & e & T & f & t1 & t2 & A & F). cbn [loop]. cbn [id1 id2 ct0 ct1 balls0].
  assert (T1 : treat sim0 ct1 (mkBall 1 mat0 (there (3/2) (smul (-1) n0) (V 0 0 1))) (mkBall 1 mat0 (there 9 vzero vzero)) = Skipped).
  { unfold treat. cbv zeta. cbn [ct1 geom phys Law_Model.dt sim0 factor avoid radius state shift2 shiftVel]. assert (X : ig2 (1/10) 1 true 1 1 (there (3/2) (smul (-1) n0) (V 0 0 1)) (there 9 vzero vzero) vzero vzero false false None = NoContact); [|rewrite X; reflexivity]. apply ig2_detects. unfold there, n0, Rsqr. cbn [pos]. vgoal. lra. }
  rewrite T1, T. eexists _, _, f, t1. split; [reflexivity|]. split; [|exact F]. rewrite A. left. reflexivity.
Qed.

(** the contact of a wall and a sphere *)
Definition wall_state : rstate := mkR vzero qid vzero vzero 1 (V 1 1 1).
Definition ball_state : rstate := mkR (V 1 0 (1/2)) qid vzero vzero 1 (V 1 1 1).
Lemma wall_contact : exists g, ig2_wall (1/10) true 2 0 1 wall_state ball_state vzero vzero true true None = Contact g /\
  normal g = V 0 0 1 /\ penetrationDepth g = 1/2 /\ shearInc g = vzero /\ contactPoint g = V 1 0 0.
Proof.
  unfold ig2_wall. cbv zeta. cbn [negb andb comp pos wall_state ball_state vz vzero]. eexists. split; [reflexivity|]. unfold precompute. cbv zeta. cbn [normal penetrationDepth shearInc contactPoint].
  change (0 =? 0)%Z with true. cbv iota. replace (1/2 + 0 - 0) with (1/2) by lra. destruct (Rlt_dec 0 (1/2)); [|lra]. rewrite Rabs_pos_eq by lra. split; [reflexivity|]. split; [lra|]. split.
  - unfold getIncidentVel. cbn [radius1 radius2 penetrationDepth normal vel angVel wall_state ball_state with_comp]. unfold Rdiv. generalize ((1 + 1) * / (1 + 1 - - (1 * / 2 - 1))). clear. intros. vgoal. f_equal; ring.
  - cbn [with_comp vadd vx vy pos ball_state]. unfold vzero. f_equal; cbn [vx vy vz vadd]; ring.
Qed.
