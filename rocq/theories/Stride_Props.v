(** Property theorems about strides: C18 and C54. *)
From Coq Require Import List ZArith Arith Bool Lia.
From Verif Require Import Coll_Model Coll_Spec Stride_Model Stride_Spec Stride_Proofs Stride_Example.
Import ListNotations.

(** C18. Whatever moves the bodies, for however many steps, whether the collider ran
    or not: two bodies that are still inside their recorded boxes, whose shapes
    overlap and that may collide, have an interaction. *)
Theorem C18_bodies_inside_their_boxes_are_found :
  forall m av os x, along (fair m av) os start -> exec os start = Some x ->
    forall i j b1 b2, i <> j -> body_of x i b1 -> body_of x j b2 ->
      inside_box b1 -> inside_box b2 -> shapes_overlap b1 b2 -> may_collide m av i j b1 b2 -> linked (sints x) i j.
Proof. exact inside_linked. Qed.
Print Assumptions C18_bodies_inside_their_boxes_are_found.

(** C54, what is true: if bodies are moved by one and the same integrator only and
    turning does not change their extent, then after the collider's turn, whether
    it ran or not, all bodies are inside their boxes and no contact is missed. *)
Theorem C54_collider_runs_in_time_partial :
  forall m av w os v x, along (fair m av) (os ++ [Collider v]) start ->
    along no_script (os ++ [Collider v]) start -> along no_turn (os ++ [Collider v]) start -> along (one_integrator w) (os ++ [Collider v]) start ->
    exec (os ++ [Collider v]) start = Some x ->
    (forall i b, body_of x i b -> bounded b = true -> inside_box b) /\ ~ missed m av x.
Proof. exact no_contact_missed. Qed.
Print Assumptions C54_collider_runs_in_time_partial.

(** a history with a step in which the collider does not run and a contact at the end *)
Example C18_C54_hypotheses_met :
  exists x b1 b2, along (fair 0 0) h_still start /\ along no_script h_still start /\ along no_turn h_still start /\ along (one_integrator 0) h_still start /\
    exec h_still start = Some x /\ body_of x 0 b1 /\ body_of x 1 b2 /\ shapes_overlap b1 b2.
Proof.
  destruct (probe_inv _ _ still_run) as (x & E & P). destruct (probe_contact x) as (b1 & b2 & A & B & C); [rewrite P; reflexivity|].
  exists x, b1, b2. destruct (plain_rules _ still_plain) as [F T]. split; [exact F|]. split; [apply along_all; intros o y Ho; in_cases Ho; exact I|]. split; [exact T|].
  split; [apply along_all; intros o y Ho; in_cases Ho; cbn; auto|]. auto.
Qed.

(** C54 is false when the integrator in O.engines is replaced by another one. *)
Theorem C54_replaced_integrator_refuted :
  exists m av os v x, along (fair m av) (os ++ [Collider v]) start /\
    along no_script (os ++ [Collider v]) start /\ along no_turn (os ++ [Collider v]) start /\
    exec (os ++ [Collider v]) start = Some x /\ missed m av x.
Proof.
  destruct (probe_inv _ _ replaced_run) as (x & E & P). exists 0%Z, 0%Z, h_replaced, (vis 1), x. destruct (plain_rules _ replaced_plain) as [F T]. split; [exact F|].
  split; [apply along_all; intros o y Ho; in_cases Ho; exact I|]. split; [exact T|]. split; [exact E|]. apply probe_missed. rewrite P. reflexivity.
Qed.
Print Assumptions C54_replaced_integrator_refuted.

(** C54 is false when a body that is not a sphere turns in place. *)
Theorem C54_turning_body_refuted :
  exists m av w os v x, along (fair m av) (os ++ [Collider v]) start /\
    along no_script (os ++ [Collider v]) start /\ along (one_integrator w) (os ++ [Collider v]) start /\
    exec (os ++ [Collider v]) start = Some x /\ missed m av x.
Proof.
  destruct (probe_inv _ _ turned_run) as (x & E & P). exists 0%Z, 0%Z, 0, h_turned, (vis 0), x.
  split. { apply along_all. intros o y Ho. in_cases Ho; cbn [fair]; try exact I; try (intros b Hb; in_cases Hb; injection Hb as <-; reflexivity); (split; [apply Coll_Example.exs_ok|split; reflexivity]). }
  split; [apply along_all; intros o y Ho; in_cases Ho; exact I|]. split; [apply along_all; intros o y Ho; in_cases Ho; cbn; auto|]. split; [exact E|]. apply probe_missed. rewrite P. reflexivity.
Qed.
Print Assumptions C54_turning_body_refuted.

(** C54 is false when a script moves a body between two steps. *)
Theorem C54_scripted_move_refuted :
  exists m av w os v x, along (fair m av) (os ++ [Collider v]) start /\
    along no_turn (os ++ [Collider v]) start /\ along (one_integrator w) (os ++ [Collider v]) start /\
    exec (os ++ [Collider v]) start = Some x /\ missed m av x.
Proof.
  destruct (probe_inv _ _ scripted_run) as (x & E & P). exists 0%Z, 0%Z, 0, h_scripted, (vis 0), x. destruct (plain_rules _ scripted_plain) as [F T]. split; [exact F|].
  split; [exact T|]. split; [apply along_all; intros o y Ho; in_cases Ho; cbn; auto|]. split; [exact E|]. apply probe_missed. rewrite P. reflexivity.
Qed.
Print Assumptions C54_scripted_move_refuted.
