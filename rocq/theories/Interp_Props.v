(** Theorems about linear interpolation in a table. *)
From Coq Require Import List ZArith Bool Reals Lra.
From Verif Require Import Interp_Model Interp_Spec Interp_Proofs Interp_Example.
Import ListNotations.
Local Open Scope R_scope.

(** C120: every table, sorted or not, and every lookup state: the search ends and reads nothing outside of the
    table; a value that comes out lies between the smallest and the largest value of the table *)
Theorem C120_ends_partial : forall t tt values pos, table tt values -> lookup_state pos ->
  ((exists v p, linearInterpolate t tt values pos = Done (v, p) /\ lookup_state p) \/ (exists p, linearInterpolate t tt values pos = NaN p /\ lookup_state p)) /\
  (forall v p lo hi, linearInterpolate t tt values pos = Done (v, p) -> (forall x, In x values -> lo <= x <= hi) -> lo <= v <= hi).
Proof. intros t tt values pos Ht Hp. split; [exact (interp_ends t tt values pos Ht Hp)|]. intros v p lo hi E Hr. exact (interp_range t tt values pos v p lo hi Ht Hp Hr E). Qed.
Print Assumptions C120_ends_partial.
Example C120_ends_ex : table ex_times ex_values /\ lookup_state (2 ^ 64 - 1) /\ table [2; 0; 1] [5; 7; 1].
Proof. split; [exact ex_table|]. split; [exact ex_state|]. exact ex_table. Qed.

(** C120: increasing times: the value is that of the piecewise linear function, which is unique, whatever the
    lookup state left by former calls *)
Theorem C120_value_partial : forall t tt values, table tt values -> increasing tt ->
  exists v, interpolates tt values t v /\ (forall v', interpolates tt values t v' -> v' = v) /\
    forall pos, lookup_state pos -> exists p, linearInterpolate t tt values pos = Done (v, p) /\ lookup_state p.
Proof.
  intros t tt values Ht Hi. destruct (interp_value t tt values 0 Ht Hi) as (v & p & E & I); [split; [discriminate|reflexivity]|].
  exists v. split; [exact I|]. split; [intros v' I'; exact (interpolates_unique tt values t v' v Ht Hi I' I)|].
  intros pos Hp. destruct (interp_value t tt values pos Ht Hi Hp) as (v' & p' & E' & I'). rewrite (interpolates_unique tt values t v' v Ht Hi I' I) in E'.
  exists p'. split; [exact E'|]. destruct (interp_ends t tt values pos Ht Hp) as [(v2 & p2 & E2 & L)|(p2 & E2 & L)]; rewrite E' in E2; [injection E2 as _ <-; exact L|discriminate].
Qed.
Print Assumptions C120_value_partial.
Example C120_value_ex : table ex_times ex_values /\ increasing ex_times /\ interpolates ex_times ex_values 2 4.
Proof. split; [exact ex_table|]. split; [exact ex_increasing|exact ex_value]. Qed.

(** C120: a wrapped time is in the interval, differs from the time by a whole number of periods, and is the only
    such number; so the motion repeats itself with the period of the table *)
Theorem C120_wrap_partial : forall x x0 x1, x0 < x1 ->
  x0 <= periodicWrap x x0 x1 < x1 /\ (exists k : Z, periodicWrap x x0 x1 = x - IZR k * (x1 - x0)) /\
  (forall y k, x0 <= y < x1 -> y = x - IZR k * (x1 - x0) -> y = periodicWrap x x0 x1) /\
  (forall k, periodicWrap (x + IZR k * (x1 - x0)) x0 x1 = periodicWrap x x0 x1).
Proof.
  intros x x0 x1 H. destruct (wrap_spec x x0 x1 H) as [A B]. split; [exact A|]. split; [exact B|]. split.
  - intros y k Hy E. symmetry. exact (wrap_unique x x0 x1 y k H Hy E).
  - intros k. exact (wrap_periodic x x0 x1 k H).
Qed.
Print Assumptions C120_wrap_partial.
Example C120_wrap_ex : periodicWrap 7 0 3 = 1.
Proof. apply (wrap_unique 7 0 3 1 2); lra. Qed.

(** C120 refuted: no times at all, as by default *)
Theorem C120_empty_refuted : forall t pos, linearInterpolate t [] [] pos = UB.
Proof. exact empty_ub. Qed.
Print Assumptions C120_empty_refuted.
(** C120 refuted: a jump, given as two values at the same time: three results for one time, by the lookup state *)
Theorem C120_jump_refuted :
  linearInterpolate 1 [0; 1; 1; 2] [0; 10; 20; 30] 0 = Done (10, 0%Z) /\
  linearInterpolate 1 [0; 1; 1; 2] [0; 10; 20; 30] 1 = NaN 1 /\
  linearInterpolate 1 [0; 1; 1; 2] [0; 10; 20; 30] 2 = Done (20, 2%Z).
Proof. split; [exact repeated_0|]. split; [exact repeated_1|exact repeated_2]. Qed.
Print Assumptions C120_jump_refuted.
