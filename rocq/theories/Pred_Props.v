(** Properties of predicates of volumes. *)
From Coq Require Import Bool Reals Lra.
From Verif Require Import Vec_Model Pred_Model Pred_Spec Pred_Proofs Pred_Proofs2 Pred_Example.
Local Open Scope R_scope.

(** ** C116: a ball accepted by a predicate, its radius given as pad, lies within the solid *)
Theorem C116_ellipsoid_refuted : proper egg /\ fits egg (1 / 2) /\ exists p q, inside egg p (1 / 2) = true /\ distance p q <= 1 / 2 /\ ~ holds egg q.
Proof. split; [exact egg_proper|]. split; [exact egg_fits|]. eexists _, _. exact egg_bulge. Qed.
Print Assumptions C116_ellipsoid_refuted.
Theorem C116_symmetric_difference_refuted : proper lens /\ exists p q, inside lens p 1 = true /\ distance p q <= 1 /\ ~ holds lens q.
Proof. split; [exact lens_proper|]. eexists _, _. exact lens_overlap. Qed.
Print Assumptions C116_symmetric_difference_refuted.
Theorem C116_notch_refuted : proper slit /\ exists p q, inside slit p 1 = true /\ distance p q <= 1 /\ ~ holds slit q.
Proof. split; [exact I|]. eexists _, _. exact slit_below. Qed.
Print Assumptions C116_notch_refuted.
Theorem C116_ball_partial : forall s, simple s -> proper s -> forall p pad q, inside s p pad = true -> distance p q <= pad -> holds s q.
Proof. intros s H P p pad q I D. exact (proj1 (padding s H P p pad q D) I). Qed.
Print Assumptions C116_ball_partial.
(** conversely a ball refused with negative pad lies outside *)
Theorem C116_outside_partial : forall s, simple s -> proper s -> forall p pad q, inside s p (- pad) = false -> distance p q <= pad -> ~ holds s q.
Proof. intros s H P p pad q I D K. pose proof (proj2 (padding s H P p pad q D) K) as L. rewrite I in L. discriminate L. Qed.
Print Assumptions C116_outside_partial.
Example C116_ex : simple tube /\ proper tube /\ inside tube (V 1 0 0) 1 = true.
Proof. destruct tube_proper as (A & B). split; [exact A|]. split; [exact B|exact tube_inside]. Qed.

(** ** C117: points accepted lie in the bounding box *)
Theorem C117_ellipsoid_refuted : proper ball /\ exists p, inside ball p 3 = true /\ ~ in_box (aabb ball) p.
Proof. split; [exact ball_proper|]. eexists _. exact ball_outside. Qed.
Print Assumptions C117_ellipsoid_refuted.
Theorem C117_box_partial : forall s, proper s -> forall p pad, 0 <= pad -> fits s pad -> inside s p pad = true -> in_box (aabb s) p.
Proof. exact aabb_holds. Qed.
Print Assumptions C117_box_partial.
Example C117_ex : proper tube /\ fits tube 1 /\ inside tube (V 1 0 0) 1 = true /\ proper waist /\ proper egg /\ fits egg (1 / 2) /\ inside egg (V (6 / 5) (3 / 10) 0) (1 / 2) = true.
Proof. destruct tube_proper as (_ & B). split; [exact B|]. split; [cbn; tauto|]. split; [exact tube_inside|]. split; [exact waist_proper|]. split; [exact egg_proper|]. split; [exact egg_fits|exact (proj1 egg_bulge)]. Qed.

(** ** C118: without pad, a predicate accepts the points of the solid and no others *)
Theorem C118_left_handed_refuted : holds mirrored vzero /\ forall p, inside mirrored p 0 = false.
Proof. split; [exact (proj2 mirrored_empty)|]. intros p. apply (proj1 mirrored_empty). lra. Qed.
Print Assumptions C118_left_handed_refuted.
Theorem C118_flat_cylinder_refuted : forall c r, (forall p pad, inside (Cyl c c r) p pad = true) /\ exists p, ~ holds (Cyl c c r) p.
Proof. intros c r. split; [exact (flat_cylinder c r)|]. eexists. exact (flat_cylinder_holds c r). Qed.
Print Assumptions C118_flat_cylinder_refuted.
Theorem C118_points_partial : forall s, proper s -> forall p, inside s p 0 = true <-> holds s p.
Proof. intros s P p. symmetry. exact (holds_inside s P p). Qed.
Print Assumptions C118_points_partial.
Example C118_ex : proper tube /\ proper waist /\ proper egg /\ proper lens /\ proper slit /\ inside tube (V 1 0 0) 1 = true.
Proof. destruct tube_proper as (_ & B). split; [exact B|]. split; [exact waist_proper|]. split; [exact egg_proper|]. split; [exact lens_proper|]. split; [exact I|exact tube_inside]. Qed.
