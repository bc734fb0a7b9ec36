(** Properties C173-C178: facets and boxes *)
From Coq Require Import Reals List ZArith Bool Lra Lia.
From Verif Require Import Vec_Model Vec_Proofs Rigid_Model Law_Model Shape_Model Shape_Spec Shape_Proofs Shape_Proofs2 Shape_Proofs3 Shape_Proofs4 Shape_Proofs5 Shape_Proofs6.
Import ListNotations.
Local Open Scope R_scope.

(** C173. The normal of a facet is a unit vector, twice the area times the normal is the cross product of edges, the outward normals of edges are unit vectors in the plane that point away from the third vertex, the radius of the inscribed circle times the perimeter is twice the area; a point is in the triangle if and only if it is in the plane and on the inner side of all edges. *)
Theorem C173_data_partial v f : postLoad v = Some f ->
  vert f = v /\ norm2 (fnormal f) = 1 /\ cross (vsub (v 1%nat) (v 0%nat)) (vsub (v 2%nat) (v 1%nat)) = smul (2 * farea f) (fnormal f) /\ 0 < farea f /\
  icr f * (norm (vsub (v 1%nat) (v 0%nat)) + norm (vsub (v 2%nat) (v 1%nat)) + norm (vsub (v 0%nat) (v 2%nat))) = 2 * farea f /\
  (forall i, (i < 3)%nat -> norm2 (ne f i) = 1 /\ dot (ne f i) (fnormal f) = 0 /\ dot (ne f i) (vsub (v (nx i)) (v i)) = 0 /\ dot (ne f i) (vsub (v (pv i)) (v i)) < 0 /\ vl f i = norm (v i)) /\
  (forall x, triangle v x <-> dot (fnormal f) (vsub x (v 0%nat)) = 0 /\ forall i, (i < 3)%nat -> dot (ne f i) (vsub x (v i)) <= 0).
Proof. exact (data v f). Qed.
Print Assumptions C173_data_partial.
Example C173_data_case : exists f, postLoad tri345 = Some f /\ farea f = 6 /\ icr f = 1.
Proof. destruct (facts345 vzero tri345) as (f & E & _ & _ & _ & _ & I & A); [intros i _; destruct (tri345 i) as [a b c]; unfold vadd, vzero; cbn [vx vy vz]; f_equal; ring|]. exists f. auto. Qed.
(** C173. A facet made of vertices has the centre of its inscribed circle at the origin of its coordinates. *)
Theorem C173_centre_partial v f p : makeFacet v = Some (f, p) -> postLoad (centered v) = Some f /\ at_incentre f /\ p = inscribedCircleCenter (v 0%nat) (v 1%nat) (v 2%nat).
Proof. exact (make_incentre v f p). Qed.
Print Assumptions C173_centre_partial.

(** C173. It is the given triangle. *)
Theorem C173_same_partial v x : moved (inscribedCircleCenter (v 0%nat) (v 1%nat) (v 2%nat)) qid (triangle (centered v)) x <-> triangle v x.
Proof. exact (make_same v x). Qed.
Print Assumptions C173_same_partial.
Example C173_same_case : exists f p, makeFacet tri345 = Some (f, p).
Proof. destruct stale_normal as (f & p & v & E & _). exists f, p. exact E. Qed.
(** C173 is refuted for vertices on a line: everything is NaN, and the facet is accepted. *)
Theorem C173_degenerate_refuted v : postLoad v = None <-> cross (vsub (v 1%nat) (v 0%nat)) (vsub (v 2%nat) (v 1%nat)) = vzero.
Proof. exact (none_iff v). Qed.
Print Assumptions C173_degenerate_refuted.
Example C173_degenerate_case : postLoad (fun i => V (INR i) 0 0) = None.
Proof. apply none_iff. unfold cross, vsub, vzero. cbn [vx vy vz]. f_equal; ring. Qed.
(** C173 is refuted after new vertices are set: normals, the inscribed circle and distances of vertices stay as they were. *)
Theorem C173_stale_refuted f v : let f' := fst (setNewVertices f v) in fnormal f' = fnormal f /\ ne f' = ne f /\ icr f' = icr f /\ vl f' = vl f /\ forall i, vert f' i = centered v i.
Proof. exact (stale f v). Qed.
Print Assumptions C173_stale_refuted.
Example C173_stale_case : exists f p v, makeFacet tri345 = Some (f, p) /\ dot (fnormal (fst (setNewVertices f v))) (edge (vert (fst (setNewVertices f v))) 1) <> 0.
Proof. exact stale_normal. Qed.
(** C174. A contact of a facet and a sphere is at the point of the facet nearest to the center, wherever that is (face, edge or vertex): the normal points from there to the center and the depth is the radius minus the distance. There is a contact if and only if the distance is less than the radius or there was one before. Facets with the origin at the incentre, no shrinking. *)
Theorem C174_nearest_partial dt v f r s1 s2 shift2 shiftVel force isReal old : postLoad v = Some f -> at_incentre f -> qnorm2 (ori s1) = 1 -> 0 < r ->
  let c := vadd (pos s2) shift2 in
  exists x, nearest (moved (pos s1) (ori s1) (triangle v)) c x /\ snd (facet_sphere dt 0 f r s1 s2 shift2 shiftVel force isReal old) = 0 /\
  match fst (facet_sphere dt 0 f r s1 s2 shift2 shiftVel force isReal old) with
  | NoContact => isReal = false /\ r <= distance c x
  | Contact g => describes c x r g /\ (isReal = true \/ distance c x < r)
  | ZeroDistance => distance c x = 0
  end.
Proof. exact (facet_sphere_spec dt v f r s1 s2 shift2 shiftVel force isReal old). Qed.
Print Assumptions C174_nearest_partial.
Example C174_nearest_case : exists f, postLoad tri345c = Some f /\ at_incentre f /\ qnorm2 (ori (at_rest vzero)) = 1.
Proof. destruct centred345 as (f & E & A & _). exists f. split; [exact E|]. split; [exact A|]. (unfold at_rest, qid, qnorm2, norm2, dot, vzero; cbn [ori qw qv vx vy vz]; ring). Qed.
(** C174 is refuted for facets whose origin is elsewhere: the center of the sphere is in the facet and there is no contact. *)
Theorem C174_off_centre_refuted : exists f, postLoad tri345 = Some f /\ triangle tri345 (V 1 1 0) /\
  facet_sphere 1 0 f (1/4) (at_rest vzero) (at_rest (V 1 1 0)) vzero vzero false false None = (NoContact, 0).
Proof. exact (off_centre). Qed.
Print Assumptions C174_off_centre_refuted.

(** C174 is refuted for a center on an edge: the normal is NaN. *)
Theorem C174_on_edge_refuted : exists f, postLoad tri345c = Some f /\ at_incentre f /\ triangle tri345c (V 0 (-1) 0) /\ fst (facet_sphere 1 0 f 1 (at_rest vzero) (at_rest (V 0 (-1) 0)) vzero vzero false false None) = ZeroDistance.
Proof. exact (on_edge). Qed.
Print Assumptions C174_on_edge_refuted.

(** C174. Asking for a contact (force) makes no difference. *)
Theorem C174_force_partial dt v f r s1 s2 shift2 shiftVel isReal old : postLoad v = Some f -> at_incentre f -> qnorm2 (ori s1) = 1 -> 0 < r -> fst (facet_sphere dt 0 f r s1 s2 shift2 shiftVel true isReal old) = NoContact <-> fst (facet_sphere dt 0 f r s1 s2 shift2 shiftVel false isReal old) = NoContact.
Proof. exact (forced dt v f r s1 s2 shift2 shiftVel isReal old). Qed.
Print Assumptions C174_force_partial.

(** C174 is refuted where a contact is asked for: none is made. *)
Theorem C174_force_refuted : exists f, postLoad tri345c = Some f /\ at_incentre f /\ fst (facet_sphere 1 0 f 1 (at_rest vzero) (at_rest (V 0 0 2)) vzero vzero true false None) = NoContact.
Proof. exact (forced_far). Qed.
Print Assumptions C174_force_refuted.

(** C174. shrinkFactor is kept as long as facets are large enough, *)
Theorem C174_shrink_partial dt k f r s1 s2 shift2 shiftVel force isReal old : r * k <= icr f -> snd (facet_sphere dt k f r s1 s2 shift2 shiftVel force isReal old) = k.
Proof. exact (shrink_kept dt k f r s1 s2 shift2 shiftVel force isReal old). Qed.
Print Assumptions C174_shrink_partial.
Example C174_shrink_case : exists f, postLoad tri345c = Some f /\ 1 * (1/2) <= icr f /\ icr f < 1 * 2.
Proof. destruct centred345 as (f & E & _ & _ & _ & _ & _ & I). exists f. split; [exact E|]. rewrite I. lra. Qed.
(** C174 is refuted: one contact with a small facet sets it to zero for all later contacts. *)
Theorem C174_shrink_refuted dt k f r s1 s2 shift2 shiftVel force isReal old : icr f < r * k -> isReal = true \/ force = true -> snd (facet_sphere dt k f r s1 s2 shift2 shiftVel force isReal old) = 0.
Proof. exact (shrink_lost dt k f r s1 s2 shift2 shiftVel force isReal old). Qed.
Print Assumptions C174_shrink_refuted.

(** C175. The bounding box of a facet is the smallest one that contains it, also in coordinates of a periodic cell. *)
Theorem C175_box_partial T M f p q : (forall x, T x = mulv M x) -> smallest_aabb (facet_aabb T f p q) (fun x => exists y, moved p q (triangle (vert f)) y /\ x = T y).
Proof. exact (facet_box T M f p q). Qed.
Print Assumptions C175_box_partial.
Example C175_box_case : forall x, x = mulv mid x.
Proof. intros x. symmetry. apply mulv_id. Qed.
(** C175. A facet and a sphere that get a contact have bounding boxes that overlap. *)
Theorem C175_seen_partial dt v f r s1 s2 shift2 shiftVel force old g k factor : postLoad v = Some f -> at_incentre f -> qnorm2 (ori s1) = 1 -> 0 < r -> factor <= 0 \/ 1 <= factor ->
  facet_sphere dt 0 f r s1 s2 shift2 shiftVel force false old = (Contact g, k) -> overlap (facet_aabb (fun x => x) f (pos s1) (ori s1)) (sphere_aabb factor r (vadd (pos s2) shift2)).
Proof. exact (facet_seen dt v f r s1 s2 shift2 shiftVel force old g k factor). Qed.
Print Assumptions C175_seen_partial.

(** C176. The bounding box of a box is the smallest one that contains it. *)
Theorem C176_box_partial e p q b : 0 <= vx e -> 0 <= vy e -> 0 <= vz e -> box_aabb false e p q = Some b -> smallest_aabb b (moved p q (in_cuboid e)).
Proof. exact (box_box e p q b). Qed.
Print Assumptions C176_box_partial.
Example C176_box_case : exists b, box_aabb false (V 1 1 1) vzero qid = Some b.
Proof. eexists. reflexivity. Qed.
(** C176. A box and a sphere that get a contact have bounding boxes that overlap. *)
Theorem C176_seen_partial dt e r s1 s2 shift2 shiftVel old g factor b : 0 <= vx e -> 0 <= vy e -> 0 <= vz e -> qnorm2 (ori s1) = 1 -> 0 < r -> factor <= 0 \/ 1 <= factor ->
  box_sphere dt e r s1 s2 shift2 shiftVel false false old = Contact g -> box_aabb false e (pos s1) (ori s1) = Some b -> overlap b (sphere_aabb factor r (vadd (pos s2) shift2)).
Proof. exact (box_seen dt e r s1 s2 shift2 shiftVel old g factor b). Qed.
Print Assumptions C176_seen_partial.

(** C176 is refuted in sheared cells: an exception. *)
Theorem C176_sheared_refuted : forall e p q, box_aabb true e p q = None.
Proof. reflexivity. Qed.
Print Assumptions C176_sheared_refuted.
(** C177. A contact of a box and a sphere whose center is outside is at the point of the box nearest to the center. *)
Theorem C177_outside dt e r s1 s2 shift2 shiftVel force isReal old : 0 <= vx e -> 0 <= vy e -> 0 <= vz e -> qnorm2 (ori s1) = 1 -> 0 < r ->
  let c := vadd (pos s2) shift2 in ~ moved (pos s1) (ori s1) (in_cuboid e) c ->
  exists x, nearest (moved (pos s1) (ori s1) (in_cuboid e)) c x /\
  match box_sphere dt e r s1 s2 shift2 shiftVel force isReal old with
  | NoContact => isReal = false /\ force = false /\ r < distance c x
  | Contact g => describes c x r g /\ (isReal = true \/ force = true \/ distance c x <= r)
  | ZeroDistance => False
  end.
Proof. exact (box_outside dt e r s1 s2 shift2 shiftVel force isReal old). Qed.
Print Assumptions C177_outside.
Example C177_case : ~ moved (pos (at_rest vzero)) (ori (at_rest vzero)) (in_cuboid (V 1 1 1)) (vadd (pos (at_rest (V 2 0 0))) vzero).
Proof. unfold at_rest. cbn [pos ori]. intros (y & (X & _) & E). rewrite qrot_id in E. destruct y as [a b c]. unfold vadd, vzero in E. cbn [vx vy vz] in *. injection E as E1 E2 E3. unfold Rabs in X. destruct (Rcase_abs a); lra. Qed.
(** C178. If the center is inside, the normal points to the nearest point of the surface and the depth is the radius plus the distance from there. *)
Theorem C178_inside_partial dt e r s1 s2 shiftVel force isReal old : qnorm2 (ori s1) = 1 -> 0 < r -> moved (pos s1) (ori s1) (in_cuboid e) (pos s2) ->
  exists x g, nearest (moved (pos s1) (ori s1) (not_inside e)) (pos s2) x /\ moved (pos s1) (ori s1) (in_cuboid e) x /\ box_sphere dt e r s1 s2 vzero shiftVel force isReal old = Contact g /\ describes_inside (pos s2) x r g.
Proof. exact (inside_unshifted dt e r s1 s2 shiftVel force isReal old). Qed.
Print Assumptions C178_inside_partial.
Example C178_case : moved (pos (at_rest vzero)) (ori (at_rest vzero)) (in_cuboid (V 1 1 1)) (pos (at_rest (V (1/2) 0 0))).
Proof. exists (V (1/2) 0 0). split; [unfold in_cuboid; cbn [vx vy vz]; rewrite Rabs_R0, Rabs_right; lra|]. unfold at_rest. cbn [pos ori]. rewrite qrot_id. unfold vadd, vzero. cbn [vx vy vz]. f_equal; ring. Qed.
(** C178. Also in periodic scenes, except that the point of contact lacks the shift. *)
Theorem C178_depth_partial dt e r s1 s2 shift2 shiftVel force isReal old : qnorm2 (ori s1) = 1 -> 0 < r ->
  let c := vadd (pos s2) shift2 in moved (pos s1) (ori s1) (in_cuboid e) c ->
  exists x g, nearest (moved (pos s1) (ori s1) (not_inside e)) c x /\ moved (pos s1) (ori s1) (in_cuboid e) x /\ box_sphere dt e r s1 s2 shift2 shiftVel force isReal old = Contact g /\
  penetrationDepth g = r + distance c x /\ norm2 (normal g) = 1 /\ vsub x c = smul (distance c x) (normal g) /\ vadd (contactPoint g) shift2 = smul (1/2) (vadd x (vsub c (smul r (normal g)))).
Proof. exact (box_inside dt e r s1 s2 shift2 shiftVel force isReal old). Qed.
Print Assumptions C178_depth_partial.

(** C178 is refuted for a shifted sphere: the point of contact is in another cell. *)
Theorem C178_shift_refuted : exists dt e r s1 s2 shift2 g, moved (pos s1) (ori s1) (in_cuboid e) (vadd (pos s2) shift2) /\ 0 < r /\ box_sphere dt e r s1 s2 shift2 vzero false false None = Contact g /\ forall x, ~ describes_inside (vadd (pos s2) shift2) x r g.
Proof. exact (inside_shifted). Qed.
Print Assumptions C178_shift_refuted.

