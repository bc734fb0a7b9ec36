(** Model of facets and boxes: what is precomputed for a facet (pkg/common/Facet.cpp),
    bounding boxes (pkg/common/Bo1_Aabb.cpp) and contacts with spheres
    (pkg/dem/Ig2_Facet_Sphere_ScGeom.cpp, pkg/dem/Ig2_Box_Sphere_ScGeom.cpp).

    Simplifications
    - real numbers without rounding; where the code divides by zero and goes on with NaN
      the model has a result of its own;
    - timing and logging are left out; FACET_TOPO is not defined, as in the code. *)
From Coq Require Import Reals List ZArith Bool.
From Verif Require Import Vec_Model Rigid_Model Law_Model.
Import ListNotations.
Local Open Scope R_scope.

(** indices of edges and vertices modulo 3 *)
Definition nx (i : nat) : nat := match i with O => 1%nat | 1%nat => 2%nat | _ => 0%nat end.
Definition pv (i : nat) : nat := match i with O => 2%nat | 1%nat => 0%nat | _ => 1%nat end.
(** e[i], Facet.cpp:25 *)
Definition edge (v : nat -> vec) (i : nat) : vec := vsub (v (nx i)) (v i).
(** Facet.hpp:24-38 *)
Record facet := mkF { vert : nat -> vec; fnormal : vec; farea : R; ne : nat -> vec; icr : R; vl : nat -> R; vu : nat -> vec }.
(** Facet.cpp:17-41; coincident vertices are only logged; None: everything gets NaN.  The unit
    vector of a vertex at the origin is NaN, here any. *)
Definition postLoad (v : nat -> vec) : option facet :=
  let n := cross (edge v 0) (edge v 1) in
  if Req_EM_T (norm n) 0 then None else
  let area := 1/2 * norm n in
  let n := smul (/ (2 * area)) n in
  let ne i := let w := cross (edge v i) n in smul (/ norm w) w in
  let p := norm (edge v 0) + norm (edge v 1) + norm (edge v 2) in
  Some (mkF v n area ne (norm (edge v 0) * dot (ne 0%nat) (edge v 2) / p) (fun i => norm (v i)) (fun i => smul (/ norm (v i)) (v i))).
(** Shop_02.cpp:129-132 *)
Definition inscribedCircleCenter (a b c : vec) : vec :=
  vadd a (smul (/ (norm (vsub b a) + norm (vsub c b) + norm (vsub a c))) (vadd (smul (norm (vsub b a)) (vsub c a)) (smul (norm (vsub c a)) (vsub b a)))).
(** local coordinates of vertices; utils.py:259-260 *)
Definition centered (v : nat -> vec) : nat -> vec := fun i => vsub (v i) (inscribedCircleCenter (v 0%nat) (v 1%nat) (v 2%nat)).
(** utils.py:249-266: shape and position *)
Definition makeFacet (v : nat -> vec) : option (facet * vec) :=
  match postLoad (centered v) with Some f => Some (f, inscribedCircleCenter (v 0%nat) (v 1%nat) (v 2%nat)) | None => None end.
(** _utils.cpp:369-376: postLoad is not called *)
Definition setNewVertices (f : facet) (v : nat -> vec) : facet * vec :=
  (mkF (centered v) (fnormal f) (farea f) (ne f) (icr f) (vl f) (vu f), inscribedCircleCenter (v 0%nat) (v 1%nat) (v 2%nat)).

(** ** facet and sphere *)
Definition result := (geom_result * R)%type.
Definition blank : scgeom := mkG vzero vzero 0 0 0 vzero vzero vzero.
Definition old_or_new (old : option scgeom) : scgeom := match old with Some g => g | None => blank end.
Definition is_new (old : option scgeom) : bool := match old with None => true | Some _ => false end.
(** Ig2_Facet_Sphere_ScGeom.cpp:60-65 *)
Definition farthest (f : facet) (cp : vec) : nat :=
  let b i := dot (ne f i) cp in
  let m1 := if Rlt_dec (b 0%nat) (b 1%nat) then 1%nat else 0%nat in
  if Rlt_dec (b m1) (b 2%nat) then 2%nat else m1.
(** Ig2_Facet_Sphere_ScGeom.cpp:87-93: point of the facet when the center is beyond edge m *)
Inductive on_rim := Rim (p : vec) | RNaN.
Definition rim (f : facet) (sh ic : R) (cp : vec) (m : nat) : on_rim :=
  let cp := vadd cp (smul (ic - dot (ne f m) cp) (ne f m)) in
  let corner i := if Req_EM_T (vl f i) 0 then RNaN else Rim (smul (vl f i - sh) (vu f i)) in
  if Rlt_dec ic (dot cp (ne f (pv m))) then corner m
  else if Rlt_dec ic (dot cp (ne f (nx m))) then corner (nx m)
  else Rim cp.
(** Ig2_Facet_Sphere_ScGeom.cpp:22-125; the second result is shrinkFactor *)
Definition facet_sphere (dt shrink : R) (f : facet) (r : R) (s1 s2 : rstate) (shift2 shiftVel : vec) (force isReal : bool) (old : option scgeom) : result :=
  let AT := qmat (ori s1) in
  let cl := mulv (transpose AT) (vsub (vadd (pos s2) shift2) (pos s1)) in
  let L0 := dot (fnormal f) cl in
  let n := if Rlt_dec L0 0 then vopp (fnormal f) else fnormal f in
  let L := if Rlt_dec L0 0 then - L0 else L0 in
  if (if Rlt_dec r L then true else false) && negb isReal && negb force then (NoContact, shrink) else
  let cp := vsub cl (smul L n) in
  let m := farthest f cp in
  let bm := dot (ne f m) cp in
  let reset := if Rlt_dec (icr f - r * shrink) 0 then true else false in
  let shrink' := if reset then 0 else shrink in
  let sh := if reset then 0 else r * shrink in
  let ic := if reset then icr f else icr f - r * shrink in
  let finish n depth :=
    if (if Rlt_dec 0 depth then true else false) || isReal then
      let n := mulv AT n in
      let g := old_or_new old in
      Contact (precompute dt (mkG (normal g) (vsub (vadd (pos s2) shift2) (smul (r - 1/2 * depth) n)) depth (2 * r) r (twist_axis g) (orthonormal_axis g) (shearInc g)) s1 s2 n (is_new old) shift2 shiftVel false)
    else NoContact in
  if Rlt_dec bm ic then (finish (smul (/ norm n) n) (r - L), shrink')
  else match rim f sh ic cp m with
       | RNaN => (ZeroDistance, shrink')
       | Rim p => let w := vsub cl p in
                  if Req_EM_T (norm w) 0 then (ZeroDistance, shrink') else (finish (smul (/ norm w) w) (r - norm w), shrink')
       end.

(** ** box and sphere *)
Definition clamp (e x : R) : R := let y := if Rlt_dec x (- e) then - e else x in if Rlt_dec e y then e else y.
Definition within_extent (e x : R) : bool := if Rlt_dec x (- e) then false else if Rlt_dec e x then false else true.
(** Ig2_Box_Sphere_ScGeom.cpp:59-61: axis along which the surface is nearest *)
Definition nearest_axis (e c : vec) : nat :=
  let t i := comp i e - Rabs (comp i c) in
  let m1 := if Rlt_dec (t 1%nat) (t 0%nat) then 1%nat else 0%nat in
  if Rlt_dec (t 2%nat) (t m1) then 2%nat else m1.
(** Ig2_Box_Sphere_ScGeom.cpp:22-143 *)
Definition box_sphere (dt : R) (e : vec) (r : R) (s1 s2 : rstate) (shift2 shiftVel : vec) (force isReal : bool) (old : option scgeom) : geom_result :=
  let AT := qmat (ori s1) in
  let rel := vsub (vadd (pos s2) shift2) (pos s1) in
  let c := mulv (transpose AT) rel in
  let g := old_or_new old in
  if within_extent (vx e) (vx c) && within_extent (vy e) (vy c) && within_extent (vz e) (vz c) then
    let i := nearest_axis e c in
    let t := comp i e - Rabs (comp i c) in
    let n0 := mulv AT (with_comp i vzero (if Rlt_dec 0 (comp i c) then 1 else -1)) in
    let n := smul (/ norm n0) n0 in
    let pt1 := vadd (pos s2) (smul t n) in
    let pt2 := vsub (pos s2) (smul r n) in
    let w := vsub pt1 pt2 in
    if Req_EM_T (norm w) 0 then ZeroDistance else
    Contact (precompute dt (mkG (normal g) (smul (1/2) (vadd pt1 pt2)) (norm w) r r (twist_axis g) (orthonormal_axis g) (shearInc g)) s1 s2 (smul (/ norm w) w) (is_new old) shift2 shiftVel true)
  else
    let onBox := mulv AT (V (clamp (vx e) (vx c)) (clamp (vy e) (vy c)) (clamp (vz e) (vz c))) in
    let w := vsub onBox rel in
    let depth := r - norm w in
    if (if Rlt_dec depth 0 then true else false) && negb isReal && negb force then NoContact else
    let n := smul (/ norm w) w in
    let pt1 := vadd onBox (pos s1) in
    let pt2 := vadd (vadd (pos s2) shift2) (smul r n) in
    Contact (precompute dt (mkG (normal g) (smul (1/2) (vadd pt1 pt2)) depth r r (twist_axis g) (orthonormal_axis g) (shearInc g)) s1 s2 (vopp n) (is_new old) shift2 shiftVel false).

(** ** bounding boxes *)
Definition vmin2 (a b : vec) : vec := V (Rmin (vx a) (vx b)) (Rmin (vy a) (vy b)) (Rmin (vz a) (vz b)).
Definition vmax2 (a b : vec) : vec := V (Rmax (vx a) (vx b)) (Rmax (vy a) (vy b)) (Rmax (vz a) (vz b)).
(** Bo1_Aabb.cpp:38-67; [T]: the identity, or unshearPt in periodic scenes (where the first
    minimum is that with infinity) *)
Definition facet_aabb (T : vec -> vec) (f : facet) (p : vec) (q : quat) : vec * vec :=
  let w i := T (vadd p (mulv (qmat q) (vert f i))) in
  (vmin2 (vmin2 (w 0%nat) (w 1%nat)) (w 2%nat), vmax2 (vmax2 (w 0%nat) (w 1%nat)) (w 2%nat)).
(** Bo1_Aabb.cpp:69-89; None: exception in sheared cells *)
Definition box_aabb (sheared : bool) (e p : vec) (q : quat) : option (vec * vec) :=
  if sheared then None else
  let h row := Rabs (vx row * vx e) + Rabs (vy row * vy e) + Rabs (vz row * vz e) in
  let A := qmat q in
  let half := V (h (r0 A)) (h (r1 A)) (h (r2 A)) in
  Some (vsub p half, vadd p half).
(** Bo1_Aabb.cpp:13-21 *)
Definition sphere_aabb (factor r : R) (p : vec) : vec * vec :=
  let h := (if Rlt_dec 0 factor then factor else 1) * r in (vsub p (V h h h), vadd p (V h h h)).
