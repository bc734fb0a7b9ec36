(** What is expected of contacts with the stiffness of Hertz and Mindlin, in terms of elementary mechanics. *)
From Coq Require Import Reals List ZArith Bool.
From Verif Require Import Vec_Model Rigid_Model Law_Model Law_Spec Coh_Model Coh_Spec Hertz_Model.
Import ListNotations.
Local Open Scope R_scope.

(** an elastic material; two spheres *)
Definition elastic (m : material) : Prop := 0 < young m /\ 0 <= poisson m <= 1/2.
Definition two_spheres (g : scgeom) : Prop := 0 < radius1 g /\ 0 < radius2 g.
(** Hertz: force K u^(3/2), where the compliances of the bodies, and their curvatures, add up *)
Definition hertz_coefficient (m1 m2 : material) (ra rb K : R) : Prop :=
  exists E Req, 0 < E /\ 0 < Req /\ / E = (1 - poisson m1 ^ 2) / young m1 + (1 - poisson m2 ^ 2) / young m2 /\ / Req = / ra + / rb /\ K = 4/3 * E * sqrt Req.
(** Mindlin: tangential stiffness K u^(1/2), for two bodies of one material *)
Definition mindlin_coefficient (m : material) (ra rb K : R) : Prop :=
  exists G Gs Req, G = young m / (2 * (1 + poisson m)) /\ / Gs = (2 - poisson m) / G + (2 - poisson m) / G /\ / Req = / ra + / rb /\ K = 8 * Gs * sqrt Req.
(** the same contact seen from the other body *)
Definition other_side (g : scgeom) : scgeom := mirror_geom vzero g.
(** nothing but the elastic behaviour is configured *)
Definition undamped_conf (c : hconf) : Prop := c_en c = None /\ c_es c = None /\ c_betan c = None /\ c_betas c = None /\ c_frict c = None.
Definition with_es (c : hconf) (es : option matchmaker) : hconf := mkHC (gamma c) (eta c) (krot c) (ktwist c) (c_en c) es (c_betan c) (c_betas c) (c_frict c).
Definition with_en (c : hconf) (e : R) : hconf := mkHC (gamma c) (eta c) (krot c) (ktwist c) (Some (mkMM Aval e [])) (c_es c) (c_betan c) (c_betas c) (c_frict c).
Definition no_damping (p : hparams) : Prop := hbetan p = 0 /\ hbetas p = 0 /\ halpha p = 0.

(** the force of Hertz at overlap [u] *)
Definition hertz_force (p : hparams) (u : R) : R := kno p * Rpower u (3/2).
Definition unit_normal (t : hstep) : Prop := norm2 (normal (hg t)) = 1.
Definition depth (t : hstep) : R := penetrationDepth (hg t).
(** force of the contact along the normal: positive when the bodies repel each other *)
Definition repulsion (t : hstep) (s : hstate) : R := dot (hnormal s) (normal (hg t)).
(** the contact keeps its axes during the step *)
Definition unrotated (t : hstep) : Prop := orthonormal_axis (hg t) = vzero /\ twist_axis (hg t) = vzero.
(** relative velocity of the bodies, without rotations and periods; its tangential part *)
Definition approach (t : hstep) : vec := vsub (vel (hs2 t)) (vel (hs1 t)).
Definition irrotational (t : hstep) : Prop := angVel (hs1 t) = vzero /\ angVel (hs2 t) = vzero /\ hshiftVel t = vzero.
Definition tangential (t : hstep) (v : vec) : vec := vsub v (smul (dot (normal (hg t)) v) (normal (hg t))).
(** the step at another overlap *)
Definition at_depth (t : hstep) (u : R) : hstep :=
  let g := hg t in mkHSt (hdt t) (mkG (normal g) (contactPoint g) u (radius1 g) (radius2 g) (twist_axis g) (orthonormal_axis g) (shearInc g)) (hs1 t) (dyn1 t) (hs2 t) (dyn2 t) (hshift2 t) (hshiftVel t).

(** a law applied step after step; None: the contact is lost or has no number *)
Fixpoint run (go : hstep -> hstate -> hresult) (l : list hstep) (s : hstate) : option hstate :=
  match l with [] => Some s | t :: l' => match go t s with HKept s' _ _ => run go l' s' | _ => None end end.
(** sum of the tangential displacements *)
Fixpoint total_shear (l : list hstep) : vec := match l with [] => vzero | t :: l' => vadd (shearInc (hg t)) (total_shear l') end.
Fixpoint total_slide (l : list hstep) : vec := match l with [] => vzero | t :: l' => vadd (smul (hdt t) (tangential t (approach t))) (total_slide l') end.
(** spring force of stiffness k, within the limit of friction in all steps; x is the displacement so far *)
Fixpoint within_friction (p : hparams) (k : R) (x : vec) (disp : hstep -> vec) (l : list hstep) : Prop :=
  match l with
  | [] => True
  | t :: l' => let y := vadd x (disp t) in (k * k) * norm2 y <= Rsqr (htan p * (kno p * (depth t * sqrt (depth t)))) /\ within_friction p k y disp l'
  end.

(** the same law with moments left out *)
Definition no_moment (L : hlaw) : hlaw := mkHL (hnever L) (hratchet L) (hadhesion L) (henergy L) false (hperiodic L).

(** contacts whose physics has what the sums ask for *)
Definition is_hertz (i : hinter) : Prop := h_real i = true -> h_phys i <> None.
Definition counted (f : hstate -> bool) (i : hinter) : bool := h_real i && match h_phys i with Some (_, s) => f s | None => false end.

(** ** Cases *)
Definition still (x : vec) (v : vec) (m : R) : rstate := mkR x qid v vzero m (V 1 1 1).
(** two bodies along the first axis, the second moving with [v]; overlap [u], radii 2; mass 1 *)
Definition pair (dt u : R) (v : vec) (m : R) : hstep :=
  mkHSt dt (mkG (V 1 0 0) (V (2 - 1/2 * u) 0 0) u 2 2 vzero vzero vzero) (still vzero vzero 1) false (still (V (4 - u) 0 0) v m) true vzero vzero.
Definition plain_law : hlaw := mkHL false false false true false false.
Definition adhesive_law : hlaw := mkHL false false true true false false.
Definition lasting_law : hlaw := mkHL true false false false false false.
Definition rolling_law : hlaw := mkHL false false false false true false.
(** unit stiffness and friction; adhesion, damping ratios, limit of the bending moment *)
Definition unit_params (mb A bn bs : R) : hparams := mkHP 1 1 0 0 mb 1 A bn bs 0.
Definition sheared (y : R) : hstate := mkHS 0 0 vzero (V 0 y 0) vzero vzero (V 0 y 0) vzero vzero vzero vzero false false.
Definition rolled (y : R) : hstate := mkHS 0 0 vzero vzero vzero vzero vzero vzero vzero (V 0 y 0) vzero false false.
Definition flagged (a b : bool) : hstate := mkHS 0 0 vzero vzero vzero vzero vzero vzero vzero vzero vzero a b.
Definition steel : material := mkMat 0 1 0 0.
Definition plain_conf : hconf := mkHC 0 0 0 0 None None None None None.
Definition constant (x : R) : matchmaker := mkMM Aval x [].
Definition half_sphere (r1 r2 : R) : scgeom := mkG (V 1 0 0) vzero 0 r1 r2 vzero vzero vzero.
