(** What is expected of cohesive contacts. *)
From Coq Require Import Reals List ZArith Bool.
From Verif Require Import Vec_Model Rigid_Model Law_Model Coh_Model.
Import ListNotations.
Local Open Scope R_scope.

(** [f] is the vector nearest to [t] among those not longer than [m] *)
Definition nearest_within (m : R) (t f : vec) : Prop := norm f <= m /\ forall x, norm x <= m -> norm2 (vsub t f) <= norm2 (vsub t x).
(** the documented normal force, positive in compression: elastic, limited in tension by the adhesion *)
Definition documented_normal (p : cparams) (s : cstate) (un : R) : R := Rmax (ckn p * (un - unp s)) (- normalAdh s).
(** the documented shear strength of a contact with normal force [Fn], before and after cohesion is broken *)
Definition documented_strength (p : cparams) (s : cstate) (Fn : R) : R := Rmax 0 (shearAdh s + Fn * ctan p).
Definition friction_strength (p : cparams) (Fn : R) : R := Rmax 0 (Fn * ctan p).
(** the elastic trial force *)
Definition elastic_shear (p : cparams) (s : cstate) (t : cstep) : vec := vsub (rotate (cg t) (if fresh t then vzero else cshear s)) (smul (cks p) (shearInc (cg t))).
(** the part of [v] perpendicular to [n] *)
Definition across (n v : vec) : vec := vsub v (smul (dot n v) n).
(** the elastic moments: from the rotations, or the old ones carried along with the contact and changed by the relative rotation *)
Definition elastic_twist (k : cconf) (p : cparams) (s : cstate) (t : cstep) : vec :=
  if incremental k then vsub (rotate (cg t) (ctwist s)) (smul (cktw p * cdt t * dot (normal (cg t)) (vsub (w2 t) (w1 t))) (normal (cg t)))
  else smul (cktw p * gtwist t) (normal (cg t)).
Definition elastic_bending (k : cconf) (p : cparams) (s : cstate) (t : cstep) : vec :=
  if incremental k then vsub (rotate (cg t) (cbending s)) (smul (ckr p * cdt t) (across (normal (cg t)) (vsub (w2 t) (w1 t))))
  else smul (ckr p) (gbending t).

(** a history of one contact: steps of the law, while it is kept *)
Inductive history (k : cconf) (p : cparams) (i1 i2 : nat) : cstate -> cstate -> Prop :=
| h_none s : history k p i1 i2 s s
| h_step s t s1 a d s2 : history k p i1 i2 s s1 -> go k p i1 i2 t s1 = Kept s2 a d -> history k p i1 i2 s s2.

(** the flag seen by each call of Ip2 at the given iterations *)
Fixpoint flags (l : list Z) (f : ip2state) : list bool := match l with [] => [] | i :: l' => setNow (tick i f) :: flags l' (tick i f) end.
(** what is done between calls: the user sets the flag; the simulation is saved and loaded *)
Definition user_sets (f : ip2state) : ip2state := mkIp true (defIter f).
Definition save_load (f : ip2state) : ip2state := mkIp (setNow f) (-1).

Definition exchanged (g : scgeom) : scgeom := mkG (vopp (normal g)) (contactPoint g) (penetrationDepth g) (radius2 g) (radius1 g) (twist_axis g) (orthonormal_axis g) (vopp (shearInc g)).
(** the bond as it was, or broken *)
Definition same_strength (s s' : cstate) : Prop := broken s' = broken s /\ normalAdh s' = normalAdh s /\ shearAdh s' = shearAdh s.
Definition has_broken (s s' : cstate) : Prop := cfragile s = true /\ broken s = false /\ broken s' = true /\ normalAdh s' = 0 /\ shearAdh s' = 0.
