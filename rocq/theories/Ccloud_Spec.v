(** What a user expects of random packings of clumps. *)
From Coq Require Import Reals List ZArith Bool.
From Verif Require Import Vec_Model Cloud_Model Cloud_Spec Spack_Model Ccloud_Model.
Import ListNotations.
Local Open Scope R_scope.

(** two spheres do not overlap; they may touch *)
Definition clear (a b : sph) : Prop := r a + r b <= norm (vsub (c a) (c b)).
(** nor does any image *)
Definition clear_periodic (cs : vec) (a b : sph) : Prop := forall k, clear (image (diag cs) k a) b.
(** a sphere in the box *)
Definition inside (q : cargs) (a : sph) : Prop :=
  between (vx (cmn q)) (vx (cmx q)) (vx (c a)) (r a) /\ between (vy (cmn q)) (vy (cmx q)) (vy (c a)) (r a) /\ between (vz (cmn q)) (vz (cmx q)) (vz (c a)) (r a).
(** [C] is the clump [g], rotated and moved *)
Definition congruent (g : list sph) (C : list sph) : Prop :=
  exists o x, qnorm2 o = 1 /\ Forall2 (fun a b => r b = r a /\ c b = vadd (qrot o (c a)) x) g C.
(** the clumps [G] that were added: rigid copies of given ones, with numbers from 0 *)
Definition copies (q : cargs) (G : list (list sph)) : Prop :=
  forall i C, nth_error G i = Some C -> Forall (fun a => clumpId a = Z.of_nat i) C /\ exists g, In g (given q) /\ congruent (pack g) C.
(** spheres of different clumps are in relation P *)
Definition between_clumps (P : sph -> sph -> Prop) (G : list (list sph)) : Prop :=
  forall i j C D a b, (i < j)%nat -> nth_error G i = Some C -> nth_error G j = Some D -> In a C -> In b D -> P b a.
