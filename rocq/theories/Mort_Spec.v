(** What is expected of a mortar layer. *)
From Coq Require Import Reals List ZArith Bool.
From Verif Require Import Vec_Model Law_Model Mort_Model.
Import ListNotations.
Local Open Scope R_scope.

(** the envelope of strength, as documented, for normal stress s (positive in tension) and shear stress t *)
Definition elastic (f_t c phi_tan f_c A : R) (s t : R) : Prop := s <= f_t /\ t + s * phi_tan <= c /\ s * s + A * A * (t * t) <= f_c * f_c.
Definition within (p : mphys) (s t : R) : Prop := elastic (ft p) (coh p) (ptan p) (fc p) (ell p) s t.
(** the layer survives steps with given geometries, one after the other *)
Fixpoint survives (periodic : bool) (p : mphys) (gs : list scgeom) (q : mphys) : Prop :=
  match gs with [] => p = q | g :: gs' => exists p' a, law periodic g p 0 vzero 1 vzero = MKept p' a /\ survives periodic p' gs' q end.
(** stresses of the layer in each of these steps *)
Fixpoint stresses (periodic : bool) (p : mphys) (gs : list scgeom) : list (R * R) :=
  match gs with
  | [] => []
  | g :: gs' => match law periodic g p 0 vzero 1 vzero with MKept p' _ => (sigmaN p', norm (sigmaT p')) :: stresses periodic p' gs' | MBroken p' => [(sigmaN p', norm (sigmaT p'))] | MNaN => [] end
  end.
Definition strong (p : mphys) : Prop := 0 <= ft p /\ 0 <= coh p.
(** parameters of a layer, without its state *)
Definition same_layer (p q : mphys) : Prop :=
  pkn p = pkn q /\ pks p = pks q /\ ptan p = ptan q /\ ft p = ft q /\ fc p = fc q /\ coh p = coh q /\ ell p = ell q /\ section p = section q /\ pnever p = pnever q.
(** examples *)
Definition brick : mmat := mkMM (-1) 1 1 0 1 2 1 1 false.
Definition layer : mphys := mkMP 1 1 0 1 2 1 1 1 false 0 vzero vzero vzero.
Definition gap (d : R) : scgeom := mkG (V 1 0 0) vzero d 1 1 vzero vzero vzero.
