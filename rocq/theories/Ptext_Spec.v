(** What a user expects of packings in text files. *)
From Coq Require Import Reals String Ascii ZArith Bool List.
From Verif Require Import Plot_Model Plot_Spec Vec_Model Cloud_Model Spack_Model Ptext_Model.
Import ListNotations.
Local Open Scope string_scope.
Local Open Scope list_scope.

(** numbers are words that can be read again; integers exactly, others up to rounding *)
Definition faithful (f : format) (rounded : R -> R) : Prop :=
  (forall x, word (print f x) /\ print f x <> periodic_mark /\ parse f (print f x) = Some (rounded x)) /\
  (forall x, print f (rounded x) = print f x) /\ (forall x, rounded x = 0%R <-> x = 0%R) /\
  (forall z, word (printZ f z) /\ parseZ f (printZ f z) = Some z).
Definition rounded_vec (g : R -> R) (v : vec) : vec := V (g (vx v)) (g (vy v)) (g (vz v)).
Definition rounded_sph (g : R -> R) (a : sph) : sph := mkSph (rounded_vec g (c a)) (g (r a)) (clumpId a).
(** a format in which "1" is one and "7" is seven *)
Definition reads_one (f : format) : Prop := parse f "1" = Some 1%R /\ parseZ f "7" = Some 7%Z.
(** lines that can be read: a cell, a sphere, a sphere with its clump *)
Definition is_number (f : format) (s : string) : Prop := parse f s <> None.
Definition cell_line (f : format) (l : list string) : Prop := exists x y z, l = [periodic_mark; x; y; z] /\ is_number f x /\ is_number f y /\ is_number f z.
Definition sphere_line (f : format) (l : list string) : Prop :=
  exists x y z w k, (l = [x; y; z; w] \/ (l = [x; y; z; w; k] /\ parseZ f k <> None)) /\ x <> periodic_mark /\ is_number f x /\ is_number f y /\ is_number f z /\ is_number f w.
Definition readable (f : format) (line : string) : Prop := words line = [] \/ cell_line f (words line) \/ sphere_line f (words line).
