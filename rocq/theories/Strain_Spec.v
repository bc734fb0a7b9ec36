(** What straining along an axis should do. *)
From Coq Require Import Reals List ZArith NArith Bool.
From Verif Require Import Vec_Model Attr_Model Strain_Model.
Import ListNotations.
Local Open Scope R_scope.

(** the coordinate of a body along the strained axis, and its velocity *)
Definition at_ (c : conf) (w : bodies) (i : nat) (x : R) : Prop := exists b, w i = Some b /\ coord (bpos b) (axis c) = x.
Definition moves (c : conf) (w : bodies) (i : nat) (v : R) : Prop := exists b, w i = Some b /\ coord (bvel b) (axis c) = v.
(** the distance of the reference bodies, the first ones of both lists *)
Definition length_is (c : conf) (w : bodies) (L : R) : Prop := exists p n x y, hd_error (posIds c) = Some p /\ hd_error (negIds c) = Some n /\ at_ c w p x /\ at_ c w n y /\ L = x - y.
Definition other_coords (a : nat) (u v : vec) : Prop := forall k, (k < 3)%nat -> k <> a -> coord u k = coord v k.
(** shares of the two ends in the displacement *)
Definition shares (a : Z) : option (R * R) := if (a =? 0)%Z then Some (1/2, 1/2) else if (a =? 1)%Z then Some (1, 0) else if (a =? -1)%Z then Some (0, 1) else None.
(** bodies of both ends exist, are different, and are driven along the axis; those of an end that is to stay do so *)
Definition prepared (c : conf) (w : bodies) : Prop :=
  (axis c < 3)%nat /\ posIds c <> [] /\ negIds c <> [] /\ (forall i, In i (posIds c) -> ~ In i (negIds c)) /\
  (forall i, In i (posIds c) \/ In i (negIds c) -> exists b, w i = Some b /\ N.land (dofs b) (axisDOF (N.of_nat (axis c)) false) <> 0%N) /\
  (asymmetry c = 1%Z -> forall i, In i (negIds c) -> moves c w i 0) /\ (asymmetry c = (-1)%Z -> forall i, In i (posIds c) -> moves c w i 0).
(** n steps with any forces and any motion of what is not driven *)
Fixpoint run (c : conf) (n : nat) (F : nat -> nat -> vec) (others : nat -> nat -> sbody -> sbody) (s : us) (sc : scene) (w : bodies) : result :=
  match n with
  | O => Done s sc w
  | S k => match run c k F others s sc w with Done s' sc' w' => step c (F k) (others k) s' sc' w' | r => r end
  end.
Definition scene0 : scene := mkS 0 1 0 0.
Definition conf0 : conf := mkC 0 0 [0%nat] [1%nat] (-200) None 0 0 false false false (Some 1) 10.
Definition us0 : us := mkU true true (Some 1) None None 0 0 true 0 0.
Definition two : bodies := fun i => match i with O => Some (mkB (V 2 0 0) vzero 0) | 1%nat => Some (mkB (V 1 0 0) vzero 0) | _ => None end.
(** the documented rate: rising linearly from zero to r in time T *)
Definition ramp (r T t : R) : R := if Rlt_dec t T then t / T * r else r.
(** sum of the forces along the axis *)
Definition total (a : nat) (F : nat -> vec) (ids : list nat) : R := fold_right (fun i x => coord (F i) a + x) 0 ids.
Definition driven (c : conf) (b : sbody) : Prop := N.land (dofs b) (axisDOF (N.of_nat (axis c)) false) <> 0%N.
(** the strain is over the limit, in the sense of straining *)
Definition over (limit r e : R) : Prop := limit <> 0 /\ (0 < r /\ limit < e \/ r < 0 /\ e < limit).
(** after the initialization *)
Definition us1 : us := mkU false true (Some 1) (Some 1) None 200 1 true 0 0.
Definition two1 : bodies := fun i => match i with O => Some (mkB (V 2 0 0) vzero 1) | 1%nat => Some (mkB (V 1 0 0) vzero 1) | _ => None end.
Definition swapped : conf := mkC 0 0 [1%nat] [0%nat] (-200) None 0 0 false false false (Some 1) 10.
Definition stopping (x : R) : conf := mkC 0 0 [0%nat] [1%nat] (-200) (Some x) 0 0 false false false (Some 1) 10.
