(** What is expected of inelastic cohesive contacts. *)
From Coq Require Import Reals List ZArith Bool.
From Verif Require Import Vec_Model Rigid_Model Law_Model Inel_Model.
Import ListNotations.
Local Open Scope R_scope.

(** a new contact with limits [t] of tension and [c] of compression *)
Definition new_contact (t c : R) : nstate := mkN t c false false false 0 0 0 0 0.
(** what the law of normal forces answers to a history of penetration depths *)
Fixpoint answers (k : nconst) (s : nstate) (l : list R) : list noutcome :=
  match l with [] => [] | d :: l' => fst (normal_law k s d) :: answers k (snd (normal_law k s d)) l' end.
Fixpoint after (k : nconst) (s : nstate) (l : list R) : nstate :=
  match l with [] => s | d :: l' => after k (snd (normal_law k s d)) l' end.

(** elasticity of stiffness [k] up to a force [el], then creep of stiffness [c] *)
Definition curve (k c el x : R) : R := if Rle_dec (k * x) el then k * x else el + c * (x - el / k).
(** the force at [x], when the largest so far is [m]: elastic if m is; otherwise on the line of slope [u] through the point of the curve at m *)
Definition hysteretic (k c u el m x : R) : R := if Rle_dec (k * m) el then k * x else curve k c el m + u * (x - m).
Fixpoint expected (k c u el m : R) (l : list R) : list R :=
  match l with [] => [] | x :: l' => hysteretic k c u el (Rmax m x) x :: expected k c u el (Rmax m x) l' end.

(** elastic forces, positive in compression *)
Definition bilinear (kT kC d : R) : R := if Rle_dec d 0 then kT * d else kC * d.

(** a sequence of steps of a contact *)
Fixpoint steps (k : iconst) (st : istate) (l : list istep) : istate :=
  match l with [] => st | x :: l' => steps k (snd (fst (law k st x 0%nat 1%nat))) l' end.

(** the same twist in the other sense *)
Definition reversed (s : tstate) : tstate := mkTS (elTw s) (onTw s) (- twp s) (- cW0 s) (- cW1 s) (vopp (mtwist s)).

(** the contact seen with its materials exchanged is the same *)
Definition default_mat : imat := mkIM 0 0 0 2 2 0 0 0 0 0 0 0 0.

(** witnesses *)
Definition soft : nconst := mkNC 1 1 (1/2) 1 4 4.
Definition brittle : nconst := mkNC 1 1 (1/2) 1 (1/4) 4.
Definition stiffT : nconst := mkNC 10 1 (10 * (1/2)) 10 4 4.
Definition glue : iconst := mkIC soft 1 (1/2) (mkTC 1 1 1 1) (mkBC 1 1 1 10 20).
Definition flat_geom (inc : vec) : scgeom := mkG (V 1 0 0) vzero 0 1 1 vzero vzero inc.
Definition idle : bstate := mkBS false vzero vzero vzero 1.
Definition made (s : sstate) : istate := mkIS (new_contact 1 1) vzero s (mkTS 10 false 0 0 0 vzero) idle.
(** a step of shear, of twist and of bending *)
Definition sheared (tw : R) : istep := mkIT false 1 (flat_geom (V 0 1 0)) tw vzero vzero (V (-1) 0 0) (V 1 0 0).
Definition bent (tw : R) : istep := mkIT false 1 (flat_geom vzero) tw vzero (V 0 1 0) (V (-1) 0 0) (V 1 0 0).
