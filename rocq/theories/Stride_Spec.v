(** Vocabulary of the properties of the stride. *)
From Coq Require Import List ZArith Arith Bool.
From Verif Require Import Coll_Model Coll_Spec Stride_Model.
Import ListNotations.

Definition body_of (x : st) (i : nat) (b : sbody) : Prop := nth_error (sbs x) i = Some (Some b).

(** the shapes of two bodies overlap on all axes *)
Definition shapes_overlap (b1 b2 : sbody) : Prop :=
  forall a, a < 3 -> (spos b1 a - elo b1 a < spos b2 a + ehi b2 a /\ spos b2 a - elo b2 a < spos b1 a + ehi b1 a)%Z.
(** the shape of the body is inside its box *)
Definition inside_box (b : sbody) : Prop :=
  exists r, bnd b = Some r /\ forall a, a < 3 -> (lo (bx r) a <= spos b a - elo b a /\ spos b a + ehi b a <= hi (bx r) a)%Z.

(** bodies [me] may let collide *)
Definition may_collide (m av : Z) (i j : nat) (b1 b2 : sbody) : Prop := mayCollide m av i j (Some (seen b1)) (Some (seen b2)) = Some true.

(** The rules for all histories: the settings of the collider are legal and its
    subdomain and mask do not change; interactions are not lost in the interaction
    loop; new bodies have not been seen by the collider yet. *)
Definition fair (m av : Z) (o : op) (x : st) : Prop :=
  match o with
  | Collider v => settings_ok (vset v) /\ me (vset v) = m /\ avoid (vset v) = av
  | Laws J => forall i j, linked (sints x) i j -> linked J i j
  | AddBodies l => forall b, In (Some b) l -> bnd b = None
  | _ => True
  end.
(** Rules that may be broken by a script: nothing but the integrator moves bodies, *)
Definition no_script (o : op) (x : st) : Prop := match o with Script _ => False | _ => True end.
(** bodies do not turn, or turning does not change their extent as for spheres, *)
Definition no_turn (o : op) (x : st) : Prop :=
  match o with
  | Newton _ mv | Script mv => forall i b, body_of x i b -> forall a, mlo (mv i) a = elo b a /\ mhi (mv i) a = ehi b a
  | _ => True
  end.
(** and O.engines always has the same integrator. *)
Definition one_integrator (w : nat) (o : op) (x : st) : Prop :=
  match o with Newton w' _ => w' = w | Collider v => present v = Some w | _ => True end.
Fixpoint along (P : op -> st -> Prop) (os : list op) (x : st) : Prop :=
  match os with
  | [] => True
  | o :: os' => P o x /\ match exec1 o x with Some y => along P os' y | None => True end
  end.

(** two bodies in contact have no interaction *)
Definition missed (m av : Z) (x : st) : Prop :=
  exists i j b1 b2, i <> j /\ body_of x i b1 /\ body_of x j b2 /\ bounded b1 = true /\ bounded b2 = true /\
    shapes_overlap b1 b2 /\ may_collide m av i j b1 b2 /\ ~ linked (sints x) i j.
