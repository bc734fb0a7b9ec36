(** What is expected of contacts, in terms of elementary mechanics. *)
From Coq Require Import Reals List ZArith Bool.
From Verif Require Import Vec_Model Rigid_Model Rigid_Spec Law_Model.
Import ListNotations.
Local Open Scope R_scope.

(** sum of forces, and of moments about [o] when body i is at [at_ i] *)
Definition total_force (l : list (nat * (vec * vec))) : vec := vsum (map (fun e => fst (snd e)) l).
Definition total_moment (o : vec) (at_ : nat -> vec) (l : list (nat * (vec * vec))) : vec :=
  vsum (map (fun e => moment o (at_ (fst e)) (fst (snd e)) (snd (snd e))) l).
(** the force, and the torque, on one body *)
Definition force_on (l : list (nat * (vec * vec))) (i : nat) : vec := vsum (map (fun e => if Nat.eqb (fst e) i then fst (snd e) else vzero) l).
Definition torque_on (l : list (nat * (vec * vec))) (i : nat) : vec := vsum (map (fun e => if Nat.eqb (fst e) i then snd (snd e) else vzero) l).
(** position of the bodies *)
Definition place_of (balls : nat -> option ball) (i : nat) : vec := match balls i with Some b => pos (state b) | None => vzero end.

(** two spheres touch: unit normal from 1 to 2, depth of the overlap, point in its middle *)
Definition touching (r1 r2 : R) (p1 p2 : vec) (g : scgeom) : Prop :=
  norm2 (normal g) = 1 /\ p2 = vadd p1 (smul (r1 + r2 - penetrationDepth g) (normal g)) /\ 0 < r1 + r2 - penetrationDepth g /\
  contactPoint g = vadd p1 (smul (r1 - 1/2 * penetrationDepth g) (normal g)) /\ contactPoint g = vsub p2 (smul (r2 - 1/2 * penetrationDepth g) (normal g)) /\
  radius1 g = r1 /\ radius2 g = r2.

(** the trial shear force: the old one, carried along with the contact, and the elastic
    reaction to the increment of displacement *)
Definition trial_force (g : scgeom) (p : fphys) : vec :=
  vsub (rotate g (if Rlt_dec (penetrationDepth g) 0 then vzero else shearForce p)) (smul (ks p) (shearInc g)).
(** [s] is the force nearest to [t] among those admitted by friction *)
Definition admitted (mu2 : R) (fn s : vec) : Prop := norm2 s <= mu2 * norm2 fn.
Definition nearest (mu2 : R) (fn t s : vec) : Prop := admitted mu2 fn s /\ forall x, admitted mu2 fn x -> norm2 (vsub t s) <= norm2 (vsub t x).

(** bodies moving as parts of one rigid body: velocity v0 + w×x, where body 2 is seen at
    its image in the periodic cell *)
Definition moves_rigidly (v0 w x v av : vec) : Prop := v = vadd v0 (cross w x) /\ av = w.

(** the same contact seen from the other body *)
Definition mirror_geom (shift : vec) (g : scgeom) : scgeom :=
  mkG (vopp (normal g)) (vsub (contactPoint g) shift) (penetrationDepth g) (radius2 g) (radius1 g) (twist_axis g) (orthonormal_axis g) (vopp (shearInc g)).
Definition mirror_result (shift : vec) (r : geom_result) : geom_result := match r with Contact g => Contact (mirror_geom shift g) | NoContact => NoContact | ZeroDistance => ZeroDistance end.
Definition mirror_phys (p : fphys) : fphys := mkP (kn p) (ks p) (tanPhi p) (vopp (normalForce p)) (vopp (shearForce p)).

(** shear increments of a sequence of steps of one contact: the velocities and positions
    in each step *)
Fixpoint increments (dt : R) (avoid : bool) (r1 r2 : R) (old : option scgeom) (l : list (rstate * rstate)) : option (list vec) :=
  match l with
  | [] => Some []
  | (s1, s2) :: l' => match ig2 dt 1 avoid r1 r2 s1 s2 vzero vzero true true old with
                      | Contact g => match increments dt avoid r1 r2 (Some g) l' with Some x => Some (shearInc g :: x) | None => None end
                      | _ => None end
  end.

(** what a MatchMaker gives for a pair of ids: the value of the first match, in either
    order *)
Fixpoint first_match (l : list (Z * Z * R)) (i j : Z) : option R :=
  match l with
  | [] => None
  | (a, b, v) :: l' => if ((a =? i) && (b =? j) || (a =? j) && (b =? i))%Z then Some v else first_match l' i j
  end.

(** the interaction with its two bodies exchanged *)
Definition swap_contact (c : contact) : contact :=
  mkCt (id2 c) (id1 c) (option_map (mirror_geom (shift2 c)) (geom c)) (option_map mirror_phys (phys c)) (vopp (shift2 c)) (vopp (shiftVel c)).
Definition swap_treated (r : treated) : treated :=
  match r with Kept c e => Kept (swap_contact c) (mkE (rev (added e)) (plasticDissipation e) (plastDissip e) (elastPotential e)) | Skipped => Skipped | Reset => Reset | Failed => Failed end.
