(** Model of iteration over bodies and of engines that apply forces of fields:
    core/BodyContainer.hpp (smart_iterator), pkg/common/ForceEngine.cpp, pkg/common/GravityEngines.cpp.

    Simplifications
    - real numbers without rounding; [None] as a force stands for NaN;
    - Eigen (3.3 and later) leaves a zero vector as it is when it is normalized;
    - forces of one thread: adding from several threads is the subject of Force_Model;
    - HdapsGravityEngine, which reads a file and calls GravityEngine, is left out. *)
From Coq Require Import List ZArith Bool Reals Arith.
From Verif Require Interp_Model Kine_Model Newton_Model.
From Verif Require Import Vec_Model.
Import ListNotations.
Local Open Scope R_scope.

(** ** core/BodyContainer.hpp:36-73 *)
Section Iteration.
Variable A : Type.
(** hpp:39-42: [while (!*it && end!=it) ++it]: where it stops, and which slots are read; slots from p on are [l] *)
Fixpoint skip (l : list (option A)) (p : nat) : nat * list nat :=
  match l with
  | [] => (p, [p])
  | Some _ :: _ => (p, [p])
  | None :: l' => let (q, r) := skip l' (S p) in (q, p :: r)
  end.
(** hpp:39-42: operator++ *)
Definition next (c : list (option A)) (p : nat) : nat * list nat := skip (skipn (S p) c) (S p).
(** hpp:58-61 *)
Definition begin (c : list (option A)) : nat * list nat :=
  match c with
  | [] => (0%nat, [])
  | Some _ :: _ => (0%nat, [0%nat])
  | None :: _ => let (q, r) := next c 0 in (q, 0%nat :: r)
  end.
(** [FOREACH(const shared_ptr<Body>& b, *bodies)]: positions visited and slots read; [fuel] bounds the number of turns *)
Fixpoint walk (fuel : nat) (c : list (option A)) (p : nat) : list nat * list nat :=
  match fuel with
  | O => ([], [])
  | S fuel' => if (p =? length c)%nat then ([], [])
               else let (q, r) := next c p in let (vs, rs) := walk fuel' c q in (p :: vs, p :: r ++ rs)
  end.
Definition foreach (c : list (option A)) : list nat * list nat :=
  let (q, r) := begin c in let (vs, rs) := walk (S (length c)) c q in (vs, r ++ rs).
End Iteration.
Arguments skip {A}. Arguments next {A}. Arguments begin {A}. Arguments walk {A}. Arguments foreach {A}.

(** attributes of bodies that are used; clump: it is a clump, not a member *)
Record fbody := mkF { fpos : vec; fvel : vec; fmass : R; fmask : Z; fclump : bool; fradius : option R }.
Definition container := list (option fbody).
Definition body (c : container) (i : nat) : option fbody := nth i c None.
Definition forces := nat -> option vec.
Definition add1 (f : option vec) (g : option vec) : option vec := match f, g with Some a, Some b => Some (vadd a b) | _, _ => None end.
(** core/ForceContainer.hpp: addForce *)
Definition addForce (F : forces) (i : nat) (f : option vec) : forces := fun j => if (j =? i)%nat then add1 (F j) f else F j.
(** what is done for each body visited *)
Definition for_bodies (c : container) (act : nat -> fbody -> forces -> forces) (F : forces) : forces :=
  fold_left (fun F i => match body c i with Some b => act i b F | None => F end) (fst (foreach c)) F.
(** core/Body.cpp:35 *)
Definition maskCompatible (m : Z) (b : fbody) : bool := negb (Z.land (fmask b) m =? 0)%Z.
Definition selected (m : Z) (b : fbody) : bool := negb (fclump b) && ((m =? 0)%Z || maskCompatible m b).
Definition vnormalize : vec -> vec := Kine_Model.vnormalize.

(** ** GravityEngines.cpp:19-31 (energy below) *)
Definition gravityEngine (gravity : vec) (m : Z) (c : container) : forces -> forces :=
  for_bodies c (fun i b F => if selected m b then addForce F i (Some (smul (fmass b) gravity)) else F).
(** :29: what is added to the energy gravWork *)
Definition gravWork (gravity : vec) (m : Z) (dt : R) (c : container) : R :=
  fold_left (fun e i => match body c i with
                        | Some b => if selected m b then e + - dot gravity (fvel b) * fmass b * dt else e
                        | None => e end) (fst (foreach c)) 0.
(** ** :33-43; None: the central body does not exist (undefined behaviour) *)
Definition centralGravityEngine (central : nat) (accel : R) (reciprocal : bool) (m : Z) (c : container) (F : forces) : option forces :=
  match body c central with
  | None => None
  | Some cb =>
    Some (for_bodies c (fun i b F =>
      if fclump b || (i =? central)%nat then F
      else if negb (m =? 0)%Z && negb (maskCompatible m b) then F
      else let f := accel * fmass b in
           let toCenter := vnormalize (vsub (fpos cb) (fpos b)) in
           let F1 := addForce F i (Some (smul f toCenter)) in
           if reciprocal then addForce F1 central (Some (smul (- f) toCenter)) else F1) F)
  end.
(** ** :45-59; a division by zero gives NaN *)
Definition axialGravityEngine (axisPoint axisDirection : vec) (acceleration : R) (m : Z) (c : container) : forces -> forces :=
  for_bodies c (fun i b F =>
    if selected m b then
      let x0 := fpos b in let x1 := axisPoint in let x2 := vadd axisPoint axisDirection in
      if Req_EM_T (norm2 (vsub x2 x1)) 0 then addForce F i None
      else let closest := vadd x1 (smul (- dot (vsub x1 x0) (vsub x2 x1) / norm2 (vsub x2 x1)) (vsub x2 x1)) in
           let toAxis := vnormalize (vsub closest x0) in
           if Req_EM_T (norm2 toAxis) 0 then F else addForce F i (Some (smul (acceleration * fmass b) toAxis))
    else F).

(** ** ForceEngine.cpp; ids are the numbers given, of which some are no bodies *)
(** core/BodyContainer.hpp:76-78 *)
Definition exists_ (c : container) (i : Z) : option (nat * fbody) :=
  if (i <? 0)%Z then None else match body c (Z.to_nat i) with Some b => Some (Z.to_nat i, b) | None => None end.
(** :19-24 *)
Definition forceEngine (force : vec) (ids : list Z) (c : container) (F : forces) : forces :=
  fold_left (fun F id => match exists_ c id with Some (i, _) => addForce F i (Some force) | None => F end) ids F.
(** :26-31: the state of the interpolation is kept; *times.begin() of no times is undefined *)
Definition interpolatingForceEngine (times magnitudes : list R) (direction : vec) (wrap : bool) (time : R) (st : Z) (ids : list Z) (c : container) (F : forces) :
  Interp_Model.outcome (forces * vec * Z) :=
  let dir := vnormalize direction in
  let run t := match Interp_Model.linearInterpolate t times magnitudes st with
               | Interp_Model.Done (a, st') => Interp_Model.Done (forceEngine (smul a dir) ids c F, dir, st')
               | Interp_Model.NaN p => Interp_Model.NaN p | Interp_Model.UB => Interp_Model.UB | Interp_Model.Hang => Interp_Model.Hang end in
  if wrap then
    match Interp_Model.get times 0, Interp_Model.back times with
    | Some t0, Some t1 => if Req_EM_T t1 t0 then Interp_Model.NaN st else run (Interp_Model.periodicWrap time t0 t1)
    | _, _ => Interp_Model.UB
    end
  else run time.
(** :35-43; [axisDir] as it is after :33 *)
Definition radialForceEngine (axisPt axisDir : vec) (fNorm : R) (ids : list Z) (c : container) (F : forces) : forces :=
  fold_left (fun F id => match exists_ c id with
    | Some (i, b) => let radial := vnormalize (vsub (fpos b) (vadd axisPt (smul (dot (vsub (fpos b) axisPt) axisDir) axisDir))) in
                     if Req_EM_T (norm2 radial) 0 then F else addForce F i (Some (smul fNorm radial))
    | None => F end) ids F.
(** :47-48: Body::byId is called before exists: a number outside of the container is undefined behaviour *)
Definition outside (c : container) (id : Z) : bool := ((id <? 0) || (Z.of_nat (length c) <=? id))%Z.
(** :45-63; [A] is the cross section *)
Definition vec_zero_dec (v : vec) : {v = vzero} + {v <> vzero} := Newton_Model.vec_eq_dec v vzero.
Definition dragForce (Rho Cd radius : R) (v : vec) : vec :=
  let A := radius * radius * PI in
  if vec_zero_dec v then vzero else smul (- (1/2) * Rho * A * Cd * norm2 v) (vnormalize v).
(** :73-78 *)
Definition linearDragForce (nu radius : R) (v : vec) : vec :=
  if vec_zero_dec v then vzero else smul (- (6 * PI * nu * radius)) v.
Definition dragEngine (law : R -> vec -> vec) (ids : list Z) (c : container) (F : forces) : option forces :=
  fold_left (fun o id => match o with
    | None => None
    | Some F => if outside c id then None
                else match body c (Z.to_nat id) with
                     | Some b => match fradius b with Some r => Some (addForce F (Z.to_nat id) (Some (law r (fvel b)))) | None => Some F end
                     | None => Some F
                     end
    end) ids (Some F).
