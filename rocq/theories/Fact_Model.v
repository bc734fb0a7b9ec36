(** Model of engines that make and delete particles: pkg/dem/SpheresFactory.{hpp,cpp}, DomainLimiter of
    pkg/dem/DomainLimiter.cpp, and InsertionSortCollider::probeBoundingVolume.

    Simplifications
    - real numbers without rounding; numbers from the generator are a stream of reals, read in order;
    - materials are their densities; attributes of a new body that are copied (color, blocked degrees of
      freedom, mask) and inertia are left out; ids are those of BodyContainer::insert (not modelled here);
    - [normalVel] is None while it is NaN, its default; [normal] is a vector. *)
From Coq Require Import Reals List ZArith Bool Arith.
From Verif Require Import Vec_Model.
Import ListNotations.
Local Open Scope R_scope.

Record ball := mkBall { bcenter : vec; bradius : R; bvel : vec; bmass : R }.
Record fconf := mkF { rMin : R; rMax : R; vMin : R; vMax : R; vAngle : R; normal : vec; normalVel : option vec; densities : list R; materialId : Z; maxParticles : Z;
  maxAttempt : Z; silent : bool; stopIfFailed : bool; exactDiam : bool; PSDsizes : list R; PSDcalculateMass : bool; pick : (nat -> R) -> nat -> R -> vec * nat }.
(** [PSDuse] and the three lists after it are not attributes; [seed]: how many random numbers have been used *)
Record fstate := mkS { goalMass : R; totalMass : R; totalVolume : R; numParticles : Z; massFlowRate : R; maxMass : R; PSDcum : list R;
  PSDuse : bool; PSDNeedProc : list R; PSDCurMean : list R; PSDCurProc : list R; seed : nat; made : list ball }.
Inductive fresult := Done (s : fstate) | Failed (s : fstate) | More (s : fstate) | Throws (s : fstate) | UB.

(** cpp:43-56 *)
Fixpoint ascending (l : list R) : bool :=
  match l with
  | x :: (y :: _) as l' => if Rlt_dec y x then false else if Rle_dec x 0 then false else ascending l'
  | _ => true
  end.
(** cpp:58-65; [junk] is what is behind the end of the array (reading it is undefined); the first item is not divided *)
Definition normalized (junk : R) (l : list R) : list R :=
  if Req_EM_T junk 1 then l else match l with [] => [] | x :: l' => x :: map (fun y => y * (1 / last l 0)) l' end.
(** cpp:69-78 *)
Fixpoint differences (p : R) (l : list R) : list R := match l with [] => [] | x :: l' => (x - p) :: differences x l' end.
(** cpp:33-79; None: throws. The size of an empty array minus one is not the size of another *)
Definition initPSD (c : fconf) (junk : R) (s : fstate) : option fstate :=
  if PSDuse s || Nat.eqb (length (PSDcum s)) 0 then Some s
  else if exactDiam c && negb (Nat.eqb (length (PSDcum s)) (length (PSDsizes c))) then None
  else if negb (exactDiam c) && negb (Nat.eqb (S (length (PSDcum s))) (length (PSDsizes c))) then None
  else if negb (ascending (PSDcum s) && ascending (PSDsizes c)) then None
  else let cum := normalized junk (PSDcum s) in
    Some (mkS (goalMass s) (totalMass s) (totalVolume s) (numParticles s) (massFlowRate s) (maxMass s) cum true
            (PSDNeedProc s ++ differences 0 cum) (PSDCurMean s ++ map (fun _ => 0) cum) (PSDCurProc s ++ map (fun _ => 0) cum) (seed s) (made s)).
(** cpp:105-115 *)
Fixpoint best (k : nat) (l : list (R * R)) (maxdiff : R) (id : nat) : nat :=
  match l with
  | [] => id
  | (n, p) :: l' => if Rlt_dec maxdiff (n - p) then best (S k) l' (n - p) k else best (S k) l' maxdiff id
  end.
(** cpp:103-127: radius, bin, numbers used; None: outside of an array *)
Definition radius (c : fconf) (rnd : nat -> R) (s : fstate) : option (R * nat * nat) :=
  if PSDuse s then
    if Nat.ltb (length (PSDNeedProc s)) (length (PSDcum s)) || Nat.ltb (length (PSDCurProc s)) (length (PSDcum s)) then None else
    let id := best 0 (firstn (length (PSDcum s)) (combine (PSDNeedProc s) (PSDCurProc s))) 0 0 in
    match nth_error (PSDsizes c) id, nth_error (PSDsizes c) (S id) with
    | Some a, b => if exactDiam c then Some (a / 2, id, seed s)
                   else match b with Some b => Some (a / 2 + rnd (seed s) * (b / 2 - a / 2), id, S (seed s)) | None => None end
    | None, _ => None
    end
  else Some (rMin c + rnd (seed s) * (rMax c - rMin c), 0%nat, S (seed s)).
(** cpp:139-147 *)
Definition collides (new : list ball) (x : vec) (r : R) : bool :=
  existsb (fun b => if Rlt_dec (norm (vsub (bcenter b) x)) (bradius b + r) then true else false) new.
(** cpp:131-153 *)
Fixpoint attempts (c : fconf) (rnd : nat -> R) (probe : vec -> R -> bool) (new : list ball) (r : R) (n : nat) (sd : nat) : option vec * nat :=
  match n with
  | O => (None, sd)
  | S n' => let '(x, sd') := pick c rnd sd r in if negb (probe x r) && negb (collides new x r) then (Some x, sd') else attempts c rnd probe new r n' sd'
  end.
(** a negative number of attempts: the loop is not entered, and not taken for failure (cpp:133,154) *)
Definition place c rnd probe new r sd : option vec * nat :=
  if (maxAttempt c <? 0)%Z then (Some vzero, sd) else attempts c rnd probe new r (Z.to_nat (maxAttempt c)) sd.
(** cpp:163-166 *)
Definition density (c : fconf) : option R :=
  let n := Z.of_nat (length (densities c)) in
  let i := if (0 <=? materialId c)%Z then materialId c else (n + materialId c)%Z in
  if (i <? 0)%Z || (n <=? i)%Z then None else nth_error (densities c) (Z.to_nat i).
Fixpoint addAt (k : nat) (w : R) (l : list R) : list R := match l, k with [], _ => [] | x :: l', O => (x + w) :: l' | x :: l', S k' => x :: addAt k' w l' end.
Definition sphereVolume (r : R) : R := 4 / 3 * PI * (r * r * r).
(** cpp:102 *)
Definition wants (c : fconf) (s : fstate) : bool :=
  (if Rlt_dec (totalMass s) (goalMass s) then true else false) && ((maxParticles c <? 0)%Z || (numParticles s <? maxParticles c)%Z)
  && ((if Rlt_dec (maxMass s) 0 then true else false) || (if Rlt_dec (totalMass s) (maxMass s) then true else false)).
(** cpp:186-204 *)
Definition add (c : fconf) (s : fstate) (id sd : nat) (b : ball) : fstate :=
  let tm := totalMass s + bmass b in let n := (numParticles s + 1)%Z in
  let mean := if PSDuse s then addAt id (if PSDcalculateMass c then bmass b else 1) (PSDCurMean s) else PSDCurMean s in
  let sum := if PSDcalculateMass c then tm else IZR n in
  let proc := if PSDuse s then map (fun m => m / sum) (firstn (length (PSDcum s)) mean) ++ skipn (length (PSDcum s)) (PSDCurProc s) else PSDCurProc s in
  mkS (goalMass s) tm (totalVolume s + sphereVolume (bradius b)) n (massFlowRate s) (maxMass s) (PSDcum s) (PSDuse s) (PSDNeedProc s) mean proc sd (made s ++ [b]).
(** cpp:154-161 *)
Definition fail (c : fconf) (s : fstate) (sd : nat) : fstate :=
  mkS (if stopIfFailed c then totalMass s else goalMass s) (totalMass s) (totalVolume s) (numParticles s) (if stopIfFailed c then 0 else massFlowRate s) (maxMass s) (PSDcum s) (PSDuse s)
    (PSDNeedProc s) (PSDCurMean s) (PSDCurProc s) sd (made s).
Definition setSeed (s : fstate) (sd : nat) : fstate :=
  mkS (goalMass s) (totalMass s) (totalVolume s) (numParticles s) (massFlowRate s) (maxMass s) (PSDcum s) (PSDuse s) (PSDNeedProc s) (PSDCurMean s) (PSDCurProc s) sd (made s).
(** cpp:102-206, at most [fuel] particles; [new]: made in this step *)
Fixpoint loop (c : fconf) (rnd : nat -> R) (probe : vec -> R -> bool) (vel : vec) (fuel : nat) (new : list ball) (s : fstate) : fresult :=
  if wants c s then
    match fuel with
    | O => More s
    | S fuel' =>
      match radius c rnd s with
      | None => UB
      | Some (r, id, sd) =>
        match place c rnd probe new r sd with
        | (None, sd) => Failed (fail c s sd)
        | (Some x, sd) =>
          match density c with
          | None => Throws (setSeed s sd)
          | Some rho => let b := mkBall x r vel (sphereVolume r * rho) in loop c rnd probe vel fuel' (new ++ [b]) (add c s id sd b)
          end
        end
      end
    end
  else Done s.
(** cpp:81,92-100 *)
Definition direction (c : fconf) : vec :=
  let n := smul (/ norm (normal c)) (normal c) in
  match normalVel c with Some v => if Rlt_dec 0 (norm v) then smul (/ norm v) v else n | None => n end.
(** cpp:24-208; [fuel] bounds the number of particles of the step *)
Definition action (c : fconf) (rnd : nat -> R) (probe : vec -> R -> bool) (junk dt : R) (fuel : nat) (s : fstate) : fresult :=
  let s := mkS (goalMass s + massFlowRate s * dt) (totalMass s) (totalVolume s) (numParticles s) (massFlowRate s) (maxMass s) (PSDcum s) (PSDuse s) (PSDNeedProc s) (PSDCurMean s) (PSDCurProc s) (seed s) (made s) in
  match initPSD c junk s with
  | None => Throws s
  | Some s =>
    let mm := if (if Rlt_dec 0 (maxMass s) then true else false) && (0 <? maxParticles c)%Z then -1 else maxMass s in
    let v := vMin c + rnd (seed s) * (vMax c - vMin c) in
    let s := mkS (goalMass s) (totalMass s) (totalVolume s) (numParticles s) (massFlowRate s) mm (PSDcum s) (PSDuse s) (PSDNeedProc s) (PSDCurMean s) (PSDCurProc s) (S (seed s)) (made s) in
    loop c rnd probe (smul v (direction c)) fuel [] s
  end.
(** cpp:210-215; [q] turns the z axis to the normal (setFromTwoVectors) *)
Definition circular (q : quat) (n center : vec) (rad len : R) (rnd : nat -> R) (sd : nat) (r : R) : vec * nat :=
  let angle := rnd sd * 2 * PI in let rr := rnd (S sd) * (rad - r) in let l := (rnd (S (S sd)) - 1/2) * len in
  (vadd (vadd center (qrot q (V (cos angle * rr) (sin angle * rr) 0))) (smul l n), S (S (S sd))).
(** cpp:217-221 *)
Definition boxed (q : quat) (center ext : vec) (rnd : nat -> R) (sd : nat) (r : R) : vec * nat :=
  (vadd center (qrot q (V ((rnd sd - 1/2) * 2 * vx ext) ((rnd (S sd) - 1/2) * 2 * vy ext) ((rnd (S (S sd)) - 1/2) * 2 * vz ext))), S (S (S sd))).
(** saving and loading: what is not an attribute is as constructed *)
Definition reload (s : fstate) : fstate :=
  mkS (goalMass s) (totalMass s) (totalVolume s) (numParticles s) (massFlowRate s) (maxMass s) (PSDcum s) false [] [] [] (seed s) (made s).

(** pkg/common/InsertionSortCollider.cpp:148-172; lower bounds along x in their order; [bmin], [bmax] as
    stored by the collider, enlarged by [sweep]; [disp] is the displacement since *)
Record entry := mkEn { eid : nat; coord : R; isMin : bool; hasBB : bool; bmin : vec; bmax : vec; sweep : R; disp : vec; exists_ : bool }.
Definition apart (e : entry) (lo hi : vec) : bool :=
  let lt a b := if Rlt_dec a b then true else false in
  lt (vx (bmax e) - sweep e + vx (disp e)) (vx lo) || lt (vx hi) (vx (bmin e) + sweep e + vx (disp e))
  || lt (vy hi) (vy (bmin e) + sweep e + vy (disp e)) || lt (vy (bmax e) - sweep e + vy (disp e)) (vy lo)
  || lt (vz hi) (vz (bmin e) + sweep e + vz (disp e)) || lt (vz (bmax e) - sweep e + vz (disp e)) (vz lo).
Fixpoint probeBB (l : list entry) (lo hi : vec) : list nat :=
  match l with
  | [] => []
  | e :: l' => if Rlt_dec (vx hi) (coord e) then []
               else if isMin e && hasBB e && exists_ e && negb (apart e lo hi) then eid e :: probeBB l' lo hi else probeBB l' lo hi
  end.

(** DomainLimiter, pkg/dem/DomainLimiter.cpp:11-30; a coordinate that is NaN is None *)
Record point := P3 { px : option R; py : option R; pz : option R }.
Inductive kind := Sphere (r : R) | Clump (members : list nat) | OtherShape.
Record body := mkB { bpos : point; bkind : kind; clumpOf : option nat; mass : R; groupMask : Z }.
Definition bodies := nat -> option body.
Record limiter := mkL { lo : vec; hi : vec; lmask : Z; nDeleted : Z; mDeleted : R; vDeleted : R }.
Definition below (x : option R) (y : R) : bool := match x with Some x => if Rlt_dec x y then true else false | None => false end.
Definition above (x : option R) (y : R) : bool := match x with Some x => if Rlt_dec y x then true else false | None => false end.
Definition outside (l : limiter) (p : point) : bool :=
  below (px p) (vx (lo l)) || above (px p) (vx (hi l)) || below (py p) (vy (lo l)) || above (py p) (vy (hi l)) || below (pz p) (vz (lo l)) || above (pz p) (vz (hi l)).
Definition deletable (l : limiter) (b : body) : bool :=
  negb ((0 <? lmask l)%Z && (Z.land (groupMask b) (lmask l) =? 0)%Z) && (match clumpOf b with Some _ => false | None => true end)
  && (match bkind b with OtherShape => false | _ => true end) && outside l (bpos b).
Definition counted (l : limiter) (b : body) : limiter :=
  mkL (lo l) (hi l) (lmask l) (nDeleted l + 1) (mDeleted l + mass b) (match bkind b with Sphere r => vDeleted l + sphereVolume r | _ => vDeleted l end).
(** BodyContainer::erase with eraseClumpMembers (core/BodyContainer.cpp:41-75), for a body that is not a member *)
Definition erase (B : bodies) (i : nat) : bodies :=
  match B i with
  | Some b => match bkind b with
              | Clump ms => fun j => if Nat.eqb j i || existsb (Nat.eqb j) ms then None else B j
              | _ => fun j => if Nat.eqb j i then None else B j
              end
  | None => B
  end.
(** bodies with ids below [n]; the first loop, then the second *)
Fixpoint collect (n : nat) (i : nat) (B : bodies) (l : limiter) : list nat * limiter :=
  match n with
  | O => ([], l)
  | S n' => match B i with
            | Some b => if deletable l b then let '(o, l') := collect n' (S i) B (counted l b) in (i :: o, l') else collect n' (S i) B l
            | None => collect n' (S i) B l
            end
  end.
Definition limit (n : nat) (B : bodies) (l : limiter) : bodies * limiter :=
  let '(o, l') := collect n 0 B l in (fold_left erase o B, l').
