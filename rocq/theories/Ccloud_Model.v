(** Model of random packings of clumps: pkg/dem/SpherePack.{hpp,cpp}, makeClumpCloud.

    Simplifications
    - real numbers without rounding (see Vec_Model.v); numbers divided by zero are None, and then comparisons are false as with nan;
    - a pseudo-random number generator is a function that gives the number drawn at each rank (its seed: Cloud_Model.v);
    - the four numbers of an orientation are drawn from left to right; four zeros are the identity;
    - ids of spheres have no limit; the outer loop takes fuel; warnings are left out. *)
From Coq Require Import Reals List ZArith Bool.
From Verif Require Import Vec_Model Cloud_Model Spack_Model.
Import ListNotations.
Local Open Scope R_scope.

(** arguments (SpherePack.cpp:313) *)
Record cargs := mkArgs { cmn : vec; cmx : vec; given : list spack; cperi : bool; cnum : Z }.
(** SpherePack.hpp:21; the number of the clump is not read *)
Record info := mkInfo { center : vec; irad : R; minId : nat; maxId : nat }.

(** SpherePack.cpp:319-320 *)
Definition recenter (s : spack) : spack := translate (midPt (pack s)) s.
(** SpherePack.cpp:322-323 *)
Definition boundRad (s : spack) : R := fold_left (fun m a => Rmax m (norm (c a) + r a)) (pack s) 0.
(** SpherePack.hpp:16-20 *)
Definition periPtDistSq (cs a b : vec) : option R :=
  if is_zero (vx cs) || is_zero (vy cs) || is_zero (vz cs) then None
  else let d s x y := Rmin (cellWrapRel x y (y + s)) (cellWrapRel y x (x + s)) in
    Some (norm2 (V (d (vx cs) (vx a) (vx b)) (d (vy cs) (vy a) (vy b)) (d (vz cs) (vz a) (vz b)))).
Definition below_opt (x : option R) (y : R) : bool := match x with Some v => ltb v y | None => false end.
(** SpherePack.cpp:338: the number that is subtracted is lost in rounding *)
Definition choose (x : R) (n : nat) : nat := Z.to_nat (Int_part (x * INR n)).

(** what a test gives: nothing found, an overlap, or undefined behaviour *)
Inductive verdict := Free | Hit | Wild.
Fixpoint scan {A} (f : A -> verdict) (l : list A) : verdict :=
  match l with [] => Free | a :: l' => match f a with Free => scan f l' | v => v end end.
(** SpherePack.cpp:356: one side out of the box *)
Definition outside (q : cargs) (x : vec) (rad : R) : bool :=
  negb (leb (vx x + rad) (vx (cmx q)) && leb (vy x + rad) (vy (cmx q)) && leb (vz x + rad) (vz (cmx q)) &&
        leb (vx (cmn q)) (vx x - rad) && leb (vy (cmn q)) (vy x - rad) && leb (vz (cmn q)) (vz x - rad)).

Section Numbers.
Variable rnd : nat -> R.
(** what is in the memory behind the last sphere, None: the process ends *)
Variable past : list sph -> option sph.

Definition read (l : list sph) (id : nat) : option sph := match nth_error l id with Some t => Some t | None => past l end.
(** SpherePack.cpp:358-364, 367-375 *)
Definition against (dist2 : vec -> vec -> option R) (l : list sph) (C : list sph) (pos : vec) (rad : R) (i : info) : verdict :=
  if below_opt (dist2 pos (center i)) ((rad + irad i) ^ 2) then
    if existsb (fun s => below_opt (dist2 (c s) (center i)) ((r s + irad i) ^ 2)) C then
      scan (fun s => scan (fun id => match read l id with
                                     | None => Wild
                                     | Some t => if below_opt (dist2 (c s) (c t)) ((r s + r t) ^ 2) then Hit else Free
                                     end) (seq (minId i) (S (maxId i - minId i)))) C
    else Free
  else Free.
Definition plain (a b : vec) : option R := Some (norm2 (vsub a b)).
(** SpherePack.cpp:353-377 *)
Definition test (q : cargs) (l : list sph) (infos : list info) (C : list sph) (pos : vec) (rad : R) : verdict :=
  if negb (cperi q) then
    if outside q pos rad && existsb (fun s => outside q (c s) (r s)) C then Hit
    else scan (against plain l C pos rad) infos
  else scan (against (periPtDistSq (vsub (cmx q) (cmn q))) l C pos rad) infos.
(** SpherePack.cpp:341-344 *)
Definition position (q : cargs) (k : nat) : vec :=
  let f i m n := rnd i * (n - m) + m in
  V (f k (vx (cmn q)) (vx (cmx q))) (f (1 + k)%nat (vy (cmn q)) (vy (cmx q))) (f (2 + k)%nat (vz (cmn q)) (vz (cmx q))).
(** SpherePack.cpp:346 *)
Definition orientation (k : nat) : quat := qnormalize (Q (rnd (3 + k)%nat) (V (rnd (4 + k)%nat) (rnd (5 + k)%nat) (rnd (6 + k)%nat))).
(** SpherePack.cpp:348 *)
Definition copy (q : cargs) (s : spack) (k : nat) : list sph := pack (translate (position q k) (rotateAroundOrigin (orientation k) s)).
(** SpherePack.cpp:340-420: at most [n] tries *)
Inductive tried := Placed (C : list sph) (pos : vec) (k : nat) | GaveUp | Crash.
Fixpoint tries (n : nat) (q : cargs) (l : list sph) (infos : list info) (s : spack) (k : nat) : tried :=
  match n with
  | O => GaveUp
  | S n' =>
    match test q l infos (copy q s k) (position q k) (boundRad s) with
    | Free => Placed (copy q s k) (position q k) (7 + k)%nat
    | Hit => tries n' q l infos s (7 + k)
    | Wild => Crash
    end
  end.
(** what the call does: it returns a number, is undefined, or is still running when the fuel is used *)
Inductive looped := LReturns (n : nat) (l : list sph) | LUndefined | LRunning.
(** SpherePack.cpp:403-406 *)
Definition numbered (n : nat) (a : sph) : sph := mkSph (c a) (r a) (Z.of_nat n).
(** SpherePack.cpp:337-423 *)
Fixpoint loop (fuel attempts : nat) (q : cargs) (n : nat) (l : list sph) (infos : list info) (k : nat) : looped :=
  match fuel with
  | O => LRunning
  | S f =>
    if (Z.of_nat n <? cnum q)%Z || (cnum q <? 0)%Z then
      match nth_error (map recenter (given q)) (choose (rnd k) (length (given q))) with
      | None => LUndefined
      | Some s =>
        match tries attempts q l infos s (S k) with
        | Placed C pos k' =>
          loop f attempts q (S n) (l ++ map (numbered n) C) (infos ++ [mkInfo pos (boundRad s) (length l) (length l + length C)]) k'
        | GaveUp => LReturns n l
        | Crash => LUndefined
        end
      end
    else LReturns n l
  end.
End Numbers.
(** SpherePack.cpp:331,416: the counter is compared before it is incremented *)
Definition maxTries : nat := 200.
Inductive ccall := CReturns (n : nat) (s : spack) | CUndefined | CRunning.
(** SpherePack.cpp:313-424 *)
Definition makeClumpCloud (rnd : nat -> R) (past : list sph -> option sph) (fuel : nat) (q : cargs) (s : spack) : ccall :=
  match loop rnd past fuel (S maxTries) q 0 (pack s) [] 0 with
  | LReturns n l => CReturns n (mkPack l (if cperi q then vsub (cmx q) (cmn q) else cellSize s) (appliedPsdScaling s) (isPeriodic s))
  | LUndefined => CUndefined
  | LRunning => CRunning
  end.
