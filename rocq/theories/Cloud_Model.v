(** Model of random packings of spheres: pkg/dem/SpherePack.{hpp,cpp}, makeCloud.

    Simplifications
    - real numbers without rounding (see Vec_Model.v); pow of a number that is not positive and of a zero radius
      is as in Coq, not nan or infinite: the theorems state positive numbers where this matters;
    - a pseudo-random number generator is a function that gives the number drawn at each rank;
    - loops whose number of turns is not known before take fuel;
    - warnings and logs are left out. *)
From Coq Require Import Reals List ZArith Bool.
From Verif Require Import Vec_Model.
Import ListNotations.
Local Open Scope R_scope.

(** SpherePack.hpp:29-38 *)
Record sph := mkSph { c : vec; r : R; clumpId : Z }.
(** SpherePack.hpp:39-42; the generator behind the method is not a member *)
Record spack := mkPack { pack : list sph; cellSize : vec; appliedPsdScaling : R; isPeriodic : bool }.
(** SpherePack.hpp:43 *)
Definition empty : spack := mkPack [] vzero 1 false.

Definition is_zero (x : R) : bool := if Req_EM_T x 0 then true else false.
Definition ltb (x y : R) : bool := if Rlt_dec x y then true else false.
Definition leb (x y : R) : bool := if Rle_dec x y then true else false.
Definition vec_zero (a : vec) : bool := is_zero (vx a) && is_zero (vy a) && is_zero (vz a).
Definition mat_zero (A : mat) : bool := vec_zero (r0 A) && vec_zero (r1 A) && vec_zero (r2 A).

(** SpherePack.hpp:12-15 *)
Definition cellWrapRel (x x0 x1 : R) : R :=
  let n := (x - x0) / (x1 - x0) in (n - IZR (Int_part n)) * (x1 - x0).
(** lib/base/Math.hpp:160 *)
Definition sign (x : R) : R := if ltb x 0 then -1 else if ltb 0 x then 1 else 0.
(** pow(x,1/3.) for x >= 0 *)
Definition cbrt (x : R) : R := if is_zero x then 0 else Rpower x (1 / 3).

(** ** Arguments (SpherePack.cpp:86, defaults in py/pack/_packSpheres.cpp:19) *)
Record params := mkParams { mn : vec; mx : vec; rMean : R; rRelFuzz : R; num : Z; periodic : bool; porosity : R;
  psdSizes : list R; psdCumm : list R; distributeMass : bool; hSize : mat }.
Inductive mode := RDIST_RMEAN | RDIST_NUM | RDIST_PSD.
(** local variables before the loop *)
Record plan := mkPlan { size : vec; hSizeFound : bool; cell : mat; how : mode; mean : R; psdRadii : list R; cumm : list R }.

(** SpherePack.cpp:92-98 *)
Definition box (q : params) : vec := vsub (mx q) (mn q).
Definition period (q : params) : mat := if mat_zero (hSize q) then diag (box q) else hSize q.
Definition volume (q : params) : R := det (period q).
Definition area (q : params) : R := let s := box q in Rabs (vx s * vz s + vx s * vy s + vy s * vz s).
(** SpherePack.cpp:104 *)
Definition poro (q : params) : R := if leb (porosity q) 0 then 1/2 else porosity q.
(** volume?volume:(area*psdSizes[psdSizes.size()-1]) *)
Definition room (q : params) : R := if is_zero (volume q) then area q * last (psdSizes q) 0 else volume q.
(** consecutive elements *)
Fixpoint pairs {A} (l : list A) : list (A * A) :=
  match l with a :: (b :: _) as l' => (a, b) :: pairs l' | _ => [] end.
(** SpherePack.cpp:126-127: psdCumm2 before it is normalized *)
Fixpoint numbers (k acc : R) (l : list ((R * R) * (R * R))) : list R :=
  match l with
  | [] => []
  | ((s0, s1), (c0, c1)) :: l' => let acc' := acc + k * (c1 - c0) / (s1 - s0) * (/ (s0 * s0) - / (s1 * s1)) in acc' :: numbers k acc' l'
  end.
Definition psdCumm2 (q : params) : list R :=
  0 :: numbers (3 * room q * (1 - poro q) / PI) 0 (combine (pairs (psdSizes q)) (pairs (psdCumm q))).
(** SpherePack.cpp:139-142; 4/3 is a division of integers *)
Definition totVol (q : params) : R :=
  fold_left (fun v x => let '((s0, s1), (c0, c1)) := x in v + IZR (4 / 3) * PI * (c1 - c0) * IZR (num q) * (1/2 * (s1 + s0)) ^ 3 * (1 + (1/2 * (s1 - s0)) ^ 2))
    (combine (pairs (psdSizes q)) (pairs (psdCumm q))) 0.
(** SpherePack.cpp:134-144 *)
Definition scaling (q : params) : R :=
  if distributeMass q then let n := last (psdCumm2 q) 0 in if ltb n (IZR (num q)) then cbrt (n / IZR (num q)) else 1
  else let v := totVol q / ((1 - poro q) * room q) in if ltb 1 v then / cbrt v else 1.
(** SpherePack.cpp:131 *)
Definition increasing (l : list R) : bool := forallb (fun x => leb (fst x) (snd x)) (pairs l).
(** SpherePack.cpp:110-113 *)
Definition mean_radius (q : params) : option R :=
  if negb (is_zero (volume q)) then Some (cbrt (volume q * (1 - poro q) / (PI * (4 / 3) * (1 + rRelFuzz q * rRelFuzz q) * IZR (num q))))
  else if is_zero (area q) then None
  else Some (sqrt (area q * (1 - poro q) / (PI * (1 + rRelFuzz q * rRelFuzz q) * IZR (num q)))).
(** SpherePack.cpp:92-150: what is used in the loop, None: exception; the attribute appliedPsdScaling if it is assigned *)
Definition prepare (q : params) : option plan * option R :=
  let found := negb (mat_zero (hSize q)) in
  let mkplan := mkPlan (box q) found (period q) in
  if is_zero (volume q) && found then (None, None)
  else
    let m := if ltb 0 (rMean q) then Some (RDIST_RMEAN, rMean q)
             else if (0 <? num q)%Z && (length (psdSizes q) =? 0)%nat
             then match mean_radius q with Some x => Some (RDIST_NUM, x) | None => None end
             else None in
    if (length (psdSizes q) =? 0)%nat then
      match m with Some (w, x) => (Some (mkplan w x [] []), None) | None => (None, None) end
    else if negb (length (psdSizes q) =? length (psdCumm q))%nat then (None, None)
    else if (length (psdSizes q) <=? 1)%nat then (None, None)
    else if negb (is_zero (hd 0 (psdCumm q))) && negb (is_zero (last (psdCumm q) 0 - 1)) then (None, None)
    else if negb (increasing (psdSizes q)) || negb (increasing (psdCumm q)) then (None, None)
    else
      let radii := map (fun s => 1/2 * s) (psdSizes q) in
      let sc := if (1 <? num q)%Z then Some (scaling q) else None in
      let radii := match sc with Some k => if ltb k 1 then map (fun x => k * x) radii else radii | None => radii end in
      let cumm := if distributeMass q then map (fun x => x / last (psdCumm2 q) 0) (psdCumm2 q) else psdCumm q in
      match m with
      | Some _ => (None, sc)
      | None => (Some (mkplan RDIST_PSD (rMean q) radii cumm), sc)
      end.

(** ** Radii *)
(** SpherePack.cpp:285-293; index of the piece and norm; None: outside of the vector.  The condition in line 288 never holds *)
Fixpoint upper (x : R) (l : list R) : nat :=
  match l with a :: l' => if leb a x then S (upper x l') else O | [] => O end.
Definition psdGetPiece (x : R) (l : list R) : option (nat * R) :=
  match upper x l with
  | O => None
  | S i => match nth_error l i, nth_error l (S i) with
           | Some a, Some b => Some (i, (x - a) / (b - a))
           | _, _ => None
           end
  end.
(** SpherePack.hpp:62; the power -1./2 *)
Definition pow3Interp (x a b : R) : R := / sqrt (x * (/ (b * b) - / (a * a)) + / (a * a)).
(** SpherePack.cpp:161-176; None: undefined *)
Definition radius (q : params) (p : plan) (rand : R) : option R :=
  match how p with
  | RDIST_PSD =>
    match psdGetPiece rand (cumm p) with
    | None => None
    | Some (i, t) =>
      match nth_error (psdRadii p) i, nth_error (psdRadii p) (S i) with
      | Some a, Some b => Some (if distributeMass q then pow3Interp t a b else a + t * (b - a))
      | _, _ => None
      end
    end
  | _ => Some (if distributeMass q then pow3Interp rand (mean p * (1 - rRelFuzz q)) (mean p * (1 + rRelFuzz q))
               else mean p * (2 * (rand - 1/2) * rRelFuzz q + 1))
  end.
(** SpherePack.cpp:158 *)
Definition rank_rand (q : params) (i : nat) : R := (IZR (num q) - INR i + 1/2) / (IZR (num q) + 1).

(** ** Places *)
Section Numbers.
Variable rnd : nat -> R.

(** SpherePack.cpp:183: one coordinate, and the rank of the next number *)
Definition coordinate (m s rad : R) (k : nat) : R * nat := if is_zero s then (m + 0, k) else (m + ((s - 2 * rad) * rnd k + rad), S k).
(** SpherePack.cpp:179-190 *)
Definition draw (q : params) (p : plan) (rad : R) (k : nat) : vec * nat :=
  if negb (periodic q) then
    let '(x, k1) := coordinate (vx (mn q)) (vx (size p)) rad k in
    let '(y, k2) := coordinate (vy (mn q)) (vy (size p)) rad k1 in
    let '(z, k3) := coordinate (vz (mn q)) (vz (size p)) rad k2 in
    (V x y z, k3)
  else (vadd (mulv (cell p) (V (rnd k) (rnd (S k)) (rnd (S (S k))))) (mn q), S (S (S k))).
(** SpherePack.cpp:206-211 *)
Definition wrap_axis (s x y : R) : R :=
  if is_zero s then 0 else Rmin (cellWrapRel x y (y + s)) (cellWrapRel y x (x + s)).
(** SpherePack.cpp:216-217 *)
Definition nearest (x : R) : R := if ltb (Rabs x) (Rabs (x - sign x)) then x else x - sign x.
(** SpherePack.cpp:203-220 and, without periodicity, :196 *)
Definition gap (q : params) (p : plan) (x y : vec) : vec :=
  if negb (periodic q) then vsub y x
  else if negb (hSizeFound p) then V (wrap_axis (vx (size p)) (vx x) (vx y)) (wrap_axis (vy (size p)) (vy x) (vy y)) (wrap_axis (vz (size p)) (vz x) (vz y))
  else let d := mulv (minv (cell p)) (vsub y x) in mulv (cell p) (V (nearest (vx d)) (nearest (vy d)) (nearest (vz d))).
(** SpherePack.cpp:194-226 *)
Definition overlaps (q : params) (p : plan) (l : list sph) (x : vec) (rad : R) : bool :=
  existsb (fun s => leb (norm2 (gap q p x (c s))) ((r s + rad) ^ 2)) l.
(** SpherePack.cpp:178-231: at most [tries] tries *)
Fixpoint place (tries : nat) (q : params) (p : plan) (l : list sph) (rad : R) (k : nat) : option vec * nat :=
  match tries with
  | O => (None, k)
  | S t => let '(x, k') := draw q p rad k in
           if overlaps q p l x rad then place t q p l rad k' else (Some x, k')
  end.

(** what a call does: it returns a number, throws, is undefined, or is still running when the fuel is used *)
Inductive result :=
| Returned (n : Z) (s : spack) (k : nat)
| Throws (s : spack) (k : nat)
| Undefined
| Running.
(** how the loop ends *)
Inductive ended := AllPlaced (l : list sph) (k : nat) | NoPlace (i : nat) (l : list sph) (k : nat) | Outside | NotYet.
Definition more (n : Z) (i : nat) : bool := (Z.of_nat i <? n)%Z || (n <? 0)%Z.
(** SpherePack.cpp:155-253 up to the failure *)
Fixpoint spheres (fuel maxTry : nat) (q : params) (p : plan) (i : nat) (l : list sph) (k : nat) : ended :=
  match fuel with
  | O => NotYet
  | S f =>
    if more (num q) i then
      let '(rand, k1) := if (0 <? num q)%Z then (rank_rand q i, k) else (rnd k, S k) in
      match radius q p rand with
      | None => Outside
      | Some rad =>
        match place maxTry q p l rad k1 with
        | (Some x, k2) => spheres f maxTry q p (S i) (l ++ [mkSph x rad (-1)]) k2
        | (None, k2) => NoPlace i l k2
        end
      end
    else AllPlaced l k
  end.
Definition with_pack (s : spack) (l : list sph) : spack := mkPack l (cellSize s) (appliedPsdScaling s) (isPeriodic s).
(** SpherePack.cpp:244 *)
Definition again (q : params) : params :=
  mkParams (mn q) (mx q) (-1) (rRelFuzz q) (num q) (periodic q) (poro q + (1 - poro q) / 10) (psdSizes q) (psdCumm q) (distributeMass q) (hSize q).
(** SpherePack.cpp:86-256 *)
Fixpoint attempts (fuel maxTry : nat) (q : params) (s : spack) (k : nat) : result :=
  match fuel with
  | O => Running
  | S f =>
    let s1 := mkPack (pack s) (cellSize s) (appliedPsdScaling s) (periodic q) in
    let '(op, sc) := prepare q in
    let s2 := match sc with Some x => mkPack (pack s1) (cellSize s1) x (isPeriodic s1) | None => s1 end in
    match op with
    | None => Throws s2 k
    | Some p =>
      let s3 := if periodic q && negb (is_zero (volume q)) && negb (hSizeFound p) then mkPack (pack s2) (size p) (appliedPsdScaling s2) (isPeriodic s2) else s2 in
      match spheres f maxTry q p 0 (pack s3) k with
      | AllPlaced l k' => Returned (Z.of_nat (length l)) (with_pack s3 l) k'
      | NoPlace i l k' =>
        if (0 <? num q)%Z && match how p with RDIST_RMEAN => false | _ => true end
        then attempts f maxTry (again q) (with_pack s3 []) k'
        else Returned (Z.of_nat i) (with_pack s3 l) k'
      | Outside => Undefined
      | NotYet => Running
      end
    end
  end.
End Numbers.
(** SpherePack.cpp:152 *)
Definition maxTry : nat := Z.to_nat 1000.
Definition makeCloud (rnd : nat -> R) (fuel : nat) (q : params) (s : spack) (k : nat) : result := attempts rnd fuel maxTry q s k.

(** ** The generator (SpherePack.cpp:88-89): a static variable of the method, made by the first call in the process;
    its seed and the number of numbers drawn *)
Definition process := option (Z * nat).
Definition rank_after (x : result) (k : nat) : nat := match x with Returned _ _ k' | Throws _ k' => k' | _ => k end.
(** [gen]: the numbers a generator gives for each seed; [now]: the clock *)
Definition call (gen : Z -> nat -> R) (now : Z) (fuel : nat) (seed : Z) (q : params) (s : spack) (pr : process) : result * process :=
  let '(sd, k) := match pr with Some g => g | None => (if (seed =? 0)%Z then now else seed, O) end in
  let x := makeCloud (gen sd) fuel q s k in
  (x, Some (sd, rank_after x k)).
