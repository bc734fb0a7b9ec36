(** Wires between bodies: pkg/dem/WirePM.{hpp,cpp}. Uses Law for geometry.

    Simplifications: real numbers without rounding; a quotient by zero is an outcome of its own, except in limitFactor,
    whose divisor is the last displacement. The random number is given. displForceValues and stiffnessValues, which is
    shorter by one, are kept together: each point but the first with the stiffness before it. The square is a product. *)
From Coq Require Import Reals List ZArith Bool.
From Verif Require Import Vec_Model Law_Model.
Import ListNotations.
Local Open Scope R_scope.

(** WireMat, hpp:45-74; wseed: the seed is -1 (no random number) *)
Record wmat := mkWM { wmid : Z; wdiam : R; wtype : nat; wcurve : list (R * R); wcurveDT : list (R * R); wtwist : bool; lamEps : R; lamk : R; wpoisson : R; wseed : bool; lamu : R; lamF : R; was : R }.
(** WireMat::postLoad, cpp:28-77: whether the material is accepted; the area is set before *)
Definition area (d : R) : R := (d * (1/2)) * (d * (1/2)) * PI.
Definition is0 (x : R) : bool := if Req_EM_T x 0 then true else false.
Definition checkDT (m : wmat) : bool :=
  negb (wtwist m) ||
  match wcurveDT m with [] => false | [_] => false | (e, s) :: _ => negb (is0 e && negb (is0 s)) end.
Definition accepted (m : wmat) : bool :=
  match wcurve m with
  | [] => true
  | [_] => false
  | (e, s) :: _ =>
    if is0 e && is0 s then false
    else match wtype m with 0%nat => match wcurveDT m with [] => true | _ => false end | 1%nat | 2%nat => checkDT m | _ => false end
  end.
Definition postLoad (m : wmat) : wmat * bool :=
  (mkWM (wmid m) (wdiam m) (wtype m) (wcurve m) (wcurveDT m) (wtwist m) (lamEps m) (lamk m) (wpoisson m) (wseed m) (lamu m) (lamF m) (area (wdiam m)), accepted m).
(** attributes set from python: the curve triggers postLoad, the diameter does not, hpp:51-65 *)
Definition setDiameter (m : wmat) (d : R) : wmat := mkWM (wmid m) d (wtype m) (wcurve m) (wcurveDT m) (wtwist m) (lamEps m) (lamk m) (wpoisson m) (wseed m) (lamu m) (lamF m) (was m).
Definition setCurve (m : wmat) (c : list (R * R)) : wmat * bool := postLoad (mkWM (wmid m) (wdiam m) (wtype m) c (wcurveDT m) (wtwist m) (lamEps m) (lamk m) (wpoisson m) (wseed m) (lamu m) (lamF m) (was m)).

(** WirePhys, hpp:80-101; the force is the normal one *)
Record wphys := mkWP { initD : R; linked : bool; twisted : bool; wkn : R; first : R * R; rest : list (R * R * R); plastD : R; nForce : vec; limitFactor : R; dL : R }.
Definition pu (q : R * R * R) : R := fst (fst q).
Definition pf (q : R * R * R) : R := snd (fst q).
Definition pk (q : R * R * R) : R := snd q.
(** DFValues.back()(0) *)
Definition last_u (p : wphys) : R := last (map pu (rest p)) (fst (first p)).
(** the loop of loading, cpp:127-137 *)
Fixpoint load (D : R) (a : R * R) (l : list (R * R * R)) : option R :=
  match l with [] => None | q :: l' => if Rlt_dec (pu q) D then Some (snd a + (D - fst a) * pk q) else load D (fst q) l' end.
(** the force, with the new first point and plastic displacement, cpp:118-143 *)
Definition pull (p : wphys) (D : R) : R * ((R * R) * R) :=
  if Rlt_dec (fst (first p)) D then (Rmin 0 (wkn p * (D - plastD p)), (first p, plastD p))
  else match load D (first p) (rest p) with
       | Some F => (Rmin 0 F, ((D, F), D - F / wkn p))
       | None => (0, (first p, plastD p))
       end.
(** Law2, cpp:83-171: erased, with what is left and whether numBrokenLinks of both bodies is raised, or kept *)
Inductive wresult := WErase (p : wphys) (counted : bool) | WKept (p : wphys) (added : list (nat * (vec * vec))).
Definition law (periodic : bool) (g : scgeom) (p : wphys) (i1 : nat) (x1 : vec) (i2 : nat) (x2 : vec) : wresult :=
  let D := penetrationDepth g - initD p in
  if negb (linked p) then WErase p false
  else if Rlt_dec D (last_u p) then WErase (mkWP (initD p) false (twisted p) (wkn p) (first p) (rest p) (plastD p) (nForce p) (limitFactor p) (dL p)) true
  else
    let '(F, (a, pl)) := pull p D in
    let f := smul F (normal g) in
    WKept (mkWP (initD p) true (twisted p) (wkn p) a (rest p) pl f (if Rlt_dec F 0 then Rabs (D / last_u p) else 0) (dL p))
      (if negb periodic then applyForceAtContactPoint f (contactPoint g) i2 x2 i1 x1 else [(i1, (vopp f, vzero)); (i2, (f, vzero))]).

(** ** Ip2, cpp:176-343 *)
(** WUndefined: first element of an empty vector; WQuotient: a quotient by zero *)
Inductive wmade := WMade (p : wphys) | WUndefined | WQuotient.
(** cpp:203-227: cross section, table, whether double twisted *)
Definition choose (m1 m2 : wmat) (i1 i2 : Z) : R * list (R * R) * bool :=
  if (wmid m1 =? wmid m2)%Z then
    if wtwist m1 && (Z.abs (i1 - i2) =? 1)%Z
    then (if (wtype m1 =? 1)%nat || (wtype m1 =? 2)%nat then (was m1 * 2, wcurveDT m1, true) else (was m1, wcurve m1, true))
    else (was m1, wcurve m1, false)
  else if Rle_dec (wdiam m1) (wdiam m2) then (was m1, wcurve m1, false) else (was m2, wcurve m2, false).
(** cpp:239-268: the random shift *)
Definition shift_of (m : wmat) (l0 u : R) : R := if wseed m then l0 * lamu m else l0 * lamu m * u.
Definition shift (m1 m2 : wmat) (l0 u : R) : R := if (wtype m1 =? 2)%nat then shift_of m1 l0 u else if (wtype m2 =? 2)%nat then shift_of m2 l0 u else 0.
(** cpp:284-298: double twist of type 0: stiffness and points *)
Definition bertrand (m : wmat) (l A k : R) (p0 : R * R) (tl : list (R * R)) : option (R * list (R * R)) :=
  if Req_EM_T (wdiam m) 0 then None else if Req_EM_T A 0 then None
  else
    let alpha := atan (l / (3 * PI * wdiam m)) in
    let den := 48 * cos alpha * (41/9 * (1 + wpoisson m) + 17/4 * (tan alpha * tan alpha)) in
    if Req_EM_T den 0 then None else
    let kh := k * (l * wdiam m / A) / den in
    let k' := 2 * (lamk m * kh + (1 - lamk m) * k) in
    let F := k' * fst p0 in
    if Req_EM_T (snd p0) 0 then None else
    let mapping := F / snd p0 in
    Some (k', (fst p0, F) :: map (fun q => (fst q * lamEps m, snd q * mapping)) tl).
(** cpp:309-324: stiffness before the first point, and the point which is added *)
Definition extra (m1 m2 : wmat) (k dl : R) (pts : list (R * R)) : option (R * list (R * R)) :=
  match pts with
  | [] => None
  | p0 :: _ =>
    let add m := let u := - dl + lamF m * (fst p0 + dl) in let f := snd p0 * lamF m in
                 if Req_EM_T u 0 then None else Some (f / u, if Rlt_dec (lamF m) 1 then (u, f) :: pts else pts) in
    if (wtype m1 =? 2)%nat then add m1 else if (wtype m2 =? 2)%nat then add m2 else Some (k, pts)
  end.
(** cpp:327-333 *)
Fixpoint slopes (a : R * R) (l : list (R * R)) : option (list (R * R * R)) :=
  match l with
  | [] => Some []
  | q :: l' => let du := - fst q + fst a in
               if Req_EM_T du 0 then None else match slopes q l' with None => None | Some r => Some ((q, (- snd q + snd a) / du) :: r) end
  end.
Definition ip2 (iter threshold : Z) (m1 m2 : wmat) (i1 i2 : Z) (r1 r2 depth u : R) : wmade :=
  let '(A, SS, tw) := choose m1 m2 i1 i2 in
  let l0 := r1 + r2 - depth in
  let dl := shift m1 m2 l0 u in
  let l := l0 + dl in
  match map (fun e => (- fst e * l - dl, - snd e * A)) SS with
  | [] => WUndefined
  | p0 :: tl =>
    if Req_EM_T (fst p0 + dl) 0 then WQuotient else
    let k := snd p0 / (fst p0 + dl) in
    match (if tw && (wtype m1 =? 0)%nat then bertrand m1 l A k p0 tl else Some (k, p0 :: tl)) with
    | None => WQuotient
    | Some (kn, pts) =>
      match extra m1 m2 kn dl pts with
      | None => WQuotient
      | Some (_, []) => WUndefined
      | Some (k0, q0 :: tl') =>
        match slopes q0 tl' with
        | None => WQuotient
        | Some r => WMade (mkWP depth (iter <? threshold)%Z tw kn (0, 0) ((q0, k0) :: r) 0 vzero 0 dl)
        end
      end
    end
  end.
