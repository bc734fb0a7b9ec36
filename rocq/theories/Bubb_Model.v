(** Bubbles and elastic contacts: pkg/dem/BubbleMat.{hpp,cpp}, pkg/dem/Ip2_ElastMat.cpp.

    Simplifications: real numbers without rounding; results that are not a number and reading members that were never set are
    outcomes of their own; forces at the contact point for aperiodic scenes only. *)
From Coq Require Import Reals List Bool.
From Verif Require Import Vec_Model.
Local Open Scope R_scope.

Definition geR (a b : R) : bool := if Rle_dec b a then true else false.
Definition gtR (a b : R) : bool := if Rlt_dec b a then true else false.
Definition isZ (a : R) : bool := if Req_EM_T a 0 then true else false.

(** ** Ip2_ElastMat: None is 0/0 *)
Definition quot (a b : R) : option R := if isZ b then None else Some (a / b).
(** Ip2_ElastMat.cpp:23-24: a radius that is not positive is that of the other *)
Definition radii (r1 r2 : R) : R * R := (if gtR r1 0 then r1 else r2, if gtR r2 0 then r2 else r1).
(** cpp:8-33; [g] are the radii of a contact of spheres *)
Definition norm_kn (Ea Eb : R) (g : option (R * R)) : option R :=
  match g with
  | Some (r1, r2) => let (Ra, Rb) := radii r1 r2 in quot (2 * Ea * Ra * Eb * Rb) (Ea * Ra + Eb * Rb)
  | None => quot (2 * Ea * Eb) (Ea + Eb)
  end.
(** cpp:36-63: kn and ks; the second assignment of the other geometries is to Kn (cpp:59) *)
Definition normshear (Ea Eb Va Vb : R) (g : option (R * R)) : option R * option R :=
  match g with
  | Some (r1, r2) => let (Ra, Rb) := radii r1 r2 in
      (quot (2 * Ea * Ra * Eb * Rb) (Ea * Ra + Eb * Rb), quot (2 * Ea * Ra * Va * Eb * Rb * Vb) (Ea * Ra * Va + Eb * Rb * Vb))
  | None => (quot (2 * Ea * Va * Eb * Vb) (Ea * Va + Eb * Vb), Some 0)
  end.

(** ** BubblePhys *)
Record coeffs := mkC { Dmax : R; coeffA : R; coeffB : R; start : R }.
(** computeCoeffs, BubbleMat.cpp:20-29; None is a quotient by zero *)
Definition computeCoeffs (pct c1 rAvg : R) : option coeffs :=
  let Fmax := pct * c1 * rAvg in
  let logPct := ln (pct / 4) in
  let D := pct * rAvg * logPct in
  match quot c1 (logPct + 1) with
  | Some dfdd => match quot dfdd Fmax with
                 | Some B => Some (mkC D (Fmax / exp (B * D)) B (/ 10 * Fmax))
                 | None => None
                 end
  | None => None
  end.
Inductive outcome := Force (f : R) | Throws | NotANumber | Unset.
(** one iteration, cpp:39-49: the new value, and the residual if it is not forced; None is log of a number that is not positive
    or a quotient by zero *)
Definition iterate (sep c1 c2 ret : R) : option (R * option R) :=
  if gtR ret 0 then
    let g := ln (ret * c2) in
    match quot (sep * c1 - ret * g) (g + 1) with
    | Some q => let new := ret + q in if geR 0 new then Some (9 / 10 * Rabs new, None) else Some (new, Some (Rabs (new - ret) / ret))
    | None => None
    end
  else None.
(** cpp:38-54; [n] iterations are left before the exception *)
Fixpoint newton (n : nat) (tol sep c1 c2 ret : R) : outcome :=
  match iterate sep c1 c2 ret with
  | None => NotANumber
  | Some (new, res) =>
      match n with
      | O => Throws
      | S n' => if gtR (match res with Some x => x | None => tol * 2 end) tol then newton n' tol sep c1 c2 new else Force new
      end
  end.
(** computeForce, cpp:31-60: i++ > newtonIter *)
Definition computeForce (iter : nat) (tol sep c1 rAvg fN : R) (k : coeffs) : outcome :=
  if geR sep (Dmax k) then newton (S iter) tol sep c1 (1 / (4 * c1 * rAvg)) fN
  else Force (coeffA k * exp (coeffB k * sep)).

(** ** the law, cpp:65-95 *)
(** members that are saved: fN, rAvg, Dmax; those that are not: c1 of the law, coeffA and coeffB of the contact *)
Record bubble := mkBub { fN : R; rAvg : R; saved_Dmax : R; lost : option (R * R) }.
Record law := mkLaw { pctMaxForce : R; surfaceTension : R; c1 : option R }.
(** a step with overlap [un]; None: the contact is removed *)
Definition go (iter : nat) (tol : R) (l : law) (b : bubble) (fresh : bool) (r1 r2 un : R) : option (law * bubble * outcome) :=
  if geR 0 un then None
  else
    let lb := if fresh then
                let c := 2 * PI * surfaceTension l in
                let ra := / 2 * (r1 + r2) in
                match computeCoeffs (pctMaxForce l) c ra with
                | Some k => Some (mkLaw (pctMaxForce l) (surfaceTension l) (Some c), mkBub (start k) ra (Dmax k) (Some (coeffA k, coeffB k)))
                | None => None
                end
              else Some (l, b) in
    match lb with
    | None => Some (l, b, NotANumber)
    | Some (l', b') =>
        let o := if geR (- un) (saved_Dmax b')
                 then match c1 l' with Some c => computeForce iter tol (- un) c (rAvg b') (fN b') (mkC (saved_Dmax b') 0 0 0) | None => Unset end
                 else match lost b' with Some (A, B) => computeForce iter tol (- un) 0 (rAvg b') (fN b') (mkC (saved_Dmax b') A B 0) | None => Unset end in
        Some (l', match o with Force f => mkBub f (rAvg b') (saved_Dmax b') (lost b') | _ => b' end, o)
    end.
(** saving and loading *)
Definition reload (l : law) (b : bubble) : law * bubble := (mkLaw (pctMaxForce l) (surfaceTension l) None, mkBub (fN b) (rAvg b) (saved_Dmax b) None).
(** applyForceAtContactPoint(-normalForce, ...), cpp:82-85: forces and torques of both bodies *)
Definition apply (f : R) (normal cp p1 p2 : vec) : (vec * vec) * (vec * vec) :=
  let F := smul f normal in
  ((vopp F, cross (vsub cp p1) (vopp F)), (F, vopp (cross (vsub cp p2) (vopp F)))).
