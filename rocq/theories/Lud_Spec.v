(** What is expected of contacts with plastic overlap. *)
From Coq Require Import Reals List ZArith Bool.
From Verif Require Import Vec_Model Rigid_Model Law_Model Lud_Model.
Import ListNotations.
Local Open Scope R_scope.

Definition positive_mat (m : lmat) : Prop := 0 < lk1 m /\ 0 < lkp m /\ 0 < lPhi m /\ 0 <= lkc m.
(** harmonic mean *)
Definition harmonic (a b x : R) : Prop := 2 / x = 1 / a + 1 / b.
(** a contact whose parameters make sense, with any history *)
Definition sound (p : lphys) : Prop :=
  0 < k1 p /\ k1 p < kp p /\ 0 <= kc p /\ 0 < DeltPMax p /\ DeltPNull p = (1 - k1 p / kp p) * DeltPMax p /\ 0 <= DeltMax p /\
  exists n, DeltNull p = Some n /\ 0 <= n <= DeltMax p /\ n <= DeltPNull p.
(** the stiffness of unloading for the largest overlap M: from k1 to kp, which is reached at PMax *)
Definition unloading (K1 KP PMax M : R) : R := Rmin KP (K1 + (KP - K1) * (M / PMax)).
(** parameters that never change *)
Definition same_contact (p q : lphys) : Prop :=
  k1 p = k1 q /\ kp p = kp q /\ kc p = kc q /\ lks_ p = lks_ q /\ G0 p = G0 q /\ ltan p = ltan q /\ DeltPMax p = DeltPMax q /\ DeltPNull p = DeltPNull q.
(** forces of a contact for a history of overlaps *)
Fixpoint response (p : lphys) (ds : list R) : option (list R * lphys) :=
  match ds with
  | [] => Some ([], p)
  | d :: ds' => match hysteresis p d with
                | None => None
                | Some (f, q) => match response q ds' with None => None | Some (fs, r) => Some (f :: fs, r) end
                end
  end.
Definition nonneg (ds : list R) : Prop := Forall (fun d => 0 <= d) ds.
(** strictly increasing, from above a *)
Fixpoint rising (a : R) (ds : list R) : Prop := match ds with [] => True | d :: ds' => a < d /\ rising d ds' end.
(** relative velocity of the bodies at the contact *)
Definition relvel (g : scgeom) (s1 s2 : rstate) (shift2 shiftVel : vec) : vec :=
  vadd (vsub (vadd (vel s1) (cross (angVel s1) (vsub (contactPoint g) (pos s1)))) (vadd (vel s2) (cross (angVel s2) (vsub (vsub (contactPoint g) (pos s2)) shift2)))) shiftVel.
(** examples *)
Definition putty : lmat := mkLM 1 2 1 1 10 1 0.
(** a new contact with k1 = 1, kp = 2, kc = 1 and given DeltPMax *)
Definition fresh_contact (PMax : R) : lphys := mkLP 1 2 1 1 10 (1/2) (Some 0) 0 (Some 0) PMax (1/2 * PMax) 0 vzero.
Definition sliding_geom : scgeom := mkG (V 1 0 0) vzero (1/2) 1 1 vzero vzero vzero.
