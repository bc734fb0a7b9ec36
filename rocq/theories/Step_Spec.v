(** A whole step: contact forces between spheres (Law_Model.v), then motion
    (Newton_Model.v). *)
From Coq Require Import Reals List NArith ZArith Bool.
From Verif Require Import Vec_Model Rigid_Model Rigid_Spec Newton_Model Newton_Spec Law_Model Law_Spec.
Import ListNotations.
Local Open Scope R_scope.

(** the scene is not periodic, the integrator does what the equations of motion say *)
Definition plain_conf (c : conf) : Prop := isPeriodic c = false /\ densityScaling c = false /\ moveRotUsed c = false.
(** nothing but forces acts on the body *)
Definition free (c : conf) (b : nbody) : Prop := (isDamped (st b) = false \/ damping c = 0) /\ blockedDOFs (st b) = 0%N /\ mass (rs (st b)) <> 0.
(** its moments of inertia are equal, and it may turn *)
Definition isotropic (c : conf) (b : nbody) : Prop :=
  masked_in c b = true /\ aspherical b = false /\ unit_ori (rs (st b)) /\ exists k, k <> 0 /\ inertia (rs (st b)) = V k k k.
(** all bodies belong to this process *)
Definition one_process (c : conf) (w : nworld) : Prop := forall i b, nb w i = Some b -> owner w i = Some (process c).
(** sums over existing bodies *)
Definition over (ids : list nat) (w : nworld) (h : nat -> nbody -> vec) : vec := vsum (map (fun p => h (fst p) (snd p)) (existing ids w)).
(** weight, and its moment about o *)
Definition total_weight (c : conf) (l : list (nat * nbody)) : vec := vsum (map (fun p => smul (mass (rs (st (snd p)))) (gravity c)) (filter whole l)).
Definition weight_moment (c : conf) (o : vec) (l : list (nat * nbody)) : vec := vsum (map (fun p => cross (vsub (pos (rs (st (snd p)))) o) (smul (mass (rs (st (snd p)))) (gravity c))) (filter whole l)).
(** the spheres in contact are bodies of the scene *)
Definition spheres_of (w : nworld) (balls : nat -> option ball) : Prop := forall i s, balls i = Some s -> exists b, nb w i = Some b /\ rs (st b) = state s.
