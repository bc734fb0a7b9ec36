(** A scene for Step_Props.v: the sphere 0 touches the sphere 1, which forms the clump 3 with
    the sphere 2. *)
From Coq Require Import Reals Lra Lia List NArith ZArith Bool.
From Verif Require Import Vec_Model Vec_Proofs Rigid_Model Rigid_Spec Law_Model Law_Spec Law_Proofs2 Law_Example Newton_Model Newton_Spec Step_Spec.
Import ListNotations.
Local Open Scope R_scope.

Definition conf1 : conf := mkC (1/10) 0 vzero (-1) false true false 2 mzero mzero false (fun _ => vzero) (fun _ => vzero) 0.
Definition body1 (r : rstate) (k : option nat) (ms : list (nat * se3)) : nbody := mkB (mkS r vzero 0 true 1) false 1 k ms 0 false.
Definition bodies1 (i : nat) : option nbody := match i with
  | 0%nat => Some (body1 (here vzero vzero) None [])
  | 1%nat => Some (body1 (there (3/2) (smul (-1) n0) (V 0 0 1)) (Some 3%nat) [])
  | 2%nat => Some (body1 (there 9 vzero vzero) (Some 3%nat) [])
  | 3%nat => Some (body1 (there 5 (smul (-1) n0) (V 0 0 1)) (Some 3%nat) [(1%nat, mkSe3 (V (-7/2) 0 0) qid); (2%nat, mkSe3 (V 4 0 0) qid)])
  | _ => None end.
Definition scene1 (a : list (nat * (vec * vec))) : nworld := mkW bodies1 (force_on a) (torque_on a).
Lemma bodies1_ids i b : bodies1 i = Some b -> (i < 4)%nat.
Proof. destruct i as [|[|[|[|i]]]]; cbn [bodies1]; try discriminate; lia. Qed.
Lemma scene1_ok a : clumps_ok (scene1 a).
Proof.
  split.
  - intros i b E Ec. pose proof (bodies1_ids i b E) as L. destruct i as [|[|[|[|i]]]]; [| | | |lia]; cbn [scene1 nb bodies1] in E; injection E as <-; cbn [body1 clumpId] in Ec; try discriminate.
    cbn [body1 members map fst]. split; [constructor; [intros [X|[]]; discriminate|constructor; [intros []|constructor]]|]. intros j [<-|[<-|[]]]; (split; [lia|]); eexists; (split; [reflexivity|reflexivity]).
  - intros i b k E Ec Hn. pose proof (bodies1_ids i b E) as L. destruct i as [|[|[|[|i]]]]; [| | | |lia]; cbn [scene1 nb bodies1] in E; injection E as <-; cbn [body1 clumpId] in Ec; try discriminate; injection Ec as <-; try (exfalso; apply Hn; reflexivity).
    + eexists. split; [reflexivity|]. split; [reflexivity|left; reflexivity].
    + eexists. split; [reflexivity|]. split; [reflexivity|right; left; reflexivity].
Qed.
Lemma scene1_listed a i b : nb (scene1 a) i = Some b -> In i [0; 1; 2; 3]%nat.
Proof. intros E. apply bodies1_ids in E. cbn [In]. lia. Qed.
Lemma scene1_spheres a : spheres_of (scene1 a) balls0.
Proof. intros i s. destruct i as [|[|[|i]]]; cbn [balls0]; intros E; try discriminate; injection E as <-; eexists; (split; [reflexivity|reflexivity]). Qed.
Lemma scene1_process a : one_process conf1 (scene1 a).
Proof. intros i b E. pose proof (bodies1_ids i b E) as L. destruct i as [|[|[|[|i]]]]; [| | | |lia]; reflexivity. Qed.
Lemma scene1_free a i b : nb (scene1 a) i = Some b -> whole (i, b) = true -> free conf1 b /\ isotropic conf1 b.
Proof.
  intros E _. pose proof (bodies1_ids i b E) as L. destruct i as [|[|[|[|i]]]]; [| | | |lia]; cbn [scene1 nb bodies1] in E; injection E as <-; unfold free, isotropic, body1, conf1, here, there, unit_ori; cbn [st isDamped damping blockedDOFs rs mass aspherical ori inertia]; (split; [split; [right; reflexivity|split; [reflexivity|lra]]|split; [reflexivity|split; [reflexivity|split; [vgoal; ring|exists 1; split; [lra|reflexivity]]]]]).
Qed.
