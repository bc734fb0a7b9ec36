(** Properties C284-C285: recorders *)
From Coq Require Import Reals List Bool Arith Lia Lra.
From Verif Require Import Vec_Model Reco_Model Reco_Spec Reco_Proofs.
Import ListNotations.

(** C284. Without truncation and numbers of steps, for every history rows follow one another in the file after what was there, and no other file changes, whether or not it is closed in between; *)
Theorem C284_appended_partial {A} c (l : list (nat * A)) : file c <> 0 -> truncate c = false -> addIterNum c = false -> forall fs out, out = None \/ out = Some (file c, None) ->
  exists fs' out', records c (fs, out) l = Some (fs', out') /\ fs' (file c, None) = fs (file c, None) ++ map snd l /\ (forall m, m <> (file c, None) -> fs' m = fs m).
Proof. exact (appended c l). Qed.
Print Assumptions C284_appended_partial.
Example C284_appended_case : let c := mkSet 1 false false true in file c <> 0 /\ truncate c = false /\ addIterNum c = false.
Proof. repeat split. discriminate. Qed.
(** with truncation and a file kept open, all rows of this run are there and only those; *)
Theorem C284_kept_open_partial {A} c (l : list (nat * A)) i r fs : file c <> 0 -> truncate c = true -> addIterNum c = false -> closes c = false ->
  exists fs' out', records c (fs, None) ((i, r) :: l) = Some (fs', out') /\ fs' (file c, None) = r :: map snd l /\ (forall m, m <> (file c, None) -> fs' m = fs m).
Proof. exact (kept_open c l i r fs). Qed.
Print Assumptions C284_kept_open_partial.
Example C284_kept_open_case : let c := mkSet 1 true false false in file c <> 0 /\ truncate c = true /\ addIterNum c = false /\ closes c = false.
Proof. repeat split. discriminate. Qed.
(** with numbers of steps and a file closed each time, each step has a file of its own. *)
Theorem C284_numbered_partial {A} c (l : list (nat * A)) : addIterNum c = true -> closes c = true -> NoDup (map fst l) -> forall fs,
  exists fs', records c (fs, None) l = Some (fs', None) /\ (forall i r, In (i, r) l -> fs' (file c, Some i) = (if truncate c then [] else fs (file c, Some i)) ++ [r]) /\ (forall m, (forall i, In i (map fst l) -> m <> (file c, Some i)) -> fs' m = fs m).
Proof. exact (numbered_files c l). Qed.
Print Assumptions C284_numbered_partial.
Example C284_numbered_case : let c := mkSet 1 true true true in addIterNum c = true /\ closes c = true /\ NoDup (map fst [(10, 5); (20, 6)]).
Proof. repeat split. cbn [map fst]. repeat constructor; cbn [In]; lia. Qed.
(** C284. But ForceRecorder and TorqueRecorder close the file after each row, and with truncation the next opening empties it: after every history only the last row is left; *)
Theorem C284_emptied_refuted {A} c (l : list (nat * A)) i r fs : file c <> 0 -> truncate c = true -> addIterNum c = false -> closes c = true ->
  exists fs', records c (fs, None) (l ++ [(i, r)]) = Some (fs', None) /\ fs' (file c, None) = [r].
Proof. exact (emptied_refuted c l i r fs). Qed.
Print Assumptions C284_emptied_refuted.
Example C284_emptied_case : let c := mkSet 1 true false true in file c <> 0 /\ truncate c = true /\ addIterNum c = false /\ closes c = true.
Proof. repeat split. discriminate. Qed.
(** and with numbers of steps a recorder that keeps its file open writes all to the file of the first step. *)
Theorem C284_one_file_refuted {A} c (l : list (nat * A)) i r fs : addIterNum c = true -> closes c = false -> truncate c = false ->
  exists fs', records c (fs, None) ((i, r) :: l) = Some (fs', Some (file c, Some i)) /\ fs' (file c, Some i) = fs (file c, Some i) ++ r :: map snd l /\ (forall m, m <> (file c, Some i) -> fs' m = fs m).
Proof. exact (one_file_refuted c l i r fs). Qed.
Print Assumptions C284_one_file_refuted.
Example C284_one_file_case : let c := mkSet 1 false true false in addIterNum c = true /\ closes c = false /\ truncate c = false.
Proof. repeat split. Qed.
Local Open Scope R_scope.
(** C285. ForceRecorder writes the sum of the forces on those bodies that exist; *)
Theorem C285_force_partial world ids : totalForce world ids = vsum (map lforce (existing world ids)).
Proof. exact (force_sum world ids). Qed.
Print Assumptions C285_force_partial.
Example C285_force_case : existing (fun i => match i with O => Some pusher | _ => None end) [0%nat; 7%nat] = [pusher].
Proof. reflexivity. Qed.
(** TorqueRecorder writes the sum of torques about the axis if forces have no moment about it. *)
Theorem C285_torque_partial axis zero world ids : norm2 axis = 1 -> (forall b, In b (existing world ids) -> of_force axis zero b = 0) -> totalTorque axis zero world ids = rsum (map (torque_about axis zero) (existing world ids)).
Proof. exact (torque_right axis zero world ids). Qed.
Print Assumptions C285_torque_partial.
Example C285_torque_case : norm2 (V 0 0 1) = 1 /\ of_force (V 0 0 1) (V 1 0 0) pusher = 0.
Proof. split; [unfold norm2|unfold of_force, pusher; cbn [lpos lforce]]; unfold dot, cross, vsub; cbn [vx vy vz]; ring. Qed.
(** In all cases it is the sum of torques less moments of forces, *)
Theorem C285_sum_partial axis zero world ids : norm2 axis = 1 -> totalTorque axis zero world ids = rsum (map (fun b => dot axis (ltorque b) - of_force axis zero b) (existing world ids)).
Proof. exact (torque_sum axis zero world ids). Qed.
Print Assumptions C285_sum_partial.
Example C285_sum_case : norm2 (V 0 0 1) = 1.
Proof. unfold norm2, dot; cbn [vx vy vz]; ring. Qed.
(** C285. so if there are forces only, it is the negative of the moment about the axis, for all axes, places and forces. *)
Theorem C285_reversed_refuted axis zero world ids : norm2 axis = 1 -> (forall b, In b (existing world ids) -> ltorque b = vzero) -> totalTorque axis zero world ids = - rsum (map (torque_about axis zero) (existing world ids)).
Proof. exact (torque_reversed_refuted axis zero world ids). Qed.
Print Assumptions C285_reversed_refuted.
Example C285_reversed_case : norm2 (V 0 0 1) = 1 /\ ltorque pusher = vzero.
Proof. split; [unfold norm2, dot; cbn [vx vy vz]; ring|reflexivity]. Qed.
(** For example a force that turns with moment 1 is written as -1. *)
Theorem C285_pusher_refuted : totalTorque (V 0 0 1) vzero (fun _ => Some pusher) [0%nat] = -1 /\ torque_about (V 0 0 1) vzero pusher = 1.
Proof. exact (pusher_refuted). Qed.
Print Assumptions C285_pusher_refuted.

