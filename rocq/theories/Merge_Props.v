(** Properties of merging with one collective operation. *)
From Coq Require Import List Arith Bool.
From Verif Require Import Subd_Model Subd_Spec Merge_Model Merge_Spec Merge_Proofs Merge_Example.
Import ListNotations.

(** ** C119: after mpf.mergeScene the master has all bodies as their owners have them *)
Theorem C119_no_box_refuted : agreed clumps /\ (forall w b, nth_error clumps 1 = Some w -> nth_error w 0 = Some (Some b) -> bound b = None) /\
  exists b, mergeScene 0 1 clumps = Some [Some b] /\ bound b = Some (mkVec 0 0 0, mkVec 0 0 0) /\ pos (bstate b) = mkVec 20 1 2.
Proof. split; [exact clumps_agreed|]. split; [|exact clump_box]. intros w b H Hb. injection H as <-. injection Hb as <-. reflexivity. Qed.
Print Assumptions C119_no_box_refuted.
Theorem C119_erased_refuted : boxed erased /\ mergeScene 0 1 erased = None.
Proof. split; [exact erased_boxed|exact erased_none]. Qed.
Print Assumptions C119_erased_refuted.
Theorem C119_merge_partial : forall {D X Y : Type} (zero one : D) (ws : list (bodies D X (rest Y))) w0, nth_error ws 0 = Some w0 -> agreed ws -> boxed ws ->
  exists w', mergeScene zero one ws = Some w' /\ merged ws w0 w'.
Proof. intros D X Y zero one ws w0 F A B. exact (merge_ok zero one ws w0 F A B). Qed.
Print Assumptions C119_merge_partial.
Example C119_ex : nth_error three 0 = Some master /\ agreed three /\ boxed three /\ belongs master 4 1 /\ belongs master 1 2 /\ nth_error master 2 = Some None.
Proof. split; [reflexivity|]. split; [exact three_agreed|]. split; [exact three_boxed|]. split; [eexists; split; reflexivity|]. split; [eexists; split; reflexivity|reflexivity]. Qed.
