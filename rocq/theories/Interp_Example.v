(** A table that meets the hypotheses of the theorems about interpolation. *)
From Coq Require Import List ZArith Bool Reals Lia Lra.
From Verif Require Import Interp_Model Interp_Spec Interp_Proofs.
Import ListNotations.
Local Open Scope R_scope.

Definition ex_times : list R := [0; 1; 3].
Definition ex_values : list R := [5; 7; 1].
Lemma ex_table : table ex_times ex_values.
Proof. unfold table, ex_times, ex_values. cbn [length]. split; [lia|]. split; [reflexivity|]. reflexivity. Qed.
Lemma ex_increasing : increasing ex_times.
Proof.
  intros i j a b Hij Ha Hb. unfold ex_times in *.
  destruct i as [|[|[|i]]]; destruct j as [|[|[|j]]]; try lia; cbn [nth_error] in Ha, Hb; try (destruct i; discriminate); try (destruct j; discriminate);
    injection Ha as <-; injection Hb as <-; lra.
Qed.
Lemma ex_state : lookup_state (2 ^ 64 - 1).
Proof. unfold lookup_state. lia. Qed.
(** the value at time 2 is 4, from any lookup state *)
Lemma ex_value : interpolates ex_times ex_values 2 4.
Proof.
  unfold ex_times, ex_values. split; [|split].
  - intros t0 v0 H _ Hle. cbn [nth_error] in H. injection H as <-. lra.
  - intros tn vn H _ Hle. cbn [nth_error length Nat.sub] in H. injection H as <-. lra.
  - intros i a b u w Ha Hb Hu Hw Hab. destruct i as [|[|i]]; cbn [nth_error] in *.
    + injection Hb as <-. lra.
    + injection Ha as <-. injection Hb as <-. injection Hu as <-. injection Hw as <-. field.
    + destruct i; discriminate.
Qed.
