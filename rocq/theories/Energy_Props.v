(** The energy tracker: C33, C58. *)
From Coq Require Import List Arith ZArith Bool Lia.
From Verif Require Import Energy_Model Energy_Spec Energy_Proofs Energy_Example.
Import ListNotations.

(** C33: for any number of threads and any schedule in which no two threads create the
    same name at the same time, and the tracker is only cleared or replaced while no
    engine has used it: nothing undefined happens, and at every moment at which no
    thread is inside a call, each name has the value given by the sequence of calls,
    the names are those used, and the total is the sum over the names *)
Theorem C33_energies_exact_partial : forall P l, good P -> along P (proper P) (init P) l -> along P (calm P) (init P) l ->
  exists s, run P (init P) l = Some s /\
  (quiet P s -> (forall n, getItem_py P s n = option_map fst (books P l n)) /\ NoDup (keys s) /\
     total P s = fold_right Z.add 0%Z (map (fun n => match books P l n with Some (x, _) => x | None => 0%Z end) (keys s)) /\
     forall n, In n (keys s) <-> books P l n <> None).
Proof. exact values. Qed.
Print Assumptions C33_energies_exact_partial.
Example C33_energies_exact_ex : good P2 /\ along P2 (proper P2) (init P2) plain_run /\ along P2 (calm P2) (init P2) plain_run /\
  exists s, run P2 (init P2) plain_run = Some s /\ quietb P2 s = true /\ getItem_py P2 s 0 = Some 7%Z /\ getItem_py P2 s 1 = Some 4%Z /\ getItem_py P2 s 2 = Some 9%Z /\
  total P2 s = 20%Z /\ length (keys s) = 3 /\ overread s = false.
Proof.
  split; [split; cbn; lia|]. split; [apply proper_run; vm_compute; reflexivity|]. split; [apply calm_run; vm_compute; reflexivity|]. apply probe_inv. vm_compute. reflexivity.
Qed.

(** C33 refuted: after O.energy.clear() engines go on with the old index: the energy
    of one name is added to another one and is missing from its own *)
Theorem C33_names_mixed_refuted : exists P l s, good P /\ along P (proper P) (init P) l /\ run P (init P) l = Some s /\ quiet P s /\
  option_map fst (books P l 0) = Some 5%Z /\ getItem_py P s 0 = None /\ option_map fst (books P l 1) = Some 3%Z /\ getItem_py P s 1 = Some 8%Z.
Proof.
  assert (H : probe P2 cleared_run = Some (true, (None, Some 8%Z, None), 8%Z, 1, false)) by (vm_compute; reflexivity). apply probe_inv in H. destruct H as (s & E & Q & A & B & _). exists P2, cleared_run, s.
  split; [split; cbn; lia|]. split; [apply proper_run; vm_compute; reflexivity|]. split; [exact E|]. split; [apply quietb_true; exact Q|]. split; [reflexivity|]. split; [exact A|]. split; [reflexivity|exact B].
Qed.
Print Assumptions C33_names_mixed_refuted.

(** C33 refuted: two threads that add to a new name at the same time both create it;
    the contribution of one of them is never seen under the name *)
Theorem C33_contribution_lost_refuted : exists P l s, good P /\ along P (proper P) (init P) l /\ (forall a, In a l -> a <> Clear /\ a <> NewTracker) /\
  run P (init P) l = Some s /\ quiet P s /\ option_map fst (books P l 0) = Some 8%Z /\ getItem_py P s 0 = Some 3%Z /\ total P s = 8%Z.
Proof.
  assert (H : probe P0 race_run = Some (true, (Some 3%Z, None, None), 8%Z, 1, false)) by (vm_compute; reflexivity). apply probe_inv in H. destruct H as (s & E & Q & A & _ & _ & T & _). exists P0, race_run, s.
  split; [split; cbn; lia|]. split; [apply proper_run; vm_compute; reflexivity|]. split; [intros a Ha; repeat (destruct Ha as [<-|Ha]; [split; discriminate|]); destruct Ha|]. split; [exact E|]. split; [apply quietb_true; exact Q|]. split; [reflexivity|]. split; [exact A|exact T].
Qed.
Print Assumptions C33_contribution_lost_refuted.

(** C33 refuted: engines kept over O.reset() write to memory that is not allocated *)
Theorem C33_kept_engines_refuted : exists P l, good P /\ along P (proper P) (init P) l /\ run P (init P) l = None.
Proof. exists P2, replaced_run. split; [split; cbn; lia|]. split; [apply proper_run; vm_compute; reflexivity|]. vm_compute. reflexivity. Qed.
Print Assumptions C33_kept_engines_refuted.

(** C58: with one thread no copy of the accumulated values reads behind their end *)
Theorem C58_one_thread_partial : forall P l, nThreads P <= 1 -> forall s0 s, overread s0 = false -> run P s0 l = Some s -> overread s = false.
Proof. exact one_thread. Qed.
Print Assumptions C58_one_thread_partial.
Example C58_one_thread_ex : let P := mkP 1 8 (fun o => o) (fun _ => false) (fun _ _ => 77%Z) in overread (init P) = false /\
  exists s, run P (init P) nine_names = Some s /\ quietb P s = true /\ getItem_py P s 0 = Some 1%Z /\ getItem_py P s 1 = Some 1%Z /\ getItem_py P s 2 = Some 1%Z /\ total P s = 9%Z /\ length (keys s) = 9 /\ overread s = false.
Proof. split; [reflexivity|]. apply probe_inv. vm_compute. reflexivity. Qed.

(** C58: nor with any number of threads, as long as the names used fit in a line of the cache *)
Theorem C58_few_names_partial : forall P NS l, good P -> NoDup NS -> length NS <= perCL P -> (forall a, In a l -> names_of P a NS) ->
  along P (proper P) (init P) l -> along P (calm P) (init P) l -> forall s, run P (init P) l = Some s -> overread s = false.
Proof. exact few_names. Qed.
Print Assumptions C58_few_names_partial.
Example C58_few_names_ex : good P2 /\ NoDup [0; 1; 2] /\ length [0; 1; 2] <= perCL P2 /\ (forall a, In a plain_run -> names_of P2 a [0; 1; 2]) /\
  along P2 (proper P2) (init P2) plain_run /\ along P2 (calm P2) (init P2) plain_run.
Proof.
  split; [split; cbn; lia|]. split; [repeat constructor; cbn; intuition discriminate|]. split; [cbn; lia|].
  split; [intros a Ha; cbn [plain_run In] in Ha; repeat (destruct Ha as [<-|Ha]; [cbn; tauto|]); destruct Ha|]. split; [apply proper_run; vm_compute; reflexivity|apply calm_run; vm_compute; reflexivity].
Qed.

(** C58 refuted: the ninth name, with two threads *)
Theorem C58_no_overread_refuted : exists P l s, good P /\ along P (proper P) (init P) l /\ along P (calm P) (init P) l /\ run P (init P) l = Some s /\ overread s = true.
Proof.
  assert (H : probe P2 nine_names = Some (true, (Some 1%Z, Some 1%Z, Some 1%Z), 9%Z, 9, true)) by (vm_compute; reflexivity). apply probe_inv in H. destruct H as (s & E & _ & _ & _ & _ & _ & _ & O). exists P2, nine_names, s.
  split; [split; cbn; lia|]. split; [apply proper_run; vm_compute; reflexivity|]. split; [apply calm_run; vm_compute; reflexivity|]. auto.
Qed.
Print Assumptions C58_no_overread_refuted.
