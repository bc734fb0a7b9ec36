(** Properties C272-C274: engines run in parallel *)
From Coq Require Import List Bool Arith Permutation Lia.
From Verif Require Import Pare_Model Pare_Spec Pare_Proofs.
Import ListNotations.

(** C272. Assigning the slaves read from an engine gives the same groups, whatever was there before; *)
Theorem C272_round_trip_partial {E} (old s : list (list E)) : assign old (slaves_get s) = (s, true).
Proof. exact (round_trip old s). Qed.
Print Assumptions C272_round_trip_partial.
Example C272_round_trip_case : assign [[9]] (slaves_get [[1; 2]; [3]; []]) = ([[1; 2]; [3]; []], true).
Proof. reflexivity. Qed.
(** a list of engines and of lists of engines is taken over as it is (an engine alone and a list of it are read the same); *)
Theorem C272_assigned_partial {E} (old : list (list E)) l : Forall valid l -> exists s, assign old l = (s, true) /\ Forall2 same_value l (slaves_get s).
Proof. exact (assigned old l). Qed.
Print Assumptions C272_assigned_partial.
Example C272_assigned_case : Forall valid [PAlone 1; PGroup [2; 3]].
Proof. repeat constructor. Qed.
(** an error is raised for others, and only for these. *)
Theorem C272_rejected_partial {E} (old : list (list E)) l : snd (assign old l) = false <-> ~ Forall valid l.
Proof. exact (rejected old l). Qed.
Print Assumptions C272_rejected_partial.
Example C272_rejected_case : ~ Forall valid [PAlone 1; POther].
Proof. intros F. apply Forall_inv_tail, Forall_inv in F. exact F. Qed.
(** C272. But after the error the former slaves are gone and those before the wrong one are there. *)
Theorem C272_lost_refuted : assign [[1; 2]; [3]] [PAlone 4; POther] = ([[4]], false).
Proof. exact (lost_refuted). Qed.
Print Assumptions C272_lost_refuted.

(** C273. If engines of different groups may be exchanged, every schedule that runs all has the same result as running groups one after another. *)
Theorem C273_schedule_partial {S} sched : forall (gs : list (list (engine S))) s tr gs' s' tr', independent gs -> run gs sched s tr = (gs', s', tr') -> ended gs' -> s' = one_after_another gs s.
Proof. exact (any_schedule sched). Qed.
Print Assumptions C273_schedule_partial.
Example C273_schedule_case : independent [[adds 1; adds 2]; [adds 3]] /\ ended (fst (fst (run [[adds 1; adds 2]; [adds 3]] [0; 1; 0] 5 []))).
Proof. split; [|unfold ended; cbn [run take run_one adds dead activated act fst snd]; repeat constructor]. split; [|split; [intros a b A []|exact I]]. intros a b [<- | [<- | []]] [<- | []] s; unfold run_one, adds; cbn [dead activated act fst snd]; lia. Qed.
(** C273. Nothing makes sure of it: with one engine that adds and another that doubles, results are 2 or 1 depending on which thread is first. *)
Theorem C273_schedule_refuted : (exists tr, run [[adds 1]; [doubles]] [0; 1] 0 [] = ([[]; []], 2, tr)) /\ (exists tr, run [[adds 1]; [doubles]] [1; 0] 0 [] = ([[]; []], 1, tr)).
Proof. exact (schedule_refuted). Qed.
Print Assumptions C273_schedule_refuted.

(** C274. In every schedule that runs all, each group ran its engines once, in their order; *)
Theorem C274_once {S} sched (gs : list (list (engine S))) s gs' s' tr' : run gs sched s [] = (gs', s', tr') -> ended gs' -> forall i, of_group i tr' = nth i gs [].
Proof. exact (each_once sched gs s gs' s' tr'). Qed.
Print Assumptions C274_once.
Example C274_once_case : ended (fst (fst (run [[adds 1; adds 2]; [adds 3]] [0; 1; 0] 5 []))).
Proof. unfold ended; cbn [run take run_one adds dead activated act fst snd]; repeat constructor. Qed.
(** at all times what a group ran and what is left to it are its engines; *)
Theorem C274_prefix {S} sched : forall (gs : list (list (engine S))) s tr gs' s' tr', run gs sched s tr = (gs', s', tr') -> length gs' = length gs /\ forall i, of_group i tr' ++ nth i gs' [] = of_group i tr ++ nth i gs [].
Proof. exact (trace_spec sched). Qed.
Print Assumptions C274_prefix.
Example C274_prefix_case : nth 0 (fst (fst (run [[adds 1; adds 2]; [adds 3]] [0; 1] 5 []))) [] = [adds 2].
Proof. reflexivity. Qed.
(** from any time on some schedule runs all that is left, in as many steps as engines; *)
Theorem C274_completes {S} : forall n (gs : list (list (engine S))) s tr, length (concat gs) = n -> exists sched gs' s' tr', run gs sched s tr = (gs', s', tr') /\ ended gs' /\ length sched = n.
Proof. exact (not_stuck ). Qed.
Print Assumptions C274_completes.
Example C274_completes_case : length (concat [[adds 1; adds 2]; [adds 3]]) = 3.
Proof. reflexivity. Qed.
(** a dead engine does nothing, one that is not activated does not act, others act once. *)
Theorem C274_inactive {S} (e : engine S) s : (dead e = true -> run_one e s = (s, false)) /\ (dead e = false -> fst (activated e s) = false -> run_one e s = (snd (activated e s), false)) /\ (dead e = false -> fst (activated e s) = true -> run_one e s = (act e (snd (activated e s)), true)).
Proof. exact (inactive e s). Qed.
Print Assumptions C274_inactive.
Example C274_inactive_case : run_one (mkEng true (fun s => (true, s)) (fun s => s + 1)) 3 = (3, false) /\ run_one (adds 1) 3 = (4, true).
Proof. split; reflexivity. Qed.
