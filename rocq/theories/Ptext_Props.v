(** Properties of packings in text files: C145. *)
From Coq Require Import Reals String List ZArith Bool.
From Verif Require Import Plot_Model Plot_Spec Vec_Model Cloud_Model Spack_Model Ptext_Model Ptext_Spec Ptext_Proofs.
Import ListNotations.
Local Open Scope string_scope.
Local Open Scope list_scope.

(** * C145: a packing that is saved and loaded is the same up to rounding *)
Theorem C145_round_partial : forall f g s s0, faithful f g -> cellSize s <> vzero \/ cellSize s0 = vzero -> exists t s', toFile f true s = Some t /\ fromFile f (Some t) s0 = Done s' /\
  pack s' = map (rounded_sph g) (pack s) /\ cellSize s' = rounded_vec g (cellSize s) /\ toFile f true s' = Some t.
Proof. exact saved_loaded. Qed.
Print Assumptions C145_round_partial.
Example C145_round_case : faithful toy toy_round /\ map (rounded_sph toy_round) [mkSph vzero 0 7] = [mkSph vzero 0 7].
Proof. split; [exact toy_faithful|]. unfold map, rounded_sph, rounded_vec, vzero, toy_round. cbn [c r clumpId vx vy vz]. destruct (Req_EM_T 0 0) as [_|N]; [reflexivity|destruct (N eq_refl)]. Qed.
(** the spheres do not depend on what was there; a call that raises keeps them *)
Theorem C145_replaces_partial : forall f t s1 s2, match fromFile f t s1, fromFile f t s2 with
  | Done a, Done b => pack a = pack b
  | Raises a, Raises b => pack a = pack s1 /\ pack b = pack s2
  | _, _ => False end.
Proof. exact former_pack. Qed.
Print Assumptions C145_replaces_partial.
Example C145_replaces_case : exists a, fromFile toy (Some ("1 1 1 1 7" ++ newline)%string) empty = Done a /\ pack a = [mkSph (V 1 1 1) 1 7].
Proof. eexists. split; reflexivity. Qed.
(** the size of the cell stays if the packing saved is not periodic *)
Theorem C145_cell_refuted : forall f g s s0, faithful f g -> cellSize s = vzero -> exists t s', toFile f true s = Some t /\ fromFile f (Some t) s0 = Done s' /\ cellSize s' = cellSize s0.
Proof. exact stale_cell. Qed.
Print Assumptions C145_cell_refuted.
(** isPeriodic stays *)
Theorem C145_flag_refuted : forall f g s s0, faithful f g -> exists t s', toFile f true s = Some t /\ fromFile f (Some t) s0 = Done s' /\ isPeriodic s' = isPeriodic s0.
Proof. exact stale_flag. Qed.
Print Assumptions C145_flag_refuted.
(** a file that cannot be read changes the cell *)
Theorem C145_failed_refuted : exists t, forall f s, reads_one f -> exists s', fromFile f (Some t) s = Raises s' /\ cellSize s' = V 1 1 1 /\ pack s' = pack s.
Proof. eexists. exact failed_cell. Qed.
Print Assumptions C145_failed_refuted.
Example C145_failed_case : reads_one toy. Proof. exact toy_one. Qed.
(** a sphere of no clump gets the clump of the line before *)
Theorem C145_carried_refuted : forall f s, reads_one f -> exists s', fromFile f (Some ("1 1 1 1 7" ++ newline ++ "1 1 1 1" ++ newline)%string) s = Done s' /\ map clumpId (pack s') = [7; 7]%Z.
Proof. exact carried. Qed.
Print Assumptions C145_carried_refuted.
(** no format of numbers with a bounded length keeps all packings apart *)
Theorem C145_exact_refuted : forall f n, (forall x, (String.length (print f x) <= n)%nat) -> exists s1 s2 t, pack s1 <> pack s2 /\ toFile f true s1 = Some t /\ toFile f true s2 = Some t.
Proof. exact not_restored. Qed.
Print Assumptions C145_exact_refuted.
Example C145_exact_case : forall x, (String.length (print toy x) <= 1)%nat.
Proof. intros x. cbn [toy print]. destruct (Req_EM_T x 0); constructor. Qed.
(** exactly the files with lines that can be read are loaded *)
Theorem C145_reads : forall f t s, ((exists s', fromFile f (Some t) s = Done s') <-> Forall (readable f) (lines t)) /\ fromFile f None s = Raises s /\ toFile f false s = None.
Proof. intros f t s. split; [exact (reads_iff f t s)|]. split; reflexivity. Qed.
Print Assumptions C145_reads.
Example C145_reads_case : ~ readable toy "1 1" /\ readable toy "" /\ readable toy "1 0 1 1 7".
Proof.
  split; [|split].
  - intros [H|[(x & y & z & E & _)|(x & y & z & w & k & E & _)]]; [discriminate|discriminate|]. destruct E as [E|[E _]]; discriminate.
  - left. reflexivity.
  - right. right. exists "1", "0", "1", "1", "7". split; [right; split; [reflexivity|discriminate]|]. split; [discriminate|]. split; [discriminate|]. split; [discriminate|]. split; discriminate.
Qed.
