(** Properties C211-C217: the force container without threads, and additions to summed forces *)
From Coq Require Import List Arith Bool ZArith Lia.
From Verif Require Import Force_Model Force_Spec Force_Proofs Force_Proofs2 Fser_Model Fser_Spec Fser_Proofs Fser_Proofs2.
Import ListNotations.

(** C211. For any arithmetic, any history of calls with additions to summed forces within range is free of undefined behaviour; readings are the sum of what was added since the last reset, if there are no permanent values or for moves and rotations. *)
Theorem C211_sum {V} (v0 : V) vadd : vadd v0 v0 = v0 -> forall h : list (scall V), in_range 0 h -> exists s, s_run v0 vadd h = Val s /\
  forall id c, perm_used (calls h) = false \/ c = ChM \/ c = ChR -> exists s', s_get v0 c id s = Val (fold_left vadd (all_values id c (calls h)) v0, s').
Proof. exact (serial_sum v0 vadd). Qed.
Print Assumptions C211_sum.
Example C211_sum_case : Z.add 0 0 = 0%Z /\ in_range 0 [SOp (OAdd 0 5 ChF 1%Z); SOp OSync; SAddUnsynced true 3 3%Z; SOp (OReset 0 false); SOp (OAdd 0 2 ChR 4%Z); SOp OSync] /\ perm_used (calls [SOp (OAdd 0 5 ChF 1%Z); SOp OSync; SAddUnsynced true 3 3%Z; SOp (OReset 0 false); SOp (OAdd 0 2 ChR 4%Z); SOp OSync]) = false.
Proof. split; [reflexivity|]. split; [cbn [in_range reach]; repeat split; try exact I; apply Nat.ltb_lt; reflexivity|reflexivity]. Qed.
(** C212. Summed once after the last reset, the permanent value is included once. *)
Theorem C212_once_partial {V} (v0 : V) vadd : vadd v0 v0 = v0 -> forall h : list (scall V), in_range 0 h -> unsummed (calls h) -> exists s, s_run v0 vadd (h ++ [SOp OSync]) = Val s /\
  forall id, exists s1 s2, s_get v0 ChF id s = Val ((if perm_used (calls h) then vadd (fold_left vadd (all_values id ChF (calls h)) v0) (fst (perm_ideal v0 (calls h) id)) else fold_left vadd (all_values id ChF (calls h)) v0), s1) /\
    s_get v0 ChT id s = Val ((if perm_used (calls h) then vadd (fold_left vadd (all_values id ChT (calls h)) v0) (snd (perm_ideal v0 (calls h) id)) else fold_left vadd (all_values id ChT (calls h)) v0), s2).
Proof. exact (serial_once v0 vadd). Qed.
Print Assumptions C212_once_partial.
Example C212_once_case : Z.add 0 0 = 0%Z /\ in_range 0 [SOp (OAdd 0 5 ChF 1%Z); SOp (OSetPerm 0 7 true 2%Z); SAddUnsynced true 6 3%Z; SRead ChF 300; SAddUnsynced false 250 4%Z] /\ unsummed (calls [SOp (OAdd 0 5 ChF 1%Z); SOp (OSetPerm 0 7 true 2%Z); SAddUnsynced true 6 3%Z; SRead ChF 300; SAddUnsynced false 250 4%Z]) /\ perm_used (calls [SOp (OAdd 0 5 ChF 1%Z); SOp (OSetPerm 0 7 true 2%Z); SAddUnsynced true 6 3%Z; SRead ChF 300; SAddUnsynced false 250 4%Z]) = true.
Proof.
  split; [reflexivity|]. split; [cbn [in_range reach]; repeat split; try exact I; apply Nat.ltb_lt; reflexivity|]. split; [|reflexivity].
  intros o H. cbn in H. repeat (destruct H as [<- |H]; [discriminate|]). destruct H.
Qed.
(** C212. Summed k times, it is included k times, *)
Theorem C212_times_partial {V} (v0 : V) vadd : vadd v0 v0 = v0 -> forall (h : list (scall V)) k, in_range 0 h -> unsummed (calls h) -> perm_used (calls h) = true -> exists s, s_run v0 vadd (h ++ repeat (SOp OSync) k) = Val s /\
  forall id, exists s', s_get v0 ChF id s = Val (fold_left vadd (repeat (fst (perm_ideal v0 (calls h) id)) k) (fold_left vadd (all_values id ChF (calls h)) v0), s').
Proof. exact (syncs_sum v0 vadd). Qed.
Print Assumptions C212_times_partial.
Example C212_times_case : Z.add 0 0 = 0%Z /\ in_range 0 [SOp (OAdd 0 5 ChF 1%Z); SOp (OSetPerm 0 7 true 2%Z); SAddUnsynced true 6 3%Z; SRead ChF 300; SAddUnsynced false 250 4%Z] /\ unsummed (calls [SOp (OAdd 0 5 ChF 1%Z); SOp (OSetPerm 0 7 true 2%Z); SAddUnsynced true 6 3%Z; SRead ChF 300; SAddUnsynced false 250 4%Z]) /\ perm_used (calls [SOp (OAdd 0 5 ChF 1%Z); SOp (OSetPerm 0 7 true 2%Z); SAddUnsynced true 6 3%Z; SRead ChF 300; SAddUnsynced false 250 4%Z]) = true.
Proof.
  split; [reflexivity|]. split; [cbn [in_range reach]; repeat split; try exact I; apply Nat.ltb_lt; reflexivity|]. split; [|reflexivity].
  intros o H. cbn in H. repeat (destruct H as [<- |H]; [discriminate|]). destruct H.
Qed.
(** C212 is refuted: asking twice for the same force from python with sync gives two values. *)
Theorem C212_python_refuted : exists s v1 s1 v2 s2, s_run 0%Z Z.add [SOp (OSetPerm 0 5 true 7%Z); SOp (OAdd 0 5 ChF 1%Z)] = Val s /\ s_python 0%Z Z.add true 5 true s = Val (v1, s1) /\ s_python 0%Z Z.add true 5 true s1 = Val (v2, s2) /\ v1 = 8%Z /\ v2 = 15%Z.
Proof. exact (serial_twice_refuted). Qed.
Print Assumptions C212_python_refuted.

(** C213. What is read for a single body before summing is what everybody reads after it. *)
Theorem C213_single_partial {V} (v0 : V) vadd : vadd v0 v0 = v0 -> forall h : list (scall V), in_range 0 h -> unsummed (calls h) -> exists s t, s_run v0 vadd h = Val s /\ s_run v0 vadd (h ++ [SOp OSync]) = Val t /\
  forall id c, exists v s' t', s_getSingle v0 vadd c id s = Val (v, s') /\ s_get v0 c id t = Val (v, t').
Proof. exact (serial_single v0 vadd). Qed.
Print Assumptions C213_single_partial.
Example C213_single_case : Z.add 0 0 = 0%Z /\ in_range 0 [SOp (OAdd 0 5 ChF 1%Z); SOp (OSetPerm 0 7 true 2%Z); SAddUnsynced true 6 3%Z; SRead ChF 300; SAddUnsynced false 250 4%Z] /\ unsummed (calls [SOp (OAdd 0 5 ChF 1%Z); SOp (OSetPerm 0 7 true 2%Z); SAddUnsynced true 6 3%Z; SRead ChF 300; SAddUnsynced false 250 4%Z]) /\ perm_used (calls [SOp (OAdd 0 5 ChF 1%Z); SOp (OSetPerm 0 7 true 2%Z); SAddUnsynced true 6 3%Z; SRead ChF 300; SAddUnsynced false 250 4%Z]) = true.
Proof.
  split; [reflexivity|]. split; [cbn [in_range reach]; repeat split; try exact I; apply Nat.ltb_lt; reflexivity|]. split; [|reflexivity].
  intros o H. cbn in H. repeat (destruct H as [<- |H]; [discriminate|]). destruct H.
Qed.
(** C213 is refuted after summing: the permanent value is there twice. *)
Theorem C213_single_refuted : exists s v1 s1 v2 s2, s_run 0%Z Z.add [SOp (OSetPerm 0 5 true 7%Z); SOp OSync] = Val s /\ s_getSingle 0%Z Z.add ChF 5 s = Val (v1, s1) /\ s_get 0%Z ChF 5 s = Val (v2, s2) /\ v1 = 14%Z /\ v2 = 7%Z.
Proof. exact (serial_single_refuted). Qed.
Print Assumptions C213_single_refuted.

(** C214. The force read without summing is the sum of what was added, *)
Theorem C214_force_partial {V} (v0 : V) vadd : vadd v0 v0 = v0 -> forall h : list (scall V), in_range 0 h -> perm_used (calls h) = false -> exists s, s_run v0 vadd h = Val s /\
  forall id, exists s', s_getUnsynced v0 true id s = Val (fold_left vadd (all_values id ChF (calls h)) v0, s').
Proof. exact (serial_unsynced v0 vadd). Qed.
Print Assumptions C214_force_partial.
Example C214_force_case : Z.add 0 0 = 0%Z /\ in_range 0 [SOp (OAdd 0 5 ChF 1%Z); SOp OSync; SAddUnsynced true 3 3%Z; SOp (OReset 0 false); SOp (OAdd 0 2 ChR 4%Z); SOp OSync] /\ perm_used (calls [SOp (OAdd 0 5 ChF 1%Z); SOp OSync; SAddUnsynced true 3 3%Z; SOp (OReset 0 false); SOp (OAdd 0 2 ChR 4%Z); SOp OSync]) = false.
Proof. split; [reflexivity|]. split; [cbn [in_range reach]; repeat split; try exact I; apply Nat.ltb_lt; reflexivity|reflexivity]. Qed.
(** C214 is refuted for torques: the force is returned instead. *)
Theorem C214_torque_refuted : exists s v1 s1 v2 s2, s_run 0%Z Z.add [SOp (OAdd 0 5 ChT 3%Z)] = Val s /\ s_getUnsynced 0%Z false 5 s = Val (v1, s1) /\ s_get 0%Z ChT 5 s = Val (v2, s2) /\ v1 = 0%Z /\ v2 = 3%Z.
Proof. exact (serial_torque_refuted). Qed.
Print Assumptions C214_torque_refuted.

(** C215. Permanent values are those last set since the last complete reset, for every history of calls. *)
Theorem C215_permanent {V} (v0 : V) vadd : vadd v0 v0 = v0 -> forall h : list (scall V), in_range 0 h -> exists s, s_run v0 vadd h = Val s /\
  forall id, exists s1 s2, s_getPerm v0 true id s = Val (fst (perm_ideal v0 (calls h) id), s1) /\ s_getPerm v0 false id s = Val (snd (perm_ideal v0 (calls h) id), s2).
Proof. exact (serial_perm v0 vadd). Qed.
Print Assumptions C215_permanent.
Example C215_permanent_case : Z.add 0 0 = 0%Z /\ in_range 0 [SOp (OAdd 0 5 ChF 1%Z); SOp (OSetPerm 0 7 true 2%Z); SAddUnsynced true 6 3%Z; SRead ChF 300; SAddUnsynced false 250 4%Z] /\ unsummed (calls [SOp (OAdd 0 5 ChF 1%Z); SOp (OSetPerm 0 7 true 2%Z); SAddUnsynced true 6 3%Z; SRead ChF 300; SAddUnsynced false 250 4%Z]) /\ perm_used (calls [SOp (OAdd 0 5 ChF 1%Z); SOp (OSetPerm 0 7 true 2%Z); SAddUnsynced true 6 3%Z; SRead ChF 300; SAddUnsynced false 250 4%Z]) = true.
Proof.
  split; [reflexivity|]. split; [cbn [in_range reach]; repeat split; try exact I; apply Nat.ltb_lt; reflexivity|]. split; [|reflexivity].
  intros o H. cbn in H. repeat (destruct H as [<- |H]; [discriminate|]). destruct H.
Qed.
(** C215. The hypothesis on ranges is needed: nothing checks that the body is known when a summed force is changed. *)
Theorem C215_out_of_range {V} (v0 : V) vadd id v isF : s_run v0 vadd [SAddUnsynced isF id v] = UB.
Proof. exact (out_of_range v0 vadd id v isF). Qed.
Print Assumptions C215_out_of_range.

(** C216. With exact arithmetic the build with any number of threads and the one without give the same readings after summing, if there are no permanent values or they are summed once. *)
Theorem C216_agree_partial {V} (v0 : V) vadd : is_cmonoid v0 vadd -> forall n (h : list (op V)), Forall (valid n) h -> perm_used h = false \/ (unsummed h /\ window h) ->
  exists p s, run v0 vadd n (h ++ [OSync]) = Val p /\ s_run v0 vadd (map SOp (h ++ [OSync])) = Val s /\ forall id c, exists v s', get v0 c id p = Val v /\ s_get v0 c id s = Val (v, s').
Proof. exact (agree v0 vadd). Qed.
Print Assumptions C216_agree_partial.
Example C216_agree_case : let h := [OSetPerm 0 5 true 7%Z; OSetPerm 0 90 false 2%Z; OReset 1%Z false; OAdd 0 5 ChF 1%Z] in is_cmonoid 0%Z Z.add /\ Forall (valid 1) h /\ unsummed h /\ window h.
Proof.
  cbv zeta. split; [constructor; intros; lia|]. split; [repeat constructor|]. split.
  - intros o H. cbn in H. repeat (destruct H as [<- |H]; [discriminate|]). destruct H.
  - intros g a isF v g' b isF' v' [H|[H|[H|[H|[]]]]] [H'|[H'|[H'|[H'|[]]]]]; inversion H; inversion H'; subst; apply Nat.ltb_lt; reflexivity.
Qed.
(** C216 is refuted with permanent values summed twice. *)
Theorem C216_agree_refuted : exists p s s', run 0%Z Z.add 1 [OSetPerm 0 5 true 7%Z; OSync; OSync] = Val p /\ s_run 0%Z Z.add (map SOp [OSetPerm 0 5 true 7%Z; OSync; OSync]) = Val s /\ get 0%Z ChF 5 p = Val 7%Z /\ s_get 0%Z ChF 5 s = Val (14%Z, s').
Proof. exact (agree_refuted). Qed.
Print Assumptions C216_agree_refuted.

(** C217. In a scene of any history, every body but the first has a place among the summed forces after sync, *)
Theorem C217_covered_partial {V} (v0 : V) vadd : vadd v0 v0 = v0 -> forall n h k, life h k -> Forall (valid n) h -> exists s, run v0 vadd n (h ++ [OSync]) = Val s /\ forall isF id v, 0 < id < k -> exists s', addUnsynced vadd isF id v s = Val s'.
Proof. exact (covered v0 vadd). Qed.
Print Assumptions C217_covered_partial.
Example C217_covered_case : life ([] ++ [@OMaxId Z 0 0] ++ [OMaxId 1 1] ++ [OMaxId 0 (2 * 2)] ++ [OSync] ++ [OReset 0 true]) 2 /\ Forall (valid 2) ([] ++ [@OMaxId Z 0 0] ++ [OMaxId 1 1] ++ [OMaxId 0 (2 * 2)] ++ [OSync] ++ [OReset 0 true]).
Proof.
  split.
  - cbn [app]. change [@OMaxId Z 0 0; OMaxId 1 1; OMaxId 0 (2 * 2); OSync; OReset 0 true] with ((((([] ++ [@OMaxId Z 0 0]) ++ [OMaxId 1 1]) ++ [OMaxId 0 (2 * 2)]) ++ [OSync]) ++ [OReset 0 true]).
    apply LOther; [|exact I]. apply LOther; [|exact I]. apply LCollide. apply LInsert. apply LInsert. apply L0.
  - cbn [app]. repeat constructor; cbn [valid]; try lia; exact I.
Qed.
(** C217. what is added to the summed force is read from then on, that of other bodies and other quantities stays, and sums are not computed again until something else is added. *)
Theorem C217_seen_partial {V} (v0 : V) vadd : vadd v0 v0 = v0 -> forall n (h : list (op V)) s isF id v s', Forall (valid n) h -> run v0 vadd n (h ++ [OSync]) = Val s -> addUnsynced vadd isF id v s = Val s' ->
  (exists x, get v0 (if isF then ChF else ChT) id s = Val x /\ get v0 (if isF then ChF else ChT) id s' = Val (vadd x v)) /\
  (forall j c, j <> id \/ c <> (if isF then ChF else ChT) -> get v0 c j s' = get v0 c j s) /\ sync v0 vadd s' = Val s'.
Proof. exact (unsynced_seen v0 vadd). Qed.
Print Assumptions C217_seen_partial.
Example C217_seen_case : exists s s', Forall (valid 1) [OAdd 0 5 ChF 1%Z] /\ run 0%Z Z.add 1 ([OAdd 0 5 ChF 1%Z] ++ [OSync]) = Val s /\ addUnsynced Z.add true 5 10%Z s = Val s'.
Proof. eexists _, _. split; [constructor; [cbn [valid]; lia|constructor]|]. split; vm_compute; reflexivity. Qed.
(** C217 is refuted for the first body: with nothing but its insertion, writing to its summed force is out of bounds. *)
Theorem C217_first_refuted : exists s, life [@OMaxId Z 0 0] 1 /\ Forall (valid 1) [@OMaxId Z 0 0] /\ run 0%Z Z.add 1 ([OMaxId 0 0] ++ [OSync]) = Val s /\ addUnsynced Z.add true 0 1%Z s = UB.
Proof. exact (zero_refuted). Qed.
Print Assumptions C217_first_refuted.

(** C217 is refuted in that any later addition to any body makes it forgotten. *)
Theorem C217_lost_refuted : exists s1 s2 s3 s4, run 0%Z Z.add 1 [OAdd 0 5 ChF 1%Z; OSync] = Val s1 /\ addUnsynced Z.add true 5 10%Z s1 = Val s2 /\ get 0%Z ChF 5 s2 = Val 11%Z /\ step 0%Z Z.add s2 (OAdd 0 6 ChF 1%Z) = Val s3 /\ step 0%Z Z.add s3 OSync = Val s4 /\ get 0%Z ChF 5 s4 = Val 1%Z.
Proof. exact (unsynced_lost). Qed.
Print Assumptions C217_lost_refuted.

