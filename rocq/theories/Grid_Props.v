(** Properties of the grid collider. *)
From Coq Require Import List ZArith Bool Arith Reals Lra Lia.
From Verif Require Import Vec_Model Vec_Proofs Loop_Model.
From Verif Require Import Grid_Model Grid_Spec Grid_Proofs Grid_Example.
Import ListNotations.
Local Open Scope R_scope.

(** ** C107: the collider knows all spheres that touch *)
Theorem C107_touching_partial : forall A may steps bs E0 is bs' st' a b, (forall x y, may x y = may y x) -> diagonal A -> 0 <= verletDist A -> Forall (fun s => 0 <= snd (fst s)) steps -> moves bs steps -> newton E0 = false -> steps <> [] ->
  sim A may bs steps (E0, is) = Done (bs', st') -> touch bs' a b -> a <> b -> may a b = true -> known (snd st') a b.
Proof. exact sim_touch. Qed.
Print Assumptions C107_touching_partial.
Example C107_ex : (forall x y, all x y = all y x) /\ diagonal A4 /\ 0 <= verletDist A4 /\ Forall (fun s => 0 <= snd (fst s)) steps4 /\ moves bs4 steps4 /\ (exists st, sim A4 all bs4 steps4 (mkE false 0, []) = Done (bs2, st)) /\ touch bs2 0 1.
Proof. split; [reflexivity|]. split; [split; reflexivity|]. split; [cbn; lra|]. split; [apply moves4|]. split; [apply moves4|]. split; [exact sim4|exact touch2]. Qed.
Theorem C107_once_partial : forall A may it bs is is' a b, (forall x y, may x y = may y x) -> diagonal A -> 0 <= verletDist A -> handled bs -> Grid_Model.action A may it bs is = Done is' ->
  (near bs (2 * verletDist A) a b -> a <> b -> may a b = true -> known is' a b) /\ (known is a b -> known is' a b).
Proof. intros A may it bs is is' a b S D V H E. split; [exact (action_finds A may it bs is is' a b S D V H E)|exact (action_keeps A may it bs is is' a b E)]. Qed.
Print Assumptions C107_once_partial.
Example C107_once_ex : diagonal A2 /\ handled bs2 /\ Grid_Model.action A2 all 5 bs2 [] = Done [Grid_Model.mkI 0 1 (-1)] /\ near bs2 (2 * verletDist A2) 0 1.
Proof. split; [split; reflexivity|]. split; [apply balls_handled|]. split; [exact (late2 _)|]. pose proof touch2 as H. unfold touch in H. cbn [verletDist A2]. replace (2 * 0) with 0 by ring. exact H. Qed.
Theorem C107_corner_refuted : touch bs1 0 1 /\ exists is', Grid_Model.action A1 all 5 bs1 [] = Done is' /\ ~ known is' 0 1.
Proof. split; [exact touch1|exact missed1]. Qed.
Print Assumptions C107_corner_refuted.

(** ** C108: positions of spheres never make the collider leave its memory *)
Theorem C108_memory_partial : forall A may it bs is, valid A -> handled bs -> exists is', Grid_Model.action A may it bs is = Done is'.
Proof. intros A may it bs is V H. destruct (action_ok A may it bs is V H) as (g & is' & _ & E & _). exists is'. exact E. Qed.
Print Assumptions C108_memory_partial.
Theorem C108_index : forall A g data c, updateGrid A = Done (g, data) -> (0 <= lin g c < Z.of_nat (length data))%Z.
Proof. intros A g data c H. destruct (updateGrid_ok A g data H) as (P & _ & _ & _ & -> & _). rewrite repeat_length. pose proof (lin_bounds g c P). rewrite Z2Nat.id by lia. assumption. Qed.
Print Assumptions C108_index.
Example C108_ex : valid A1 /\ handled bs1 /\ updateGrid A2 = Done (mkG 1 1 1 (V 0 0 0) 10, [[]]).
Proof. split; [eexists; exact grid1|]. split; [apply balls_handled|exact grid2]. Qed.
Theorem C108_large_refuted : forall may it bs is, 0 < stepA A3 /\ Grid_Model.action A3 may it bs is = UB.
Proof. intros. split; [cbn; lra|]. unfold Grid_Model.action. rewrite grid3. reflexivity. Qed.
Print Assumptions C108_large_refuted.

(** ** C109: a contact has its forces from the step in which it is found *)
Theorem C109_first_refuted : forall T F S z, (0 <= iter S)%Z -> iterColliderLastRun S = iter S -> touch bs2 0 1 /\ Grid_Model.action A2 all (iter S) bs2 [] = Done [Grid_Model.mkI 0 1 (-1)] /\
  iterLastSeen (@new T 0 1 z) = (-1)%Z /\ process F S (new 0 1 z) = Ok (new 0 1 z, Loop_Model.mkE [] [] [] [(0%nat, 1%nat)]).
Proof.
  intros T F S z H1 H2. split; [exact touch2|]. split; [exact (late2 _)|]. split; [reflexivity|]. unfold process, removeUnseen. rewrite H2, (proj2 (Z.leb_le _ _) H1), Z.eqb_refl. cbn [new iterLastSeen isReal geom phys negb andb id1 id2]. rewrite (proj2 (Z.ltb_lt _ _)) by lia. reflexivity.
Qed.
Print Assumptions C109_first_refuted.
Theorem C109_again_partial : forall A may it bs is is' a b i, diagonal A -> 0 <= verletDist A -> handled bs -> Grid_Model.action A may it bs is = Done is' -> near bs (2 * verletDist A) a b -> a <> b -> known is a b ->
  In i is' -> (a1 i = a /\ a2 i = b) \/ (a1 i = b /\ a2 i = a) -> lastSeen i = it.
Proof. intros A may it bs is is' a b i D V H E N Hn K Hi P. apply (action_sees A may it bs is is' a b D V H E N Hn K i Hi). apply of_pair_spec. exact P. Qed.
Print Assumptions C109_again_partial.
Example C109_ex : diagonal A2 /\ handled bs2 /\ known [Grid_Model.mkI 0 1 (-1)] 0 1.
Proof. split; [split; reflexivity|]. split; [apply balls_handled|]. eexists. split; [left; reflexivity|left; split; reflexivity]. Qed.
