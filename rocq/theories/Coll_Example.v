(** Concrete runs of the collider. *)
From Coq Require Import List ZArith Arith Bool Permutation Lia.
From Verif Require Import Coll_Model Coll_Spec Coll_Proofs1 Coll_Proofs2 Coll_Proofs3 Coll_Proofs4.
Import ListNotations.

(** std::sort is played by the insertion sort *)
Definition exs : settings := mkSettings 0 0 0 false 1 1 false false (fun l => fst (insertionSort l)) (fun l => l).
Lemma sort_law l : Permutation l (fst (insertionSort l)) /\
  forall a x b y c, fst (insertionSort l) = a ++ x :: b ++ y :: c -> (coord x <= coord y)%Z.
Proof. destruct (insertionSort_ok l) as [[P _] S]. split; [exact P|]. intros a x b y c E. apply S. exists a, b, c. exact E. Qed.
Lemma exs_ok : settings_ok exs.
Proof. split; [cbn; lia|]. split; [apply sort_law|]. intros l. apply Permutation_refl. Qed.
(** with many threads *)
Definition ext (t : nat) : settings := mkSettings 0 0 0 false t 1 false false (fun l => fst (insertionSort l)) (fun l => l).
Lemma ext_ok t : settings_ok (ext t).
Proof. split; [cbn; lia|]. split; [apply sort_law|]. intros l. apply Permutation_refl. Qed.

(** a cube from (x,x,x) to (x+10,x+10,x+10) *)
Definition cube (x : Z) : box := mkBox (fun _ => x) (fun _ => (x + 10)%Z).
Definition ball (mask x : Z) : option body := Some (mkBody (Some (cube x)) (fun _ => (x + 5)%Z) 0 false None mask).

Definition runs2 s bs1 I1 bs2 I2 : option (ints * ints) :=
  match action s fresh bs1 I1 with
  | Some (c1, J1) => match action s c1 bs2 (I2 J1) with Some (c2, J2) => Some (J1, J2) | None => None end
  | None => None
  end.
Lemma runs2_inv s bs1 I1 bs2 I2 J1 J2 : runs2 s bs1 I1 bs2 I2 = Some (J1, J2) ->
  exists c1 c2, action s fresh bs1 I1 = Some (c1, J1) /\ action s c1 bs2 (I2 J1) = Some (c2, J2).
Proof.
  unfold runs2. destruct (action s fresh bs1 I1) as [[c1 K1]|]; [|discriminate]. destruct (action s c1 bs2 (I2 K1)) as [[c2 K2]|] eqn:E; [|discriminate].
  intros H. assert (K1 = J1) by congruence. assert (K2 = J2) by congruence. subst. eauto.
Qed.
Definition runs3 s bs1 bs2 bs3 : option (ints * ints * ints) :=
  match action s fresh bs1 [] with
  | Some (c1, J1) => match action s c1 bs2 [] with
                     | Some (c2, J2) => match action s c2 bs3 J2 with Some (_, J3) => Some (J1, J2, J3) | None => None end
                     | None => None
                     end
  | None => None
  end.
Lemma runs3_inv s bs1 bs2 bs3 J1 J2 J3 : runs3 s bs1 bs2 bs3 = Some (J1, J2, J3) ->
  exists c1 c2 c3, action s fresh bs1 [] = Some (c1, J1) /\ action s c1 bs2 [] = Some (c2, J2) /\ action s c2 bs3 J2 = Some (c3, J3).
Proof.
  unfold runs3. destruct (action s fresh bs1 []) as [[c1 K1]|]; [|discriminate]. destruct (action s c1 bs2 []) as [[c2 K2]|] eqn:E2; [|discriminate].
  destruct (action s c2 bs3 K2) as [[c3 K3]|] eqn:E3; [|discriminate]. intros H. assert (K1 = J1) by congruence. assert (K2 = J2) by congruence. assert (K3 = J3) by congruence. subst. eauto 10.
Qed.

(** two cubes with a common interior that may collide *)
Lemma two_meet m x y bs : (m = 1 \/ m = 2)%Z -> (x <= y < x + 10)%Z -> bs = [ball m x; ball m y] -> overlap_strictly bs 0 1 /\ allowed exs bs 0 1.
Proof.
  intros Hm Hy ->. split.
  - exists (cube x), (cube y). split; [eexists; split; reflexivity|]. split; [eexists; split; reflexivity|]. intros a _. cbn. lia.
  - destruct Hm as [-> | ->]; reflexivity.
Qed.
Lemma not_complete m x y bs : (m = 1 \/ m = 2)%Z -> (x <= y < x + 10)%Z -> bs = [ball m x; ball m y] -> ~ complete exs bs [].
Proof.
  intros Hm Hy E H. destruct (two_meet m x y bs Hm Hy E) as [A B]. destruct (H 0 1 ltac:(lia) A B) as (p & r & [] & _).
Qed.

(** masks changed while the boxes overlap *)
Lemma mask_runs : runs2 exs [ball 1 0; ball 2 5] [] [ball 1 0; ball 1 5] (fun J => J) = Some ([], []).
Proof. vm_compute. reflexivity. Qed.
(** a body is erased and another one is created with its id *)
Lemma recycled_runs : runs3 exs [ball 1 0; ball 1 5] [ball 1 0; None] [ball 1 0; ball 1 5] = Some ([((0, 1), false)], [], []).
Proof. vm_compute. reflexivity. Qed.
(** touching, apart, touching again *)
Lemma apart_runs : runs2 exs [ball 1 0; ball 1 5] [] [ball 1 0; ball 1 50] (fun J => J) = Some ([((0, 1), false)], []).
Proof. vm_compute. reflexivity. Qed.
Lemma again_runs : runs2 exs [ball 1 0; ball 1 50] [] [ball 1 0; ball 1 5; ball 1 8] (fun J => J) = Some ([], [((1, 0), false); ((2, 1), false); ((2, 0), false)]).
Proof. vm_compute. reflexivity. Qed.

Lemma again_tame : tame exs [ball 1 0; ball 1 50] [] exs [ball 1 0; ball 1 5; ball 1 8] [].
Proof.
  split; [cbn; lia|]. intros i j Hij Hi Hj _ _ _. cbn in Hi, Hj.
  assert (E : (i = 0 /\ j = 1) \/ (i = 1 /\ j = 0)) by lia.
  destruct E as [[-> ->]|[-> ->]]; (split; [eexists; eexists; split; reflexivity|]); (split; [eexists; eexists; split; reflexivity|]); (split; [reflexivity|auto]).
Qed.
Lemma again_reached : exists c, reached exs c [ball 1 0; ball 1 5; ball 1 8] [((1, 0), false); ((2, 1), false); ((2, 0), false)].
Proof.
  destruct (runs2_inv _ _ _ _ _ _ _ again_runs) as (c1 & c2 & E1 & E2). exists c2. eapply R_next; [eapply R_first; [apply exs_ok|exact E1]|apply exs_ok|left; apply again_tame|exact E2].
Qed.
