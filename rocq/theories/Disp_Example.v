(** Classes of the examples: 0 Sphere, 1 GridNode and 2 GridConnection derived from
    Sphere (pkg/common/Grid.hpp:38,61), 3 a class derived from GridConnection, 4 Box. *)
From Coq Require Import List Arith Bool Lia.
From Verif Require Import Disp_Model Disp_Spec Disp_Proofs.
Import ListNotations.

Definition cls : hier := fun c => match c with 0 => [0] | 1 => [1; 0] | 2 => [2; 0] | 3 => [3; 2; 0] | _ => [c] end.
Lemma cls_ok : hierarchy cls.
Proof.
  intros c. split; [do 4 (destruct c as [|c]; [eexists; reflexivity|]); eexists; reflexivity|].
  intros d x E. do 4 (destruct c as [|c]; [do 4 (destruct d as [|d]; [cbn in E; try discriminate; injection E as <-; reflexivity|]); cbn in E; destruct d; discriminate|]).
  destruct d as [|d]; [cbn in E; injection E as <-; reflexivity|cbn in E; destruct d; discriminate].
Qed.

(** one argument: functors for spheres and for grid connections *)
Definition bo_sphere := mkF 10 100 0 0 false.
Definition bo_grid := mkF 11 101 2 0 false.
Definition bo_sphere' := mkF 20 200 0 0 false.
(** two arguments *)
Definition ig_ss := mkF 30 300 0 0 false.
Definition ig_sg := mkF 31 301 0 2 false.
Definition ig_gs := mkF 32 302 1 0 false.
Definition ig_bs := mkF 33 303 4 0 false.
Definition ig_ss' := mkF 40 400 0 0 false.

Lemma diff1 : different [bo_sphere; bo_grid].
Proof. repeat constructor; cbn; intuition discriminate. Qed.
Lemma diff2 : different [ig_ss; ig_sg].
Proof. repeat constructor; cbn; intuition discriminate. Qed.
Lemma diff_one f : different [f].
Proof. repeat constructor; intros []. Qed.

(** ** history dependence *)
Lemma above_cls c d x : above cls c d x -> nth_error (cls c) d = Some x.
Proof. exact (fun H => H). Qed.
Lemma given2_in sym l f x y : given2 sym l f x y -> In f l /\ meant sym f x y.
Proof. intros (l1 & l2 & -> & M & _). split; [apply in_or_app; right; left; reflexivity|exact M]. Qed.

(** nearest functor for (GridNode, GridConnection) *)
Lemma dist1_only f : at_dist true cls cls [ig_ss; ig_sg] 1 2 1 f -> f = ig_sg.
Proof.
  intros (d1 & d2 & x & y & E & A & B & G). apply given2_in in G. destruct G as [Hin M]. unfold above in *.
  destruct d1 as [|[|d1]]; [| |lia].
  - assert (d2 = 1) by lia. subst. cbn in A, B. injection A as <-. injection B as <-. destruct Hin as [<-|[<-|[]]]; cbn in M; [destruct M as [[? ?]|[_ [? ?]]]; discriminate|reflexivity].
  - assert (d2 = 0) by lia. subst. cbn in A, B. injection A as <-. injection B as <-. destruct Hin as [<-|[<-|[]]]; cbn in M; [destruct M as [[? ?]|[_ [? ?]]]; discriminate|reflexivity].
Qed.
Lemma dist0_none f : ~ at_dist true cls cls [ig_ss; ig_sg] 1 2 0 f.
Proof.
  intros (d1 & d2 & x & y & E & A & B & G). apply given2_in in G. destruct G as [Hin M]. unfold above in *. assert (d1 = 0) by lia. assert (d2 = 0) by lia. subst. cbn in A, B. injection A as <-. injection B as <-.
  destruct Hin as [<-|[<-|[]]]; cbn in M; destruct M as [[? ?]|[_ [? ?]]]; discriminate.
Qed.
Lemma dist1_there : at_dist true cls cls [ig_ss; ig_sg] 1 2 1 ig_sg.
Proof.
  exists 1, 0, 0, 2. split; [reflexivity|]. split; [reflexivity|]. split; [reflexivity|]. exists [ig_ss], []. split; [reflexivity|]. split; [left; split; reflexivity|intros g []].
Qed.
Lemma not_ambiguous : ~ right_answer true cls cls [ig_ss; ig_sg] 1 2 Raises.
Proof.
  intros (n & f & g & [_ C] & A & B & N). assert (n = 1 \/ n = 0) as [->| ->].
  { destruct n as [|[|n]]; [auto|auto|]. exfalso. apply (C 1 ig_sg); [lia|exact dist1_there]. }
  - apply dist1_only in A, B. congruence.
  - exact (dist0_none f A).
Qed.
Lemma history_raises : snd (locate2 cls cls (run2 cls cls (set2 true false [ig_ss; ig_sg]) [(1, 0)]) 1 2) = Raises.
Proof. reflexivity. Qed.
(** the same lookup without the first one *)
Example fresh_succeeds : snd (locate2 cls cls (run2 cls cls (set2 true false [ig_ss; ig_sg]) []) 1 2) = Chosen ig_sg false.
Proof. reflexivity. Qed.

(** ** an ambiguous lookup succeeds when it is repeated *)
Lemma first_raises : snd (locate2 cls cls (set2 true false [ig_gs; ig_sg]) 1 2) = Raises.
Proof. reflexivity. Qed.
Lemma second_succeeds : snd (locate2 cls cls (run2 cls cls (set2 true false [ig_gs; ig_sg]) [(1, 2)]) 1 2) = Chosen ig_gs false.
Proof. reflexivity. Qed.

(** ** a replaced functor *)
Definition sphere := mkUser 0 0 None true.
Lemma not_nearest_new : ~ nearest cls [bo_sphere'] 0 bo_sphere.
Proof.
  intros (d & x & _ & (l1 & l2 & E & _) & _). destruct l1 as [|a [|b l1]]; discriminate.
Qed.
Lemma not_right_new s : ~ right_answer true cls cls [ig_ss'] 0 0 (Chosen ig_ss s).
Proof.
  intros (n & _ & (d1 & d2 & x & y & _ & _ & _ & G) & _). apply given2_in in G. destruct G as [[G|[]] _]. discriminate.
Qed.
Lemma right_exists : right_answer true cls cls [ig_ss] 0 0 (Chosen ig_ss false).
Proof.
  assert (A : at_dist true cls cls [ig_ss] 0 0 0 ig_ss). { exists 0, 0, 0, 0. split; [reflexivity|]. split; [reflexivity|]. split; [reflexivity|]. exists [], []. split; [reflexivity|]. split; [left; split; reflexivity|intros g []]. }
  exists 0. split; [split; [eauto|intros; lia]|]. split; [exact A|]. intros g (d1 & d2 & x & y & _ & _ & _ & G). apply given2_in in G. destruct G as [[G|[]] _]. subst. reflexivity.
Qed.

(** ** hypotheses of the theorems *)
Lemma not_below_ex : forall p, In p [(4, 0); (0, 4); (3, 1)] -> not_below cls cls 1 2 p.
Proof.
  intros p [<-|[<-|[<-|[]]]] [(d1 & A) (d2 & B)]; unfold above in *; cbn [fst snd] in *.
  - destruct d1 as [|[|d1]]; cbn in A; try discriminate. destruct d1; discriminate.
  - destruct d2 as [|[|d2]]; cbn in B; try discriminate. destruct d2; discriminate.
  - destruct d1 as [|[|d1]]; cbn in A; try discriminate. destruct d1; discriminate.
Qed.
