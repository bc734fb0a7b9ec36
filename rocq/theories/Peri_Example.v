(** Concrete runs of the collider in a periodic scene. *)
From Coq Require Import List ZArith Arith Bool Lia Permutation.
From Verif Require Import Coll_Model Coll_Spec Peri_Model Peri_Spec Peri_Sort Peri_Refine Peri_Proofs1 Peri_Proofs2 Peri_Proofs3.
Import ListNotations.
Local Open Scope Z_scope.

(** std::sort is played by an insertion sort *)
Fixpoint ins (x : pent) (l : list pent) : list pent :=
  match l with [] => [x] | y :: l' => if pco x <=? pco y then x :: l else y :: ins x l' end.
Definition isort (l : list pent) : list pent := fold_right ins [] l.
Fixpoint ascending (l : list pent) : Prop :=
  match l with x :: (y :: _) as l' => pco x <= pco y /\ ascending l' | _ => True end.
Lemma ins_perm x l : Permutation (x :: l) (ins x l).
Proof.
  induction l as [|y l IH]; cbn [ins]; [apply Permutation_refl|]. destruct (pco x <=? pco y); [apply Permutation_refl|].
  eapply Permutation_trans; [apply perm_swap|]. apply perm_skip. exact IH.
Qed.
Lemma isort_perm l : Permutation l (isort l).
Proof. induction l as [|x l IH]; cbn [isort fold_right]; [constructor|]. eapply Permutation_trans; [apply perm_skip; exact IH|apply ins_perm]. Qed.
Lemma ins_asc x l : ascending l -> ascending (ins x l).
Proof.
  induction l as [|y l IH]; intros A; cbn [ins]; [exact I|]. destruct (Z.leb_spec (pco x) (pco y)) as [L|L]; [split; assumption|].
  destruct l as [|z l]; cbn [ins ascending] in *; [split; [lia|exact I]|]. destruct A as [A1 A2]. specialize (IH A2).
  destruct (pco x <=? pco z); cbn [ascending] in *; split; [lia|exact IH|exact A1|exact IH].
Qed.
Lemma isort_asc l : ascending (isort l).
Proof. induction l as [|x l IH]; cbn [isort fold_right]; [exact I|]. apply ins_asc. exact IH. Qed.
Lemma asc_nth l : ascending l -> forall k dflt, (S k < length l)%nat -> pco (nth k l dflt) <= pco (nth (S k) l dflt).
Proof.
  induction l as [|x l IH]; intros A k dflt Hk; [cbn [length] in Hk; lia|]. destruct l as [|y l]; [cbn [length] in Hk; lia|]. destruct A as [A1 A2].
  destruct k as [|k]; [exact A1|]. apply (IH A2 k dflt). cbn [length] in *. lia.
Qed.
Definition sort_arr (n : Z) (v : arr) : arr := let l := isort (elems (Z.to_nat n) v) in fun k => nth (Z.to_nat k) l no_entry.
Lemma map_nth_seq (l : list pent) dflt : map (fun k => nth k l dflt) (seq 0 (length l)) = l.
Proof.
  induction l as [|x l IH]; [reflexivity|]. cbn [length seq map]. f_equal. rewrite <- seq_shift, map_map. exact IH.
Qed.
Lemma sort_arr_ok n v : Permutation (elems n v) (elems n (sort_arr (Z.of_nat n) v)) /\
  forall k, 0 <= k -> k + 1 < Z.of_nat n -> pco (sort_arr (Z.of_nat n) v k) <= pco (sort_arr (Z.of_nat n) v (k + 1)).
Proof.
  unfold sort_arr. rewrite Nat2Z.id. set (l := isort (elems n v)).
  assert (L : length l = n) by (unfold l; rewrite <- (Permutation_length (isort_perm (elems n v))); unfold elems; rewrite map_length, seq_length; reflexivity).
  split.
  - assert (E : elems n (fun k => nth (Z.to_nat k) l no_entry) = l).
    { unfold elems. erewrite map_ext; [|intros k; rewrite Nat2Z.id; reflexivity]. rewrite <- L. apply map_nth_seq. }
    rewrite E. apply isort_perm.
  - intros k Hk Hn. replace (Z.to_nat (k + 1)) with (S (Z.to_nat k)) by lia. apply asc_nth; [apply isort_asc|]. rewrite L. lia.
Qed.

(** a cubic cell of size d; [again]: start from scratch *)
Definition pex (d : Z) (again : bool) : psettings := mkPset 0 0 (mkCell (fun _ => d) (fun _ => 0) false) 0 false again false sort_arr.
Lemma pex_ok d again : 0 < d -> psettings_ok (pex d again).
Proof.
  intros Hd. split; [cbn; lia|]. split; [|exact sort_arr_ok]. split; [reflexivity|]. intros a _. cbn [dim ctol pcell pex]. lia.
Qed.
(** from l to h along x, from 5 to 10 along y and z *)
Definition rod (l h : Z) : option body :=
  Some (mkBody (Some (mkBox (fun a => match a with O => l | _ => 5 end) (fun a => match a with O => h | _ => 10 end))) (fun _ => l) 0 false None 1).
(** the cube from (l,l,l) to (h,h,h) *)
Definition block (l h : Z) : option body := Some (mkBody (Some (mkBox (fun _ => l) (fun _ => h))) (fun _ => l) 0 false None 1).
Lemma rods_fit d ag (l : list (Z * Z)) : (forall p, In p l -> fst p < snd p /\ 2 * (snd p - fst p) <= d) -> 10 <= d ->
  all_fit (pcell (pex d ag)) (map (fun p => rod (fst p) (snd p)) l).
Proof.
  intros H Hd i x (b & B & Bx). unfold body_at in B. destruct (nth_error _ i) as [o|] eqn:E; [|discriminate]. destruct o as [b0|]; [|discriminate]. injection B as ->.
  apply nth_error_In, in_map_iff in E. destruct E as (p & E & Hp). unfold rod in E. injection E as <-. injection Bx as <-. specialize (H p Hp).
  intros a Ha. cbn [lo hi dim pcell pex]. destruct a; lia.
Qed.
Lemma blocks_fit d ag (l : list (Z * Z)) : (forall p, In p l -> fst p < snd p /\ 2 * (snd p - fst p) <= d) ->
  all_fit (pcell (pex d ag)) (map (fun p => block (fst p) (snd p)) l).
Proof.
  intros H i x (b & B & Bx). unfold body_at in B. destruct (nth_error _ i) as [o|] eqn:E; [|discriminate]. destruct o as [b0|]; [|discriminate]. injection B as ->.
  apply nth_error_In, in_map_iff in E. destruct E as (p & E & Hp). unfold block in E. injection E as <-. injection Bx as <-. specialize (H p Hp).
  intros a Ha. cbn [lo hi dim pcell pex]. lia.
Qed.

(** several runs, the interactions left alone in between *)
Fixpoint history (c : pcoll) (I : pints) (l : list (psettings * bodies)) : res (list pints) :=
  match l with
  | [] => Ok []
  | (s, bs) :: l' => do (c1, I1) <- paction 100 s c bs I; do r <- history c1 I1 l'; Ok (I1 :: r)
  end.
Lemma history_inv s bs l c I r : history c I ((s, bs) :: l) = Ok r ->
  exists c1 I1 r', paction 100 s c bs I = Ok (c1, I1) /\ history c1 I1 l = Ok r' /\ r = I1 :: r'.
Proof.
  cbn [history]. intros E. apply bind_ok in E. destruct E as ([c1 I1] & E1 & E). apply bind_ok in E. destruct E as (r' & E2 & E). injection E as <-. eauto 6.
Qed.


(** Two bodies meet across the border of the cell, three cells apart, after one has travelled; then both move. *)
Definition m1 : bodies := [rod 1 6; rod 9 12].
Definition m2 : bodies := [rod (-3) 2; rod 58 61].
Definition m3 : bodies := [rod (-2) 3; rod 59 62].
Lemma met : exists c1 c2 c3, paction 100 (pex 20 false) (pfresh true) m1 [] = Ok (c1, []) /\
  paction 100 (pex 20 false) c1 m2 [] = Ok (c2, [mkI (0%nat, 1%nat) false (-3, 0, 0)]) /\
  paction 100 (pex 20 false) c2 m3 [mkI (0%nat, 1%nat) false (-3, 0, 0)] = Ok (c3, [mkI (0%nat, 1%nat) false (-3, 0, 0)]).
Proof.
  assert (E : history (pfresh true) [] [(pex 20 false, m1); (pex 20 false, m2); (pex 20 false, m3)] =
              Ok [[]; [mkI (0%nat, 1%nat) false (-3, 0, 0)]; [mkI (0%nat, 1%nat) false (-3, 0, 0)]]) by (vm_compute; reflexivity).
  apply history_inv in E. destruct E as (c1 & I1 & r1 & E1 & E & R1). apply history_inv in E. destruct E as (c2 & I2 & r2 & E2 & E & R2).
  apply history_inv in E. destruct E as (c3 & I3 & r3 & E3 & E & R3). subst. injection R1 as <- <- <- _. eauto 8.
Qed.
Ltac fit := apply (rods_fit 20 false [(_, _); (_, _)]); [intros p [<- | [<- | [] ]]; cbn [fst snd]; lia|lia].
Lemma m1_fit : all_fit (pcell (pex 20 false)) m1. Proof. fit. Qed.
Lemma m2_fit : all_fit (pcell (pex 20 false)) m2. Proof. fit. Qed.
Lemma m3_fit : all_fit (pcell (pex 20 false)) m3. Proof. fit. Qed.
Lemma rods_box l1 h1 l2 h2 i x : has_box [rod l1 h1; rod l2 h2] i x -> i = 0%nat \/ i = 1%nat.
Proof. intros (b & B & _). destruct i as [|[|i]]; auto. unfold body_at in B. cbn [nth_error] in B. destruct i; discriminate. Qed.
Lemma rods_tame s l1 h1 l2 h2 I l1' h1' l2' h2' I' s' : (forall i j, plinked I i j -> plinked I' i j) -> pme s = 0 -> pavoid s = 0 ->
  ptame s [rod l1 h1; rod l2 h2] I s' [rod l1' h1'; rod l2' h2'] I'.
Proof.
  intros HI M A. split; [reflexivity|]. split; [left; intros [|[|i]] Hi; [discriminate|discriminate|cbn [length] in Hi; lia]|]. split.
  - intros i y B. destruct (rods_box _ _ _ _ _ _ B) as [-> | -> ]; do 2 eexists; split; reflexivity.
  - intros i j x y N Bi Bj P. split; [|apply HI]. unfold pallowed. rewrite M, A. destruct (rods_box _ _ _ _ _ _ Bi) as [-> | -> ], (rods_box _ _ _ _ _ _ Bj) as [-> | -> ]; try congruence; reflexivity.
Qed.
Lemma met_reached : exists c, preached (pex 20 false) c m3 [mkI (0%nat, 1%nat) false (-3, 0, 0)] /\ pclean m3 [mkI (0%nat, 1%nat) false (-3, 0, 0)].
Proof.
  destruct met as (c1 & c2 & c3 & E1 & E2 & E3). exists c3. split.
  2: { intros x [<- | [] ] _. do 2 eexists. split; eexists; split; reflexivity. }
  assert (R1 : preached (pex 20 false) c1 m1 []) by (eapply P_first; [apply pex_ok; lia|apply m1_fit|discriminate|exact E1]).
  assert (R2 : preached (pex 20 false) c2 m2 [mkI (0%nat, 1%nat) false (-3, 0, 0)]).
  { eapply P_next; [exact R1|apply pex_ok; lia|apply m2_fit| |exact E2]. apply F_regular; [reflexivity|reflexivity|]. apply rods_tame; auto. }
  eapply P_next; [exact R2|apply pex_ok; lia|apply m3_fit| |exact E3]. apply F_regular; [reflexivity|reflexivity|]. apply rods_tame; auto.
Qed.

(** A body added at the corner of the cell, inside a body that lies across the corner. *)
Lemma corner : exists c1 c2, paction 100 (pex 20 false) (pfresh true) [block (-3) 3] [] = Ok (c1, []) /\
  paction 100 (pex 20 false) c1 [block (-3) 3; block 19 21] [] = Ok (c2, []).
Proof.
  assert (E : history (pfresh true) [] [(pex 20 false, [block (-3) 3]); (pex 20 false, [block (-3) 3; block 19 21])] = Ok [[]; []]) by (vm_compute; reflexivity).
  apply history_inv in E. destruct E as (c1 & I1 & r1 & E1 & E & R1). apply history_inv in E. destruct E as (c2 & I2 & r2 & E2 & E & R2). subst. injection R1 as <- <- _. eauto.
Qed.
Lemma no_link i j : ~ plinked [] i j. Proof. intros (x & [] & _). Qed.
Lemma added_refuted : exists s bs b c1 c2 I1 I2,
  psettings_ok s /\ all_fit (pcell s) bs /\ all_fit (pcell s) (bs ++ [b]) /\ preached s c1 bs I1 /\
  paction 100 s c1 (bs ++ [b]) I1 = Ok (c2, I2) /\ ~ pcomplete s (bs ++ [b]) I2.
Proof.
  destruct corner as (c1 & c2 & E1 & E2). exists (pex 20 false), [block (-3) 3], (block 19 21), c1, c2, [], [].
  assert (P : psettings_ok (pex 20 false)) by (apply pex_ok; lia).
  assert (F1 : all_fit (pcell (pex 20 false)) [block (-3) 3]) by (apply (blocks_fit 20 false [(-3, 3)]); intros p [<- | [] ]; cbn [fst snd]; lia).
  split; [exact P|]. split; [exact F1|]. split; [apply (blocks_fit 20 false [(-3, 3); (19, 21)]); intros p [<- | [<- | [] ]]; cbn [fst snd]; lia|].
  split; [eapply P_first; [exact P|exact F1|discriminate|exact E1]|]. split; [exact E2|]. intros C.
  apply (no_link 0%nat 1%nat). eapply (C 0%nat 1%nat _ _ (-1, -1, -1)); [discriminate|eexists; split; reflexivity|eexists; split; reflexivity| |reflexivity].
  intros a Ha. unfold meets_inside. cbn. destruct a as [|[|[|a]]]; cbn; lia.
Qed.

(** Three runs that start from scratch, each puts the bounds of a body in other cells. *)
Definition h1 : bodies := [rod 1 6; rod 18 20].
Definition h2 : bodies := [rod 4 9; rod 17 19].
Definition h3 : bodies := [rod 2 7; rod 18 20].
Definition h4 : bodies := [rod (-1) 4; rod 19 21].
Lemma restarts_runs : exists c1 c2 c3 c4, paction 100 (pex 20 true) (pfresh true) h1 [] = Ok (c1, []) /\
  paction 100 (pex 20 true) c1 h2 [] = Ok (c2, []) /\ paction 100 (pex 20 true) c2 h3 [] = Ok (c3, []) /\ paction 100 (pex 20 false) c3 h4 [] = Ok (c4, []).
Proof.
  assert (E : history (pfresh true) [] [(pex 20 true, h1); (pex 20 true, h2); (pex 20 true, h3); (pex 20 false, h4)] = Ok [[]; []; []; []]) by (vm_compute; reflexivity).
  apply history_inv in E. destruct E as (c1 & I1 & r1 & E1 & E & R1). apply history_inv in E. destruct E as (c2 & I2 & r2 & E2 & E & R2).
  apply history_inv in E. destruct E as (c3 & I3 & r3 & E3 & E & R3). apply history_inv in E. destruct E as (c4 & I4 & r4 & E4 & E & R4).
  subst. injection R1 as <- <- <- <- _. eauto 10.
Qed.
Lemma restarts_refuted : exists s s' b1 b2 b3 b4 c1 c2 c3 c4 I4,
  psettings_ok s /\ psettings_ok s' /\ pcell s = pcell s' /\
  all_fit (pcell s) b1 /\ all_fit (pcell s) b2 /\ all_fit (pcell s) b3 /\ all_fit (pcell s) b4 /\
  paction 100 s (pfresh true) b1 [] = Ok (c1, []) /\
  restarts s c1 b2 /\ ptame s b1 [] s b2 [] /\ paction 100 s c1 b2 [] = Ok (c2, []) /\
  restarts s c2 b3 /\ ptame s b2 [] s b3 [] /\ paction 100 s c2 b3 [] = Ok (c3, []) /\
  ptame s b3 [] s' b4 [] /\ paction 100 s' c3 b4 [] = Ok (c4, I4) /\ ~ pcomplete s' b4 I4.
Proof.
  destruct restarts_runs as (c1 & c2 & c3 & c4 & E1 & E2 & E3 & E4). exists (pex 20 true), (pex 20 false), h1, h2, h3, h4, c1, c2, c3, c4, [].
  repeat (split; [first [apply pex_ok; lia | reflexivity | fit | assumption | left; reflexivity | apply rods_tame; auto]|]).
  intros C. apply (no_link 0%nat 1%nat). eapply (C 0%nat 1%nat _ _ (-1, 0, 0)); [discriminate|eexists; split; reflexivity|eexists; split; reflexivity| |reflexivity].
  intros a Ha. unfold meets_inside. cbn. destruct a as [|[|[|a]]]; cbn; lia.
Qed.

(** A potential interaction stays although the boxes now meet in another image. *)
Lemma stale_runs : exists c1 c2, paction 100 (pex 20 false) (pfresh true) [rod 0 10; rod 9 19] [] = Ok (c1, [mkI (0%nat, 1%nat) false (0, 0, 0)]) /\
  paction 100 (pex 20 false) c1 [rod 0 10; rod 11 21] [mkI (0%nat, 1%nat) false (0, 0, 0)] = Ok (c2, [mkI (0%nat, 1%nat) false (0, 0, 0)]).
Proof.
  assert (E : history (pfresh true) [] [(pex 20 false, [rod 0 10; rod 9 19]); (pex 20 false, [rod 0 10; rod 11 21])] =
    Ok [[mkI (0%nat, 1%nat) false (0, 0, 0)]; [mkI (0%nat, 1%nat) false (0, 0, 0)]]) by (vm_compute; reflexivity).
  apply history_inv in E. destruct E as (c1 & I1 & r1 & E1 & E & R1). apply history_inv in E. destruct E as (c2 & I2 & r2 & E2 & E & R2). subst. injection R1 as <- <- _. eauto.
Qed.
Lemma stale_refuted : exists s c bs I x y z k, preached s c bs I /\ all_fit (pcell s) bs /\
  In x I /\ real x = false /\ has_box bs (fst (ids x)) y /\ has_box bs (snd (ids x)) z /\
  box_meets_inside (pcell s) y z k /\ ~ box_nearly_meets (pcell s) y z (cellDist x).
Proof.
  destruct stale_runs as (c1 & c2 & E1 & E2). exists (pex 20 false), c2, [rod 0 10; rod 11 21], [mkI (0%nat, 1%nat) false (0, 0, 0)], (mkI (0%nat, 1%nat) false (0, 0, 0)).
  do 2 eexists. exists (-1, 0, 0).
  split.
  { assert (R1 : preached (pex 20 false) c1 [rod 0 10; rod 9 19] [mkI (0%nat, 1%nat) false (0, 0, 0)]) by (eapply P_first; [apply pex_ok; lia|fit|discriminate|exact E1]).
    eapply P_next; [exact R1|apply pex_ok; lia|fit| |exact E2]. apply F_regular; [reflexivity|reflexivity|]. apply rods_tame; auto. }
  split; [fit|]. split; [left; reflexivity|]. split; [reflexivity|]. split; [eexists; split; reflexivity|]. split; [eexists; split; reflexivity|]. split.
  - intros a Ha. unfold meets_inside. cbn. destruct a as [|[|[|a]]]; cbn; lia.
  - intros M. specialize (M 0%nat ltac:(lia)). unfold meets in M. cbn in M. lia.
Qed.

(** Only the size of the second box is compared with half the cell. *)
Lemma large_refuted : exists c x y, cell_ok c /\ ~ fits c x /\ (exists k, overlapPeri c x y = Ok (Some k)) /\
  (exists k k', k <> k' /\ box_meets_inside c x y k /\ box_meets_inside c x y k') /\ overlapPeri c y x = Throws.
Proof.
  exists (mkCell (fun _ => 10) (fun _ => 0) false), (mkBox (fun _ => 0) (fun _ => 8)), (mkBox (fun _ => 7) (fun _ => 12)).
  split; [split; [reflexivity|intros a _; cbn; lia]|]. split; [intros F; specialize (F 0%nat ltac:(lia)); cbn in F; lia|]. split; [eexists; reflexivity|]. split; [|reflexivity].
  exists (0, 0, 0), (-1, -1, -1). split; [discriminate|]. split; intros a Ha; unfold meets_inside; cbn; destruct a as [|[|[|a]]]; cbn; lia.
Qed.

(** ** undefined behaviour *)
Lemma empty_undefined f s b I : pdoSort s = false -> pdirty s = false -> (forall x, In x I -> real x = true) ->
  paction f s (pfresh b) [] I = Undef.
Proof.
  intros D1 D2 HI. assert (P : forall mm, ppurge (pcell s) mm I = Ok I).
  { intros mm. induction I as [|x I IH]; [reflexivity|]. cbn [ppurge]. rewrite IH by (intros; apply HI; right; assumption). cbn [bind]. rewrite (HI x (or_introl eq_refl)). reflexivity. }
  unfold paction. replace (detect_periodicity (pfresh b)) with (pfresh true) by (destruct b; reflexivity).
  cbn [length padjust pfresh psize plen Nat.mul Nat.eqb]. change (ids_in_range _ 0) with true. cbn [Nat.ltb Nat.leb negb orb].
  unfold pinit_run. rewrite D1, D2. cbn [orb psize pfresh Nat.eqb negb andb Nat.mul]. rewrite P. cbn [bind]. reflexivity.
Qed.
Lemma switch_undefined f s c bs I : pperiodic c = false -> bs <> [] -> psize c = (2 * length bs)%nat -> paction f s c bs I = Undef.
Proof.
  intros Hp Hb Hs. unfold paction, detect_periodicity. rewrite Hp. unfold padjust. cbn [psize plen]. rewrite Hs, Nat.eqb_refl. cbn [plen].
  destruct bs; [congruence|]. cbn [length]. rewrite (proj2 (Nat.ltb_lt 0 _)) by lia. reflexivity.
Qed.
