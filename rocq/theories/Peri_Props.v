(** Properties of the collider in a periodic scene: C83-C90. *)
From Coq Require Import List ZArith Arith Bool Lia Permutation.
From Verif Require Import Coll_Model Coll_Spec Peri_Model Peri_Spec Peri_Proofs1 Peri_Proofs3 Peri_Proofs4 Peri_Proofs5 Peri_Example.
Import ListNotations.
Local Open Scope Z_scope.

(** C83: the overlap test of two boxes. *)
Theorem C83_never_fails : forall c x y, cell_ok c -> fits c x -> fits c y -> exists r, overlapPeri c x y = Ok r.
Proof. exact overlap_total. Qed.
Print Assumptions C83_never_fails.
Theorem C83_finds : forall c x y k, cell_ok c -> fits c x -> fits c y -> box_meets c x y k -> exists k', overlapPeri c x y = Ok (Some k').
Proof. exact overlap_finds. Qed.
Print Assumptions C83_finds.
Theorem C83_sound : forall c x y k, cell_ok c -> fits c x -> fits c y -> overlapPeri c x y = Ok (Some k) -> box_nearly_meets c x y k.
Proof. exact overlap_sound. Qed.
Print Assumptions C83_sound.
Theorem C83_image : forall c x y k, cell_ok c -> fits c x -> fits c y ->
  (forall a, (a < 3)%nat -> hi x a - lo x a + (hi y a - lo y a) + ctol c a < dim c a) -> box_meets c x y k -> overlapPeri c x y = Ok (Some k).
Proof. exact overlap_exact. Qed.
Print Assumptions C83_image.
(** A box larger than half the cell is accepted if it is the first one, although it
    meets the other box in two images; exchanged, they are refused. *)
Theorem C83_large_refuted : exists c x y, cell_ok c /\ ~ fits c x /\ (exists k, overlapPeri c x y = Ok (Some k)) /\
  (exists k k', k <> k' /\ box_meets_inside c x y k /\ box_meets_inside c x y k') /\ overlapPeri c y x = Throws.
Proof. exact large_refuted. Qed.
Print Assumptions C83_large_refuted.
Example C83_case : let c := mkCell (fun _ => 20) (fun _ => 1) false in let x := mkBox (fun _ => -33) (fun _ => -28) in let y := mkBox (fun _ => 49) (fun _ => 52) in
  cell_ok c /\ fits c x /\ fits c y /\ box_meets c x y (-4, -4, -4) /\
  (forall a, (a < 3)%nat -> hi x a - lo x a + (hi y a - lo y a) + ctol c a < dim c a) /\ overlapPeri c x y = Ok (Some (-4, -4, -4)).
Proof.
  cbn [cell_ok]. split; [split; [reflexivity|intros a _; cbn; lia]|]. split; [intros a _; cbn; lia|]. split; [intros a _; cbn; lia|].
  split; [intros a Ha; unfold meets; destruct a as [|[|[|a]]]; cbn; lia|]. split; [intros a _; cbn; lia|reflexivity].
Qed.

(** C84: the lists after each run. *)
Theorem C84_lists : forall s c bs I a, preached s c bs I -> (a < 3)%nat ->
  circular (Z.of_nat (2 * length bs)) (dim (pcell s) a) (pbb c a) /\ both_bounds (length bs) (pbb c a) /\
  current (Z.of_nat (2 * length bs)) (dim (pcell s) a) bs a (pbb c a).
Proof. exact lists_ok. Qed.
Print Assumptions C84_lists.
Example C84_case : exists c, preached (pex 20 false) c m3 [mkI (0%nat, 1%nat) false (-3, 0, 0)].
Proof. destruct met_reached as (c & R & _). exists c. exact R. Qed.

(** C85: all overlapping pairs have an interaction after each run. *)
Theorem C85_complete_partial : forall s c bs I, preached s c bs I -> pcomplete s bs I.
Proof. exact preached_complete. Qed.
Print Assumptions C85_complete_partial.
(** bodies added, less than a hundred *)
Theorem C85_added_refuted : exists s bs b c1 c2 I1 I2,
  psettings_ok s /\ all_fit (pcell s) bs /\ all_fit (pcell s) (bs ++ [b]) /\ preached s c1 bs I1 /\
  paction 100 s c1 (bs ++ [b]) I1 = Ok (c2, I2) /\ ~ pcomplete s (bs ++ [b]) I2.
Proof. exact added_refuted. Qed.
Print Assumptions C85_added_refuted.
(** several runs that start from scratch *)
Theorem C85_restarts_refuted : exists s s' b1 b2 b3 b4 c1 c2 c3 c4 I4,
  psettings_ok s /\ psettings_ok s' /\ pcell s = pcell s' /\
  all_fit (pcell s) b1 /\ all_fit (pcell s) b2 /\ all_fit (pcell s) b3 /\ all_fit (pcell s) b4 /\
  paction 100 s (pfresh true) b1 [] = Ok (c1, []) /\
  restarts s c1 b2 /\ ptame s b1 [] s b2 [] /\ paction 100 s c1 b2 [] = Ok (c2, []) /\
  restarts s c2 b3 /\ ptame s b2 [] s b3 [] /\ paction 100 s c2 b3 [] = Ok (c3, []) /\
  ptame s b3 [] s' b4 [] /\ paction 100 s' c3 b4 [] = Ok (c4, I4) /\ ~ pcomplete s' b4 I4.
Proof. exact restarts_refuted. Qed.
Print Assumptions C85_restarts_refuted.
Example C85_case : exists c, preached (pex 20 false) c m3 [mkI (0%nat, 1%nat) false (-3, 0, 0)].
Proof. exact C84_case. Qed.

(** C86: the number of cells stored in an interaction. New ones: [new_ok] in the effect. *)
Theorem C86_new_partial : forall s c bs I s' c1 bs' I' f c'' I'', preached s c bs I -> psettings_ok s' -> all_fit (pcell s') bs' ->
  follows s c bs I s' c1 bs' I' -> paction f s' c1 bs' I' = Ok (c'', I'') ->
  forall x y z, In x I'' -> ~ In x I' -> has_box bs' (fst (ids x)) y -> has_box bs' (snd (ids x)) z -> box_nearly_meets (pcell s') y z (cellDist x).
Proof. exact new_image. Qed.
Print Assumptions C86_new_partial.
Theorem C86_stale_refuted : exists s c bs I x y z k, preached s c bs I /\ all_fit (pcell s) bs /\
  In x I /\ real x = false /\ has_box bs (fst (ids x)) y /\ has_box bs (snd (ids x)) z /\
  box_meets_inside (pcell s) y z k /\ ~ box_nearly_meets (pcell s) y z (cellDist x).
Proof. exact stale_refuted. Qed.
Print Assumptions C86_stale_refuted.
Example C86_case : exists c1 c2, preached (pex 20 false) c1 m1 [] /\ psettings_ok (pex 20 false) /\ all_fit (pcell (pex 20 false)) m2 /\
  follows (pex 20 false) c1 m1 [] (pex 20 false) c1 m2 [] /\ paction 100 (pex 20 false) c1 m2 [] = Ok (c2, [mkI (0%nat, 1%nat) false (-3, 0, 0)]).
Proof.
  destruct met as (c1 & c2 & c3 & E1 & E2 & E3). exists c1, c2. split; [eapply P_first; [apply pex_ok; lia|apply m1_fit|discriminate|exact E1]|].
  split; [apply pex_ok; lia|]. split; [apply m2_fit|]. split; [|exact E2]. apply F_regular; [reflexivity|reflexivity|]. apply rods_tame; auto.
Qed.

(** C87: runs that read outside the vectors or divide by zero. *)
Theorem C87_empty_undefined : forall f s b I, pdoSort s = false -> pdirty s = false -> (forall x, In x I -> real x = true) ->
  paction f s (pfresh b) [] I = Undef.
Proof. exact empty_undefined. Qed.
Print Assumptions C87_empty_undefined.
Theorem C87_switch_undefined : forall f s c bs I, pperiodic c = false -> bs <> [] -> psize c = (2 * length bs)%nat -> paction f s c bs I = Undef.
Proof. exact switch_undefined. Qed.
Print Assumptions C87_switch_undefined.
Theorem C87_reset_partial : forall s c bs I s' bs' I', preached s c bs I -> psettings_ok s' -> all_fit (pcell s') bs' -> bs' <> [] -> pclean bs' I' ->
  exists F, forall f, (F <= f)%nat -> exists r, paction f s' (pinvalidate c) bs' I' = Ok r.
Proof. intros s c bs I s' bs' I' R Hs Hf Hne Hc. exact (proj2 (next_run s c bs I s' (pinvalidate c) bs' I' R Hs Hf (F_reset s c bs I s' bs' I' Hne)) Hc). Qed.
Print Assumptions C87_reset_partial.
Example C87_case : pdoSort (pex 20 false) = false /\ pdirty (pex 20 false) = false /\
  exists c, preached (pex 20 false) c m3 [mkI (0%nat, 1%nat) false (-3, 0, 0)] /\ pclean m3 [mkI (0%nat, 1%nat) false (-3, 0, 0)].
Proof. split; [reflexivity|]. split; [reflexivity|]. exact met_reached. Qed.

(** C88: a run that starts from scratch finds all overlapping pairs, whatever the
    numbers of cells stored before. *)
Theorem C88_scratch : forall f s c bs I c' I', psettings_ok s -> all_fit (pcell s) bs -> bs <> [] -> (forall i, (i < length bs)%nat -> body_at bs i <> None) ->
  pperiodic c = true -> restarts s c bs -> (psize c <= 2 * length bs)%nat ->
  (exists m, psize c = (2 * m)%nat /\ plen c = (2 * m)%nat /\ forall a, (a < 3)%nat -> both_bounds m (pbb c a)) ->
  paction f s c bs I = Ok (c', I') -> pcomplete s bs I'.
Proof. exact scratch_complete. Qed.
Print Assumptions C88_scratch.
Example C88_case : psettings_ok (pex 20 true) /\ all_fit (pcell (pex 20 true)) m3 /\ (forall i, (i < length m3)%nat -> body_at m3 i <> None) /\
  restarts (pex 20 true) (pfresh true) m3 /\ both_bounds 0 (pbb (pfresh true) 0) /\
  exists c I, paction 100 (pex 20 true) (pfresh true) m3 [] = Ok (c, I).
Proof.
  split; [apply pex_ok; lia|]. split; [fit|]. split; [intros [|[|i]] Hi; [discriminate|discriminate|cbn in Hi; lia]|]. split; [left; reflexivity|]. split; [apply Permutation_refl|].
  assert (E : history (pfresh true) [] [(pex 20 true, m3)] = Ok [[mkI (0%nat, 1%nat) false (-3, 0, 0)]]) by (vm_compute; reflexivity).
  apply history_inv in E. destruct E as (c & I & r & E & _). eauto.
Qed.

(** C89: what a run does to the interactions. *)
Theorem C89_first : forall s b bs I f c'' I'', psettings_ok s -> all_fit (pcell s) bs -> bs <> [] ->
  paction f s (pfresh b) bs I = Ok (c'', I'') -> effect s bs I I''.
Proof. intros s b bs I f c'' I'' Hs Hf Hne E. exact (proj1 (first_run s b bs I Hs Hf Hne) f c'' I'' E). Qed.
Print Assumptions C89_first.
Theorem C89_next : forall s c bs I s' c1 bs' I' f c'' I'', preached s c bs I -> psettings_ok s' -> all_fit (pcell s') bs' ->
  follows s c bs I s' c1 bs' I' -> paction f s' c1 bs' I' = Ok (c'', I'') -> effect s' bs' I' I''.
Proof. intros s c bs I s' c1 bs' I' f c'' I'' R Hs Hf Fo E. exact (proj1 (next_run s c bs I s' c1 bs' I' R Hs Hf Fo) f c'' I'' E). Qed.
Print Assumptions C89_next.
Example C89_case : exists c1 c2, preached (pex 20 false) c1 m1 [] /\ psettings_ok (pex 20 false) /\ all_fit (pcell (pex 20 false)) m2 /\
  follows (pex 20 false) c1 m1 [] (pex 20 false) c1 m2 [] /\ paction 100 (pex 20 false) c1 m2 [] = Ok (c2, [mkI (0%nat, 1%nat) false (-3, 0, 0)]).
Proof. exact C86_case. Qed.

(** C90: a run ends, without exception and undefined behaviour. *)
Theorem C90_first : forall s b bs I, psettings_ok s -> all_fit (pcell s) bs -> bs <> [] -> pclean bs I ->
  exists F, forall f, (F <= f)%nat -> exists r, paction f s (pfresh b) bs I = Ok r.
Proof. intros s b bs I Hs Hf Hne. exact (proj2 (first_run s b bs I Hs Hf Hne)). Qed.
Print Assumptions C90_first.
Theorem C90_next : forall s c bs I s' c1 bs' I', preached s c bs I -> psettings_ok s' -> all_fit (pcell s') bs' -> follows s c bs I s' c1 bs' I' -> pclean bs' I' ->
  exists F, forall f, (F <= f)%nat -> exists r, paction f s' c1 bs' I' = Ok r.
Proof. intros s c bs I s' c1 bs' I' R Hs Hf Fo. exact (proj2 (next_run s c bs I s' c1 bs' I' R Hs Hf Fo)). Qed.
Print Assumptions C90_next.
Example C90_case : exists c1, preached (pex 20 false) c1 m1 [] /\ follows (pex 20 false) c1 m1 [] (pex 20 false) c1 m2 [] /\ pclean m2 [] /\ pclean m3 [mkI (0%nat, 1%nat) false (-3, 0, 0)].
Proof.
  destruct C86_case as (c1 & c2 & R & _ & _ & F & _). exists c1. split; [exact R|]. split; [exact F|]. split; [intros x []|]. destruct met_reached as (c & _ & P). exact P.
Qed.
