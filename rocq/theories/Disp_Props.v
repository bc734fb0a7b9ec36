(** Multiple dispatch: C31, C32, C55, C56. *)
From Coq Require Import List Arith Bool.
From Verif Require Import Disp_Model Disp_Spec Disp_Proofs Disp_Example.
Import ListNotations.

(** C31: whatever was looked up before, the functor for an object is the one given for
    the nearest class up its hierarchy (the last one given for that class), and there is
    none only if none is given for any of its classes *)
Theorem C31_nearest_functor : forall h l hist c, hierarchy h -> different l ->
  match snd (locate1 h (run1 h (set1 l) hist) c) with
  | Some f => nearest h l c f
  | None => none_given h l c
  end.
Proof. intros h l hist c Hh Hd. pose proof (lookup1 h Hh l hist c) as H. rewrite (kept_different l Hd) in H. exact H. Qed.
Print Assumptions C31_nearest_functor.
Example C31_nearest_functor_ex : hierarchy cls /\ different [bo_sphere; bo_grid] /\
  snd (locate1 cls (run1 cls (set1 [bo_sphere; bo_grid]) [1; 3; 4]) 3) = Some bo_grid /\ snd (locate1 cls (set1 [bo_sphere; bo_grid]) 1) = Some bo_sphere /\ snd (locate1 cls (set1 [bo_sphere; bo_grid]) 4) = None.
Proof. split; [exact cls_ok|]. split; [exact diff1|]. repeat split. Qed.

(** C31: there is only one such functor *)
Theorem C31_nearest_unique : forall h l c f g, hierarchy h -> nearest h l c f -> nearest h l c g -> f = g.
Proof. exact nearest_unique. Qed.
Print Assumptions C31_nearest_unique.

(** C31: a functor whose class is already in the list is ignored *)
Theorem C31_duplicates_ignored : forall l1 f g l2, In f l1 -> fname f = fname g ->
  set1 (l1 ++ g :: l2) = set1 (l1 ++ l2) /\ forall sym auto, set2 sym auto (l1 ++ g :: l2) = set2 sym auto (l1 ++ l2).
Proof. intros l1 f g l2 Hf E. unfold set1, set2. rewrite (kept_dup l1 f g l2 Hf E). split; reflexivity. Qed.
Print Assumptions C31_duplicates_ignored.
Example C31_duplicates_ignored_ex : In bo_sphere [bo_sphere; bo_grid] /\ fname bo_sphere = fname (mkF 99 100 4 4 false).
Proof. split; [left|]; reflexivity. Qed.

(** C32 refuted: GridNode and GridConnection derive from Sphere; there are functors for
    Sphere+Sphere and Sphere+GridConnection.  After a GridNode has met a Sphere, a
    GridNode with a GridConnection raises, although the second functor is the only
    nearest one. *)
Theorem C32_independent_of_history_refuted : exists h l hist a b, hierarchy h /\ different l /\
  ~ right_answer true h h l a b (snd (locate2 h h (run2 h h (set2 true false l) hist) a b)).
Proof. exists cls, [ig_ss; ig_sg], [(1, 0)], 1, 2. split; [exact cls_ok|]. split; [exact diff2|]. rewrite history_raises. exact not_ambiguous. Qed.
Print Assumptions C32_independent_of_history_refuted.

(** C32 refuted: an ambiguous pair is reported once; the second time one of the functors is used *)
Theorem C32_ambiguity_reported_refuted : exists h l a b f s, hierarchy h /\ different l /\
  snd (locate2 h h (set2 true false l) a b) = Raises /\ snd (locate2 h h (run2 h h (set2 true false l) [(a, b)]) a b) = Chosen f s.
Proof.
  exists cls, [ig_gs; ig_sg], 1, 2, ig_gs, false. split; [exact cls_ok|]. split; [repeat constructor; cbn; intuition discriminate|]. split; [exact first_raises|exact second_succeeds].
Qed.
Print Assumptions C32_ambiguity_reported_refuted.

(** C32: if neither the pair itself nor a pair of ancestors was looked up since the list
    was set, the functor is the only one at the smallest total distance; an exception
    means that there are two, and no functor means that there is none at any distance.
    Missing: histories with such lookups (false, see above). *)
Theorem C32_nearest_pair_partial : forall sym auto h1 h2 l hist a b, hierarchy h1 -> hierarchy h2 -> different l ->
  (forall p, In p hist -> not_below h1 h2 a b p) ->
  right_answer sym h1 h2 l a b (snd (locate2 h1 h2 (run2 h1 h2 (set2 sym auto l) hist) a b)).
Proof. intros sym auto h1 h2 l hist a b Hh1 Hh2 Hd Hn. pose proof (lookup2_right h1 h2 Hh1 Hh2 sym auto l hist a b Hn) as H. rewrite (kept_different l Hd) in H. exact H. Qed.
Print Assumptions C32_nearest_pair_partial.
Example C32_nearest_pair_ex : hierarchy cls /\ different [ig_ss; ig_sg] /\ (forall p, In p [(4, 0); (0, 4); (3, 1)] -> not_below cls cls 1 2 p) /\
  snd (locate2 cls cls (run2 cls cls (set2 true false [ig_ss; ig_sg]) [(4, 0); (0, 4); (3, 1)]) 1 2) = Chosen ig_sg false.
Proof. split; [exact cls_ok|]. split; [exact diff2|]. split; [exact not_below_ex|reflexivity]. Qed.

(** C32: an answer, once given, is given again until the list is set *)
Theorem C32_answer_stable_partial : forall h1 h2 m a b f s hist, snd (locate2 h1 h2 m a b) = Chosen f s ->
  snd (locate2 h1 h2 (run2 h1 h2 (fst (locate2 h1 h2 m a b)) hist) a b) = Chosen f s.
Proof. exact lookup2_stable. Qed.
Print Assumptions C32_answer_stable_partial.
Example C32_answer_stable_ex : snd (locate2 cls cls (set2 true false [ig_ss; ig_sg]) 3 1) = Chosen ig_sg true.
Proof. reflexivity. Qed.

(** C56: whatever was looked up before, a functor gets arguments of the classes it
    expects, in that order *)
Theorem C56_arguments_fit : forall sym auto h1 h2 l hist a b f s, hierarchy h1 -> hierarchy h2 ->
  snd (locate2 h1 h2 (run2 h1 h2 (set2 sym auto l) hist) a b) = Chosen f s -> well_called sym auto h1 h2 a b f s.
Proof. intros sym auto h1 h2 l hist a b f s Hh1 Hh2. exact (always_fits h1 h2 Hh1 Hh2 sym auto l hist a b f s). Qed.
Print Assumptions C56_arguments_fit.
Example C56_arguments_fit_ex : hierarchy cls /\ snd (locate2 cls cls (run2 cls cls (set2 true false [ig_ss; ig_sg]) [(1, 0); (1, 2)]) 3 1) = Chosen ig_sg true.
Proof. split; [exact cls_ok|reflexivity]. Qed.

(** C56: the same for an interaction: its bodies are in the order the functor expects
    after the lookup, and they are the same two bodies *)
Theorem C56_interaction_order : forall h sym auto l hist u f, hierarchy h -> ucache u = None ->
  snd (use_intr h (run2 h h (set2 sym auto l) hist) u) = Some f ->
  let u1 := snd (fst (use_intr h (run2 h h (set2 sym auto l) hist) u)) in
  well_called sym auto h h (ucls u1) (ucls2 u1) f false /\
  ((ucls u1, ucls2 u1) = (ucls u, ucls2 u) \/ (ucls u1, ucls2 u1) = (ucls2 u, ucls u)).
Proof. exact intr_args. Qed.
Print Assumptions C56_interaction_order.
Example C56_interaction_order_ex : snd (use_intr cls (run2 cls cls (set2 true false [ig_ss; ig_sg]) [(1, 0)]) (mkUser 3 1 None true)) = Some ig_sg.
Proof. reflexivity. Qed.

(** C56: every lookup comes to an end *)
Theorem C56_lookup_ends : forall h1 h2 m a b, hierarchy h1 -> hierarchy h2 -> snd (locate2 h1 h2 m a b) <> OutOfFuel.
Proof. intros h1 h2 m a b Hh1 Hh2. exact (locate2_ends h1 h2 Hh1 m a b). Qed.
Print Assumptions C56_lookup_ends.
Example C56_lookup_ends_ex : hierarchy cls.
Proof. exact cls_ok. Qed.

(** C55 refuted: a body keeps the bound functor it got first *)
Theorem C55_shape_uses_new_list_refuted : exists h l l' u f, hierarchy h /\ different l /\ different l' /\ ucache u = None /\
  let u1 := snd (fst (use_shape h (set1 l) u)) in
  snd (use_shape h (set1 l') u1) = Some f /\ ~ nearest h l' (ucls u) f.
Proof. exists cls, [bo_sphere], [bo_sphere'], sphere, bo_sphere. split; [exact cls_ok|]. split; [apply diff_one|]. split; [apply diff_one|]. split; [reflexivity|]. split; [reflexivity|exact not_nearest_new]. Qed.
Print Assumptions C55_shape_uses_new_list_refuted.

(** C55 refuted: an interaction keeps its geometry functor *)
Theorem C55_interaction_uses_new_list_refuted : exists h l l' u f, hierarchy h /\ different l /\ different l' /\ ucache u = None /\
  let u1 := snd (fst (use_intr h (set2 true false l) u)) in
  snd (use_intr h (set2 true false l') u1) = Some f /\ forall s, ~ right_answer true h h l' (ucls u1) (ucls2 u1) (Chosen f s).
Proof. exists cls, [ig_ss], [ig_ss'], sphere, ig_ss. split; [exact cls_ok|]. split; [apply diff_one|]. split; [apply diff_one|]. split; [reflexivity|]. split; [reflexivity|exact not_right_new]. Qed.
Print Assumptions C55_interaction_uses_new_list_refuted.

(** C55 refuted: a pair for which there was no functor is not tried again *)
Theorem C55_new_functor_for_old_pair_refuted : exists h l l' u f s, hierarchy h /\ different l /\ different l' /\ ucache u = None /\
  let u1 := snd (fst (use_intr h (set2 true false l) u)) in
  right_answer true h h l' (ucls u1) (ucls2 u1) (Chosen f s) /\ snd (use_intr h (set2 true false l') u1) = None.
Proof. exists cls, [ig_bs], [ig_ss], sphere, ig_ss, false. split; [exact cls_ok|]. split; [apply diff_one|]. split; [apply diff_one|]. split; [reflexivity|]. split; [exact right_exists|reflexivity]. Qed.
Print Assumptions C55_new_functor_for_old_pair_refuted.

(** C55: a body without a kept functor uses the current list; the functor is then kept
    under any later list *)
Theorem C55_shape_partial : forall h l hist u, hierarchy h -> different l -> ucache u = None ->
  match snd (use_shape h (run1 h (set1 l) hist) u) with
  | Some f => nearest h l (ucls u) f /\ forall m', snd (use_shape h m' (snd (fst (use_shape h (run1 h (set1 l) hist) u)))) = Some f
  | None => none_given h l (ucls u)
  end.
Proof.
  intros h l hist u Hh Hd E. pose proof (shape_new h l hist u Hh E) as H. rewrite (kept_different l Hd) in H. pose proof (shape_old h (run1 h (set1 l) hist) u) as O.
  destruct (snd (use_shape h (run1 h (set1 l) hist) u)) as [f|]; [split; [exact H|exact (O f eq_refl)]|exact H].
Qed.
Print Assumptions C55_shape_partial.
Example C55_shape_ex : hierarchy cls /\ different [bo_sphere; bo_grid] /\ ucache sphere = None /\ snd (use_shape cls (run1 cls (set1 [bo_sphere; bo_grid]) [3; 1]) (mkUser 3 0 None true)) = Some bo_grid.
Proof. split; [exact cls_ok|]. split; [exact diff1|]. split; reflexivity. Qed.

(** C55: the same for a new interaction or one that was reset *)
Theorem C55_interaction_partial : forall h sym auto l hist u0, hierarchy h -> different l ->
  let u := reset_intr u0 in
  (forall p, In p hist -> not_below h h (ucls u) (ucls2 u) p) ->
  match snd (use_intr h (run2 h h (set2 sym auto l) hist) u) with
  | Some f => (exists s, right_answer sym h h l (ucls u) (ucls2 u) (Chosen f s)) /\
              forall m', snd (use_intr h m' (snd (fst (use_intr h (run2 h h (set2 sym auto l) hist) u)))) = Some f
  | None => right_answer sym h h l (ucls u) (ucls2 u) NoFunctor \/ right_answer sym h h l (ucls u) (ucls2 u) Raises
  end.
Proof.
  intros h sym auto l hist u0 Hh Hd u Hn. pose proof (intr_new h sym auto l hist u Hh eq_refl eq_refl Hn) as H. rewrite (kept_different l Hd) in H. pose proof (intr_old h (run2 h h (set2 sym auto l) hist) u) as O.
  destruct (snd (use_intr h (run2 h h (set2 sym auto l) hist) u)) as [f|]; [split; [exact H|exact (O f eq_refl)]|exact H].
Qed.
Print Assumptions C55_interaction_partial.
Example C55_interaction_ex : hierarchy cls /\ different [ig_ss; ig_sg] /\ (forall p, In p [(4, 0); (0, 4); (3, 1)] -> not_below cls cls 1 2 p) /\
  snd (use_intr cls (run2 cls cls (set2 true false [ig_ss; ig_sg]) [(4, 0); (0, 4); (3, 1)]) (reset_intr (mkUser 1 2 (Some ig_ss) false))) = Some ig_sg.
Proof. split; [exact cls_ok|]. split; [exact diff2|]. split; [exact not_below_ex|reflexivity]. Qed.
