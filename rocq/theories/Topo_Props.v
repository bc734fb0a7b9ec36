(** Properties C280-C283: common vertices and edges of facets *)
From Coq Require Import Reals List Bool Arith Lia Lra.
From Verif Require Import Vec_Model Topo_Model Topo_Spec Topo_Proofs.
Import ListNotations.

(** C280. With an axis not longer than one, for vertices in any order of their projections, the pairs found are all pairs of vertices at most the tolerance apart, each once; *)
Theorem C280_found_partial tol axis l : (0 <= tol)%R -> (norm2 axis <= 1)%R -> (forall v, In v l -> vcoord v = dot (vpos v) axis) -> ascending (fun u v => (vcoord u <= vcoord v)%R) l -> sweep tol l = filter (near tol) (all_pairs l).
Proof. exact (sweep_all tol axis l). Qed.
Print Assumptions C280_found_partial.
Example C280_found_case : (norm2 (V 1 0 0) <= 1)%R /\ ascending (fun u v => (vcoord u <= vcoord v)%R) [mkV 0 (V 0 0 0) 0; mkV 1 (V 1 0 0) 1].
Proof. split; [unfold norm2, dot; cbn [vx vy vz]; lra|]. split; [intros y [<- | []]; cbn [vcoord]; lra|]. split; [intros y []|exact I]. Qed.
(** and vertices are where they are if rotations leave them there. *)
Theorem C280_placed_partial b i : bori b (bvert b i) = bvert b i -> corner b i = place b i.
Proof. exact (unturned b i). Qed.
Print Assumptions C280_placed_partial.
Example C280_placed_case : bori straight (bvert straight 0) = bvert straight 0.
Proof. reflexivity. Qed.
(** C280. With an axis of length two, vertices at the distance of the tolerance are not found; *)
Theorem C280_axis_refuted : exists u v, vcoord u = dot (vpos u) (V 2 0 0) /\ vcoord v = dot (vpos v) (V 2 0 0) /\ (vcoord u <= vcoord v)%R /\ near 1 (u, v) = true /\ sweep 1 [u; v] = [].
Proof. exact (axis_refuted). Qed.
Print Assumptions C280_axis_refuted.

(** and orientations of facets are not applied: two vertices at the same place are not found to touch. *)
Theorem C280_turned_refuted : place turned 0 = place straight 0 /\ touches 1 (mk_vert (V 1 0 0) turned 0 0) (mk_vert (V 1 0 0) straight 1 0) = false.
Proof. exact (turned_refuted). Qed.
Print Assumptions C280_turned_refuted.

(** C281. If touching is transitive, two vertices have the same number just if they are the same or touch, and the numbers are those below the count of common vertices; *)
Theorem C281_vertices_partial all pairs : ascending lt all -> (forall u v, In (u, v) pairs -> In u all /\ In v all /\ u <> v) ->
  (forall u v w, (In (u, v) pairs \/ In (v, u) pairs) -> (In (v, w) pairs \/ In (w, v) pairs) -> u = w \/ In (u, w) pairs \/ In (w, u) pairs) ->
  exists ids n, number (nextIdentical pairs) all (fun _ => None) 0 = (ids, n) /\ (forall u, In u all -> exists i, ids u = Some i /\ i < n) /\ (forall u w, In u all -> In w all -> (ids u = ids w <-> u = w \/ In (u, w) pairs \/ In (w, u) pairs)) /\ (forall i, i < n -> exists u, In u all /\ ids u = Some i).
Proof. exact (vertices all pairs). Qed.
Print Assumptions C281_vertices_partial.
Example C281_vertices_case : ascending lt [0; 1; 2; 5] /\ fst (number (nextIdentical [(5, 0)]) [0; 1; 2; 5] (fun _ => None) 0) 5 = Some 0 /\ snd (number (nextIdentical [(5, 0)]) [0; 1; 2; 5] (fun _ => None) 0) = 3.
Proof. split; [|split; reflexivity]. repeat split; intros y Y; cbn [In] in Y; lia. Qed.
(** C281. If two vertices touch a third but not each other, the third has the number of the last only, although it touches the first. *)
Theorem C281_chain_refuted : let ids := fst (number (nextIdentical [(0, 2); (1, 2)]) [0; 1; 2] (fun _ => None) 0) in ids 0 = Some 0 /\ ids 2 = Some 1.
Proof. exact (chain_refuted). Qed.
Print Assumptions C281_chain_refuted.

(** C282. For facets in any order of their least vertices, the pairs found are all pairs with two common vertices, each once. *)
Theorem C282_search l : ascending (fun s t => minVertex s <= minVertex t) l -> search l = filter adjacent (all_pairs l).
Proof. exact (search_all l). Qed.
Print Assumptions C282_search.
Example C282_search_case : ascending (fun s t => minVertex s <= minVertex t) two_facets /\ search two_facets = [(mkF 0 0 1 2, mkF 1 2 1 3)].
Proof. split; [|reflexivity]. split; [intros t [<- | []]; cbv; lia|]. split; [intros t []|exact I]. Qed.
(** C282. With three different vertices each, no error is raised and the count is that of adjacent pairs. *)
Theorem C282_count l : ascending (fun s t => minVertex s <= minVertex t) l -> Forall proper l -> exists m, analyze l = Some (m, length (filter adjacent (all_pairs l))).
Proof. exact (no_error l). Qed.
Print Assumptions C282_count.
Example C282_count_case : Forall proper two_facets.
Proof. repeat apply Forall_cons; try apply Forall_nil; unfold proper, corners; cbn [v0 v1 v2]; repeat constructor; cbn [In]; lia. Qed.
(** C283. For adjacent facets the common edge is found on both, with the sense in which each goes along it; *)
Theorem C283_edges_partial s t : proper s -> proper t -> adjacent (s, t) = true -> exists ei ej inv, edges s t = Some (ei, ej, inv) /\ ei < 3 /\ ej < 3 /\ (inv = true -> from s ei = from t ej /\ to s ei = to t ej) /\ (inv = false -> from s ei = to t ej /\ to s ei = from t ej).
Proof. exact (edges_spec s t). Qed.
Print Assumptions C283_edges_partial.
Example C283_edges_case : proper (mkF 0 0 1 2) /\ proper (mkF 1 2 1 3) /\ edges (mkF 0 0 1 2) (mkF 1 2 1 3) = Some (1, 0, false).
Proof. split; [|split; [|reflexivity]]; unfold proper, corners; cbn [v0 v1 v2]; repeat constructor; cbn [In]; lia. Qed.
(** just the edges found common with another facet are marked. *)
Theorem C283_marked_partial l m n f e : ascending (fun s t => minVertex s <= minVertex t) l -> analyze l = Some (m, n) ->
  (m f e <> None <-> exists s t ei ej inv, In (s, t) (all_pairs l) /\ adjacent (s, t) = true /\ edges s t = Some (ei, ej, inv) /\ (f = fid s /\ e = ei \/ f = fid t /\ e = ej)).
Proof. exact (marked l m n f e). Qed.
Print Assumptions C283_marked_partial.
Example C283_marked_case : exists m, analyze two_facets = Some (m, 1) /\ m 0 0 = None /\ m 0 1 <> None.
Proof. eexists. split; [reflexivity|]. split; [reflexivity|discriminate]. Qed.
(** C283. But each facet is marked with its own number instead of that of the other: *)
Theorem C283_own_refuted : exists m, analyze two_facets = Some (m, 1) /\ m 0 1 = Some 0 /\ m 1 0 = Some 1.
Proof. exact (own_refuted). Qed.
Print Assumptions C283_own_refuted.

(** so it is for all facets. *)
Theorem C283_always_own_refuted l m n f e i : analyze l = Some (m, n) -> m f e = Some i -> i = f.
Proof. exact (always_own_refuted l m n f e i). Qed.
Print Assumptions C283_always_own_refuted.
Example C283_always_own_case : exists m, analyze two_facets = Some (m, 1) /\ m 0 1 = Some 0.
Proof. eexists. split; reflexivity. Qed.
(** C283. A facet with twice the same vertex raises an error although it has a neighbour. *)
Theorem C283_flat_refuted : analyze [mkF 0 0 0 1; mkF 1 0 2 3] = None.
Proof. exact (flat_refuted). Qed.
Print Assumptions C283_flat_refuted.

