(** Properties C218-C225: meshes of particle facets and their exchange between processes *)
From Coq Require Import List Arith Bool Lia.
From Verif Require Import Pfac_Model Pfac_Spec Pfac_Proofs Pfac_Proofs2 Pfac_Proofs3.
Import ListNotations.

(** C218. Importing a mesh of any proper triangles into any scene succeeds; there is exactly one node for each vertex, and bodies that were there stay as they were. *)
Theorem C218_nodes {P} (peq : P -> P -> bool) : decides peq -> forall faces (s : scene P), fresh s -> Forall proper faces -> exists L s', import peq faces nothing s = Ok L s' /\
  NoDup (nodesIds L) /\ (forall i, In i (nodesIds L) -> shape_of s' i = Some KNode) /\
  (forall i j p, In i (nodesIds L) -> In j (nodesIds L) -> place s' i = Some p -> place s' j = Some p -> i = j) /\
  (forall p, (exists i, In i (nodesIds L) /\ place s' i = Some p) <-> vertex faces p) /\
  (forall id, id < length (gb s) -> nth_error (gb s') id = nth_error (gb s) id).
Proof. exact (mesh_nodes peq). Qed.
Print Assumptions C218_nodes.
Example C218_nodes_case : decides Nat.eqb /\ fresh (mkScene [mkG KPlain 9 true] []) /\ Forall proper [(0, 1, 2); (2, 1, 3)] /\ vertex [(0, 1, 2); (2, 1, 3)] 3 /\ edge [(0, 1, 2); (2, 1, 3)] 3 2.
Proof.
  split; [exact Nat.eqb_eq|]. split; [reflexivity|]. split; [repeat constructor; discriminate|]. split; [exists 2, 1, 3|exists 2, 1, 3]; (split; [right; left; reflexivity|auto 10]).
Qed.
(** C218. Each triangle becomes a facet with its corners in their order, made of these nodes and of their unbounded connections. *)
Theorem C218_facets {P} (peq : P -> P -> bool) : decides peq -> forall faces (s : scene P), fresh s -> Forall proper faces -> exists L s', import peq faces nothing s = Ok L s' /\
  length (pfIds L) = length faces /\ (forall n f face, nth_error (pfIds L) n = Some f -> nth_error faces n = Some face -> is_facet s' L f face).
Proof. exact (mesh_facets peq). Qed.
Print Assumptions C218_facets.
Example C218_facets_case : decides Nat.eqb /\ fresh (mkScene [mkG KPlain 9 true] []) /\ Forall proper [(0, 1, 2); (2, 1, 3)] /\ vertex [(0, 1, 2); (2, 1, 3)] 3 /\ edge [(0, 1, 2); (2, 1, 3)] 3 2.
Proof.
  split; [exact Nat.eqb_eq|]. split; [reflexivity|]. split; [repeat constructor; discriminate|]. split; [exists 2, 1, 3|exists 2, 1, 3]; (split; [right; left; reflexivity|auto 10]).
Qed.
(** C219. Each connection is an edge of the mesh, between two of its nodes, and there is at most one for each pair of nodes. *)
Theorem C219_edges {P} (peq : P -> P -> bool) : decides peq -> forall faces (s : scene P), fresh s -> Forall proper faces -> exists L s', import peq faces nothing s = Ok L s' /\ NoDup (cylIds L) /\
  (forall c, In c (cylIds L) -> exists a b p q, shape_of s' c = Some (KConn a b) /\ In a (nodesIds L) /\ In b (nodesIds L) /\ place s' a = Some p /\ place s' b = Some q /\ edge faces p q) /\
  (forall c d a b, In c (cylIds L) -> In d (cylIds L) -> joins s' c a b -> joins s' d a b -> c = d).
Proof. exact (mesh_edges peq). Qed.
Print Assumptions C219_edges.
Example C219_edges_case : decides Nat.eqb /\ fresh (mkScene [mkG KPlain 9 true] []) /\ Forall proper [(0, 1, 2); (2, 1, 3)] /\ vertex [(0, 1, 2); (2, 1, 3)] 3 /\ edge [(0, 1, 2); (2, 1, 3)] 3 2.
Proof.
  split; [exact Nat.eqb_eq|]. split; [reflexivity|]. split; [repeat constructor; discriminate|]. split; [exists 2, 1, 3|exists 2, 1, 3]; (split; [right; left; reflexivity|auto 10]).
Qed.
(** C220. In an imported mesh, wherever nodes are moved, connections and facets follow their first node; shapes and other bodies stay. *)
Theorem C220_motion_partial {P} (peq : P -> P -> bool) : decides peq -> forall faces (s : scene P), fresh s -> Forall proper faces -> exists L s', import peq faces nothing s = Ok L s' /\ forall g, let t := follow (move_nodes g s') in
  (forall i, shape_of t i = shape_of s' i) /\ (forall n, In n (nodesIds L) -> place t n = Some (g n)) /\
  (forall c, In c (cylIds L) -> exists a b, shape_of t c = Some (KConn a b) /\ place t c = Some (g a)) /\
  (forall f, In f (pfIds L) -> exists n1 n2 n3 c1 c2 c3, shape_of t f = Some (KFacet n1 n2 n3 c1 c2 c3) /\ place t f = Some (g n1)) /\
  (forall i, shape_of s' i = Some KPlain -> place t i = place s' i).
Proof. exact (mesh_motion peq). Qed.
Print Assumptions C220_motion_partial.
Example C220_motion_case : decides Nat.eqb /\ fresh (mkScene [mkG KPlain 9 true] []) /\ Forall proper [(0, 1, 2); (2, 1, 3)] /\ vertex [(0, 1, 2); (2, 1, 3)] 3 /\ edge [(0, 1, 2); (2, 1, 3)] 3 2.
Proof.
  split; [exact Nat.eqb_eq|]. split; [reflexivity|]. split; [repeat constructor; discriminate|]. split; [exists 2, 1, 3|exists 2, 1, 3]; (split; [right; left; reflexivity|auto 10]).
Qed.
(** C220 is refuted for meshes made by hand: the facet stays where it was if no connection begins at its first node. *)
Theorem C220_motion_refuted : exists f s n1 n2 n3 c1 c2 c3, by_hand = Ok f s /\ shape_of s f = Some (KFacet n1 n2 n3 c1 c2 c3) /\ forall g, g n1 <> 0 -> let t := follow (move_nodes g s) in place t n1 = Some (g n1) /\ place t f = Some 0.
Proof. exact (mesh_motion_refuted). Qed.
Print Assumptions C220_motion_refuted.

(** C221. The list kept for another process has exactly the bodies that make up those that touch its subdomain. *)
Theorem C221_listed rank w touch k : k <> rank -> forall x, In x (gen rank w touch k) <-> exists o, touches rank w touch k o /\ In x (parts w o).
Proof. exact (listed rank w touch k). Qed.
Print Assumptions C221_listed.
Example C221_listed_case : sound (triangle 1) /\ whole (triangle 1) /\ numbered (triangle 1) /\ no_nodes (triangle 1) (touched [6; 3]) /\ once (touched [6; 3]) /\ gen 1 (triangle 1) (touched [6; 3]) 2 = [6; 0; 1; 2; 3; 4; 5].
Proof.
  split; [apply triangle_sound|]. split; [apply triangle_whole|]. split; [apply triangle_numbered|]. split; [|split; [|reflexivity]].
  - intros sd o. unfold touched. destruct (sd =? 8); [|intros []]. intros [<- |[<- |[]]]; discriminate.
  - intros sd. unfold touched. destruct (sd =? 8); [|constructor]. constructor; [intros [H|[]]; discriminate|]. constructor; [intros []|constructor].
Qed.
(** C222. No body is listed twice, so that forces sent with such a list are added once to each of its bodies and to no other. *)
Theorem C222_once {F} (Fadd : F -> F -> F) rank w touch k (f acc : nat -> F) : sound w -> numbered w -> no_nodes w touch -> once touch -> k <> rank ->
  NoDup (gen rank w touch k) /\ forall x, ((exists o, touches rank w touch k o /\ In x (parts w o)) -> receive Fadd (report (gen rank w touch k) f) acc x = Fadd (acc x) (f x)) /\ (~ (exists o, touches rank w touch k o /\ In x (parts w o)) -> receive Fadd (report (gen rank w touch k) f) acc x = acc x).
Proof. exact (forces_once Fadd rank w touch k f acc). Qed.
Print Assumptions C222_once.
Example C222_once_case : sound (triangle 1) /\ whole (triangle 1) /\ numbered (triangle 1) /\ no_nodes (triangle 1) (touched [6; 3]) /\ once (touched [6; 3]) /\ gen 1 (triangle 1) (touched [6; 3]) 2 = [6; 0; 1; 2; 3; 4; 5].
Proof.
  split; [apply triangle_sound|]. split; [apply triangle_whole|]. split; [apply triangle_numbered|]. split; [|split; [|reflexivity]].
  - intros sd o. unfold touched. destruct (sd =? 8); [|intros []]. intros [<- |[<- |[]]]; discriminate.
  - intros sd. unfold touched. destruct (sd =? 8); [|constructor]. constructor; [intros [H|[]]; discriminate|]. constructor; [intros []|constructor].
Qed.
(** C223. If facets and connections belong to one process as a whole, only bodies of a process are in its lists for other workers. *)
Theorem C223_own_partial rank w touch k : whole w -> k <> 0 -> k <> rank -> forall x, In x (gen rank w touch k) -> owner w x = Some rank.
Proof. exact (listed_own rank w touch k). Qed.
Print Assumptions C223_own_partial.
Example C223_own_case : sound (triangle 1) /\ whole (triangle 1) /\ numbered (triangle 1) /\ no_nodes (triangle 1) (touched [6; 3]) /\ once (touched [6; 3]) /\ gen 1 (triangle 1) (touched [6; 3]) 2 = [6; 0; 1; 2; 3; 4; 5].
Proof.
  split; [apply triangle_sound|]. split; [apply triangle_whole|]. split; [apply triangle_numbered|]. split; [|split; [|reflexivity]].
  - intros sd o. unfold touched. destruct (sd =? 8); [|intros []]. intros [<- |[<- |[]]]; discriminate.
  - intros sd. unfold touched. destruct (sd =? 8); [|constructor]. constructor; [intros [H|[]]; discriminate|]. constructor; [intros []|constructor].
Qed.
(** C223 is refuted for a facet with a node of another process: that node is listed by the process that does not own it. *)
Theorem C223_own_refuted : exists w touch x, sound w /\ numbered w /\ no_nodes w touch /\ once touch /\ In x (gen 1 w touch 2) /\ owner w x = Some 2.
Proof. exact (listed_own_refuted). Qed.
Print Assumptions C223_own_refuted.

(** C224. After remote bodies are erased, all that a kept body is made of is kept, if facets and connections belong to one process as a whole. *)
Theorem C224_kept_partial rank w T ks : sound w -> whole w -> ~ In rank ks -> let v := split_worker rank (received rank w T ks) w in forall o, kept rank v o = true -> forall p, In p (parts w o) -> kept rank v p = true.
Proof. exact (kept_parts rank w T ks). Qed.
Print Assumptions C224_kept_partial.
Example C224_kept_case : sound (triangle 1) /\ whole (triangle 1) /\ numbered (triangle 1) /\ no_nodes (triangle 1) (touched [6; 3]) /\ once (touched [6; 3]) /\ gen 1 (triangle 1) (touched [6; 3]) 2 = [6; 0; 1; 2; 3; 4; 5].
Proof.
  split; [apply triangle_sound|]. split; [apply triangle_whole|]. split; [apply triangle_numbered|]. split; [|split; [|reflexivity]].
  - intros sd o. unfold touched. destruct (sd =? 8); [|intros []]. intros [<- |[<- |[]]]; discriminate.
  - intros sd. unfold touched. destruct (sd =? 8); [|constructor]. constructor; [intros [H|[]]; discriminate|]. constructor; [intros []|constructor].
Qed.
(** C224 is refuted if they do not: a process keeps its facet and erases the connections of the facet. *)
Theorem C224_kept_refuted : exists w T ks o p, sound w /\ numbered w /\ ~ In 1 ks /\ let v := split_worker 1 (received 1 w T ks) w in kept 1 v o = true /\ owner w o = Some 1 /\ In p (parts w o) /\ kept 1 v p = false.
Proof. exact (kept_parts_refuted). Qed.
Print Assumptions C224_kept_refuted.

(** C225. Splitting and merging leaves bodies of the master, and bodies that are bounded if and only if they are no nodes, as they were. *)
Theorem C225_bounded_partial n w : (forall i b, nth_error w i = Some b -> msub b < n) -> forall i b, nth_error w i = Some b -> msub b = 0 \/ usual b -> nth_error (split_merge n w) i = Some b.
Proof. exact (flags_kept n w). Qed.
Print Assumptions C225_bounded_partial.
Example C225_bounded_case : (forall i b, nth_error [mkM KNode 1 false; mkM KPlain 0 false; mkM (KConn 0 0) 2 true] i = Some b -> msub b < 3 /\ (msub b = 0 \/ usual b)).
Proof. intros [|[|[|i]]] b H; try (injection H as <-; cbn [msub]; split; [lia|]; unfold usual; cbn [mbounded mk msub]; auto). destruct i; discriminate H. Qed.
(** C225. Shapes and processes of bodies stay, and there are as many bodies as before. *)
Theorem C225_shapes_partial n w : length (split_merge n w) = length w /\ forall i, kind_at (split_merge n w) i = kind_at w i /\ owner (split_merge n w) i = owner w i.
Proof. exact (others_kept n w). Qed.
Print Assumptions C225_shapes_partial.

(** C225 is refuted for connections of facets: unbounded before, they are bounded after merging. *)
Theorem C225_bounded_refuted : exists w i b, sound w /\ whole w /\ numbered w /\ (forall j c, nth_error w j = Some c -> msub c < 3) /\ nth_error w i = Some b /\ mbounded b = false /\ option_map mbounded (nth_error (split_merge 3 w) i) = Some true.
Proof. exact (flags_refuted). Qed.
Print Assumptions C225_bounded_refuted.

