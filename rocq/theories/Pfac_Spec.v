(** What is expected of meshes of particle facets and of their exchange between processes. *)
From Coq Require Import List Arith Bool.
From Verif Require Import Pfac_Model.
Import ListNotations.

Section Mesh.
Context {P : Type}.
Definition decides (peq : P -> P -> bool) : Prop := forall p q, peq p q = true <-> p = q.
(** triangles with three different vertices *)
Definition proper (f : P * P * P) : Prop := let '(a, b, c) := f in a <> b /\ b <> c /\ a <> c.
(** points and edges of a mesh *)
Definition vertex (faces : list (P * P * P)) (p : P) : Prop := exists a b c, In (a, b, c) faces /\ (p = a \/ p = b \/ p = c).
Definition edge (faces : list (P * P * P)) (p q : P) : Prop :=
  exists a b c, In (a, b, c) faces /\ ((p = a /\ q = b) \/ (p = b /\ q = c) \/ (p = c /\ q = a) \/ (p = b /\ q = a) \/ (p = c /\ q = b) \/ (p = a /\ q = c)).
(** of the body with this id: shape, position, bounded *)
Definition shape_of (s : scene P) (id : nat) : option kind := option_map gk (nth_error (gb s) id).
Definition place (s : scene P) (id : nat) : option P := option_map gpos (nth_error (gb s) id).
Definition bounded_at (s : scene P) (id : nat) : option bool := option_map gbounded (nth_error (gb s) id).
(** a connection between two nodes *)
Definition joins (s : scene P) (c a b : nat) : Prop := shape_of s c = Some (KConn a b) \/ shape_of s c = Some (KConn b a).
(** the body [f] is a facet with these corners, made of nodes there and of their connections, which are unbounded *)
Definition is_facet (s : scene P) (L : lists) (f : nat) (face : P * P * P) : Prop :=
  let '(a, b, c) := face in exists n1 n2 n3 c1 c2 c3,
    shape_of s f = Some (KFacet n1 n2 n3 c1 c2 c3) /\ place s f = Some a /\ bounded_at s f = Some true /\
    In n1 (nodesIds L) /\ In n2 (nodesIds L) /\ In n3 (nodesIds L) /\ place s n1 = Some a /\ place s n2 = Some b /\ place s n3 = Some c /\
    In c1 (cylIds L) /\ In c2 (cylIds L) /\ In c3 (cylIds L) /\ joins s c1 n1 n2 /\ joins s c2 n2 n3 /\ joins s c3 n1 n3 /\
    bounded_at s c1 = Some false /\ bounded_at s c2 = Some false /\ bounded_at s c3 = Some false.
(** a scene to begin with: any bodies, no node of them is connected *)
Definition fresh (s : scene P) : Prop := gi s = [].
Definition nothing : lists := mkLists [] [] [].
(** some connection begins at this node *)
Definition begins (s : scene P) (n : nat) : Prop := exists b c, In (n, b, c) (gi s).
End Mesh.

(** a mesh made by hand, its nodes moved to 10, 20, 30 *)
Definition by_hand : py nat nat :=
  let s := mkScene [gridNode 0; gridNode 1; gridNode 2] [] in
  match connect 1 0 s with
  | Ok _ s => match connect 2 0 s with
              | Ok _ s => match connect 1 2 s with Ok _ s => facet 0 1 2 s | Raised s => Raised s end
              | Raised s => Raised s end
  | Raised s => Raised s end.

(** ** processes *)
(** the bodies that make up one: a facet, a connection, others alone *)
Definition parts (w : list mbody) (o : nat) : list nat :=
  match nth_error w o with
  | Some b => match mk b with
              | KFacet n1 n2 n3 c1 c2 c3 => [o; n1; n2; n3; c1; c2; c3]
              | KConn a b => [o; a; b]
              | _ => [o] end
  | None => []
  end.
Definition kind_at (w : list mbody) (o : nat) : option kind := option_map mk (nth_error w o).
Definition owner (w : list mbody) (o : nat) : option nat := option_map msub (nth_error w o).
(** facets are made of nodes and connections of these nodes, connections of nodes *)
Definition sound (w : list mbody) : Prop :=
  (forall o n1 n2 n3 c1 c2 c3, kind_at w o = Some (KFacet n1 n2 n3 c1 c2 c3) ->
     (forall n, In n [n1; n2; n3] -> kind_at w n = Some KNode) /\
     (forall c, In c [c1; c2; c3] -> exists a b, kind_at w c = Some (KConn a b) /\ In a [n1; n2; n3] /\ In b [n1; n2; n3])) /\
  (forall o a b, kind_at w o = Some (KConn a b) -> kind_at w a = Some KNode /\ kind_at w b = Some KNode).
(** the bodies of a facet or connection belong to one process *)
Definition whole (w : list mbody) : Prop := forall o p, In p (parts w o) -> owner w p = owner w o.
(** the bodies that stand for processes *)
Definition subdomain (w : list mbody) (o : nat) : Prop := kind_at w o = Some KSubdomain.
(** they have different numbers, the master has none *)
Definition numbered (w : list mbody) : Prop :=
  (forall a b k, subdomain w a -> subdomain w b -> owner w a = Some k -> owner w b = Some k -> a = b) /\ (forall a, subdomain w a -> owner w a <> Some 0).
(** nodes have no contacts with subdomains, contacts are listed once *)
Definition no_nodes (w : list mbody) (touch : nat -> list nat) : Prop :=
  forall sd o, In o (touch sd) -> kind_at w o <> Some KNode.
Definition once (touch : nat -> list nat) : Prop := forall sd, NoDup (touch sd).
(** bodies of process [rank] that touch the subdomain of process [k] (k <> rank) or, with k = 0, bodies of the master that touch its own *)
Definition touches (rank : nat) (w : list mbody) (touch : nat -> list nat) (k o : nat) : Prop :=
  exists sd j, subdomain w sd /\ owner w sd = Some j /\ In o (touch sd) /\
    ((j = k /\ j <> rank /\ owner w o = Some rank /\ ~ subdomain w o) \/ (k = 0 /\ j = rank /\ owner w o = Some 0)).
(** what process [rank] receives from processes [ks], [T k] being the contacts found by process [k] *)
Definition received (rank : nat) (w : list mbody) (T : nat -> nat -> list nat) (ks : list nat) : list nat := flat_map (fun k => gen k w (T k) rank) ks.
(** bodies are bounded if and only if they are no nodes *)
Definition usual (b : mbody) : Prop := mbounded b = match mk b with KNode => false | _ => true end.

(** a facet of process 1 with the subdomain bodies of 1 and 2 at the end *)
Definition triangle (d : nat) : list mbody :=
  [mkM KNode 1 false; mkM KNode 1 false; mkM KNode d false; mkM (KConn 0 1) 1 false; mkM (KConn 1 2) d false; mkM (KConn 2 0) d false;
   mkM (KFacet 0 1 2 3 4 5) 1 true; mkM KSubdomain 1 true; mkM KSubdomain 2 true].
Definition touched (l : list nat) : nat -> list nat := fun sd => if sd =? 8 then l else [].
