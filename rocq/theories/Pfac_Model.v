(** Meshes of particle facets (py/gridpfacet.py), the motion of their bodies (pkg/common/Grid.cpp:57-83) and
    their exchange between processes (py/mpy.py).

    Simplifications: [P] are positions with a decidable equality; sizes, masses, materials, colors are left out
    (C111 and others are about masses); interactions between nodes are only made by gridConnection and carry the
    connection, cylinders of length zero (two nodes in the same place) are left to hypotheses; an exception leaves
    the scene as it is at that point. *)
From Coq Require Import List Arith Bool.
Import ListNotations.

(** shapes: GridNode, GridConnection (node1, node2), PFacet (node1..3, conn1..3), any other shape, Subdomain;
    pkg/common/Grid.hpp:39-110 *)
Inductive kind := KNode | KConn (a b : nat) | KFacet (n1 n2 n3 c1 c2 c3 : nat) | KPlain | KSubdomain.

(** ** Making meshes *)
Section Make.
Context {P : Type} (peq : P -> P -> bool).
(** a body: shape, position, bounded *)
Record gbody := mkG { gk : kind; gpos : P; gbounded : bool }.
(** interactions between nodes: id1, id2, geom.connectionBody.id *)
Record scene := mkScene { gb : list gbody; gi : list (nat * nat * nat) }.
(** lists filled by the functions: nodesIds, cylIds, pfIds *)
Record lists := mkLists { nodesIds : list nat; cylIds : list nat; pfIds : list nat }.
(** outcome of python code: returned or raised *)
Inductive py (A : Type) := Ok (a : A) (s : scene) | Raised (s : scene).
Arguments Ok {A}. Arguments Raised {A}.

(** O.bodies[id].state.pos *)
Definition pos_at (s : scene) (id : nat) : option P := option_map gpos (nth_error (gb s) id).
(** O.interactions[a,b]: the order of the two does not matter (core/InteractionContainer.cpp:91-102) *)
Definition find (s : scene) (a b : nat) : option nat :=
  option_map snd (List.find (fun x => let '(i, j, _) := x in (i =? a) && (j =? b) || (i =? b) && (j =? a)) (gi s)).
(** O.bodies.append(b): id of the new body *)
Definition append (b : gbody) (s : scene) : nat * scene := (length (gb s), mkScene (gb s ++ [b]) (gi s)).
(** gridNode, gridpfacet.py:73-90 *)
Definition gridNode (p : P) : gbody := mkG KNode p false.
(** O.bodies.append(gridConnection(id1,id2,...)), gridpfacet.py:93-144 with Shop_02.cpp:103-127: an existing
    interaction raises *)
Definition connect (a b : nat) (s : scene) : py nat :=
  match find s a b, pos_at s a with
  | None, Some p => let c := length (gb s) in Ok c (mkScene (gb s ++ [mkG (KConn a b) p true]) (gi s ++ [(a, b, c)]))
  | _, _ => Raised s
  end.
Fixpoint unbind (l : list gbody) (ids : list nat) (k : nat) : list gbody :=
  match l with
  | [] => []
  | b :: l' => (if existsb (Nat.eqb k) ids then mkG (gk b) (gpos b) false else b) :: unbind l' ids (S k)
  end.
(** O.bodies.append(pfacet(id1,id2,id3,...)), gridpfacet.py:191-233; nodes are made unbounded before
    connections are looked up *)
Definition facet (a b c : nat) (s : scene) : py nat :=
  let s1 := mkScene (unbind (gb s) [a; b; c] 0) (gi s) in
  match find s a b, find s b c, find s a c, pos_at s a with
  | Some x, Some y, Some z, Some p =>
    let l := unbind (gb s1) [x; y; z] 0 in Ok (length l) (mkScene (l ++ [mkG (KFacet a b c x y z) p true]) (gi s1))
  | _, _, _, _ => Raised s1
  end.
(** cylIds.append(...) inside try/except *)
Definition try_connect (a b : nat) (L : lists) (s : scene) : lists * scene :=
  match connect a b s with
  | Ok c s' => (mkLists (nodesIds L) (cylIds L ++ [c]) (pfIds L), s')
  | Raised s' => (L, s')
  end.
(** pfacetCreator3, gridpfacet.py:306-327 *)
Definition creator3 (a b c : nat) (L : lists) (s : scene) : py lists :=
  let '(L, s) := try_connect a b L s in
  let '(L, s) := try_connect b c L s in
  let '(L, s) := try_connect c a L s in
  match facet a b c s with
  | Ok f s' => Ok (mkLists (nodesIds L) (cylIds L) (pfIds L ++ [f])) s'
  | Raised s' => Raised s'
  end.
(** gridpfacet.py:258-262: the last node of the list in this place *)
Definition known (s : scene) (l : list nat) (p : P) : option nat :=
  fold_left (fun r j => match pos_at s j with Some q => if peq p q then Some j else r | None => r end) l None.
(** gridpfacet.py:256-270: for each vertex, k and f, and new nodes *)
Fixpoint vertices (l : list P) (nodes : list nat) (s : scene) : list (option nat) * list nat * scene :=
  match l with
  | [] => ([], nodes, s)
  | p :: l' =>
    match known s nodes p with
    | Some j => let '(r, nodes, s) := vertices l' nodes s in (Some j :: r, nodes, s)
    | None => let '(id, s) := append (gridNode p) s in let '(r, nodes, s) := vertices l' (nodes ++ [id]) s in (None :: r, nodes, s)
    end
  end.
(** gridpfacet.py:272-287: the eight cases *)
Definition chosen (n : nat) (nodes : list nat) (f : list (option nat)) : option (nat * nat * nat) :=
  let N i := nth (n + i) nodes 0 in
  match f with
  | [None; None; None] => Some (N 0, N 1, N 2)
  | [Some a; None; None] => Some (a, N 0, N 1)
  | [None; Some b; None] => Some (N 0, b, N 1)
  | [None; None; Some c] => Some (N 0, N 1, c)
  | [Some a; Some b; None] => Some (a, b, N 0)
  | [None; Some b; Some c] => Some (N 0, b, c)
  | [Some a; None; Some c] => Some (a, N 0, c)
  | [Some a; Some b; Some c] => Some (a, b, c)
  | _ => None
  end.
(** pfacetCreator1, gridpfacet.py:237-287 *)
Definition creator1 (a b c : P) (L : lists) (s : scene) : py lists :=
  let '(f, nodes, s') := vertices [a; b; c] (nodesIds L) s in
  let L' := mkLists nodes (cylIds L) (pfIds L) in
  match chosen (length (nodesIds L)) nodes f with
  | Some (i, j, k) => creator3 i j k L' s'
  | None => Ok L' s'
  end.
(** gtsPFacet, gridpfacet.py:363-390: the faces one after the other *)
Fixpoint import (faces : list (P * P * P)) (L : lists) (s : scene) : py lists :=
  match faces with
  | [] => Ok L s
  | (a, b, c) :: faces' => match creator1 a b c L s with Ok L' s' => import faces' L' s' | Raised s' => Raised s' end
  end.

(** ** Motion *)
(** Ig2_GridNode_GridNode_GridNodeGeom6D::go, Grid.cpp:69-79, for the interaction (a,b,c): positions of the connection
    and of facets that have one of the nodes and the first node of the interaction as first node *)
Definition is_part (n : nat) (k : kind) : bool := match k with KFacet n1 n2 n3 _ _ _ => (n =? n1) || (n =? n2) || (n =? n3) | _ => false end.
Definition first_is (n : nat) (k : kind) : bool := match k with KFacet n1 _ _ _ _ _ => n =? n1 | _ => false end.
Fixpoint move_parts (a b c : nat) (p : P) (k : nat) (l : list gbody) : list gbody :=
  match l with
  | [] => []
  | x :: l' => (if (k =? c) || (is_part a (gk x) || is_part b (gk x)) && first_is a (gk x) then mkG (gk x) p (gbounded x) else x) :: move_parts a b c p (S k) l'
  end.
Definition follow1 (l : list gbody) (x : nat * nat * nat) : list gbody :=
  let '(a, b, c) := x in match option_map gpos (nth_error l a) with Some p => move_parts a b c p 0 l | None => l end.
(** the loop over interactions *)
Definition follow (s : scene) : scene := mkScene (fold_left follow1 (gi s) (gb s)) (gi s).
(** engines move nodes to any place *)
Definition move_nodes (f : nat -> P) (s : scene) : scene :=
  mkScene (map (fun x => match gk (snd x) with KNode => mkG KNode (f (fst x)) (gbounded (snd x)) | _ => snd x end) (combine (seq 0 (length (gb s))) (gb s))) (gi s).
End Make.
Arguments gbody : clear implicits. Arguments scene : clear implicits.
Arguments Ok {P A}. Arguments Raised {P A}. Arguments py : clear implicits.

(** ** Processes *)
(** b.shape, b.subdomain, b.bounded; isSubdomain is the shape *)
Record mbody := mkM { mk : kind; msub : nat; mbounded : bool }.

(** ids listed for a facet (mpy.py:197-207) or a connection (:209-219), with boolArray *)
Fixpoint masked (ids : list nat) (done : list nat) : list nat * list nat :=
  match ids with
  | [] => ([], done)
  | id :: ids' => if existsb (Nat.eqb id) done then masked ids' done
                  else let '(l, d) := masked ids' (id :: done) in (id :: l, d)
  end.
Definition bodies_of (o : nat) (k : kind) : option (list nat) :=
  match k with
  | KFacet n1 n2 n3 c1 c2 c3 => Some [o; n1; n2; n3; c1; c2; c3]
  | KConn a b => Some [o; a; b]
  | _ => None
  end.
Definition put (I : nat -> list nat) (k : nat) (l : list nat) : nat -> list nat := fun j => if j =? k then I j ++ l else I j.
(** one more body for the list of process k: mpy.py:247-252, 262-267 *)
Definition include (w : list mbody) (k : nat) (st : (nat -> list nat) * list nat) (o : nat) : (nat -> list nat) * list nat :=
  match nth_error w o with
  | Some b => match bodies_of o (mk b) with
              | Some ids => let '(l, d) := masked ids (snd st) in (put (fst st) k l, d)
              | None => (put (fst st) k [o], snd st)
              end
  | None => st
  end.
(** genLocalIntersections, mpy.py:221-271, one subdomain body; [touch] are the bodies it has interactions with *)
Definition gen1 (rank : nat) (w : list mbody) (touch : nat -> list nat) (I : nat -> list nat) (sd : nat) : nat -> list nat :=
  match nth_error w sd with
  | None => I
  | Some s =>
    let k := msub s in
    if k =? rank then
      let I1 := fst (fold_left (fun st o => match nth_error w o with Some b => if msub b =? 0 then include w 0 st o else st | None => st end) (touch sd) (I, [])) in
      match I1 0 with [] => I1 | _ => put I1 k [0] end
    else
      let I1 := fst (fold_left (fun st o => match nth_error w o with
                                            | Some b => if negb (msub b =? rank) then st
                                                        else match mk b with KSubdomain => (put (fst st) rank [k], snd st) | _ => include w k st o end
                                            | None => st end) (touch sd) (I, [])) in
      if (rank =? 0) && negb (match I1 k with [] => true | _ => false end) then put I1 0 [k] else I1
  end.
Definition is_sd (w : list mbody) (id : nat) : bool := match nth_error w id with Some b => match mk b with KSubdomain => true | _ => false end | None => false end.
Definition gen (rank : nat) (w : list mbody) (touch : nat -> list nat) : nat -> list nat :=
  fold_left (gen1 rank w touch) (filter (is_sd w) (seq 0 (length w))) (fun _ => []).

(** unboundRemoteBodies, mpy.py:132-139 *)
Definition unbound (rank : nat) (w : list mbody) : list mbody :=
  map (fun b => match mk b with KSubdomain => b | _ => if msub b =? rank then b else mkM (mk b) (msub b) false end) w.
(** reboundRemoteBodies, mpy.py:141-147 *)
Fixpoint rebound (ids : list nat) (k : nat) (w : list mbody) : list mbody :=
  match w with
  | [] => []
  | b :: w' => (if existsb (Nat.eqb k) ids && negb (match mk b with KNode => true | _ => false end) then mkM (mk b) (msub b) true else b) :: rebound ids (S k) w'
  end.
(** getPFacets and getConnections of a node *)
Definition uses (n : nat) (k : kind) : bool :=
  match k with KFacet n1 n2 n3 _ _ _ => (n =? n1) || (n =? n2) || (n =? n3) | KConn a b => (n =? a) || (n =? b) | _ => false end.
(** ERASE_REMOTE, mpy.py:516-526: is this body kept? *)
Definition kept (rank : nat) (w : list mbody) (id : nat) : bool :=
  match nth_error w id with
  | None => false
  | Some b => mbounded b || (msub b =? rank) || match mk b with KNode => existsb (fun x => uses id (mk x) && mbounded x) w | _ => false end
  end.
(** a worker after splitScene: bodies and which are kept; [mirror] are all ids received *)
Definition split_worker (rank : nat) (mirror : list nat) (w : list mbody) : list mbody := rebound mirror 0 (unbound rank w).
(** the master after splitScene and mergeScene (mpy.py:385-392), with workers 1..n-1 *)
Definition owned (w : list mbody) (k : nat) : list nat := filter (fun id => match nth_error w id with Some b => msub b =? k | None => false end) (seq 0 (length w)).
Definition split_merge (n : nat) (w : list mbody) : list mbody :=
  fold_left (fun w k => rebound (owned w k) 0 w) (seq 1 (n - 1)) (unbound 0 w).
(** receiveForces, mpy.py:108-116, from one process: (id, force) *)
Section Recv.
Context {F : Type} (Fadd : F -> F -> F).
Definition receive (l : list (nat * F)) (f : nat -> F) : nat -> F :=
  fold_left (fun f x => fun j => if j =? fst x then Fadd (f j) (snd x) else f j) l f.
(** forces0, mpy.py:356 *)
Definition report (ids : list nat) (f : nat -> F) : list (nat * F) := map (fun id => (id, f id)) ids.
End Recv.
