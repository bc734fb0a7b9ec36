(** Common vertices and edges of facets: pkg/dem/FacetTopologyAnalyzer.{hpp,cpp}, compiled with FACET_TOPO.

    Simplifications: real numbers without rounding; the result of std::sort is any sorted permutation (hypotheses of the
    theorems); angles between facets are left out; shared pointers are indices. *)
From Coq Require Import Reals List Bool Arith.
From Verif Require Import Vec_Model.
Import ListNotations.

(** a facet: state->pos, state->ori as a rotation, and local vertices *)
Record body := mkB { bpos : vec; bori : vec -> vec; bvert : nat -> vec }.
(** cpp:26: f->vertices[i]+pos *)
Definition corner (b : body) (i : nat) : vec := vadd (bvert b i) (bpos b).

(** ** vertices that touch, cpp:30-52 *)
(** VertexData, hpp:12-30 *)
Record vert := mkV { vindex : nat; vpos : vec; vcoord : R }.
(** cpp:26 *)
Definition mk_vert (axis : vec) (b : body) (id i : nat) : vert := mkV (3 * id + i) (corner b i) (dot (corner b i) axis).
Definition leqR (a b : R) : bool := if Rle_dec a b then true else false.
(** cpp:38-41 *)
Definition touches (tol : R) (u v : vert) : bool :=
  let d := vsub (vpos u) (vpos v) in
  leqR (Rabs (vx d)) tol && leqR (Rabs (vy d)) tol && leqR (Rabs (vz d)) tol && leqR (norm2 d) (tol * tol)%R.
Fixpoint take_while {A} (p : A -> bool) (l : list A) : list A := match l with [] => [] | x :: l' => if p x then x :: take_while p l' else [] end.
(** cpp:34-50, vertices sorted by coord *)
Fixpoint sweep (tol : R) (l : list vert) : list (vert * vert) :=
  match l with
  | [] => []
  | v :: l' => map (pair v) (filter (touches tol v) (take_while (fun w => leqR (vcoord w - vcoord v)%R tol) l')) ++ sweep tol l'
  end.

(** ** numbers of vertices, cpp:53-67 *)
Definition upd (m : nat -> option nat) (k i : nat) : nat -> option nat := fun x => if x =? k then Some i else m x.
(** [next v] are the indices of nextIdentical, [order] is sorted by index *)
Fixpoint number (next : nat -> list nat) (order : list nat) (ids : nat -> option nat) (fresh : nat) : (nat -> option nat) * nat :=
  match order with
  | [] => (ids, fresh)
  | v :: o => match ids v with
              | Some i => number next o (fold_left (fun m w => upd m w i) (next v) ids) fresh
              | None => number next o (fold_left (fun m w => upd m w fresh) (next v) (upd ids v fresh)) (S fresh)
              end
  end.
(** cpp:46-47: the vertex of lower index keeps the other one *)
Definition nextIdentical (pairs : list (nat * nat)) (v : nat) : list nat :=
  concat (map (fun p : nat * nat => let (i, j) := p in if i <? j then (if i =? v then [j] else []) else (if j =? v then [i] else [])) pairs).

(** ** facets with common edges, cpp:90-128 *)
(** FacetTopology, hpp:37-48 *)
Record facet := mkF { fid : nat; v0 : nat; v1 : nat; v2 : nat }.
Definition minVertex (t : facet) : nat := Nat.min (v0 t) (Nat.min (v1 t) (v2 t)).
Definition maxVertex (t : facet) : nat := Nat.max (v0 t) (Nat.max (v1 t) (v2 t)).
Definition vertex (t : facet) (k : nat) : nat := match k with 0 => v0 t | 1 => v1 t | _ => v2 t end.
(** vvv, cpp:102-107 *)
Definition common (s t : facet) : list nat := filter (fun x => (x =? v0 t) || (x =? v1 t) || (x =? v2 t)) [v0 s; v1 s; v2 s].
(** cpp:91-108, facets sorted by minVertex *)
Fixpoint search (l : list facet) : list (facet * facet) :=
  match l with
  | [] => []
  | s :: l' => map (pair s) (filter (fun t => negb (length (common s t) <? 2)) (take_while (fun t => negb (maxVertex s <? minVertex t)) l')) ++ search l'
  end.
(** cpp:113-122: the edge from vertex e to vertex (e+1)%3; None is logic_error *)
Definition edge_of (t : facet) (a b : nat) : option nat :=
  let is e f := ((a =? vertex t e) && (b =? vertex t f)) || ((a =? vertex t f) && (b =? vertex t e)) in
  if is 0 1 then Some 0 else if is 1 2 then Some 1 else if is 2 0 then Some 2 else None.
(** edges of both, and invNormals, cpp:127 *)
Definition edges (s t : facet) : option (nat * nat * bool) :=
  match common s t with
  | a :: b :: _ => match edge_of s a b, edge_of t a b with
                   | Some ei, Some ej => Some (ei, ej, vertex s ei =? vertex t ej)
                   | _, _ => None
                   end
  | _ => None
  end.
(** edgeAdjIds of all facets *)
Definition marks := nat -> nat -> option nat.
Definition mark (m : marks) (f e i : nat) : marks := fun f' e' => if (f' =? f) && (e' =? e) then Some i else m f' e'.
(** cpp:125: f1->edgeAdjIds[ei]=ti->id; f2->edgeAdjIds[ej]=tj->id *)
Fixpoint mark_all (l : list (facet * facet)) (m : marks) : option marks :=
  match l with
  | [] => Some m
  | (s, t) :: l' => match edges s t with
                    | Some (ei, ej, _) => mark_all l' (mark (mark m (fid s) ei (fid s)) (fid t) ej (fid t))
                    | None => None
                    end
  end.
(** edgeAdjIds start as ID_NONE; commonEdgesFound, cpp:138 *)
Definition analyze (l : list facet) : option (marks * nat) := match mark_all (search l) (fun _ _ => None) with Some m => Some (m, length (search l)) | None => None end.
