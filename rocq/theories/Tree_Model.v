(** Model of the distribution of the bodies over the workers by recursive bisection:
    py/tree_decomp.py and py/mpy_bisection.py:425-452 (first part of splitScene).

    There are n workers, with ranks 1..n; [myrank] = rank - 1 is written m.  Messages
    and processes are those of Comm_Model: at each level a worker either sends or
    receives, so a level is one phase.

    Simplifications
    - positions are integers, along any number of axes;
    - of the scene only the subdomain numbers of the bodies are kept, colours are left out;
    - the number of levels, computed at import (tree_decomp.py:27), is a parameter,
      [levels_of] is its relation to the number of workers;
    - the tag 9999 is 99 here;
    - an exception ends the process: it takes no part in later exchanges. *)
From Coq Require Import List ZArith Arith Bool Reals.
From Verif Require Import Comm_Model.
Import ListNotations.

(** tree_decomp.py:27: int(ceil(log(numThreads)))+1, the natural logarithm *)
Definition levels_of (n L : nat) : Prop := exists c : nat, (INR c - 1 < ln (INR n) <= INR c)%R /\ L = (c + 1)%nat.

(** mpy_bisection.py:433: (b.state.pos, b.id) *)
Record item := mkItem { coord : nat -> Z; bid : nat }.

(** tree_decomp.py:164-165: sorted() with a key, which is stable *)
Fixpoint insert_by (a : nat) (x : item) (l : list item) : list item :=
  match l with
  | [] => [x]
  | y :: l' => if (coord x a <=? coord y a)%Z then x :: l else y :: insert_by a x l'
  end.
Definition sort_data (a : nat) (l : list item) : list item := fold_right (insert_by a) [] l.

(** tree_decomp.py:138-146; None = IndexError (sorted_data[0] of an empty list).
    The split_start of line 140 is overwritten on the next line. *)
Definition process_data (ndim level : nat) (l : list item) : option (list item * list item) :=
  let sorted := sort_data (level mod ndim) l in
  let h := length sorted / 2 in
  match nth_error sorted h with
  | Some x => Some (firstn h sorted, skipn (h + 1) sorted ++ [x])
  | None => None
  end.

(** tree_decomp.py:61-82, :106-136, with m in place of the rank *)
Definition if_scatter_recv (level m : nat) : option nat :=
  if (2 ^ level <=? m) && (m <? 2 ^ (level + 1)) then Some (m - 2 ^ level) else None.
Definition if_scatter_send (level m n : nat) : option nat :=
  if m <? 2 ^ level then (if n <=? m + 2 ^ level then None else Some (m + 2 ^ level)) else None.
Definition if_gather_send (level m : nat) : option nat :=
  if (level =? 0) && (1 <? m) then None
  else if (2 ^ level <=? m) && (m <? 2 ^ (level + 1)) then Some (m - 2 ^ level) else None.
Definition if_gather_recv (level m n : nat) : option nat :=
  if (level =? 0) && (0 <? m) then None
  else if m <? 2 ^ level then (if n <=? m + 2 ^ level then None else Some (m + 2 ^ level)) else None.

(** ** processes *)
(** [data]: body_list / prc_data; [part]: part_list, then what has been gathered: (id, rank);
    [subd]: O.bodies[id].subdomain; [failed]: an exception was raised *)
Record node := mkNode { data : list item; part : list (nat * nat); subd : nat -> nat; failed : bool }.
Inductive message := Items (l : list item) | Parts (l : list (nat * nat)).

Definition to_list (o : option nat) : list nat := match o with Some m => [m + 1] | None => [] end.
(** a worker that is alive takes part in the exchange of a level *)
Definition takes_part (p : nat) (s : node) : bool := negb (p =? 0) && negb (failed s).

(** mpy_bisection.py:432-436: master sends positions and ids to rank 1 *)
Definition to_first (n : nat) : phase node message :=
  mkPhase 10
    (fun p s => if (p =? 1) && (1 <=? n) then [0] else [])
    (fun p s => if (p =? 0) && (1 <=? n) then [1] else [])
    (fun p s b => Items (data s))
    (fun p s a x => match x with Items l => mkNode l (part s) (subd s) (failed s) | Parts _ => s end)
    (fun p s => s).

(** tree_decomp.py:43-58, one level *)
Definition scatter (ndim n level : nat) : phase node message :=
  mkPhase 99
    (fun p s => if takes_part p s then to_list (if_scatter_recv level (p - 1)) else [])
    (fun p s => if takes_part p s then
                  match if_scatter_send level (p - 1) n, process_data ndim level (data s) with
                  | Some m, Some _ => [m + 1]
                  | _, _ => []
                  end else [])
    (fun p s b => match process_data ndim level (data s) with Some (_, snt) => Items snt | None => Items [] end)
    (fun p s a x => match x with Items l => mkNode l (part s) (subd s) (failed s) | Parts _ => s end)
    (fun p s => if takes_part p s then
                  match if_scatter_send level (p - 1) n with
                  | Some _ => match process_data ndim level (data s) with
                              | Some (k, _) => mkNode k (part s) (subd s) false
                              | None => mkNode (data s) (part s) (subd s) true
                              end
                  | None => s
                  end else s).

(** mpy_bisection.py:440: part_list = [(x[1], rank) for x in body_list] *)
Definition label : phase node message :=
  mkPhase 0 (fun _ _ => []) (fun _ _ => []) (fun _ _ _ => Parts []) (fun _ s _ _ => s)
    (fun p s => if takes_part p s then mkNode (data s) (map (fun x => (bid x, p)) (data s)) (subd s) (failed s) else s).

(** tree_decomp.py:86-103, one level *)
Definition gather (n level : nat) : phase node message :=
  mkPhase 99
    (fun p s => if takes_part p s then to_list (if_gather_recv level (p - 1) n) else [])
    (fun p s => if takes_part p s then to_list (if_gather_send level (p - 1)) else [])
    (fun p s b => Parts (part s))
    (fun p s a x => match x with Parts l => mkNode (data s) (part s ++ l) (subd s) (failed s) | Items _ => s end)
    (fun p s => s).

(** mpy_bisection.py:442-449: rank 1 sends the list, the master sets the subdomains *)
Definition set_subd (f : nat -> nat) (x : nat * nat) : nat -> nat := fun i => if i =? fst x then snd x else f i.
Definition to_master (n : nat) : phase node message :=
  mkPhase 10
    (fun p s => if (p =? 0) && (1 <=? n) then [1] else [])
    (fun p s => if (p =? 1) && (1 <=? n) && negb (failed s) then [0] else [])
    (fun p s b => Parts (part s))
    (fun p s a x => match x with Parts l => mkNode (data s) l (fold_left set_subd l (subd s)) (failed s) | Items _ => s end)
    (fun p s => s).

(** mpy_bisection.py:425-452 *)
Definition decompose (ndim n L : nat) : list (phase node message) :=
  to_first n :: map (scatter ndim n) (seq 0 L) ++ label :: map (gather n) (rev (seq 0 L)) ++ [to_master n].
(** mpy_bisection.py:433: the master has the spheres, the others nothing *)
Definition at_start (spheres : list item) (f : nat -> nat) (p : nat) : node :=
  mkNode (if p =? 0 then spheres else []) [] f false.

(** ** bounds of a subdomain *)
Local Open Scope Z_scope.
(** core/Subdomain.cpp:19-34, one axis: the smallest lower and the largest upper bound of the
    members that have bounds; None = (inf, -inf) *)
Definition join (r : option (Z * Z)) (b : Z * Z) : option (Z * Z) :=
  match r with Some (l, h) => Some (Z.min l (fst b), Z.max h (snd b)) | None => Some b end.
Definition setMinMax (bound : nat -> option (Z * Z)) (ids : list nat) : option (Z * Z) :=
  fold_left (fun r i => match bound i with Some b => join r b | None => r end) ids None.
(** mpy_bisection.py:466 and :484: ids of the bodies with this number, among all bodies (id, subdomain).
    At the first split the body of the subdomain is not yet there; at a later one it is. *)
Definition members (k : nat) (bs : list (nat * nat)) : list nat := map fst (filter (fun b => (snd b =? k)%nat) bs).
(** mpy_bisection.py:159-181 with Bo1_Subdomain_Aabb::go (Subdomain.cpp:76-84): the dispatcher gives the
    body of the subdomain the bounds computed last time (None = (inf, -inf), the initial value, which changes
    nothing), then the bounds are computed again *)
Definition refresh (own : nat) (ids : list nat) (last : option (Z * Z)) (bound : nat -> option (Z * Z)) : option (Z * Z) :=
  setMinMax (fun i => if (i =? own)%nat then last else bound i) ids.
