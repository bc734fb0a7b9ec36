(** Model of multiple dispatch: lib/multimethods/DynLibDispatcher.hpp,
    lib/multimethods/Indexable.hpp, core/Dispatcher.hpp, and of the places that keep
    the functor they got (pkg/common/Dispatching.cpp, pkg/common/InteractionLoop.cpp).

    Simplifications
    - a class is its index; all classes have got their index before the first
      dispatcher is built, so that the matrices are large enough;
    - an empty matrix and a matrix without functors are the same;
    - the objects dispatched on are not of the top-level class itself;
    - functors declare one of the two possible orders of their types, so that
      add2DEntry does not raise (:257). *)
From Coq Require Import List Arith Bool.
Import ListNotations.

(** a functor object *)
Record functor := mkF {
  fid : nat;                   (* its address *)
  fname : nat;                 (* class name *)
  ft1 : nat; ft2 : nat;        (* get1DFunctorType1; get2DFunctorType1, get2DFunctorType2 *)
  frev : bool }.               (* checkOrder() is "type2 type1" *)

(** Indexable.hpp:55-79.  [chain c]: class c, its base class, and so on, without the
    top-level class: getClassIndex is the head, getBaseClassIndex(d) is at
    position d and -1 after the end. *)
Definition hier := nat -> list nat.

(** Dispatcher.hpp:41-46, functors_set: a functor is dropped if there is one with the
    same class name already; then the matrix is built anew *)
Fixpoint kept_from (old l : list functor) : list functor :=
  match l with
  | [] => []
  | f :: l' => if existsb (fun g => fname g =? fname f) old then kept_from old l' else f :: kept_from (old ++ [f]) l'
  end.
Definition kept (l : list functor) : list functor := kept_from [] l.

(** ** one argument *)
Definition mat1 := nat -> option functor.
Definition upd1 (m : mat1) (i : nat) (f : functor) : mat1 := fun j => if j =? i then Some f else m j.
(** :183-202 *)
Definition add1DEntry (m : mat1) (f : functor) : mat1 := upd1 m (ft1 f) f.
Definition set1 (l : list functor) : mat1 := fold_left add1DEntry (kept l) (fun _ => None).
(** :274-294: up the base classes *)
Fixpoint climb (m : mat1) (l : list nat) : option functor :=
  match l with
  | [] => None
  | i :: l' => match m i with Some f => Some f | None => climb m l' end
  end.
(** locateMultivirtualFunctor1D :268-297, getFunctor1D *)
Definition locate1 (h : hier) (m : mat1) (c : nat) : mat1 * option functor :=
  match m c with
  | Some f => (m, Some f)
  | None => match climb m (tl (h c)) with
            | Some f => (upd1 m c f, Some f)
            | None => (m, None)
            end
  end.

(** ** two arguments; a cell is callBacks and callBacksInfo *)
Definition cell := (functor * bool)%type.
Definition mat2 := nat -> nat -> option cell.
Definition upd2 (m : mat2) (i j : nat) (x : cell) : mat2 := fun i' j' => if (i' =? i) && (j' =? j) then Some x else m i' j'.
(** :238-264; [sym]: the base classes are the same; [auto]: autoSymmetry *)
Definition add2DEntry (sym auto : bool) (m : mat2) (f : functor) : mat2 :=
  if sym then
    if auto || negb (frev f) || (ft1 f =? ft2 f)
    then upd2 (upd2 m (ft2 f) (ft1 f) (f, true)) (ft1 f) (ft2 f) (f, false)
    else upd2 (upd2 m (ft2 f) (ft1 f) (f, false)) (ft1 f) (ft2 f) (f, true)
  else upd2 m (ft1 f) (ft2 f) (f, false).
Definition set2 (sym auto : bool) (l : list functor) : mat2 := fold_left (add2DEntry sym auto) (kept l) (fun _ _ => None).

(** :333-352, one distance.  [found]: foundIx1, foundIx2.  Depths that are skipped in
    :335 are those found to be too large before. *)
Inductive scan := Ambiguous (m : mat2) | Scanned (m : mat2) (found : option (nat * nat)) (distTooBig : bool).
Fixpoint row (h1 h2 : hier) (a b dist : nat) (dps : list nat) (m : mat2) (found : option (nat * nat)) (big : bool) : scan :=
  match dps with
  | [] => Scanned m found big
  | dp1 :: dps' =>
      match nth_error (h1 a) dp1, nth_error (h2 b) (dist - dp1) with
      | Some x, Some y =>
          match m x y with
          | None => row h1 h2 a b dist dps' m found false
          | Some fs =>
              let differs := match found with
                             | None => false
                             | Some (x0, y0) => match m x0 y0 with Some gs => negb (fid (fst gs) =? fid (fst fs)) | None => true end
                             end in
              if differs then Ambiguous m
              else row h1 h2 a b dist dps' (upd2 m a b fs) (Some (x, y)) false
          end
      | _, _ => row h1 h2 a b dist dps' m found big
      end
  end.
Inductive answer := Chosen (f : functor) (swap : bool) | NoFunctor | Raises | OutOfFuel.
(** :330-358 *)
Fixpoint search (fuel : nat) (h1 h2 : hier) (a b dist : nat) (m : mat2) : mat2 * answer :=
  match fuel with
  | O => (m, OutOfFuel)
  | S fuel' =>
      match row h1 h2 a b dist (seq 0 (S dist)) m None true with
      | Ambiguous m1 => (m1, Raises)
      | Scanned m1 (Some _) _ => (m1, match m1 a b with Some (f, s) => Chosen f s | None => NoFunctor end)
      | Scanned m1 None true => (m1, NoFunctor)
      | Scanned m1 None false => search fuel' h1 h2 a b (S dist) m1
      end
  end.
(** locateMultivirtualFunctor2D :299-359, getFunctor2D :137-142.  The number of turns of
    the loop is limited by the heights of the hierarchies: [OutOfFuel] does not happen. *)
Definition locate2 (h1 h2 : hier) (m : mat2) (a b : nat) : mat2 * answer :=
  match m a b with
  | Some (f, s) => (m, Chosen f s)
  | None => search (length (h1 a) + length (h2 b)) h1 h2 a b 1 m
  end.

(** ** a history of lookups *)
Fixpoint run1 (h : hier) (m : mat1) (l : list nat) : mat1 := match l with [] => m | c :: l' => run1 h (fst (locate1 h m c)) l' end.
Fixpoint run2 (h1 h2 : hier) (m : mat2) (l : list (nat * nat)) : mat2 :=
  match l with [] => m | p :: l' => run2 h1 h2 (fst (locate2 h1 h2 m (fst p) (snd p))) l' end.

(** ** functors kept by shapes and interactions *)
(** a Shape (core/Shape.hpp:24-26) and an Interaction (core/Interaction.hpp, functorCache.geom
    and geomExists) with the classes of the shapes *)
Record user := mkUser {
  ucls : nat; ucls2 : nat;
  ucache : option functor;
  uexists : bool }.

(** Dispatching.cpp:35-36: the functor applied to a shape *)
Definition use_shape (h : hier) (m : mat1) (u : user) : mat1 * user * option functor :=
  match ucache u with
  | Some f => (m, u, Some f)
  | None => let (m1, r) := locate1 h m (ucls u) in (m1, mkUser (ucls u) (ucls2 u) r (uexists u), r)
  end.
(** InteractionLoop.cpp:90-113.  swapOrder exchanges the two shapes.  None: an exception *)
Definition use_intr (h : hier) (m : mat2) (u : user) : mat2 * user * option functor :=
  if negb (uexists u) then (m, u, None) else
  match ucache u with
  | Some f => (m, u, Some f)
  | None => match locate2 h h m (ucls u) (ucls2 u) with
            | (m1, Chosen f s) => (m1, (if s then mkUser (ucls2 u) (ucls u) (Some f) true else mkUser (ucls u) (ucls2 u) (Some f) true), Some f)
            | (m1, NoFunctor) => (m1, mkUser (ucls u) (ucls2 u) None false, None)
            | (m1, _) => (m1, u, None)
            end
  end.
(** core/Interaction.cpp:19-32 *)
Definition reset_intr (u : user) : user := mkUser (ucls u) (ucls2 u) None true.
