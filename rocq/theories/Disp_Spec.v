(** What the user is told about dispatch, in terms of the list of functors. *)
From Coq Require Import List Arith Bool.
From Verif Require Import Disp_Model.
Import ListNotations.

(** a class hierarchy: each class is followed by the chain of its base class *)
Definition hierarchy (h : hier) : Prop :=
  forall c, (exists l, h c = c :: l) /\ forall d x, nth_error (h c) d = Some x -> h x = skipn d (h c).
(** x is c or an ancestor of c, d levels above *)
Definition above (h : hier) (c : nat) (d : nat) (x : nat) : Prop := nth_error (h c) d = Some x.
Definition derives (h : hier) (c x : nat) : Prop := exists d, above h c d x.

(** f is the last functor given for class c *)
Definition given (l : list functor) (f : functor) (c : nat) : Prop :=
  exists l1 l2, l = l1 ++ f :: l2 /\ ft1 f = c /\ forall g, In g l2 -> ft1 g <> c.
(** f is given for the nearest ancestor of c that has a functor *)
Definition nearest (h : hier) (l : list functor) (c : nat) (f : functor) : Prop :=
  exists d x, above h c d x /\ given l f x /\ forall d' y, d' < d -> above h c d' y -> forall g, ~ given l g y.
Definition none_given (h : hier) (l : list functor) (c : nat) : Prop := forall d x f, above h c d x -> ~ given l f x.

(** no class name appears twice *)
Definition different (l : list functor) : Prop := NoDup (map fname l).

(** ** two arguments *)
(** f is meant for the pair of classes (x,y), in this order or, if [sym], also with
    the arguments exchanged ([s]) *)
Definition meant (sym : bool) (f : functor) (x y : nat) : Prop :=
  (ft1 f = x /\ ft2 f = y) \/ (sym = true /\ ft1 f = y /\ ft2 f = x).
Definition given2 (sym : bool) (l : list functor) (f : functor) (x y : nat) : Prop :=
  exists l1 l2, l = l1 ++ f :: l2 /\ meant sym f x y /\ forall g, In g l2 -> ~ meant sym g x y.
(** f is given for ancestors of a and b that are n levels away in total *)
Definition at_dist (sym : bool) (h1 h2 : hier) (l : list functor) (a b n : nat) (f : functor) : Prop :=
  exists d1 d2 x y, d1 + d2 = n /\ above h1 a d1 x /\ above h2 b d2 y /\ given2 sym l f x y.
Definition closest (sym : bool) (h1 h2 : hier) (l : list functor) (a b n : nat) : Prop :=
  (exists f, at_dist sym h1 h2 l a b n f) /\ forall k f, k < n -> ~ at_dist sym h1 h2 l a b k f.

(** the answer depends on the functors only *)
Definition right_answer (sym : bool) (h1 h2 : hier) (l : list functor) (a b : nat) (r : answer) : Prop :=
  match r with
  | Chosen f _ => exists n, closest sym h1 h2 l a b n /\ at_dist sym h1 h2 l a b n f /\ forall g, at_dist sym h1 h2 l a b n g -> fid g = fid f
  | Raises => exists n f g, closest sym h1 h2 l a b n /\ at_dist sym h1 h2 l a b n f /\ at_dist sym h1 h2 l a b n g /\ fid f <> fid g
  | NoFunctor => forall n f, ~ at_dist sym h1 h2 l a b n f
  | OutOfFuel => False
  end.

(** the arguments are of the classes the functor's method expects, in that order *)
Definition expects (sym auto : bool) (f : functor) : nat * nat :=
  if sym && negb auto && frev f then (ft2 f, ft1 f) else (ft1 f, ft2 f).
Definition well_called (sym auto : bool) (h1 h2 : hier) (a b : nat) (f : functor) (swap : bool) : Prop :=
  let (x, y) := expects sym auto f in
  if swap then derives h1 a y /\ derives h2 b x else derives h1 a x /\ derives h2 b y.

(** p is neither (a,b) nor a pair of ancestors of (a,b) *)
Definition not_below (h1 h2 : hier) (a b : nat) (p : nat * nat) : Prop := ~ (derives h1 a (fst p) /\ derives h2 b (snd p)).
