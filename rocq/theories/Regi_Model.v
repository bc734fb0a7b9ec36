(** Registration of classes and questions about them: core/Omega.{hpp,cpp}, py/wrapper/yadeWrapper.cpp, py/system.py.

    Simplifications: names are numbers, ordered as the names; isSerializable is left out (all classes are); the bases that
    Omega.cpp:181-183 adds to the bases of classes deriving from Dispatcher1D, Functor1D and Serializable are left out, and
    these bases are leaves, as Factorable and Indexable are; calls that never return (stack overflow) are None for every fuel. *)
From Coq Require Import List Bool Arith.
Import ListNotations.

(** map<string,DynlibDescriptor>: names and base classes *)
Definition registry := list (nat * list nat).
Definition keys (r : registry) : list nat := map fst r.
Fixpoint find (r : registry) (n : nat) : option (list nat) := match r with [] => None | (k, b) :: r' => if k =? n then Some b else find r' n end.
Definition mem (n : nat) (l : list nat) : bool := existsb (Nat.eqb n) l.
(** operator[]: makes an empty entry if there is none *)
Definition touch (r : registry) (n : nat) : registry := match find r n with Some _ => r | None => r ++ [(n, [])] end.
Definition bases (r : registry) (n : nat) : list nat := match find r n with Some b => b | None => [] end.

(** ** python classes are registered after their bases, Omega.cpp:152-171 *)
(** one round over the list: pyRegisterClass fails if the base has no python class yet *)
Fixpoint round (base : nat -> nat) (known : list nat) (l : list nat) : list nat * list nat :=
  match l with
  | [] => (known, [])
  | c :: l' => if mem (base c) known then round base (known ++ [c]) l'
               else let (k, p) := round base known l' in (k, c :: p)
  end.
(** for(int i=0; i<100 && pythonables.size()>0; i++) *)
Fixpoint rounds (n : nat) (base : nat -> nat) (known l : list nat) : list nat * list nat :=
  match n with
  | O => (known, l)
  | S n' => match l with [] => (known, []) | _ => let (k, p) := round base known l in rounds n' base k p end
  end.
Definition hundred : nat := 10 * 10.

(** ** the database, Omega.cpp:135-151,173-192 *)
(** set::insert of the bases [b] of [n] *)
Fixpoint add_bases (r : registry) (n : nat) (b : list nat) : registry :=
  match r with
  | [] => [(n, b)]
  | (k, c) :: r' => if k =? n then (k, c ++ filter (fun x => negb (mem x c)) b) :: r' else (k, c) :: add_bases r' n b
  end.
(** [create n] is None if the class cannot be factored, otherwise its base classes *)
Definition first_pass (create : nat -> option (list nat)) (plugins : list nat) : registry :=
  fold_left (fun r n => match create n with Some b => add_bases r n b | None => r end) plugins [].
(** Omega.cpp:176-191 for one class: None is the exception of createShared, which ends the program *)
Fixpoint visit (create : nat -> option (list nat)) (leaf : nat -> bool) (l : list nat) (r : registry) : option registry :=
  match l with
  | [] => Some r
  | b :: l' => if leaf b then visit create leaf l' r
               else match create b with Some bb => visit create leaf l' (add_bases r b bb) | None => None end
  end.
(** the iterator goes over the names in order: it meets those which are there when it comes to them *)
Fixpoint second_pass (create : nat -> option (list nat)) (leaf : nat -> bool) (names : list nat) (r : registry) : option registry :=
  match names with
  | [] => Some r
  | n :: names' => match find r n with
                   | Some l => match visit create leaf l r with Some r' => second_pass create leaf names' r' | None => None end
                   | None => second_pass create leaf names' r
                   end
  end.
(** [top] is larger than all names *)
Definition build (create : nat -> option (list nat)) (leaf : nat -> bool) (top : nat) (plugins : list nat) : option registry :=
  second_pass create leaf (seq 0 top) (first_pass create plugins).

(** ** questions *)
(** Omega.cpp:195-197 *)
Definition isInheritingFrom (r : registry) (c b : nat) : bool * registry := (mem b (bases r c), touch r c).
(** Omega.cpp:199-205, pyOmega::isChildClassOf (yadeWrapper.cpp:755-757) *)
Fixpoint recursive (fuel : nat) (r : registry) (c b : nat) : option bool * registry :=
  match fuel with
  | O => (None, r)
  | S f => let r1 := touch r c in
           if mem b (bases r1 c) then (Some true, r1)
           else (fix loop (l : list nat) (r2 : registry) : option bool * registry :=
                   match l with
                   | [] => (Some false, r2)
                   | p :: l' => match recursive f r2 p b with
                                | (Some true, r3) => (Some true, r3)
                                | (Some false, r3) => loop l' r3
                                | (None, r3) => (None, r3)
                                end
                   end) (bases r1 c) r1
  end.
(** pyOmega::plugins_get, yadeWrapper.cpp:759-764 *)
Definition plugins (r : registry) : list nat := keys r.
(** pyOmega::listChildClassesNonrecursive, yadeWrapper.cpp:749-753 (isInheritingFrom asks for names which are there) *)
Definition child_nonrecursive (r : registry) (b : nat) : list nat := filter (fun c => mem b (bases r c)) (keys r).
(** py/system.py:14-21; the set is a list *)
Fixpoint collect (f : nat -> option (list nat)) (l : list nat) : option (list nat) :=
  match l with [] => Some [] | x :: l' => match f x, collect f l' with Some a, Some b => Some (a ++ b) | _, _ => None end end.
Fixpoint childClasses (fuel : nat) (r : registry) (b : nat) : option (list nat) :=
  match fuel with
  | O => None
  | S f => let ret := child_nonrecursive r b in match collect (childClasses f r) ret with Some l => Some (ret ++ l) | None => None end
  end.
