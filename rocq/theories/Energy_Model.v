(** Model of the energy tracker: core/EnergyTracker.hpp and the array accumulator of
    lib/base/openmp-accu.hpp.

    Simplifications
    - values are whole numbers, additions are exact;
    - each of the steps below is indivisible: the two accesses to the map of names in
      findId, the critical section, the addition to the memory of a thread;
    - energies of engines: [nm o] is the name used by the o-th index attribute, and
      [rf n] the reset flag with which name n is always used. *)
From Coq Require Import List Arith ZArith Bool.
Import ListNotations.

Record params := mkP {
  nThreads : nat; perCL : nat;
  nm : nat -> nat; rf : nat -> bool;
  junk : nat -> nat -> Z }.    (* contents of newly allocated memory *)

(** state of a thread inside EnergyTracker::add (EnergyTracker.hpp:26-29) *)
Inductive stage :=
  | Idle
  | Find (o : nat) (v : Z)     (* entered findId *)
  | Create (o : nat) (v : Z)   (* the name was not found; waiting for the critical section *)
  | Acc (o : nat) (v : Z).     (* about to call energies.add *)
Record est := mkS {
  names : list (nat * nat);    (* std::map<string,int> *)
  rstep : list bool;           (* resetStep *)
  sz : nat; cap : nat;         (* elements; allocated elements per thread *)
  mem : nat -> nat -> Z;       (* chunks[thread][element] *)
  own : nat -> option nat;     (* index attributes of the engines; None: -1 *)
  pc : nat -> stage;
  overread : bool }.           (* memcpy has read behind the end of a chunk *)

Definition upd {A} (f : nat -> A) (i : nat) (x : A) : nat -> A := fun j => if j =? i then x else f j.
Definition upd2 (f : nat -> nat -> Z) (t i : nat) (x : Z) : nat -> nat -> Z := fun t' j => if (t' =? t) && (j =? i) then x else f t' j.

(** names.count, names[name] *)
Fixpoint lookup (l : list (nat * nat)) (n : nat) : option nat :=
  match l with [] => None | (k, i) :: l' => if k =? n then Some i else lookup l' n end.
Fixpoint assign (l : list (nat * nat)) (n i : nat) : list (nat * nat) :=
  match l with [] => [(n, i)] | (k, j) :: l' => if k =? n then (k, i) :: l' else (k, j) :: assign l' n i end.

(** openmp-accu.hpp:21 *)
Definition nCL_for_N (P : params) (n : nat) : nat := n / perCL P + (if n mod perCL P =? 0 then 0 else 1).
(** openmp-accu.hpp:26-46.  nCL is updated inside the loop over the threads (:38), so
    that for the second and later threads memcpy reads nCL_new lines from a chunk of nCL lines *)
Definition resize (P : params) (s : est) (n : nat) : est :=
  if n =? sz s then s else
  let newcap := nCL_for_N P n * perCL P in
  let grow := cap s <? newcap in
  let m1 := if grow then (fun t i => if i <? cap s then mem s t i else junk P t i) else mem s in
  let m2 := fun t i => if (sz s <=? i) && (i <? n) then 0%Z else m1 t i in
  mkS (names s) (rstep s) n (if grow then newcap else cap s) m2 (own s) (pc s)
      (overread s || (grow && (0 <? cap s) && (1 <? nThreads P))).
(** openmp-accu.hpp:53-58 *)
Fixpoint sum_threads (f : nat -> Z) (k : nat) : Z := match k with O => 0%Z | S k' => (sum_threads f k' + f k')%Z end.
Definition get (P : params) (s : est) (i : nat) : Z := sum_threads (fun t => mem s t i) (nThreads P).
Definition put (s : est) (i : nat) (v : Z) : est :=
  mkS (names s) (rstep s) (sz s) (cap s) (fun t j => if j =? i then (if t =? 0 then v else 0%Z) else mem s t j) (own s) (pc s) (overread s).

Definition set_own (s : est) (o : nat) (i : option nat) : est := mkS (names s) (rstep s) (sz s) (cap s) (mem s) (upd (own s) o i) (pc s) (overread s).
Definition set_pc (s : est) (t : nat) (x : stage) : est := mkS (names s) (rstep s) (sz s) (cap s) (mem s) (own s) (upd (pc s) t x) (overread s).
(** vector<bool>::resize(n) fills with false *)
Definition grow_flags (l : list bool) (n : nat) : list bool := firstn n l ++ repeat false (n - length l).
Fixpoint set_nth (l : list bool) (i : nat) (b : bool) : list bool :=
  match l, i with [], _ => [] | _ :: l', O => b :: l' | x :: l', S i' => x :: set_nth l' i' b end.
(** EnergyTracker.hpp:17; returns the new index *)
Definition create (P : params) (s : est) (n : nat) (r : bool) : est * nat :=
  let s1 := resize P s (sz s + 1) in
  let id := sz s1 - 1 in
  (mkS (assign (names s1) n id) (set_nth (grow_flags (rstep s1) (id + 1)) id r) (sz s1) (cap s1) (mem s1) (own s1) (pc s1) (overread s1), id).

(** None: undefined behaviour (access to memory that is not allocated) *)
(** one step of thread t inside add, EnergyTracker.hpp:10-19, 27-28 and openmp-accu.hpp:57 *)
Definition go (P : params) (s : est) (t : nat) : option est :=
  match pc s t with
  | Idle => Some s
  | Find o v => match own s o with
                | Some (S _) => Some (set_pc s t (Acc o v))      (* EnergyTracker.hpp:11 *)
                | _ => match lookup (names s) (nm P o) with
                       | Some i => Some (set_pc (set_own s o (Some i)) t (Acc o v))
                       | None => Some (set_pc s t (Create o v))
                       end
                end
  | Create o v => let (s1, i) := create P s (nm P o) (rf P (nm P o)) in
                  Some (set_pc (set_own s1 o (Some i)) t (Acc o v))
  | Acc o v => match own s o with
               | Some i => if i <? cap s
                           then Some (set_pc (mkS (names s) (rstep s) (sz s) (cap s) (upd2 (mem s) t i (mem s t i + v)%Z) (own s) (pc s) (overread s)) t Idle)
                           else None
               | None => None
               end
  end.
(** EnergyTracker.hpp:26-27 *)
Definition begin (P : params) (s : est) (t o : nat) (v : Z) : est :=
  set_pc s t (match own s o with None => Find o v | Some _ => Acc o v end).
(** EnergyTracker.hpp:35-37 with :21-24 *)
Definition setItem_py (P : params) (s : est) (n : nat) (v : Z) : option est :=
  match lookup (names s) n with
  | Some i => if i <? cap s then Some (put s i v) else None
  | None => let (s1, i) := create P s n false in if i <? cap s1 then Some (put s1 i v) else None
  end.
(** EnergyTracker.hpp:39 *)
Fixpoint reset_from (s : est) (flags : list bool) (i : nat) : est :=
  match flags with [] => s | b :: l => reset_from (if b then put s i 0%Z else s) l (S i) end.
Definition resetResettables (s : est) : est := reset_from s (firstn (sz s) (rstep s)) 0.
(** EnergyTracker.hpp:38 *)
Definition clear (P : params) (s : est) : est :=
  let s1 := resize P s 0 in mkS [] [] (sz s1) (cap s1) (mem s1) (own s1) (pc s1) (overread s1).
(** a tracker as it is created (Scene.hpp:100), the engines being kept *)
Definition new_tracker (P : params) (s : est) : est := mkS [] [] 0 0 (junk P) (own s) (pc s) (overread s).
(** the engines are created anew; the index attributes are not saved *)
Definition new_engines (s : est) : est := mkS (names s) (rstep s) (sz s) (cap s) (mem s) (fun _ => None) (pc s) (overread s).
Definition init (P : params) : est := mkS [] [] 0 0 (junk P) (fun _ => None) (fun _ => Idle) false.

(** EnergyTracker.hpp:30-34 (None: KeyError), :41, :42 *)
Definition getItem_py (P : params) (s : est) (n : nat) : option Z := option_map (get P s) (lookup (names s) n).
Definition total (P : params) (s : est) : Z := fold_right Z.add 0%Z (map (get P s) (seq 0 (sz s))).
Definition keys (s : est) : list nat := map fst (names s).

Inductive op :=
  | Begin (t o : nat) (v : Z)  (* thread t calls energy->add for attribute o *)
  | Go (t : nat)               (* thread t proceeds *)
  | SetItem (n : nat) (v : Z)  (* O.energy[n]=v *)
  | Reset                      (* ForceResetter *)
  | Clear                      (* O.energy.clear() *)
  | NewEngines                 (* reload *)
  | NewTracker.                (* O.reset() with the same engine objects *)
Definition step (P : params) (s : est) (a : op) : option est :=
  match a with
  | Begin t o v => Some (begin P s t o v)
  | Go t => go P s t
  | SetItem n v => setItem_py P s n v
  | Reset => Some (resetResettables s)
  | Clear => Some (clear P s)
  | NewEngines => Some (new_engines s)
  | NewTracker => Some (new_tracker P s)
  end.
Fixpoint run (P : params) (s : est) (l : list op) : option est :=
  match l with [] => Some s | a :: l' => match step P s a with Some s1 => run P s1 l' | None => None end end.
