(** Model of the multi-threaded ForceContainer
    (core/ForceContainer.hpp:44-131, core/ForceContainerParallel.cpp).

    Simplifications
    - [V] is the type of Vector3r values, [vadd]/[v0] its addition and zero; no
      algebraic law is assumed here, so the order in which the code adds is
      visible in the model (floating point addition is one instance).
    - The four parallel per-thread arrays (_forceData, _torqueData, _moveData,
      _rotData) are always resized together
      (ForceContainerParallel.cpp:223-232), so they are one array of [cell]s;
      likewise _force/_torque/_move/_rot and _permForce/_permTorque
      (:238-251, :17-22).
    - Each call is atomic.  The unlocked updates of the shared scalars [size],
      [synced], [syncedSizes] made by addForce from several threads are a data
      race in C++; that race is not modelled in this file.
    - Ids are natural numbers (python rejects negative ones,
      py/wrapper/yadeWrapper.cpp:496).
    - [asserts] are compiled out; out-of-range accesses give [UB]. *)
From Coq Require Import List Arith Bool ZArith.
Import ListNotations.

Section Model.
Context {V : Type} (v0 : V) (vadd : V -> V -> V).

(** One entry of the four parallel arrays. *)
Record cell := mkCell { cF : V; cT : V; cM : V; cR : V }.
Definition cell0 := mkCell v0 v0 v0 v0.

(** The quantity a caller adds: force, torque, prescribed move, prescribed rotation. *)
Inductive chan := ChF | ChT | ChM | ChR.

Definition cget (c : chan) (x : cell) : V :=
  match c with ChF => cF x | ChT => cT x | ChM => cM x | ChR => cR x end.
Definition cadd (c : chan) (v : V) (x : cell) : cell :=
  match c with
  | ChF => mkCell (vadd (cF x) v) (cT x) (cM x) (cR x)
  | ChT => mkCell (cF x) (vadd (cT x) v) (cM x) (cR x)
  | ChM => mkCell (cF x) (cT x) (vadd (cM x) v) (cR x)
  | ChR => mkCell (cF x) (cT x) (cM x) (vadd (cR x) v)
  end.

(** core/ForceContainer.hpp:48-78. [data], [maxId], [szT] are indexed by thread;
    [sums] is _force/_torque/_move/_rot; [perm] is (_permForce,_permTorque). *)
Record fc := mkFc {
  data : list (list cell);
  maxId : list nat;
  szT : list nat;
  sums : list cell;
  perm : list (V * V);
  size : nat;
  syncedSizes : bool;
  synced : bool;
  moveRotUsed : bool;
  permUsed : bool;
  syncCount : nat;
  lastReset : Z }.

Inductive res (A : Type) := Val (a : A) | Throw | UB.
Arguments Val {A}. Arguments Throw {A}. Arguments UB {A}.

(** ForceContainerParallel.cpp:37-47 *)
Definition init (nThreads : nat) : fc :=
  mkFc (repeat [] nThreads) (repeat 0 nThreads) (repeat 0 nThreads)
       [] [] 0 true true false false 0 0%Z.

(** std::vector::resize(n, x): truncate or pad. *)
Definition vresize {A} (n : nat) (x : A) (l : list A) : list A :=
  firstn n l ++ repeat x (n - length l).

(** vec[i] = f(vec[i]); out of range is reported by the callers. *)
Fixpoint upd {A} (i : nat) (f : A -> A) (l : list A) : list A :=
  match l, i with
  | [], _ => []
  | x :: l', O => f x :: l'
  | x :: l', S i' => x :: upd i' f l'
  end.

(** ForceContainerParallel.cpp:31,33: min((size_t)1.5*(idMax+100), idMax+2000);
    the cast binds tighter than the product, (size_t)1.5 = 1. *)
Definition newSize (idMax : nat) : nat := Nat.min (1 * (idMax + 100)) (idMax + 2000).

(** ForceContainerParallel.cpp:223-232 *)
Definition resize (n t : nat) (s : fc) : fc :=
  mkFc (upd t (vresize n cell0) (data s)) (maxId s) (upd t (fun _ => n) (szT s))
       (sums s) (perm s) (if size s <? n then n else size s) false
       (synced s) (moveRotUsed s) (permUsed s) (syncCount s) (lastReset s).

(** ForceContainerParallel.cpp:17-22 *)
Definition resizePerm (n : nat) (s : fc) : fc :=
  mkFc (data s) (maxId s) (szT s) (sums s) (vresize n (v0, v0) (perm s))
       (if size s <? n then n else size s) false
       (synced s) (moveRotUsed s) (permUsed s) (syncCount s) (lastReset s).

Definition set_maxId (t x : nat) (s : fc) : fc :=
  mkFc (data s) (upd t (fun _ => x) (maxId s)) (szT s) (sums s) (perm s) (size s)
       (syncedSizes s) (synced s) (moveRotUsed s) (permUsed s) (syncCount s) (lastReset s).

(** ForceContainerParallel.cpp:26-35 for threadN >= 0 *)
Definition ensureSize (id t : nat) (s : fc) : res fc :=
  match nth_error (maxId s) t, nth_error (szT s) t with
  | Some m, Some sz =>
      let idMax := Nat.max id m in
      let s := set_maxId t 0 s in
      if sz <=? idMax then Val (resize (newSize idMax) t s) else Val s
  | _, _ => UB
  end.

(** ForceContainerParallel.cpp:26-35 for threadN = -1.  The code reads and
    zeroes _maxId[-1], which is undefined behaviour.  [garbage] is the value
    found there; the model assumes that the write of 0 at that place hits
    nothing the container uses (with glibc it is the upper half of the heap
    chunk's size field, whose value is 0). *)
Definition ensureSizePerm (garbage id : nat) (s : fc) : fc :=
  resizePerm (newSize (Nat.max id garbage)) s.

(** addForce :54-58, addTorque :65-69, addMove :76-81, addRot :88-93,
    called by thread [t] (omp_get_thread_num()). *)
Definition add (t id : nat) (c : chan) (v : V) (s : fc) : res fc :=
  match ensureSize id t s with
  | Val s =>
      match nth_error (data s) t with
      | Some d =>
          if id <? length d then
            Val (mkFc (upd t (upd id (cadd c v)) (data s)) (maxId s) (szT s) (sums s) (perm s)
                      (size s) (syncedSizes s) false
                      (match c with ChM | ChR => true | _ => moveRotUsed s end)
                      (permUsed s) (syncCount s) (lastReset s))
          else UB
      | None => UB
      end
  | r => r
  end.

(** addMaxId :95-97 *)
Definition addMaxId (t id : nat) (s : fc) : res fc :=
  if t <? length (maxId s) then Val (set_maxId t id s) else UB.

(** setPermForce :99-104 (isF = true), setPermTorque :106-111 (isF = false). *)
Definition setPerm (garbage id : nat) (isF : bool) (v : V) (s : fc) : res fc :=
  let s := ensureSizePerm garbage id s in
  if id <? length (perm s) then
    Val (mkFc (data s) (maxId s) (szT s) (sums s)
              (upd id (fun p => if isF then (v, snd p) else (fst p, v)) (perm s))
              (size s) (syncedSizes s) false (moveRotUsed s) true (syncCount s) (lastReset s))
  else UB.

(** syncSizesOfContainers :238-251 *)
Definition syncSizes (s : fc) : fc :=
  if syncedSizes s then s else
  let s1 := fold_left (fun s i => if nth i (szT s) (size s) <? size s then resize (size s) i s else s)
                      (seq 0 (length (szT s))) s in
  mkFc (data s1) (maxId s1) (szT s1) (vresize (size s1) cell0 (sums s1))
       (vresize (size s1) (v0, v0) (perm s1)) (size s1) true
       (synced s1) (moveRotUsed s1) (permUsed s1) (syncCount s1) (lastReset s1).

(** sums over threads at one id, :183 and :190, in thread order starting from zero *)
Definition sumThreads (c : chan) (d : list (list cell)) (id : nat) : res V :=
  fold_left (fun acc dt =>
               match acc, nth_error dt id with
               | Val a, Some x => Val (vadd a (cget c x))
               | _, _ => UB
               end) d (Val v0).

Definition bindr {A B} (r : res A) (f : A -> res B) : res B :=
  match r with Val a => f a | Throw => Throw | UB => UB end.

(** body of the two loops of sync, :181-193, for one id.  [old] is the previous
    summary cell (its move/rot part is kept when moveRotUsed is false). *)
Definition syncCell (s : fc) (id : nat) (old : cell) : res cell :=
  bindr (sumThreads ChF (data s) id) (fun f =>
  bindr (sumThreads ChT (data s) id) (fun t =>
  bindr (if permUsed s then
           match nth_error (perm s) id with
           | Some p => Val (vadd f (fst p), vadd t (snd p))
           | None => UB
           end
         else Val (f, t)) (fun ft =>
  if moveRotUsed s then
    bindr (sumThreads ChM (data s) id) (fun m =>
    bindr (sumThreads ChR (data s) id) (fun r =>
    Val (mkCell (fst ft) (snd ft) m r)))
  else Val (mkCell (fst ft) (snd ft) (cM old) (cR old))))).

Fixpoint syncCells (s : fc) (id : nat) (olds : list cell) : res (list cell) :=
  match olds with
  | [] => Val []
  | o :: os => bindr (syncCell s id o) (fun c => bindr (syncCells s (S id) os) (fun cs => Val (c :: cs)))
  end.

(** :175-177 *)
Definition syncMaxIds (s : fc) : res fc :=
  fold_left (fun r i => bindr r (fun s =>
               match nth_error (maxId s) i with
               | Some m => if 0 <? m then ensureSize m i s else Val s
               | None => UB
               end)) (seq 0 (length (maxId s))) (Val s).

(** sync :167-195.  The loops run over id < size; the lengths of the summary
    arrays equal [size] there, a shorter one would be UB. *)
Definition sync (s : fc) : res fc :=
  let dirty := existsb (fun m => 0 <? m) (maxId s) in
  if synced s && negb dirty then Val s else
  bindr (syncMaxIds s) (fun s =>
  let s := syncSizes s in
  if length (sums s) =? size s then
    bindr (syncCells s 0 (sums s)) (fun cs =>
    Val (mkFc (data s) (maxId s) (szT s) cs (perm s) (size s) (syncedSizes s) true
              (moveRotUsed s) (permUsed s) (S (syncCount s)) (lastReset s)))
  else UB).

Definition zeroFT (x : cell) : cell := mkCell v0 v0 (cM x) (cR x).
Definition zeroCell (moveRot : bool) (x : cell) : cell := if moveRot then cell0 else zeroFT x.

(** reset :197-221.  memset writes sizeOfThreads[t] (resp. size) elements: the
    arrays must be that long. *)
Definition reset (iter : Z) (resetAll : bool) (s : fc) : res fc :=
  let s := syncSizes s in
  if negb (forallb (fun p => snd p <=? length (fst p)) (combine (data s) (szT s)))
     || negb (size s <=? length (sums s)) || (resetAll && negb (size s <=? length (perm s)))
  then UB else
  let mr := moveRotUsed s in
  let pu := if resetAll then false else permUsed s in
  Val (mkFc (map (map (zeroCell mr)) (data s)) (maxId s) (szT s)
            (map (zeroCell mr) (sums s))
            (if resetAll then map (fun _ => (v0, v0)) (perm s) else perm s)
            (size s) (syncedSizes s) (negb pu) false pu (syncCount s) iter).

(** getForce :49-52, getTorque :60-63, getMove :71-74, getRot :83-86 *)
Definition get (c : chan) (id : nat) (s : fc) : res V :=
  if negb (synced s) then Throw else
  if id <? size s then
    match nth_error (sums s) id with Some x => Val (cget c x) | None => UB end
  else Val v0.

(** getPermForce :113-116, getPermTorque :118-121 *)
Definition getPerm (isF : bool) (id : nat) (s : fc) : res V :=
  if negb (synced s) then Throw else
  if id <? size s then
    match nth_error (perm s) id with Some p => Val (if isF then fst p else snd p) | None => UB end
  else Val v0.

(** getForceSingle :133-140, getTorqueSingle :142-149, getMoveSingle :151-157,
    getRotSingle :159-165: no synchronisation, no bound check on the permanent part. *)
Definition getSingle (c : chan) (id : nat) (s : fc) : res V :=
  let sum := fold_left (fun acc p =>
                 bindr acc (fun a =>
                 if id <? snd p then
                   match nth_error (fst p) id with Some x => Val (vadd a (cget c x)) | None => UB end
                 else Val (vadd a v0))) (combine (data s) (szT s)) (Val v0) in
  match c with
  | ChF => if permUsed s then
             bindr sum (fun a => match nth_error (perm s) id with
                                 | Some p => Val (vadd a (fst p)) | None => UB end)
           else sum
  | ChT => if permUsed s then
             bindr sum (fun a => match nth_error (perm s) id with
                                 | Some p => Val (vadd a (snd p)) | None => UB end)
           else sum
  | _ => sum
  end.

(** The public operations that change the container. *)
Inductive op :=
| OAdd (t id : nat) (c : chan) (v : V)
| OMaxId (t id : nat)
| OSetPerm (garbage id : nat) (isF : bool) (v : V)
| OSync
| OReset (iter : Z) (resetAll : bool).

Definition step (s : fc) (o : op) : res fc :=
  match o with
  | OAdd t id c v => add t id c v s
  | OMaxId t id => addMaxId t id s
  | OSetPerm g id isF v => setPerm g id isF v s
  | OSync => sync s
  | OReset it all => reset it all s
  end.

Definition run (n : nat) (h : list op) : res fc :=
  fold_left (fun r o => bindr r (fun s => step s o)) h (Val (init n)).

End Model.
Arguments Val {A}. Arguments Throw {A}. Arguments UB {A}.
Arguments cell : clear implicits.
Arguments fc : clear implicits.
Arguments op : clear implicits.
