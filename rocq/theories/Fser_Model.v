(** Model of the force container built without OpenMP (core/ForceContainer.hpp:44-131, core/ForceContainerSerial.cpp),
    and of additions to summed forces (core/ForceContainerParallel.cpp:7-15), which both builds have.

    Simplifications, as in Force_Model: [V] are the values, with addition and zero, no law assumed; the six arrays are
    resized together (Serial.cpp:144-152) and are two lists; ids are natural numbers; asserts are compiled out, an
    access out of range is [UB]. *)
From Coq Require Import List Arith Bool ZArith.
From Verif Require Import Force_Model.
Import ListNotations.

Section Model.
Context {V : Type} (v0 : V) (vadd : V -> V -> V).

(** hpp:58-65: _maxId; _force, _torque, _move, _rot; _permForce, _permTorque; size; moveRotUsed; permForceUsed; lastReset *)
Record sc := mkSc { s_max : nat; s_cells : list (cell V); s_perm : list (V * V); s_size : nat; s_mr : bool; s_pu : bool; s_last : Z }.
(** hpp:58-65 *)
Definition s_init : sc := mkSc 0 [] [] 0 false false 0.
(** Serial.cpp:144-152 *)
Definition s_resize (n : nat) (s : sc) : sc :=
  mkSc (s_max s) (vresize n (cell0 v0) (s_cells s)) (vresize n (v0, v0) (s_perm s)) n (s_mr s) (s_pu s) (s_last s).
(** Serial.cpp:4-10; (size_t)1.5 is 1 *)
Definition s_ensure (id : nat) (s : sc) : sc :=
  let idMax := Nat.max id (s_max s) in
  let s := mkSc 0 (s_cells s) (s_perm s) (s_size s) (s_mr s) (s_pu s) (s_last s) in
  if s_size s <=? idMax then s_resize (Nat.min (1 * (idMax + 100)) (idMax + 2000)) s else s.
(** Serial.cpp:17-20, 27-30, 37-41, 48-52 *)
Definition s_add (id : nat) (c : chan) (v : V) (s : sc) : res sc :=
  let s := s_ensure id s in
  if id <? length (s_cells s) then
    Val (mkSc (s_max s) (upd id (cadd vadd c v) (s_cells s)) (s_perm s) (s_size s) (match c with ChM | ChR => true | _ => s_mr s end) (s_pu s) (s_last s))
  else UB.
(** Serial.cpp:54-56 *)
Definition s_addMaxId (id : nat) (s : sc) : sc := mkSc id (s_cells s) (s_perm s) (s_size s) (s_mr s) (s_pu s) (s_last s).
(** Serial.cpp:58-68 *)
Definition s_setPerm (id : nat) (isF : bool) (v : V) (s : sc) : res sc :=
  let s := s_ensure id s in
  if id <? length (s_perm s) then
    Val (mkSc (s_max s) (s_cells s) (upd id (fun p => if isF then (v, snd p) else (fst p, v)) (s_perm s)) (s_size s) (s_mr s) true (s_last s))
  else UB.
(** Serial.cpp:117-119, the loop over all ids; None: an array is too short *)
Fixpoint s_addPerm (cells : list (cell V)) (perm : list (V * V)) (n : nat) : option (list (cell V)) :=
  match n, cells, perm with
  | O, _, _ => Some cells
  | S n', x :: cs, p :: ps => match s_addPerm cs ps n' with Some l => Some (mkCell (vadd (cF x) (fst p)) (vadd (cT x) (snd p)) (cM x) (cR x) :: l) | None => None end
  | _, _, _ => None
  end.
(** Serial.cpp:111-123 *)
Definition s_sync (s : sc) : res sc :=
  let s := if 0 <? s_max s then (let s' := s_ensure (s_max s) s in mkSc 0 (s_cells s') (s_perm s') (s_size s') (s_mr s') (s_pu s') (s_last s')) else s in
  if s_pu s then
    match s_addPerm (s_cells s) (s_perm s) (s_size s) with
    | Some cs => Val (mkSc (s_max s) cs (s_perm s) (s_size s) (s_mr s) (s_pu s) (s_last s))
    | None => UB
    end
  else Val s.
(** Serial.cpp:125-142; memset writes [size] elements *)
Definition s_reset (iter : Z) (resetAll : bool) (s : sc) : res sc :=
  if negb (s_size s <=? length (s_cells s)) || (resetAll && negb (s_size s <=? length (s_perm s))) then UB else
  Val (mkSc (s_max s) (map (zeroCell v0 (s_mr s)) (s_cells s)) (if resetAll then map (fun _ => (v0, v0)) (s_perm s) else s_perm s)
            (s_size s) false (if resetAll then false else s_pu s) iter).
(** Serial.cpp:12-15, 22-25, 32-35, 43-46; reading may resize *)
Definition s_get (c : chan) (id : nat) (s : sc) : res (V * sc) :=
  let s := s_ensure id s in match nth_error (s_cells s) id with Some x => Val (cget c x, s) | None => UB end.
(** Serial.cpp:70-78 *)
Definition s_getPerm (isF : bool) (id : nat) (s : sc) : res (V * sc) :=
  let s := s_ensure id s in match nth_error (s_perm s) id with Some p => Val (if isF then fst p else snd p, s) | None => UB end.
(** Serial.cpp:88-109 *)
Definition s_getSingle (c : chan) (id : nat) (s : sc) : res (V * sc) :=
  let s := s_ensure id s in
  match nth_error (s_cells s) id, nth_error (s_perm s) id with
  | Some x, Some p =>
    Val (match c with
         | ChF => if s_pu s then vadd (cF x) (fst p) else cF x
         | ChT => if s_pu s then vadd (cT x) (snd p) else cT x
         | ChM => cM x
         | ChR => cR x end, s)
  | _, _ => UB
  end.
(** Serial.cpp:80-86: getForceUnsynced and getTorqueUnsynced *)
Definition s_getUnsynced (isF : bool) (id : nat) (s : sc) : res (V * sc) := if isF then s_get ChF id s else s_get ChF id s.
(** Parallel.cpp:7-15, in this build *)
Definition s_addUnsynced (isF : bool) (id : nat) (v : V) (s : sc) : res sc :=
  if id <? length (s_cells s) then
    Val (mkSc (s_max s) (upd id (cadd vadd (if isF then ChF else ChT) v) (s_cells s)) (s_perm s) (s_size s) (s_mr s) (s_pu s) (s_last s))
  else UB.

(** all calls *)
Inductive scall :=
| SOp (o : op V)
| SRead (c : chan) (id : nat)
| SReadPerm (isF : bool) (id : nat)
| SSingle (c : chan) (id : nat)
| SUnsynced (isF : bool) (id : nat)
| SAddUnsynced (isF : bool) (id : nat) (v : V).
Definition s_state (r : res (V * sc)) : res sc := match r with Val (_, s) => Val s | Throw => Throw | UB => UB end.
Definition s_step (s : sc) (x : scall) : res sc :=
  match x with
  | SOp (OAdd _ id c v) => s_add id c v s
  | SOp (OMaxId _ id) => Val (s_addMaxId id s)
  | SOp (OSetPerm _ id isF v) => s_setPerm id isF v s
  | SOp OSync => s_sync s
  | SOp (OReset it all) => s_reset it all s
  | SRead c id => s_state (s_get c id s)
  | SReadPerm isF id => s_state (s_getPerm isF id s)
  | SSingle c id => s_state (s_getSingle c id s)
  | SUnsynced isF id => s_state (s_getUnsynced isF id s)
  | SAddUnsynced isF id v => s_addUnsynced isF id v s
  end.
Definition s_run (h : list scall) : res sc := fold_left (fun r x => bindr r (fun s => s_step s x)) h (Val s_init).
(** py/wrapper/yadeWrapper.cpp:497,498: O.forces.f and O.forces.t, for an existing body *)
Definition s_python (isF : bool) (id : nat) (sync : bool) (s : sc) : res (V * sc) :=
  let c := if isF then ChF else ChT in if sync then bindr (s_sync s) (fun s => s_get c id s) else s_getSingle c id s.

(** Parallel.cpp:7-15, in the build with OpenMP *)
Definition addUnsynced (isF : bool) (id : nat) (v : V) (s : fc V) : res (fc V) :=
  if id <? length (sums s) then
    Val (mkFc (data s) (maxId s) (szT s) (upd id (cadd vadd (if isF then ChF else ChT) v) (sums s)) (perm s) (size s) (syncedSizes s) (synced s) (moveRotUsed s) (permUsed s) (syncCount s) (lastReset s))
  else UB.
End Model.
Arguments sc : clear implicits.
Arguments scall : clear implicits.
