(** Engines that write rows to files: pkg/common/Recorder.hpp, pkg/dem/ForceTorqueRecorder.{hpp,cpp}.

    Simplifications: a file is the list of its rows; names are a number (0 is the empty string) and the step that is added;
    opening fails only for the empty name; real numbers without rounding. *)
From Coq Require Import Reals List Bool Arith.
From Verif Require Import Vec_Model.
Import ListNotations.

Definition name := (nat * option nat)%type.
Definition same_name (a b : name) : bool :=
  (fst a =? fst b) && match snd a, snd b with Some i, Some j => i =? j | None, None => true | _, _ => false end.
Definition files (A : Type) := name -> list A.
Definition set_file {A} (fs : files A) (n : name) (l : list A) : files A := fun m => if same_name m n then l else fs m.

(** file, truncate, addIterNum, and whether action closes the file (as ForceRecorder and TorqueRecorder do, ForceTorqueRecorder.cpp:15,35,
    and TriaxialStateRecorder does not) *)
Record settings := mkSet { file : nat; truncate : bool; addIterNum : bool; closes : bool }.
(** hpp:5-13; None is the exception *)
Definition open_name (c : settings) (iter : nat) : option name :=
  if addIterNum c then Some (file c, Some iter) else if file c =? 0 then None else Some (file c, None).
Definition opened {A} (c : settings) (fs : files A) (n : name) : files A := if truncate c then set_file fs n [] else fs.
(** one activation (hpp:19-25) and action at step [iter] with row [r]; the open file is part of the state *)
Definition record {A} (c : settings) (st : files A * option name) (iter : nat) (r : A) : option (files A * option name) :=
  let (fs, out) := st in
  match (match out with
         | Some n => Some (fs, n)
         | None => match open_name c iter with Some n => Some (opened c fs n, n) | None => None end
         end) with
  | Some (fs1, n) => Some (set_file fs1 n (fs1 n ++ [r]), if closes c then None else Some n)
  | None => None
  end.
Fixpoint records {A} (c : settings) (st : files A * option name) (l : list (nat * A)) : option (files A * option name) :=
  match l with
  | [] => Some st
  | (i, r) :: l' => match record c st i r with Some st' => records c st' l' | None => None end
  end.

(** ** rows of ForceRecorder and TorqueRecorder *)
(** what is known of a body: None if it does not exist *)
Record load := mkL { lpos : vec; lforce : vec; ltorque : vec }.
Local Open Scope R_scope.
(** ForceTorqueRecorder.cpp:7-11 *)
Definition totalForce (world : nat -> option load) (ids : list nat) : vec :=
  fold_left (fun s i => match world i with Some b => vadd s (lforce b) | None => s end) ids vzero.
(** cpp:20-31; the axis is normalized by the caller *)
Definition totalTorque (axis zero : vec) (world : nat -> option load) (ids : list nat) : R :=
  fold_left (fun s i => match world i with
                        | Some b => let rad := cross axis (cross axis (vsub (lpos b) zero)) in s + dot axis (vadd (ltorque b) (cross rad (lforce b)))
                        | None => s
                        end) ids 0.
