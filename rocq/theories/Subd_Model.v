(** Model of the packing of body states into messages and of the bounding box of
    a subdomain: core/Subdomain.hpp and core/Subdomain.cpp.

    Simplifications
    - [D] is the type of the numbers sent (double, which is Real here); packing
      only moves them, so [D] is abstract;
    - of the state, pos, vel, angVel, ori are separate; all other fields of the
      state and of the body are two abstract components [X], [Y];
    - body ids are natural numbers; an id out of range or a null body pointer is
      dereferenced: [None] (undefined behaviour), and so is an index beyond the
      end of the message. *)
From Coq Require Import List Arith ZArith Bool.
Import ListNotations.

Section Codec.
Context {D X Y : Type} (zero : D).

Record vec := mkVec { v0 : D; v1 : D; v2 : D }.
(** Eigen keeps a quaternion as coeffs() = (x,y,z,w); Quaternionr(w,x,y,z) *)
Record quat := mkQuat { qx : D; qy : D; qz : D; qw : D }.

Record state := mkState { pos : vec; vel : vec; angVel : vec; ori : quat; stRest : X }.
Record body := mkBody { bstate : state; bound : option (vec * vec); bRest : Y }.
(** O.bodies; None = erased *)
Definition bodies := list (option body).

Definition body_at (w : bodies) (id : nat) : option body :=
  match nth_error w id with Some (Some b) => Some b | _ => None end.

Fixpoint update (w : bodies) (id : nat) (b : body) : bodies :=
  match w, id with
  | [], _ => []
  | _ :: w', O => Some b :: w'
  | x :: w', S id' => x :: update w' id' b
  end.

Definition push_vec (v : vec) : list D := [v0 v; v1 v; v2 v].
Definition push_quat (q : quat) : list D := [qx q; qy q; qz q; qw q].
Definition push_state (s : state) : list D :=
  push_vec (pos s) ++ push_vec (vel s) ++ push_vec (angVel s) ++ push_quat (ori s).
(** Subdomain.hpp:61-68 *)
Definition push_bound (b : option (vec * vec)) : list D :=
  match b with
  | Some (mn, mx) => push_vec mn ++ push_vec mx
  | None => [zero; zero; zero] ++ [zero; zero; zero]
  end.

(** getStateValuesFromIds, Subdomain.hpp:32-43 *)
Fixpoint getStateValuesFromIds (w : bodies) (ids : list nat) : option (list D) :=
  match ids with
  | [] => Some []
  | id :: ids' =>
    match body_at w id, getStateValuesFromIds w ids' with
    | Some b, Some l => Some (push_state (bstate b) ++ l)
    | _, _ => None
    end
  end.

(** getStateBoundsValuesFromIds, Subdomain.hpp:47-71 *)
Fixpoint getStateBoundsValuesFromIds (w : bodies) (ids : list nat) : option (list D) :=
  match ids with
  | [] => Some []
  | id :: ids' =>
    match body_at w id, getStateBoundsValuesFromIds w ids' with
    | Some b, Some l => Some (push_state (bstate b) ++ push_bound (bound b) ++ l)
    | _, _ => None
    end
  end.

(** Vector3r(input[i],input[i+1],input[i+2]) *)
Definition read_vec (inp : list D) (i : nat) : option vec :=
  match nth_error inp i, nth_error inp (i + 1), nth_error inp (i + 2) with
  | Some a, Some b, Some c => Some (mkVec a b c)
  | _, _, _ => None
  end.
(** Quaternionr(input[i+3],input[i],input[i+1],input[i+2]): arguments w,x,y,z *)
Definition Quaternionr (w x y z : D) : quat := mkQuat x y z w.
Definition read_quat (inp : list D) (i : nat) : option quat :=
  match nth_error inp (i + 3), nth_error inp i, nth_error inp (i + 1), nth_error inp (i + 2) with
  | Some w, Some x, Some y, Some z => Some (Quaternionr w x y z)
  | _, _, _, _ => None
  end.
Definition read_state (inp : list D) (i : nat) (s : state) : option state :=
  match read_vec inp i, read_vec inp (i + 3), read_vec inp (i + 6), read_quat inp (i + 9) with
  | Some p, Some v, Some a, Some o => Some (mkState p v a o (stRest s))
  | _, _, _, _ => None
  end.

(** setStateValuesFromIds, Subdomain.hpp:87-99.  The size check (:90) only logs.
    [k] is the loop variable. *)
Fixpoint set_from (k : nat) (w : bodies) (ids : list nat) (inp : list D) : option bodies :=
  match ids with
  | [] => Some w
  | id :: ids' =>
    match body_at w id with
    | None => None
    | Some b =>
      match read_state inp (k * 13) (bstate b) with
      | None => None
      | Some s => set_from (S k) (update w id (mkBody s (bound b) (bRest b))) ids' inp
      end
    end
  end.
Definition setStateValuesFromIds (w : bodies) (ids : list nat) (inp : list D) : option bodies :=
  set_from 0 w ids inp.

(** setStateBoundsValuesFromIds, Subdomain.hpp:101-122 *)
Fixpoint setb_from (k : nat) (w : bodies) (ids : list nat) (inp : list D) : option bodies :=
  match ids with
  | [] => Some w
  | id :: ids' =>
    match body_at w id with
    | None => None
    | Some b =>
      match read_state inp (k * 19) (bstate b), read_vec inp (k * 19 + 13), read_vec inp (k * 19 + 16) with
      | Some s, Some mn, Some mx => setb_from (S k) (update w id (mkBody s (Some (mn, mx)) (bRest b))) ids' inp
      | _, _, _ => None
      end
    end
  end.
Definition setStateBoundsValuesFromIds (w : bodies) (ids : list nat) (inp : list D) : option bodies :=
  setb_from 0 w ids inp.

End Codec.
Arguments vec : clear implicits.
Arguments quat : clear implicits.
Arguments state : clear implicits.
Arguments body : clear implicits.
Arguments bodies : clear implicits.

(** Numbers with infinities, for the box of a subdomain (coordinates are integers,
    see DESIGN; NaN left out). *)
Inductive ext := MInf | Fin (z : Z) | PInf.
Definition ext_le (a b : ext) : bool :=
  match a, b with
  | MInf, _ => true
  | _, PInf => true
  | Fin x, Fin y => (x <=? y)%Z
  | _, _ => false
  end.
Definition ext_max (a b : ext) : ext := if ext_le a b then b else a.
Definition ext_min (a b : ext) : ext := if ext_le a b then a else b.
Definition cwise (f : ext -> ext -> ext) (a b : vec ext) : vec ext :=
  mkVec (f (v0 a) (v0 b)) (f (v1 a) (v1 b)) (f (v2 a) (v2 b)).

(** setMinMax, core/Subdomain.cpp:19-33: (boundsMin, boundsMax). The warnings, and
    the dereference of the first body in the second one (:27), are left out: a
    subdomain whose first body was erased is undefined behaviour there. *)
Definition setMinMax {X Y} (w : bodies ext X Y) (ids : list nat) : vec ext * vec ext :=
  fold_left (fun mm id =>
      match body_at w id with
      | Some b => match bound b with
                  | Some (mn, mx) => (cwise ext_min (fst mm) mn, cwise ext_max (snd mm) mx)
                  | None => mm end
      | None => mm
      end) ids (mkVec PInf PInf PInf, mkVec MInf MInf MInf).
