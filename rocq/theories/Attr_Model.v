(** Model of small attribute accessors: blocked degrees of freedom (core/State.cpp,
    core/State.hpp, core/Body.hpp) and tags of a simulation (py/wrapper/yadeWrapper.cpp,
    pyTags).  Strings are lists of bytes. *)
From Coq Require Import List NArith Bool Ascii String.
Import ListNotations.
Local Open Scope N_scope.

(** ** State.hpp:18-24 *)
Definition DOF_NONE := 0. Definition DOF_X := 1. Definition DOF_Y := 2. Definition DOF_Z := 4.
Definition DOF_RX := 8. Definition DOF_RY := 16. Definition DOF_RZ := 32.
Definition DOF_ALL := N.lor DOF_X (N.lor DOF_Y (N.lor DOF_Z (N.lor DOF_RX (N.lor DOF_RY DOF_RZ)))).
Definition DOF_XYZ := N.lor DOF_X (N.lor DOF_Y DOF_Z).
Definition DOF_RXRYRZ := N.lor DOF_RX (N.lor DOF_RY DOF_RZ).
(** State.hpp:27 *)
Definition axisDOF (axis : N) (rotationalDOF : bool) : N := N.shiftl 1 (axis + (if rotationalDOF then 3 else 0)).

Definition letters : list (N * ascii) :=
  [(DOF_X, "x"%char); (DOF_Y, "y"%char); (DOF_Z, "z"%char); (DOF_RX, "X"%char); (DOF_RY, "Y"%char); (DOF_RZ, "Z"%char)].
(** State.cpp:15-27: the six _SET_DOF lines in order *)
Definition vec_get (d : N) : list ascii :=
  flat_map (fun p => if N.land d (fst p) =? 0 then [] else [snd p]) letters.
(** State.cpp:31-40: one turn of the loop, the six _GET_DOF lines in order *)
Definition get_dof (d : N) (c : ascii) : N :=
  match find (fun p => Ascii.eqb c (snd p)) letters with
  | Some p => N.lor d (fst p)
  | None => d
  end.
(** State.cpp:29-41 *)
Definition vec_set (dofs : list ascii) : N := fold_left get_dof dofs 0.
(** State.cpp:6-13; the argument tells which components are equal to 1.0 *)
Definition setDOFfromVector3r (disp rot : bool * bool * bool) : N :=
  let '(d0, d1, d2) := disp in let '(r0, r1, r2) := rot in
  N.lor (if d0 then DOF_X else 0) (N.lor (if d1 then DOF_Y else 0) (N.lor (if d2 then DOF_Z else 0)
  (N.lor (if r0 then DOF_RX else 0) (N.lor (if r1 then DOF_RY else 0) (if r2 then DOF_RZ else 0))))).
(** Body.hpp:51-52; the second component: the velocities become zero *)
Definition isDynamic (d : N) : bool := negb (d =? DOF_ALL).
Definition setDynamic (b : bool) : N * bool := if b then (DOF_NONE, false) else (DOF_ALL, true).

(** ** tags: the list of strings key=value *)
Definition tags := list (list ascii).
Definition eq_sign : ascii := "="%char.
(** boost::algorithm::starts_with *)
Fixpoint starts_with (s p : list ascii) {struct p} : bool :=
  match p, s with
  | [], _ => true
  | c :: p', d :: s' => Ascii.eqb c d && starts_with s' p'
  | _ :: _, [] => false
  end.
(** :413 *)
Definition hasKey (t : tags) (key : list ascii) : bool := existsb (fun val => starts_with val (key ++ [eq_sign])) t.
(** :414-420; None: KeyError *)
Fixpoint getItem (t : tags) (key : list ascii) : option (list ascii) :=
  match t with
  | [] => None
  | val :: t' => if starts_with val (key ++ [eq_sign]) then Some (skipn (List.length key + 1) val) else getItem t' key
  end.
(** :426-427 *)
Fixpoint replace (t : tags) (key item : list ascii) : tags :=
  match t with
  | [] => [key ++ [eq_sign] ++ item]
  | val :: t' => if starts_with val (key ++ [eq_sign]) then (key ++ [eq_sign] ++ item) :: t' else val :: replace t' key item
  end.
(** :421-428; None: KeyError *)
Definition setItem (t : tags) (key item : list ascii) : option tags :=
  if existsb (Ascii.eqb eq_sign) key then None else Some (replace t key item).
(** :431-435, the part of a tag before the first '='; None: runtime_error *)
Fixpoint key_of (val : list ascii) : option (list ascii) :=
  match val with
  | [] => None
  | c :: val' => if Ascii.eqb eq_sign c then Some [] else match key_of val' with Some k => Some (c :: k) | None => None end
  end.
(** :429-437 *)
Fixpoint keys (t : tags) : option (list (list ascii)) :=
  match t with
  | [] => Some []
  | val :: t' => match key_of val, keys t' with Some k, Some l => Some (k :: l) | _, _ => None end
  end.

(** a history of assignments; one that raises changes nothing *)
Definition assign (t : tags) (kv : list ascii * list ascii) : tags :=
  match setItem t (fst kv) (snd kv) with Some t' => t' | None => t end.
