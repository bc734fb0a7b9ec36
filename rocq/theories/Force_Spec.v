(** What a user of O.forces expects, stated on the history of calls only. *)
From Coq Require Import List Arith Bool ZArith.
From Verif Require Import Force_Model.
Import ListNotations.

Section Spec.
Context {V : Type} (v0 : V) (vadd : V -> V -> V).

Definition is_reset (o : op V) : bool := match o with OReset _ _ => true | _ => false end.

(** calls made after the last reset, oldest first *)
Definition since_reset (h : list (op V)) : list (op V) :=
  fold_left (fun acc o => if is_reset o then [] else acc ++ [o]) h [].

Definition chan_eqb (a b : chan) : bool :=
  match a, b with ChF, ChF | ChT, ChT | ChM, ChM | ChR, ChR => true | _, _ => false end.

(** the values thread [t] has added to quantity [c] of body [id] since the last reset *)
Definition values (t id : nat) (c : chan) (h : list (op V)) : list V :=
  flat_map (fun o => match o with
                     | OAdd t' id' c' v =>
                         if (t' =? t) && (id' =? id) && chan_eqb c' c then [v] else []
                     | _ => []
                     end) (since_reset h).

(** ... by any thread, in call order *)
Definition all_values (id : nat) (c : chan) (h : list (op V)) : list V :=
  flat_map (fun o => match o with
                     | OAdd _ id' c' v => if (id' =? id) && chan_eqb c' c then [v] else []
                     | _ => []
                     end) (since_reset h).

(** sum in thread order of the per-thread sums in call order *)
Definition thread_sum (t id : nat) (c : chan) (h : list (op V)) : V :=
  fold_left vadd (values t id c h) v0.
Definition grand (n id : nat) (c : chan) (h : list (op V)) : V :=
  fold_left (fun a t => vadd a (thread_sum t id c h)) (seq 0 n) v0.

(** permanent (force, torque) of a body as the user understands it: the last
    value set, until all forces are reset *)
Definition perm_ideal_step (p : nat -> V * V) (o : op V) : nat -> V * V :=
  match o with
  | OSetPerm _ id isF v =>
      fun i => if i =? id then (if isF then (v, snd (p i)) else (fst (p i), v)) else p i
  | OReset _ true => fun _ => (v0, v0)
  | _ => p
  end.
Definition perm_ideal (h : list (op V)) : nat -> V * V :=
  fold_left perm_ideal_step h (fun _ => (v0, v0)).

(** permanent values as the code keeps them: setting one for [id] forgets those
    of all ids >= max(id, garbage) + 100 *)
Definition perm_actual_step (p : nat -> V * V) (o : op V) : nat -> V * V :=
  match o with
  | OSetPerm g id isF v =>
      fun i => if i =? id then (if isF then (v, snd (p i)) else (fst (p i), v))
               else if i <? Nat.max id g + 100 then p i else (v0, v0)
  | OReset _ true => fun _ => (v0, v0)
  | _ => p
  end.
Definition perm_actual (h : list (op V)) : nat -> V * V :=
  fold_left perm_actual_step h (fun _ => (v0, v0)).

(** has a permanent value been set since the last full reset? *)
Definition perm_used (h : list (op V)) : bool :=
  fold_left (fun b o => match o with OSetPerm _ _ _ _ => true | OReset _ true => false | _ => b end) h false.

(** the expected reading of quantity [c] of body [id], given the permanent values *)
Definition reading (p : nat -> V * V) (n id : nat) (c : chan) (h : list (op V)) : V :=
  match c with
  | ChF => if perm_used h then vadd (grand n id c h) (fst (p id)) else grand n id c h
  | ChT => if perm_used h then vadd (grand n id c h) (snd (p id)) else grand n id c h
  | _ => grand n id c h
  end.

(** calls are made by existing threads *)
Definition valid (n : nat) (o : op V) : Prop :=
  match o with OAdd t _ _ _ | OMaxId t _ => t < n | _ => True end.

(** the container has changes that were not summed yet: an addition or a new
    permanent value since the last sync/reset, or a plain reset that kept
    permanent values.  The second component tracks [perm_used]. *)
Definition dirty_step (bu : bool * bool) (o : op V) : bool * bool :=
  match o with
  | OAdd _ _ _ _ => (true, snd bu)
  | OSetPerm _ _ _ _ => (true, true)
  | OSync => (false, snd bu)
  | OReset _ true => (false, false)
  | OReset _ false => (snd bu, snd bu)
  | OMaxId _ _ => bu
  end.
Definition dirty (h : list (op V)) : bool := fst (fold_left dirty_step h (false, false)).

End Spec.

(** Commutative monoids: exact vector addition is one. *)
Record is_cmonoid {V : Type} (v0 : V) (vadd : V -> V -> V) : Prop := {
  cm_assoc : forall a b c, vadd a (vadd b c) = vadd (vadd a b) c;
  cm_comm : forall a b, vadd a b = vadd b a;
  cm_unit : forall a, vadd v0 a = a }.
