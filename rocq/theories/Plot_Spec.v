(** Specification for data kept for plots. *)
From Coq Require Import String Ascii Arith Bool List.
From Verif Require Import Plot_Model.
Import ListNotations.
Local Open Scope string_scope.
Local Open Scope nat_scope.
Local Open Scope list_scope.

(** a table: every name once, all columns of length n *)
Definition table {V} (n : nat) (d : dict (list V)) : Prop := NoDup (keys d) /\ forall k c, In (k, c) d -> length c = n.

Section S.
Context {A : Type}.
(** the suffixes of components: (suffix, value) *)
Inductive component_of : value A -> string -> A -> Prop :=
| V2x x y : component_of (Vector2 x y) "x" x
| V2y x y : component_of (Vector2 x y) "y" y
| V3x x y z : component_of (Vector3 x y z) "x" x
| V3y x y z : component_of (Vector3 x y z) "y" y
| V3z x y z : component_of (Vector3 x y z) "z" z
| Mxx a b c d e f g h i : component_of (Matrix3 a b c d e f g h i) "xx" a
| Mxy a b c d e f g h i : component_of (Matrix3 a b c d e f g h i) "xy" b
| Mxz a b c d e f g h i : component_of (Matrix3 a b c d e f g h i) "xz" c
| Myx a b c d e f g h i : component_of (Matrix3 a b c d e f g h i) "yx" d
| Myy a b c d e f g h i : component_of (Matrix3 a b c d e f g h i) "yy" e
| Myz a b c d e f g h i : component_of (Matrix3 a b c d e f g h i) "yz" f
| Mzx a b c d e f g h i : component_of (Matrix3 a b c d e f g h i) "zx" g
| Mzy a b c d e f g h i : component_of (Matrix3 a b c d e f g h i) "zy" h
| Mzz a b c d e f g h i : component_of (Matrix3 a b c d e f g h i) "zz" i.
(** a call with these arguments gives the value x for the column k *)
Inductive gives (u : dict (value A)) (k : string) : option A -> Prop :=
| GScalar x : In (k, Scalar x) u -> gives u k x
| GComponent n v suffix a : In (n, v) u -> component_of v suffix a -> k = (n ++ "_" ++ suffix)%string -> gives u k (Some a).
(** arguments as python makes them: each name once; no two arguments for the same column, no component named like
    another argument; no sequences *)
Definition proper (u : dict (value A)) : Prop :=
  NoDup (keys u) /\ (forall k x y, gives u k x -> gives u k y -> x = y) /\
  (forall k x v, gives u k x -> In (k, v) u -> v = Scalar x) /\ (forall k, ~ In (k, Sequence) u).
(** the column of a name before a call: nan in every row if it is new *)
Definition before (n : nat) (d : dict (column A)) (k : string) : column A := match lookup d k with Some c => c | None => repeat None n end.
(** one row is added to the table *)
Definition row_added (u : dict (value A)) (n : nat) (d d' : dict (column A)) : Prop :=
  forall k, (forall x, gives u k x -> lookup d' k = Some (before n d k ++ [x])) /\
            ((forall x, ~ gives u k x) -> lookup d' k = option_map (fun c => c ++ [None]) (lookup d k)).
(** the table of a list of rows *)
Definition transposed (rows : list (dict (value A))) (d : dict (column A)) : Prop :=
  table (length rows) d /\
  forall k, ((exists u x, In u rows /\ gives u k x) <-> In k (keys d)) /\
    forall c, lookup d k = Some c -> forall i u, nth_error rows i = Some u ->
      (forall x, gives u k x -> nth_error c i = Some x) /\ ((forall x, ~ gives u k x) -> nth_error c i = Some None).
(** one call of addData: keys first afterwards, dictionary, keywords *)
Definition add_call (x : string * dict (value A) * dict (value A)) : call A := CAdd (fst (fst x)) (snd (fst x)) (snd x).
Definition argument (x : string * dict (value A) * dict (value A)) : dict (value A) := update (snd (fst x)) (snd x).
End S.

(** one row of a table *)
Definition cells {A} (d : dict (column A)) (vars : list string) (i : nat) : list (option A) :=
  map (fun v => match lookup d v with Some c => nth i c None | None => None end) vars.
(** the columns of images after a call: the image is in row r; rows without image repeat the last one *)
Definition image_added (kw : dict string) (r : nat) (img img' : dict (list (option string))) : Prop :=
  forall k, let c := match lookup img k with Some c => c | None => [] end in
    lookup img' k = match lookup kw k with
                    | Some f => Some (c ++ repeat (last_or None c) (r - length c) ++ [Some f])
                    | None => option_map (fun c => c ++ repeat (last_or None c) (S r - length c)) (lookup img k)
                    end.

(** ** reading text: lines, words *)
Definition is_space (c : ascii) : bool := (Ascii.eqb c " ") || (Ascii.eqb c (ascii_of_nat 9)).
Definition is_newline (c : ascii) : bool := Ascii.eqb c (ascii_of_nat 10).
(** pieces between characters for which p holds *)
Fixpoint split (p : ascii -> bool) (s : string) : list string :=
  match s with
  | EmptyString => [""]
  | String c s' => match split p s' with
                   | [] => [""]
                   | w :: ws => if p c then "" :: w :: ws else String c w :: ws end
  end.
Definition words (s : string) : list string := filter (fun w => negb (String.eqb w "")) (split is_space s).
Definition lines (s : string) : list string := filter (fun w => negb (String.eqb w "")) (split is_newline s).
(** names in the first line after the character #, then rows of words *)
Definition read_table (text : string) : option (list string * list (list string)) :=
  match lines text with
  | String "#" l :: rest => Some (words l, map words rest)
  | _ => None
  end.
Fixpoint all_chars (p : ascii -> bool) (s : string) : bool := match s with EmptyString => true | String c s' => p c && all_chars p s' end.
(** a word: not empty, no white space *)
Definition word (s : string) : Prop := s <> "" /\ all_chars (fun c => negb (is_space c) && negb (is_newline c)) s = true.
