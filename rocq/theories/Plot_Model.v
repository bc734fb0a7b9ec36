(** Model of the data kept for plots: py/plot.py.

    Simplifications
    - a python dictionary is a list of pairs in the order in which python goes through it; python 2 orders keys by
      hash, so that inserting a key may put any key first: each operation that inserts keys takes as argument the key
      that is first afterwards, any key ([first]); other loops over dictionaries handle each key by itself, so that
      their order does not matter, except in the loop of [expand], which goes through the list;
    - numbers are any type; None is nan in columns of data, and None in columns of images;
    - figures, lines and live updates are left out, apart from the columns createPlots adds. *)
From Coq Require Import String Ascii Arith ZArith Bool List.
From Coq Require Import DecimalString DecimalZ List.
Import ListNotations.
Local Open Scope string_scope.
Local Open Scope nat_scope.
Local Open Scope list_scope.

(** ** dictionaries *)
Definition dict (V : Type) := list (string * V).
Fixpoint lookup {V} (d : dict V) (k : string) : option V :=
  match d with [] => None | (k', v) :: d' => if String.eqb k k' then Some v else lookup d' k end.
Definition has {V} (d : dict V) (k : string) : bool := match lookup d k with Some _ => true | None => false end.
Fixpoint set {V} (d : dict V) (k : string) (v : V) : dict V :=
  match d with [] => [(k, v)] | (k', v') :: d' => if String.eqb k k' then (k, v) :: d' else (k', v') :: set d' k v end.
Fixpoint del {V} (d : dict V) (k : string) : dict V :=
  match d with [] => [] | (k', v') :: d' => if String.eqb k k' then d' else (k', v') :: del d' k end.
Definition keys {V} (d : dict V) : list string := map fst d.
(** the order after insertions: key k first *)
Definition first {V} (k : string) (d : dict V) : dict V :=
  match lookup d k with Some v => (k, v) :: del d k | None => d end.
(** insert keys which are missing *)
Definition add_missing {V} (v : V) (ks : list string) (d : dict V) : dict V :=
  fold_left (fun d k => if has d k then d else set d k v) ks d.
Definition map_values {V W} (f : string -> V -> W) (d : dict V) : dict W := map (fun x => (fst x, f (fst x) (snd x))) d.

Section Plot.
Context {A : Type}.
(** a column; values that can be given *)
Definition column := list (option A).
Inductive value := Scalar (x : option A) | Vector2 (x y : A) | Vector3 (x y z : A) | Matrix3 (xx xy xz yx yy yz zx zy zz : A) | Sequence.
(** plot.py:49-56: the variables of the module; the y axes in plots and the names in labels are left as strings *)
Record plotvars := mkPlot { data : dict column; imgData : dict (list (option string)); plots : dict (list string); labels : dict string }.
Inductive outcome := Ok (s : plotvars) | ValueError (s : plotvars) | AssertionError (s : plotvars) | IndexError (s : plotvars).
Definition state_after (o : outcome) : plotvars := match o with Ok s | ValueError s | AssertionError s | IndexError s => s end.
Definition with_data (s : plotvars) (d : dict column) := mkPlot d (imgData s) (plots s) (labels s).

(** plot.py:85-89: imgData={} assigns a local variable, since imgData is not in the statement global; labels are not
    assigned *)
Definition reset (s : plotvars) : plotvars := mkPlot [] (imgData s) [] (labels s).
(** plot.py:91-94 *)
Definition resetData (s : plotvars) : plotvars := with_data s [].
(** len(data[data.keys()[0]]) if len(data)>0 else 0 *)
Definition num_rows {V} (d : dict (list V)) : nat := match d with [] => 0 | (_, c) :: _ => length c end.
(** plot.py:109-114; the list of names may contain a name twice *)
Definition addDataColumns (k0 : string) (dd : list string) (s : plotvars) : plotvars :=
  with_data s (first k0 (add_missing (repeat None (num_rows (data s))) dd (data s))).
(** plot.py:102-107 *)
Definition reverseData (s : plotvars) : plotvars := with_data s (map_values (fun _ c => rev c) (data s)).

(** plot.py:81-82: componentSeparator, componentSuffixes *)
Definition components (v : value) : list (string * A) :=
  match v with
  | Vector2 x y => [("x", x); ("y", y)]
  | Vector3 x y z => [("x", x); ("y", y); ("z", z)]
  | Matrix3 xx xy xz yx yy yz zx zy zz => [("xx", xx); ("yy", yy); ("zz", zz); ("xy", xy); ("xz", xz); ("yz", yz); ("yx", yx); ("zx", zx); ("zy", zy)]
  | _ => []
  end.
Definition component_name (name suffix : string) : string := (name ++ "_" ++ suffix)%string.
(** plot.py:248-257: the loop over names of the argument; the dictionary afterwards and whether ValueError is raised *)
Fixpoint expand (names : list string) (d : dict value) : dict value * bool :=
  match names with
  | [] => (d, true)
  | n :: names' =>
    match lookup d n with
    | None => (d, true)                         (* never: names are keys of d *)
    | Some (Scalar _) => expand names' d
    | Some Sequence => (d, false)
    | Some v => expand names' (del (fold_left (fun d c => set d (component_name n (fst c)) (Scalar (Some (snd c)))) (components v) d) n)
    end
  end.
(** the value of a name in the argument, nan if it is not there *)
Definition given (d : dict value) (n : string) : option A := match lookup d n with Some (Scalar x) => x | _ => None end.
(** plot.py:246-247: d.update with kw *)
Definition update {V} (d kw : dict V) : dict V := fold_left (fun d x => set d (fst x) (snd x)) kw d.
(** plot.py:205-263: the result, and the dictionary given as argument afterwards ([] if there was none) *)
Definition addData (k0 : string) (arg kw : dict value) (s : plotvars) : outcome * dict value :=
  let n := num_rows (data s) in
  let n := if (negb (length (imgData s) =? 0)) && (n =? 0) then Nat.max n (num_rows (imgData s)) else n in
  let '(d, ok) := expand (keys (update arg kw)) (update arg kw) in
  if ok then
    let cols := first k0 (add_missing [] (keys d) (data s)) in
    (Ok (with_data s (map_values (fun k c => c ++ repeat None (n - length c) ++ [given d k]) cols)), d)
  else (ValueError s, d).
(** plot.py:98-100 *)
Definition splitData (k0 : string) (s : plotvars) : outcome := fst (addData k0 [] [] s).

(** the last element *)
Definition last_or {V} (v : V) (l : list V) : V := match rev l with x :: _ => x | [] => v end.
(** plot.py:267-290 *)
Definition addImgData (k0 : string) (kw : dict string) (s : plotvars) : outcome :=
  let img0 := first k0 (add_missing [] (keys kw) (imgData s)) in
  (* align imgData with data *)
  let '(img1, data1) :=
    if negb (length (data s) =? 0) && negb (length img0 =? 0) then
      let nData := num_rows (data s) in
      let nImgData := num_rows img0 in
      if nImgData <? nData - 1 then (map_values (fun _ c => c ++ repeat (last_or None c) (nData - length c - 1)) img0, data s)
      else if nData <? nImgData then (img0, map_values (fun _ c => c ++ repeat (last_or None c) (nImgData - nData)) (data s))
      else (img0, data s)
    else (img0, data s) in
  let newLen := (if length img1 =? 0 then 0 else num_rows img1) + 1 in
  (* add values from kw *)
  let img2 := map_values (fun k c =>
      match lookup kw k with
      | None => c
      | Some v => if 0 <? length c then c ++ repeat (last_or None c) (newLen - length c - 1) ++ [Some v]
                  else repeat None (newLen - 1) ++ [Some v]
      end) img1 in
  (* align values which were not in kw; the last element of an empty column: IndexError, but columns that are not in
     kw and empty do not occur unless createPlots has made them *)
  if forallb (fun x => (newLen <=? length (snd x)) || (0 <? length (snd x))) img2 then
    let img3 := map_values (fun _ c => if length c <? newLen then c ++ repeat (last_or None c) (newLen - length c) else c) img2 in
    let s' := mkPlot data1 img3 (plots s) (labels s) in
    if forallb (fun x => length (snd x) =? num_rows img3) img3 then Ok s' else AssertionError s'
  else IndexError (mkPlot data1 img2 (plots s) (labels s)).

(** plot.py:384-385, :395-408: the columns createPlots adds; [missing] names needed and missing in data;
    [img] the names of plots of images *)
Definition createPlots (k0 k1 : string) (missing img : list string) (s : plotvars) : plotvars :=
  let d := data s in
  let d' := if (length d =? 0) || (num_rows d =? 0) then first k0 (add_missing [] missing d)
            else first k0 (add_missing (repeat None (num_rows d)) missing d) in
  mkPlot d' (first k1 (add_missing [] img (imgData s))) (plots s) (labels s).

(** calls made by the user's script *)
Inductive call :=
| CReset | CResetData | CColumns (k0 : string) (dd : list string) | CReverse
| CAdd (k0 : string) (arg kw : dict value) | CSplit (k0 : string)
| CImage (k0 : string) (kw : dict string) | CCreate (k0 k1 : string) (missing img : list string).
Definition do_call (c : call) (s : plotvars) : plotvars :=
  match c with
  | CReset => reset s
  | CResetData => resetData s
  | CColumns k0 dd => addDataColumns k0 dd s
  | CReverse => reverseData s
  | CAdd k0 arg kw => state_after (fst (addData k0 arg kw s))
  | CSplit k0 => state_after (splitData k0 s)
  | CImage k0 kw => state_after (addImgData k0 kw s)
  | CCreate k0 k1 m i => createPlots k0 k1 m i s
  end.
Definition run (l : list call) (s : plotvars) : plotvars := fold_left (fun s c => do_call c s) l s.
(** plot.py:49-56: after the module is imported *)
Definition fresh : plotvars := mkPlot [] [] [] [].

(** ** saving as text *)
Definition tab : string := String (ascii_of_nat 9) EmptyString.
Definition newline : string := String (ascii_of_nat 10) EmptyString.
Fixpoint join (sep : string) (l : list string) : string :=
  match l with [] => "" | [x] => x | x :: l' => (x ++ sep ++ join sep l')%string end.
(** plot.py:614-651: saveDataTxt with the given variables; the text written, None: KeyError or IndexError.
    [str] is python's str of numbers, nan included; headers are names with values already converted *)
Definition saveDataTxt (str : option A -> string) (headers : list (string * string)) (vars : list string) (s : plotvars) : option string :=
  match vars with
  | [] => None
  | v0 :: _ =>
    match lookup (data s) v0 with
    | None => None
    | Some c0 =>
      let row i := fold_right (fun v acc => match acc, lookup (data s) v with
                                            | Some l, Some c => match nth_error c i with Some x => Some (str x :: l) | None => None end
                                            | _, _ => None end) (Some []) vars in
      let rows := fold_right (fun i acc => match acc, row i with Some l, Some r => Some (r :: l) | _, _ => None end) (Some []) (seq 0 (length c0)) in
      match rows with
      | None => None
      | Some rs => Some (join "" (map (fun h => "# " ++ fst h ++ "=" ++ tab ++ snd h ++ newline)%string headers) ++
                         "# " ++ join (tab ++ tab) vars ++ newline ++ join "" (map (fun r => join tab r ++ newline)%string rs))%string
      end
    end
  end.
End Plot.
Arguments column : clear implicits.
Arguments value : clear implicits.
Arguments plotvars : clear implicits.
Arguments outcome : clear implicits.
Arguments call : clear implicits.

(** python 2: str of a float has twelve significant digits; here for whole numbers, written without exponent; a tie
    is rounded away from zero *)
Definition round12 (z : Z) : Z :=
  let n := (Z.of_nat (String.length (NilZero.string_of_int (Z.to_int (Z.abs z)))) - 12)%Z in
  if (n <=? 0)%Z then z else let q := (10 ^ n)%Z in (Z.sgn z * (((Z.abs z + q / 2) / q) * q))%Z.
Definition str12 (x : option Z) : string := match x with None => "nan" | Some z => NilZero.string_of_int (Z.to_int (round12 z)) end.
