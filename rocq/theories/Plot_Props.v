(** Theorems about data kept for plots. *)
From Coq Require Import String Ascii Arith ZArith Bool List Lia.
From Verif Require Import Plot_Model Plot_Spec Plot_Proofs Plot_Proofs2 Plot_Proofs3 Plot_Proofs4 Plot_Example.
Import ListNotations.
Local Open Scope string_scope.
Local Open Scope nat_scope.
Local Open Scope list_scope.

(** C126: after any calls in any order, errors included, all columns have the same length and no name occurs twice *)
Theorem C126_equal_lengths : forall (A : Type) (calls : list (call A)), exists n, table n (data (run calls fresh)).
Proof. intros A calls. exact (run_table calls fresh 0 (table_nil 0)). Qed.
Print Assumptions C126_equal_lengths.
Example C126_ex : data (run [CAdd "a" [("a", Scalar (Some 1%Z))] []; CAdd "b" [] [("b", Scalar (Some 2%Z))]; CSplit "a"; CColumns "c" ["c"; "a"]] fresh) =
  [("c", [None; None; None]); ("a", [Some 1%Z; None; None]); ("b", [None; Some 2%Z; None])].
Proof. reflexivity. Qed.

(** C127: one call adds one row: the values given, components of vectors and matrices in columns of their own, nan in
    all other columns; nothing else changes *)
Theorem C127_row_partial : forall (A : Type) k0 arg kw (s : plotvars A) n, proper (update arg kw) -> table n (data s) -> (imgData s = [] /\ (data s = [] -> n = 0)) \/ (0 < n /\ data s <> []) ->
  exists d' : dict (column A), fst (addData k0 arg kw s) = Ok (mkPlot d' (imgData s) (plots s) (labels s)) /\ table (S n) d' /\ row_added (update arg kw) n (data s) d'.
Proof. exact @add_ok. Qed.
Print Assumptions C127_row_partial.
Example C127_row_ex : proper (update ex_u []) /\ gives (update ex_u []) "p_y" (Some 3%Z) /\ table 2 (data ex_table) /\ imgData ex_table = [] /\ data ex_table <> [].
Proof. split; [exact ex_proper_u|]. split; [exact ex_gives|]. split; [exact ex_is_table|]. split; [reflexivity|discriminate]. Qed.
(** C127: all calls since the data were reset: row i has the values given in call i *)
Theorem C127_history_partial : forall (A : Type) calls (s : plotvars A), data s = [] -> imgData s = [] -> (forall x, In x calls -> proper (argument x)) ->
  (exists x rest k v, calls = x :: rest /\ gives (argument x) k v) ->
  transposed (map argument calls) (data (run (map add_call calls) s)) /\ imgData (run (map add_call calls) s) = [].
Proof. exact @history. Qed.
Print Assumptions C127_history_partial.
Example C127_history_ex : let calls := [(("i", ex_u), []); (("F", []), ex_v)] in
  (forall x, In x calls -> proper (argument x)) /\ (exists x rest k v, calls = x :: rest /\ gives (argument x) k v) /\
  data (run (map add_call calls) fresh) = [("F", [None; Some 5]); ("i", [Some 1; None]); ("p_x", [Some 2; None]); ("p_y", [Some 3; None]); ("p_z", [Some 4; None])]%Z.
Proof. cbv zeta. split; [intros x [<-|[<-|[]]]; [exact ex_proper_u|exact ex_proper_v]|]. split; [exists (("i", ex_u), []), [(("F", []), ex_v)], "p_y", (Some 3%Z); split; [reflexivity|exact ex_gives]|]. reflexivity. Qed.
(** C127: a sequence is refused and nothing is changed *)
Theorem C127_sequence_partial : forall (A : Type) k0 arg kw (s : plotvars A) k, NoDup (keys (update arg kw)) -> In (k, Sequence) (update arg kw) ->
  (forall n v x a, In (n, v) (update arg kw) -> component_of v x a -> (n ++ "_" ++ x)%string <> k) -> fst (addData k0 arg kw s) = ValueError s.
Proof. exact @add_sequence. Qed.
Print Assumptions C127_sequence_partial.
Example C127_sequence_ex : fst (addData "a" [("a", Scalar (Some 1%Z)); ("l", Sequence)] [] ex_table) = ValueError ex_table.
Proof. reflexivity. Qed.
(** C127 refuted: a value given for a name that a component has too is lost *)
Theorem C127_clash_refuted : let u := [("c_x", Scalar (Some 1)); ("c", Vector3 5 6 7)]%Z in
  NoDup (keys u) /\ exists s, fst (addData "c_x" u [] (@fresh Z)) = Ok s /\ forall k c, lookup (data s) k = Some c -> ~ In (Some 1%Z) c.
Proof. exact clash_lost. Qed.
Print Assumptions C127_clash_refuted.
(** C127 refuted: the dictionary given as argument is changed *)
Theorem C127_argument_refuted : let u := [("c", Vector2 5 6)]%Z in snd (addData "c_x" u [] (@fresh Z)) = [("c_x", Scalar (Some 5)); ("c_y", Scalar (Some 6))]%Z.
Proof. exact argument_changed. Qed.
Print Assumptions C127_argument_refuted.

(** C128: data and plots are empty after reset *)
Theorem C128_reset_partial : forall (A : Type) (s : plotvars A), data (reset s) = [] /\ plots (reset s) = [] /\ data (resetData s) = [] /\ plots (resetData s) = plots s /\ labels (resetData s) = labels s.
Proof. intros A s. split; [reflexivity|]. split; [reflexivity|]. split; [reflexivity|]. split; reflexivity. Qed.
Print Assumptions C128_reset_partial.
(** C128 refuted: labels and images are kept, and the first row added afterwards is not the first row *)
Theorem C128_reset_refuted : let s := mkPlot [("a", [Some 1%Z])] [("snap", [Some "f.png"])] [("a", ["b"])] [("a", "length")] in
  labels (reset s) = [("a", "length")] /\ imgData (reset s) = [("snap", [Some "f.png"])] /\
  fst (addData "a" [("a", Scalar (Some 2%Z))] [] (reset s)) = Ok (mkPlot [("a", [None; Some 2%Z])] [("snap", [Some "f.png"])] [] [("a", "length")]).
Proof. exact reset_keeps. Qed.
Print Assumptions C128_reset_refuted.

(** C129: images: the new image is put in the row of the last data (or after the last image), rows in between repeat
    the last image; all columns of images have the same length *)
Theorem C129_image_partial : forall (A : Type) k0 kw (s : plotvars A) n m, table n (data s) -> table m (imgData s) -> (data s = [] -> n = 0) -> (imgData s = [] -> m = 0) ->
  (imgData s = [] \/ In k0 (keys (imgData s))) -> (0 < m \/ forall k, In k (keys (imgData s)) -> In k (keys kw)) ->
  exists img' data', addImgData k0 kw s = Ok (mkPlot data' img' (plots s) (labels s)) /\
    table (S (Nat.max m (n - 1))) img' /\ image_added kw (Nat.max m (n - 1)) (imgData s) img' /\
    data' = map_values (fun _ c => c ++ repeat (last_or None c) (m - n)) (data s).
Proof. exact @image_ok. Qed.
Print Assumptions C129_image_partial.
Example C129_image_ex : table 3 (data ex_images) /\ table 1 (imgData ex_images) /\ In "snap" (keys (imgData ex_images)) /\
  addImgData "snap" [("snap", "f2.png")] ex_images = Ok (mkPlot (data ex_images) [("snap", [Some "f0.png"; Some "f0.png"; Some "f2.png"])] [] []).
Proof. split; [exact (proj1 ex_images_table)|]. split; [exact (proj2 ex_images_table)|]. split; [now left|]. reflexivity. Qed.
(** C129 refuted: a new name that python puts first in the dictionary *)
Theorem C129_order_refuted : let s := mkPlot (@nil (string * column Z)) [("a", [Some "a0"; Some "a1"])] [] [] in
  exists s', addImgData "b" [("b", "b0")] s = AssertionError s' /\ imgData s' = [("b", [Some "b0"]); ("a", [Some "a0"; Some "a1"])].
Proof. exact image_assert. Qed.
Print Assumptions C129_order_refuted.
(** C129 refuted: a plot of images that has none yet *)
Theorem C129_empty_refuted : exists s', addImgData "snap" [("b", "b0")] (createPlots "" "snap" [] ["snap"] (@fresh Z)) = IndexError s'.
Proof. exact image_index. Qed.
Print Assumptions C129_empty_refuted.
(** C129 refuted: data that nobody gave are not nan *)
Theorem C129_data_refuted : let one k f := CImage k [(k, f)] in
  data (run [CAdd "a" [] [("a", Scalar (Some 1%Z))]; one "x" "f0"; one "x" "f1"; one "x" "f2"] fresh) = [("a", [Some 1; Some 1]%Z)].
Proof. exact data_repeated. Qed.
Print Assumptions C129_data_refuted.
(** C129 refuted: reverseData reverses data but not images *)
Theorem C129_reverse_refuted : let s := mkPlot [("a", [Some 1; Some 2]%Z)] [("x", [Some "image of 1"; Some "image of 2"])] [] [] in
  data (reverseData s) = [("a", [Some 2; Some 1]%Z)] /\ imgData (reverseData s) = imgData s.
Proof. exact reverse_images. Qed.
Print Assumptions C129_reverse_refuted.

(** C130: reading the text gives the names and, row by row, the printed values *)
Theorem C130_text_partial : forall (A : Type) (str : option A -> string), (forall x, word (str x)) -> forall (s : plotvars A) n vars,
  table n (data s) -> vars <> [] -> (forall v, In v vars -> In v (keys (data s))) -> Forall word vars ->
  exists text, saveDataTxt str [] vars s = Some text /\ read_table text = Some (vars, map (fun i => map str (cells (data s) vars i)) (seq 0 n)).
Proof. exact @save_text. Qed.
Print Assumptions C130_text_partial.
Example C130_ex : table 2 (data ex_table) /\ Forall word (keys (data ex_table)) /\ (forall x, word (str12 x)) /\
  exists text, saveDataTxt str12 [] ["a"; "b"] ex_table = Some text /\ read_table text = Some (["a"; "b"], [["1"; "3"]; ["nan"; "4"]]).
Proof. split; [exact ex_is_table|]. split; [exact ex_words|]. split; [exact str12_word|]. eexists. split; reflexivity. Qed.
(** C130 refuted: a name with a space, as in the example of addAutoData *)
Theorem C130_space_refuted : exists text, saveDataTxt str12 [] ["total energy"] (mkPlot [("total energy", [Some 1%Z])] [] [] []) = Some text /\ read_table text = Some (["total"; "energy"], [["1"]]).
Proof. exact name_with_space. Qed.
Print Assumptions C130_space_refuted.
(** C130 refuted: two different numbers become the same text *)
Theorem C130_digits_refuted : exists text, saveDataTxt str12 [] ["t"] (mkPlot [("t", [Some 1000000000001; Some 1000000000000]%Z)] [] [] []) = Some text /\ read_table text = Some (["t"], [["1000000000000"]; ["1000000000000"]]).
Proof. exact digits_lost. Qed.
Print Assumptions C130_digits_refuted.
(** C130 refuted: with headers the names are not in the first line *)
Theorem C130_headers_refuted : exists text, saveDataTxt str12 [("run", "7")] ["t"] (mkPlot [("t", [Some 1%Z])] [] [] []) = Some text /\ read_table text = Some (["run="; "7"], [["#"; "t"]; ["1"]]).
Proof. exact headers_first. Qed.
Print Assumptions C130_headers_refuted.
(** C130 refuted: no data *)
Theorem C130_no_data_refuted : saveDataTxt str12 [] (keys (data (@fresh Z))) fresh = None.
Proof. exact no_data. Qed.
Print Assumptions C130_no_data_refuted.
