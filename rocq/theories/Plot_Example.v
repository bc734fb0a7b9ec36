(** Examples about data kept for plots. *)
From Coq Require Import String Ascii Arith ZArith Bool List Lia.
From Coq Require Import DecimalString.
From Verif Require Import Plot_Model Plot_Spec Plot_Proofs.
Import ListNotations.
Local Open Scope string_scope.
Local Open Scope nat_scope.
Local Open Scope list_scope.

Definition ex_u : dict (value Z) := [("i", Scalar (Some 1%Z)); ("p", Vector3 2 3 4)]%Z.
Definition ex_v : dict (value Z) := [("F", Scalar (Some 5%Z))].
Definition ex_table : plotvars Z := mkPlot [("a", [Some 1; None]%Z); ("b", [Some 3; Some 4]%Z)] [] [] [].
Definition ex_images : plotvars Z := mkPlot [("a", [Some 1; None; Some 7]%Z)] [("snap", [Some "f0.png"])] [] [].
Lemma ex_proper_v : proper ex_v.
Proof.
  assert (G : forall k x, gives ex_v k x -> k = "F" /\ x = Some 5%Z).
  { intros k x [y [I|[]]|n v s a [I|[]] C E]; [injection I as <- <-; auto|]. injection I as <- <-. inversion C. }
  split; [constructor; [intros []|constructor]|]. split; [|split].
  - intros k x y Gx Gy. destruct (G k x Gx) as [_ ->], (G k y Gy) as [_ ->]. reflexivity.
  - intros k x v Gx [I|[]]. destruct (G k x Gx) as [_ ->]. injection I as <- <-. reflexivity.
  - intros k [I|[]]. discriminate.
Qed.
Lemma ex_proper_u : proper ex_u.
Proof.
  assert (G : forall k x, gives ex_u k x -> (k = "i" /\ x = Some 1%Z) \/ (k = "p_x" /\ x = Some 2%Z) \/ (k = "p_y" /\ x = Some 3%Z) \/ (k = "p_z" /\ x = Some 4%Z)).
  { intros k x [y [I|[I|[]]]|n v s a [I|[I|[]]] C E]; [injection I as <- <-; auto|discriminate| |]; injection I as <- <-; inversion C; subst; cbn [append]; auto. }
  split; [constructor; [intros [E|[]]; discriminate|constructor; [intros []|constructor]]|]. split; [|split].
  - intros k x y Gx Gy. destruct (G k x Gx) as [[E ->]|[[E ->]|[[E ->]|[E ->]]]], (G k y Gy) as [[F ->]|[[F ->]|[[F ->]|[F ->]]]]; congruence.
  - intros k x v Gx [I|[I|[]]]; injection I as <- <-; destruct (G _ x Gx) as [[E ->]|[[E ->]|[[E ->]|[E ->]]]]; try discriminate; reflexivity.
  - intros k [I|[I|[]]]; discriminate.
Qed.
Lemma ex_gives : gives ex_u "p_y" (Some 3%Z).
Proof. apply (GComponent ex_u "p_y" "p" (Vector3 2 3 4)%Z "y" 3%Z); [right; now left|constructor|reflexivity]. Qed.
Lemma ex_is_table : table 2 (data ex_table).
Proof. split; [constructor; [intros [E|[]]; discriminate|constructor; [intros []|constructor]]|]. intros k c [E|[E|[]]]; injection E as <- <-; reflexivity. Qed.
Lemma ex_images_table : table 3 (data ex_images) /\ table 1 (imgData ex_images).
Proof. split; (split; [constructor; [intros []|constructor]|]; intros k c [E|[]]; injection E as <- <-; reflexivity). Qed.

(** a name that a component has too: the value given for it is lost *)
Lemma clash_lost : let u := [("c_x", Scalar (Some 1)); ("c", Vector3 5 6 7)]%Z in
  NoDup (keys u) /\ exists s, fst (addData "c_x" u [] (@fresh Z)) = Ok s /\ forall k c, lookup (data s) k = Some c -> ~ In (Some 1%Z) c.
Proof.
  cbv zeta. split; [constructor; [intros [E|[]]; discriminate|constructor; [intros []|constructor]]|]. eexists. split; [reflexivity|]. intros k c L. apply lookup_in in L. vm_compute in L.
  destruct L as [L|[L|[L|[]]]]; injection L as _ <-; intros [F|[]]; discriminate.
Qed.
(** the dictionary given as argument is changed *)
Lemma argument_changed : let u := [("c", Vector2 5 6)]%Z in snd (addData "c_x" u [] (@fresh Z)) = [("c_x", Scalar (Some 5)); ("c_y", Scalar (Some 6))]%Z.
Proof. reflexivity. Qed.
(** reset: labels and images are kept; the next row of data is not the first *)
Lemma reset_keeps : let s := mkPlot [("a", [Some 1%Z])] [("snap", [Some "f.png"])] [("a", ["b"])] [("a", "length")] in
  labels (reset s) = [("a", "length")] /\ imgData (reset s) = [("snap", [Some "f.png"])] /\
  fst (addData "a" [("a", Scalar (Some 2%Z))] [] (reset s)) = Ok (mkPlot [("a", [None; Some 2%Z])] [("snap", [Some "f.png"])] [] [("a", "length")]).
Proof. cbv zeta. split; [reflexivity|]. split; [reflexivity|]. reflexivity. Qed.
(** a new name of images that comes first in the dictionary: AssertionError *)
Lemma image_assert : let s := mkPlot (@nil (string * column Z)) [("a", [Some "a0"; Some "a1"])] [] [] in
  exists s', addImgData "b" [("b", "b0")] s = AssertionError s' /\ imgData s' = [("b", [Some "b0"]); ("a", [Some "a0"; Some "a1"])].
Proof. cbv zeta. eexists. split; reflexivity. Qed.
(** a plot of images that has none yet: IndexError *)
Lemma image_index : exists s', addImgData "snap" [("b", "b0")] (createPlots "" "snap" [] ["snap"] (@fresh Z)) = IndexError s'.
Proof. eexists. reflexivity. Qed.
(** images without data between them: data that nobody has given *)
Lemma data_repeated : let one k f := CImage k [(k, f)] in
  data (run [CAdd "a" [] [("a", Scalar (Some 1%Z))]; one "x" "f0"; one "x" "f1"; one "x" "f2"] fresh) = [("a", [Some 1; Some 1]%Z)].
Proof. reflexivity. Qed.
(** reverseData leaves images in their order *)
Lemma reverse_images : let s := mkPlot [("a", [Some 1; Some 2]%Z)] [("x", [Some "image of 1"; Some "image of 2"])] [] [] in
  data (reverseData s) = [("a", [Some 2; Some 1]%Z)] /\ imgData (reverseData s) = imgData s.
Proof. split; reflexivity. Qed.
(** text *)
Lemma name_with_space : exists text, saveDataTxt str12 [] ["total energy"] (mkPlot [("total energy", [Some 1%Z])] [] [] []) = Some text /\ read_table text = Some (["total"; "energy"], [["1"]]).
Proof. eexists. split; reflexivity. Qed.
Lemma digits_lost : exists text, saveDataTxt str12 [] ["t"] (mkPlot [("t", [Some 1000000000001; Some 1000000000000]%Z)] [] [] []) = Some text /\ read_table text = Some (["t"], [["1000000000000"]; ["1000000000000"]]).
Proof. eexists. split; vm_compute; reflexivity. Qed.
Lemma headers_first : exists text, saveDataTxt str12 [("run", "7")] ["t"] (mkPlot [("t", [Some 1%Z])] [] [] []) = Some text /\ read_table text = Some (["run="; "7"], [["#"; "t"]; ["1"]]).
Proof. eexists. split; reflexivity. Qed.
Lemma no_data : saveDataTxt str12 [] (keys (data (@fresh Z))) fresh = None.
Proof. reflexivity. Qed.
(** names of columns and printed numbers *)
Lemma uint_chars d : all_chars (fun c => negb (is_space c) && negb (is_newline c)) (NilEmpty.string_of_uint d) = true.
Proof. induction d as [|d IH|d IH|d IH|d IH|d IH|d IH|d IH|d IH|d IH|d IH]; cbn [NilEmpty.string_of_uint all_chars]; [reflexivity|..]; rewrite IH; reflexivity. Qed.
Lemma uint_word d : word (NilZero.string_of_uint d).
Proof. destruct d as [|d|d|d|d|d|d|d|d|d|d]; [split; [discriminate|reflexivity]|..]; (split; [discriminate|]); cbn [NilZero.string_of_uint NilEmpty.string_of_uint all_chars]; rewrite uint_chars; reflexivity. Qed.
Lemma str12_word x : word (str12 x).
Proof.
  destruct x as [z|]; [|split; [discriminate|reflexivity]]. unfold str12. destruct (Z.to_int (round12 z)) as [d|d]; cbn [NilZero.string_of_int]; [apply uint_word|].
  destruct (uint_word d) as [_ H]. split; [discriminate|]. cbn [all_chars]. rewrite H. reflexivity.
Qed.
Lemma ex_words : Forall word ["a"; "b"].
Proof. constructor; [split; [discriminate|reflexivity]|constructor; [split; [discriminate|reflexivity]|constructor]]. Qed.
