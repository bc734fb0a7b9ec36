(** Blocked degrees of freedom and tags: C35, C36. *)
From Coq Require Import List NArith Bool Ascii String Lia.
From Verif Require Import Attr_Model Attr_Spec Attr_Proofs.
Import ListNotations.
Local Open Scope N_scope.

(** C35: what is read is the letters that were in the string, in canonical order *)
Theorem C35_get_after_set : forall s, vec_get (vec_set s) = filter (fun a => existsb (Ascii.eqb a) s) canonical.
Proof. exact get_set. Qed.
Print Assumptions C35_get_after_set.
Example C35_get_after_set_ex : vec_get (vec_set (list_ascii_of_string "Zq-xZYx")) = list_ascii_of_string "xYZ".
Proof. reflexivity. Qed.

(** C35: setting what was read changes nothing *)
Theorem C35_set_after_get : forall d, six_bits d -> vec_set (vec_get d) = d.
Proof. exact set_get. Qed.
Print Assumptions C35_set_after_get.
Example C35_set_after_get_ex : six_bits (vec_set (list_ascii_of_string "xXZ")) /\ vec_set (list_ascii_of_string "xXZ") = 41.
Proof. split; [apply vec_set_six|reflexivity]. Qed.

(** C35: each letter blocks its own degree of freedom, other characters none *)
Theorem C35_letter_blocks_its_own : forall s k, N.testbit (vec_set s) k = true <-> exists a, letter k = Some a /\ In a s.
Proof. exact vec_set_bit. Qed.
Print Assumptions C35_letter_blocks_its_own.

(** C35: the bit numbers used by the engines (axisDOF) are those of the letters *)
Theorem C35_axis_letter : forall axis rot, axis < 3 -> exists a, letter (axis + (if rot : bool then 3 else 0)) = Some a /\ vec_get (axisDOF axis rot) = [a].
Proof. exact axis_letter. Qed.
Print Assumptions C35_axis_letter.

(** C35: blocking by two vectors (translations, rotations) blocks the degrees of
    freedom of the components equal to 1 *)
Theorem C35_from_vectors : forall dx dy dz rx ry rz, vec_get (setDOFfromVector3r (dx, dy, dz) (rx, ry, rz)) =
  map snd (filter fst [(dx, "x"%char); (dy, "y"%char); (dz, "z"%char); (rx, "X"%char); (ry, "Y"%char); (rz, "Z"%char)]).
Proof. exact from_vectors_letters. Qed.
Print Assumptions C35_from_vectors.
Example C35_from_vectors_ex : vec_get (setDOFfromVector3r (true, false, true) (false, true, false)) = list_ascii_of_string "xzY".
Proof. reflexivity. Qed.

(** C35: a body is not dynamic exactly if all six letters are blocked *)
Theorem C35_dynamic : forall d, six_bits d -> isDynamic d = false <-> forall a, In a canonical -> In a (vec_get d).
Proof. exact dynamic_iff. Qed.
Print Assumptions C35_dynamic.
Example C35_dynamic_ex : six_bits (vec_set (list_ascii_of_string "zyxZYX")) /\ isDynamic (vec_set (list_ascii_of_string "zyxZYX")) = false /\
  isDynamic (fst (setDynamic false)) = false /\ isDynamic (fst (setDynamic true)) = true.
Proof. split; [apply vec_set_six|]. repeat split. Qed.

(** C36: after any history of assignments to keys without '=', reading a key gives the
    value assigned last, or what was there before *)
Theorem C36_last_assigned_partial : forall h t k, plain k -> (forall k' v, In (k', v) h -> plain k') ->
  getItem (fold_left assign h t) k = last_assigned h k (getItem t k).
Proof. exact history. Qed.
Print Assumptions C36_last_assigned_partial.
Example C36_last_assigned_ex :
  let a := list_ascii_of_string in
  plain (a "id"%string) /\ (forall k' v, In (k', v) [(a "id", a "1=2"); (a "id.d", a "7"); (a "", a "8")]%string -> plain k') /\
  getItem (fold_left assign [(a "id", a "1=2"); (a "id.d", a "7"); (a "", a "8")]%string [a "d.id=x"; a "id=y"]%string) (a "id"%string) = Some (a "1=2"%string).
Proof.
  cbv zeta. split; [unfold plain; cbn; intuition discriminate|]. split; [|reflexivity]. intros k' v H. cbn in H. decompose [or] H; try contradiction; match goal with E : _ = _ |- _ => injection E as <- <- end; unfold plain; cbn; intuition discriminate.
Qed.

(** C36: an assignment to a key with '=' raises and changes nothing *)
Theorem C36_bad_key_raises : forall t k v, ~ plain k -> setItem t k v = None.
Proof. exact setItem_raises. Qed.
Print Assumptions C36_bad_key_raises.
Example C36_bad_key_ex : ~ plain (list_ascii_of_string "a=b").
Proof. intros H. apply H. cbn. tauto. Qed.

(** C36: keys() gives each key once, and exactly those that can be read; an assignment
    adds its key at the end if it is new *)
Theorem C36_keys : forall t l, keys t = Some l -> NoDup l ->
  (forall k, plain k -> In k l <-> getItem t k <> None) /\ (forall k, plain k -> hasKey t k = true <-> In k l) /\
  forall k v, plain k -> exists l', keys (replace t k v) = Some l' /\ NoDup l' /\ setItem t k v = Some (replace t k v) /\
    l' = (if in_dec (list_eq_dec ascii_dec) k l then l else l ++ [k]).
Proof.
  intros t l E Hd. split; [exact (keys_in t l E)|]. split; [intros k Hk; rewrite hasKey_get, (keys_in t l E k Hk); tauto|]. intros k v Hk. destruct (replace_keys t k v Hk l E Hd) as (l' & A & B & C).
  exists l'. split; [exact A|]. split; [exact B|]. split; [apply setItem_plain; exact Hk|exact C].
Qed.
Print Assumptions C36_keys.
Example C36_keys_ex : let a := list_ascii_of_string in keys [a "d.id=x"; a "id=y=z"]%string = Some [a "d.id"; a "id"]%string /\ NoDup [a "d.id"; a "id"]%string.
Proof. cbv zeta. split; [reflexivity|]. repeat constructor; cbn; intuition discriminate. Qed.

(** C36 refuted for keys with '=': a key that is not in keys() can be read and changes
    when another key is assigned *)
Theorem C36_other_keys_unchanged_refuted : exists t k v k' l, setItem t k v = Some (replace t k v) /\ k <> k' /\
  keys (replace t k v) = Some l /\ ~ In k' l /\ getItem t k' = None /\ getItem (replace t k v) k' <> None.
Proof.
  exists [], (list_ascii_of_string "a"), (list_ascii_of_string "b=c"), (list_ascii_of_string "a=b"), [list_ascii_of_string "a"].
  split; [reflexivity|]. split; [discriminate|]. split; [reflexivity|]. split; [cbn; intuition discriminate|]. split; [reflexivity|discriminate].
Qed.
Print Assumptions C36_other_keys_unchanged_refuted.
