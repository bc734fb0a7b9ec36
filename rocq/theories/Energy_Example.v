(** Concrete runs of the energy tracker. *)
From Coq Require Import List Arith ZArith Bool Lia.
From Verif Require Import Energy_Model Energy_Spec.
Import ListNotations.

(** two threads, 8 numbers in a line of the cache; attribute o stands for name o *)
Definition P2 : params := mkP 2 8 (fun o => o) (fun n => n =? 1) (fun _ _ => 77%Z).
(** the same, all attributes standing for name 0 *)
Definition P0 : params := mkP 2 8 (fun _ => 0) (fun _ => false) (fun _ _ => 77%Z).

(** thread t adds v to the name of attribute o, alone; the first time *)
Definition first_add (t o : nat) (v : Z) : list op := [Begin t o v; Go t; Go t; Go t].
Definition next_add (t o : nat) (v : Z) : list op := [Begin t o v; Go t].
Definition plain_run : list op :=
  [Begin 0 0 5; Begin 1 1 7; Go 0; Go 1; Go 1; Go 0; Go 0; Go 1; Begin 1 0 2; Begin 0 1 3; Go 0; Go 1; SetItem 2 9%Z; Reset; Begin 0 1 4; Go 0].
Definition cleared_run : list op := first_add 0 0 5 ++ [Clear] ++ first_add 0 1 3 ++ next_add 0 0 5.
Definition race_run : list op := [Begin 0 0 5; Begin 1 1 3; Go 0; Go 1; Go 0; Go 1; Go 0; Go 1].
Definition replaced_run : list op := first_add 0 0 5 ++ [NewTracker; Begin 0 0 1; Go 0].
Definition nine_names : list op := [SetItem 0 1%Z; SetItem 1 1%Z; SetItem 2 1%Z; SetItem 3 1%Z; SetItem 4 1%Z; SetItem 5 1%Z; SetItem 6 1%Z; SetItem 7 1%Z; SetItem 8 1%Z].

(** deciding the conditions *)
Definition idle (x : stage) : bool := match x with Idle => true | _ => false end.
Definition quietb (P : params) (s : est) : bool := forallb (fun t => idle (pc s t)) (seq 0 (nThreads P)).
Definition properb (P : params) (s : est) (a : op) : bool :=
  match a with
  | Begin t _ _ => (t <? nThreads P) && idle (pc s t)
  | Go t => t <? nThreads P
  | _ => quietb P s
  end.
Definition calmb (P : params) (s : est) (a : op) : bool :=
  match a with
  | Go t => match pc s t with Create o _ => match lookup (names s) (nm P o) with None => true | Some _ => false end | _ => true end
  | Clear | NewTracker => false
  | _ => true
  end.
Fixpoint alongb (P : params) (q : est -> op -> bool) (s : est) (l : list op) : bool :=
  match l with [] => true | a :: l' => q s a && match step P s a with Some s1 => alongb P q s1 l' | None => true end end.
Lemma idle_true x : idle x = true -> x = Idle.
Proof. destruct x; [reflexivity|discriminate..]. Qed.
Lemma quietb_true P s : quietb P s = true -> quiet P s.
Proof. intros H t Ht. apply idle_true. unfold quietb in H. rewrite forallb_forall in H. apply H. apply in_seq. lia. Qed.
Lemma along_true P q (Q : est -> op -> Prop) : (forall s a, q s a = true -> Q s a) -> forall l s, alongb P q s l = true -> along P Q s l.
Proof. intros H. induction l as [|a l IH]; intros s E; [exact I|]. cbn [alongb along] in *. apply andb_prop in E. destruct E as [E1 E2]. split; [apply H; exact E1|]. destruct (step P s a); [apply IH; exact E2|exact I]. Qed.
Lemma properb_true P s a : properb P s a = true -> proper P s a.
Proof.
  destruct a as [t o v|t|n v| | | |]; cbn [properb proper]; intros H; try (apply quietb_true; exact H).
  - apply andb_prop in H. destruct H as [A B]. split; [apply Nat.ltb_lt; exact A|apply idle_true; exact B].
  - apply Nat.ltb_lt. exact H.
Qed.
Lemma calmb_true P s a : calmb P s a = true -> calm P s a.
Proof. destruct a as [t o v|t|n v| | | |]; cbn [calmb calm]; intros H; try exact I; try discriminate. destruct (pc s t) as [| |o v|]; try exact I. destruct (lookup (names s) (nm P o)); [discriminate|reflexivity]. Qed.
Definition proper_run P l (E : alongb P (properb P) (init P) l = true) : along P (proper P) (init P) l := along_true P _ _ (properb_true P) l _ E.
Definition calm_run P l (E : alongb P (calmb P) (init P) l = true) : along P (calm P) (init P) l := along_true P _ _ (calmb_true P) l _ E.

(** what is seen after a run: is everything quiet, values of names 0-2, total, number of names, reading behind the end *)
Definition probe (P : params) (l : list op) : option (bool * (option Z * option Z * option Z) * Z * nat * bool) :=
  option_map (fun s => (quietb P s, (getItem_py P s 0, getItem_py P s 1, getItem_py P s 2), total P s, length (keys s), overread s)) (run P (init P) l).
Lemma probe_inv P l q a b c t k o : probe P l = Some (q, (a, b, c), t, k, o) ->
  exists s, run P (init P) l = Some s /\ quietb P s = q /\ getItem_py P s 0 = a /\ getItem_py P s 1 = b /\ getItem_py P s 2 = c /\ total P s = t /\ length (keys s) = k /\ overread s = o.
Proof. unfold probe. destruct (run P (init P) l) as [s|]; [|discriminate]. intros H. cbn [option_map] in H. exists s. split; [reflexivity|]. inversion H. repeat split. Qed.
