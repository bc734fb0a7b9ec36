(** Properties C275-C279: registered classes *)
From Coq Require Import List Bool Arith Permutation Lia.
From Verif Require Import Regi_Model Regi_Spec Regi_Proofs.
Import ListNotations.

(** C275. If each class reaches a class with a python class within a hundred bases, all are registered, each once, after their bases; *)
Theorem C275_registered_partial base known l : (forall c, In c l -> within base known l hundred c) ->
  exists d, rounds hundred base known l = (known ++ d, []) /\ Permutation l d /\ after_bases base known d.
Proof. exact (registered_in_order base known l). Qed.
Print Assumptions C275_registered_partial.
Example C275_registered_case : forall c, In c [3; 2; 1] -> within (chain 0) [0] [3; 2; 1] hundred c.
Proof. intros c [<- | [<- | [<- | []]]]; cbn [within hundred Nat.mul Nat.add chain In]; intuition. Qed.
(** after any number of rounds those registered came after their bases, and each class is either registered once or left; *)
Theorem C275_order_partial n base : forall known l k p, rounds n base known l = (k, p) -> exists d, k = known ++ d /\ Permutation l (d ++ p) /\ after_bases base known d.
Proof. exact (rounds_order n base). Qed.
Print Assumptions C275_order_partial.
Example C275_order_case : rounds 1 (chain 0) [0] [3; 2; 1] = ([0; 1], [3; 2]).
Proof. reflexivity. Qed.
(** and no more rounds are needed than there are bases up to a registered one. *)
Theorem C275_complete_partial n base : forall known l k p, rounds n base known l = (k, p) -> (forall c, In c l -> within base known l n c) -> p = [] /\ (forall c, In c l -> In c k).
Proof. exact (rounds_complete n base). Qed.
Print Assumptions C275_complete_partial.
Example C275_complete_case : forall c, In c [3; 2; 1] -> within (chain 0) [0] [3; 2; 1] 3 c.
Proof. intros c [<- | [<- | [<- | []]]]; cbn [within chain In]; intuition. Qed.
(** C275. But if classes are listed before their bases, each round registers one, and a chain of one class more than there are rounds is left incomplete, without an error. *)
Theorem C275_left_refuted k : snd (rounds k (chain 0) [0] (rev (seq 1 (S k)))) = [S k].
Proof. exact (left_refuted k). Qed.
Print Assumptions C275_left_refuted.

(** C276. isChildClassOf answers whether a class derives from another through any number of bases, in a hierarchy without cycles. *)
Theorem C276_child rk f r c b : ranked rk (bases r) -> rk c < f -> exists a, fst (recursive f r c b) = Some a /\ (a = true <-> derives (bases r) c b).
Proof. exact (child_class rk f r c b). Qed.
Print Assumptions C276_child.
Example C276_child_case : ranked (fun n => n) (bases small) /\ derives (bases small) 3 1.
Proof. split; [|apply (derives_step _ 3 2 1); [left; reflexivity|]; apply derives_base; left; reflexivity]. unfold ranked, bases, small. intros c b I. cbn [find] in I. destruct (3 =? c) eqn:E3; [apply Nat.eqb_eq in E3; subst c; destruct I as [<- | []]; cbv beta; lia|]. destruct (2 =? c) eqn:E2; [apply Nat.eqb_eq in E2; subst c; destruct I as [<- | []]; cbv beta; lia|]. destruct (5 =? c); destruct I. Qed.
(** C277. After any questions the bases of all classes are what they were, and no class is forgotten. *)
Theorem C277_questions_partial r qs : (forall n, bases (fold_left ask qs r) n = bases r n) /\ exists d, plugins (fold_left ask qs r) = plugins r ++ d.
Proof. exact (questions r qs). Qed.
Print Assumptions C277_questions_partial.
Example C277_questions_case : plugins (fold_left ask [QBase 3 2; QChild 9 2 5] small) = [3; 2; 5; 1].
Proof. reflexivity. Qed.
(** C277. But asking about a name that is no class adds it to the classes that are listed. *)
Theorem C277_plugins_refuted : plugins small = [3; 2; 5] /\ fst (recursive 9 small 7 1) = Some false /\ plugins (ask small (QChild 9 7 1)) = [3; 2; 5; 7].
Proof. exact (plugins_refuted). Qed.
Print Assumptions C277_plugins_refuted.

(** C278. childClasses lists the classes that derive from the one given, and no others. *)
Theorem C278_child_classes rk top : forall f r b, ranked rk (bases r) -> (forall c, In c (keys r) -> rk c <= top) -> top < f + rk b -> exists l, childClasses (S f) r b = Some l /\ forall c, In c l <-> derives (bases r) c b.
Proof. exact (child_classes rk top). Qed.
Print Assumptions C278_child_classes.
Example C278_child_classes_case : ranked (fun n => n) (bases small) /\ (forall c, In c (keys small) -> c <= 5) /\ childClasses 6 small 1 = Some [2; 3].
Proof. split; [|split; [intros c [<- | [<- | [<- | []]]]; cbn [fst]; lia|reflexivity]]. unfold ranked, bases, small. intros c b I. cbn [find] in I. destruct (3 =? c) eqn:E3; [apply Nat.eqb_eq in E3; subst c; destruct I as [<- | []]; cbv beta; lia|]. destruct (2 =? c) eqn:E2; [apply Nat.eqb_eq in E2; subst c; destruct I as [<- | []]; cbv beta; lia|]. destruct (5 =? c); destruct I. Qed.
(** C279. If bases of plugins are plugins that can be made, or those known to the code, the database holds the plugins that can be made, with the bases they declare; *)
Theorem C279_database_partial create leaf top plugs : closed create leaf plugs -> exists r, build create leaf top plugs = Some r /\ (forall n, In n (plugins r) <-> In n plugs /\ create n <> None) /\ (forall n x, In x (bases r n) <-> In n plugs /\ In x (declared create n)).
Proof. exact (database create leaf top plugs). Qed.
Print Assumptions C279_database_partial.
Example C279_database_case : closed ladder (fun b => b =? 0) [3; 1; 2].
Proof. intros n b l N E B. destruct N as [<- | [<- | [<- | []]]]; cbn [ladder] in E; injection E as <-; destruct B as [<- | []]; try (left; reflexivity); right; (split; [cbn [In]; intuition|discriminate]). Qed.
(** C279. But bases of bases that are no plugins are taken over only if their names come later: 3 derives from 0 through 2 and 1, and the database says that it does not; *)
Theorem C279_ladder_refuted : derives (declared ladder) 3 0 /\ build ladder (fun _ => false) 4 [3] = Some [(3, [2]); (2, [1])] /\ fst (recursive 9 [(3, [2]); (2, [1])] 3 0) = Some false.
Proof. exact (ladder_refuted). Qed.
Print Assumptions C279_ladder_refuted.

(** and a base that cannot be made is an error that nothing catches, unlike a plugin that cannot be made. *)
Theorem C279_unfactored_refuted : build (fun n => match n with 1 => Some [0] | _ => None end) (fun _ => false) 2 [1] = None.
Proof. exact (unfactored_refuted). Qed.
Print Assumptions C279_unfactored_refuted.

