(** Half of the hull. *)
From Coq Require Import Reals List ZArith Bool Lra Lia Permutation Sorted.
From Verif Require Import Vec_Model Hull_Model Hull_Spec.
Import ListNotations.
Local Open Scope R_scope.

(** f times turn: 1 for the lower half, -1 for the upper *)
Section Half.
Variable f : R.
Notation A a b q := (0 <= f * turn a b q).
Lemma direction_turn a b q : direction a b q = - turn a b q.
Proof. unfold direction, turn. ring. Qed.
(** x components of cross(u,v) w + cross(v,w) u + cross(w,u) v = 0 for a, b, c, q *)
Lemma turn_id a b c q : (fst b - fst a) * turn b c q = (fst c - fst b) * turn a b q - (fst q - fst b) * turn a b c.
Proof. unfold turn. ring. Qed.
Lemma turn_id0 a b m q : (fst m - fst a) * turn a b q = (fst b - fst a) * turn a m q - (fst q - fst a) * turn a m b.
Proof. unfold turn. ring. Qed.
Lemma turn_self a b : turn a b b = 0. Proof. unfold turn. ring. Qed.
Lemma turn_self0 a b : turn a b a = 0. Proof. unfold turn. ring. Qed.
Lemma turn_swap a b c : turn a b c = - turn a c b. Proof. unfold turn. ring. Qed.
Lemma turn_rot a b c : turn a b c = turn b c a. Proof. unfold turn. ring. Qed.

Lemma mul_nonneg x y z : 0 < x -> x * y = z -> 0 <= z -> 0 <= y.
Proof. intros X E Z. destruct (Rle_or_lt 0 y) as [H|H]; [exact H|]. exfalso. assert (x * y < 0). { rewrite <- (Rmult_0_r x). apply Rmult_lt_compat_l; assumption. } lra. Qed.
Lemma mulp x y : 0 <= x -> 0 <= y -> 0 <= x * y. Proof. apply Rmult_le_pos. Qed.

(** new edge, points on the left of its start *)
Lemma edge_before prev mid p q : fst prev < fst mid -> fst mid <= fst p -> fst q <= fst mid -> A prev mid q -> A prev mid p -> A mid p q.
Proof.
  intros X P Q H T. apply (mul_nonneg (fst mid - fst prev) _ (f * ((fst mid - fst prev) * turn mid p q))); [lra|ring|]. rewrite turn_id.
  replace (f * _) with ((fst p - fst mid) * (f * turn prev mid q) + (fst mid - fst q) * (f * turn prev mid p)) by ring. apply Rplus_le_le_0_compat; apply mulp; lra.
Qed.
(** older edges *)
Lemma edge_older a b c p : fst a < fst b -> fst b < fst c -> fst b <= fst p -> A b c p -> A a b c -> A a b p.
Proof.
  intros X Y P H T. apply (mul_nonneg (fst c - fst b) _ (f * ((fst c - fst b) * turn a b p))); [lra|ring|]. replace ((fst c - fst b) * turn a b p) with ((fst b - fst a) * turn b c p + (fst p - fst b) * turn a b c) by (unfold turn; ring).
  replace (f * _) with ((fst b - fst a) * (f * turn b c p) + (fst p - fst b) * (f * turn a b c)) by ring. apply Rplus_le_le_0_compat; apply mulp; lra.
Qed.
(** when mid is erased: points between prev and mid *)
Lemma pop_between prev mid p q : fst prev < fst mid -> fst mid <= fst p -> fst prev <= fst q -> A prev mid q -> A prev p mid -> A prev p q.
Proof.
  intros X P Q H T. apply (mul_nonneg (fst mid - fst prev) _ (f * ((fst mid - fst prev) * turn prev p q))); [lra|ring|]. rewrite turn_id0. rewrite (turn_swap prev mid p).
  replace (f * _) with ((fst p - fst prev) * (f * turn prev mid q) + (fst q - fst prev) * (f * turn prev p mid)) by ring. apply Rplus_le_le_0_compat; apply mulp; lra.
Qed.
(** and points behind mid *)
Lemma pop_behind prev mid p q : fst prev < fst mid -> fst mid < fst p -> fst q <= fst p -> A mid p q -> A prev p mid -> A prev p q.
Proof.
  intros X P Q H T. apply (mul_nonneg (fst p - fst mid) _ (f * ((fst p - fst mid) * turn prev p q))); [lra|ring|].
  replace ((fst p - fst mid) * turn prev p q) with ((fst p - fst prev) * turn mid p q + (fst p - fst q) * turn prev p mid) by (unfold turn; ring).
  replace (f * _) with ((fst p - fst prev) * (f * turn mid p q) + (fst p - fst q) * (f * turn prev p mid)) by ring. apply Rplus_le_le_0_compat; apply mulp; lra.
Qed.

(** edges of the chain, the last point first: (b, a) means from a to b *)
Fixpoint edges (out : list point) : list (point * point) := match out with b :: (a :: _) as t => (a, b) :: edges t | _ => [] end.
(** strictly increasing x and strict turns *)
Fixpoint chain (out : list point) : Prop :=
  match out with
  | c :: (b :: t) as r => fst b < fst c /\ match t with a :: _ => 0 < f * turn a b c | [] => True end /\ chain r
  | _ => True
  end.
(** the last edge may be vertical *)
Definition chain1 (out : list point) : Prop :=
  match out with
  | c :: (b :: a :: t) as r => (fst b < fst c \/ (fst b = fst c /\ 0 < f * (snd c - snd b))) /\ 0 < f * turn a b c /\ chain r
  | [c; b] => fst b < fst c
  | _ => True
  end.
Lemma older_edges p : forall out, chain out -> Forall (fun q => fst q <= fst p) out -> (match out with b :: a :: _ => A a b p | _ => True end) -> forall a b, In (a, b) (edges out) -> A a b p.
Proof.
  induction out as [|c out IH]; [intros _ _ _ ? ? []|]. destruct out as [|b out]; [intros _ _ _ ? ? []|]. intros (X & T & C) F H a1 b1. cbn [edges]. intros [E|I]; [injection E as <- <-; exact H|].
  assert (F' := F). apply Forall_inv_tail in F'. apply IH; [exact C|exact F'| |exact I]. destruct out as [|a out]; [exact Logic.I|]. destruct C as (X2 & _). apply (edge_older a b c); [exact X2|exact X|exact (Forall_inv F')|exact H|lra].
Qed.
(** what [reduce] gives, for points qs seen before *)
Lemma reduce_chain lft p qs : forall out, chain out -> last out lft = lft -> out <> [] -> incl out qs ->
  (forall a b q, In (a, b) (edges out) -> In q qs -> A a b q) -> (forall q, In q qs -> fst q <= fst p) -> fst lft < fst p -> (forall q, In q qs -> fst lft <= fst q) ->
  (forall c t, out = c :: t -> forall q, In q qs -> fst c <= fst q -> A c p q) ->
  chain1 (reduce f p out) /\ last (reduce f p out) lft = lft /\ (exists t, reduce f p out = p :: t /\ t <> [] /\ incl t out) /\
  (forall a b q, In (a, b) (edges (reduce f p out)) -> In q (p :: qs) -> A a b q).
Proof.
  induction out as [|mid out IH]; [intros _ _ N; contradiction|]. intros C L _ I E X XL ML J. destruct out as [|prev rest].
  - cbn [last] in L. subst mid. cbn [reduce]. split; [cbn [chain1]; exact XL|]. split; [reflexivity|]. split; [exists [lft]; split; [reflexivity|]; split; [discriminate|apply incl_refl]|]. cbn [edges]. intros a b q [H|[]]. injection H as <- <-. intros [<-|Q]; [rewrite turn_self; lra|]. apply (J lft [] eq_refl q Q). apply ML. exact Q.
  - assert (C0 := C). destruct C as (X1 & T1 & C). assert (PM : In prev qs) by (apply I; right; left; reflexivity). assert (MM : In mid qs) by (apply I; left; reflexivity). cbn [reduce]. destruct (Rle_dec (f * direction prev p mid) 0) as [D|D]; rewrite direction_turn in D.
    + assert (D' : A prev p mid) by lra. destruct (IH C) as (K1 & K2 & (t & K3 & K4 & K5) & K6).
      * destruct rest; [cbn [last] in L |- *; exact L|exact L].
      * discriminate.
      * intros y Y. apply I. right. exact Y.
      * intros a b q Hi. apply E. right. exact Hi.
      * exact X.
      * exact XL.
      * exact ML.
      * intros c t Ec q Q QX. injection Ec as <- <-. assert (Em : A prev mid q) by (apply E; [left; reflexivity|exact Q]). destruct (Rle_or_lt (fst q) (fst mid)) as [LE|GT].
        -- apply (pop_between prev mid p q); auto.
        -- apply (pop_behind prev mid p q); [exact X1|pose proof (X q Q); lra|apply X; exact Q| |exact D']. apply (J mid (prev :: rest) eq_refl q Q). lra.
      * split; [exact K1|]. split; [exact K2|]. split; [exists t; split; [exact K3|]; split; [exact K4|]; intros y Y; right; apply K5; exact Y|exact K6].
    + assert (D' : 0 < f * turn prev mid p) by (rewrite turn_swap; lra). split.
      { cbn [chain1]. split; [|split; [exact D'|exact C0]]. destruct (Rle_lt_or_eq_dec _ _ (X mid MM)) as [LT|EQ]; [left; exact LT|right]. split; [exact EQ|].
        assert (W : f * turn prev mid p = (fst mid - fst prev) * (f * (snd p - snd mid))). { unfold turn. rewrite <- EQ. ring. } rewrite W in D'. clear - D' X1. destruct (Rlt_or_le 0 (f * (snd p - snd mid))) as [H|H]; [exact H|]. exfalso. assert ((fst mid - fst prev) * (f * (snd p - snd mid)) <= (fst mid - fst prev) * 0) by (apply Rmult_le_compat_l; lra). lra. }
      split; [exact L|]. split; [exists (mid :: prev :: rest); split; [reflexivity|]; split; [discriminate|apply incl_refl]|].
      intros a b q. cbn [edges]. intros [H|H].
      * injection H as <- <-. intros [<-|Q]; [rewrite turn_self; lra|]. destruct (Rle_or_lt (fst mid) (fst q)) as [GE|LT]; [apply (J mid _ eq_refl q Q GE)|]. apply (edge_before prev mid p q); [exact X1|apply X; exact MM|lra|apply E; [left; reflexivity|exact Q]|lra].
      * intros [<-|Q]; [|apply E; assumption]. apply (older_edges p (mid :: prev :: rest)); [exact C0| | |exact H].
        -- apply Forall_forall. intros y Y. apply X. apply I. exact Y.
        -- lra.
Qed.
(** one point after another *)
Definition state_ok (lft : point) (qs out : list point) : Prop :=
  chain1 out /\ last out lft = lft /\ incl out qs /\ (forall a b q, In (a, b) (edges out) -> In q qs -> A a b q) /\ In lft qs /\
  match out with c :: t => (forall q, In q qs -> fst q <= fst c) /\ (t = [] -> forall q, In q qs -> q = lft) | [] => False end.
Lemma chain1_chain out : chain1 out -> (match out with c :: b :: _ => fst b < fst c | _ => True end) -> chain out.
Proof. destruct out as [|c [|b [|a t]]]; cbn [chain1 chain]; try tauto. Qed.
Lemma step_ok lft qs out p : state_ok lft qs out -> (forall q, In q qs -> fst q <= fst p) -> (forall q, In q qs -> fst lft <= fst q) -> fst lft < fst p -> state_ok lft (p :: qs) (reduce f p out).
Proof.
  intros (C & L & I & E & IL & M) X ML XL. destruct out as [|c out]; [destruct M|]. destruct M as [M1 M2].
  (* the condition of [reduce_chain] for the chain that is left when a vertical edge is gone *)
  assert (FIN : forall o, chain o -> last o lft = lft -> o <> [] -> incl o (c :: out) -> (forall a b, In (a, b) (edges o) -> In (a, b) (edges (c :: out))) ->
    (forall d t, o = d :: t -> forall q, In q qs -> fst d <= fst q -> A d p q) -> reduce f p (c :: out) = reduce f p o -> state_ok lft (p :: qs) (reduce f p (c :: out))).
  { intros o Co Lo No Io Eo Jo ->. destruct (reduce_chain lft p qs o Co Lo No) as (K1 & K2 & (t & K3 & K4 & K5) & K6).
    - intros y Y. apply I. apply Io. exact Y.
    - intros a b q H Q. apply E; [apply Eo; exact H|exact Q].
    - exact X.
    - exact XL.
    - exact ML.
    - exact Jo.
    - split; [exact K1|]. split; [exact K2|]. split; [rewrite K3; intros y [<-|Y]; [left; reflexivity|right; apply I; apply Io; apply K5; exact Y]|]. split; [exact K6|]. split; [right; exact IL|]. rewrite K3. split; [intros q [<-|Q]; [lra|apply X; exact Q]|]. intros ->. contradiction. }
  (* points at the x of the end of a slanted edge are above it *)
  assert (TIE : forall a d q, In (a, d) (edges (c :: out)) -> In q qs -> fst a < fst d -> fst d <= fst q -> (forall z, In z qs -> fst z <= fst d) -> fst d <= fst p -> A d p q).
  { intros a d q H Q Xad Xq Z P. assert (fst q = fst d) by (apply Rle_antisym; [apply Z; exact Q|exact Xq]). assert (H1 := E a d q H Q).
    assert (W : f * turn a d q = (fst d - fst a) * (f * (snd q - snd d))) by (unfold turn; rewrite H0; ring). rewrite W in H1.
    assert (0 <= f * (snd q - snd d)) by (apply (mul_nonneg (fst d - fst a) _ ((fst d - fst a) * (f * (snd q - snd d)))); [lra|reflexivity|exact H1]).
    replace (f * turn d p q) with ((fst p - fst d) * (f * (snd q - snd d))) by (unfold turn; rewrite H0; ring). apply mulp; lra. }
  destruct out as [|b out].
  - cbn [last] in L. subst c. apply (FIN [lft]); [exact Logic.I|reflexivity|discriminate|apply incl_refl|tauto| |reflexivity]. intros d t H q Q _. injection H as <- _. rewrite (M2 eq_refl q Q), turn_self0. lra.
  - destruct (Rlt_dec (fst b) (fst c)) as [S1|S1].
    + apply (FIN (c :: b :: out)); [apply chain1_chain; [exact C|exact S1]|exact L|discriminate|apply incl_refl|tauto| |reflexivity]. intros d t H q Q Xq. injection H as <- _. apply (TIE b); [left; reflexivity|exact Q|exact S1|exact Xq|exact M1|apply X; apply I; left; reflexivity].
    + destruct out as [|a out]; [cbn [chain1] in C; lra|]. destruct C as ([S2|[S2 S3]] & T & C); [lra|].
      apply (FIN (b :: a :: out)).
      * exact C.
      * exact L.
      * discriminate.
      * intros y Y. right. exact Y.
      * intros u v H. right. exact H.
      * intros d t H q Q Xq. injection H as <- _. apply (TIE a); [right; left; reflexivity|exact Q|destruct C as (S4 & _); exact S4|exact Xq| |rewrite S2; apply X; apply I; left; reflexivity]. intros z Z. rewrite S2. apply M1. exact Z.
      * cbn [reduce]. destruct (Rle_dec (f * direction b p c) 0) as [D|D]; [reflexivity|]. exfalso. apply D. rewrite direction_turn. assert (W : f * - turn b p c = - ((fst p - fst b) * (f * (snd c - snd b)))) by (unfold turn; rewrite <- S2; ring). rewrite W. assert (0 <= (fst p - fst b) * (f * (snd c - snd b))); [|lra]. apply mulp; [|lra]. assert (fst b <= fst p) by (apply X; apply I; right; left; reflexivity). lra.
Qed.
Lemma steps_ok lft : forall l qs out, state_ok lft qs out -> (forall q, In q qs -> fst lft <= fst q) -> (forall p, In p l -> fst lft < fst p) -> (forall q p, In q qs -> In p l -> fst q <= fst p) -> StronglySorted (fun a b => fst a <= fst b) l ->
  state_ok lft (rev l ++ qs) (fold_left (fun o p => reduce f p o) l out).
Proof.
  induction l as [|p l IH]; intros qs out S0 ML XL X SS; [exact S0|]. cbn [fold_left rev]. rewrite <- app_assoc. cbn [app]. apply StronglySorted_inv in SS as [SS F]. rewrite Forall_forall in F. apply IH.
  - apply step_ok; [exact S0|intros q Q; apply X; [exact Q|left; reflexivity]|exact ML|apply XL; left; reflexivity].
  - intros q [<-|Q]; [apply Rlt_le; apply XL; left; reflexivity|apply ML; exact Q].
  - intros y Y. apply XL. right. exact Y.
  - intros q y [<-|Q] Y; [apply F; exact Y|apply X; [exact Q|right; exact Y]].
  - exact SS.
Qed.
Lemma half_ok lft rgt inp : (forall p, In p (inp ++ [rgt]) -> fst lft < fst p) -> StronglySorted (fun a b => fst a <= fst b) (inp ++ [rgt]) ->
  state_ok lft (rev (inp ++ [rgt]) ++ [lft]) (build_half_hull lft rgt inp f).
Proof.
  intros XL SS. unfold build_half_hull. apply steps_ok; [|intros q [<-|[]]; lra|exact XL|intros q p [<-|[]] P; apply Rlt_le; apply XL; exact P|exact SS].
  split; [exact Logic.I|]. split; [reflexivity|]. split; [apply incl_refl|]. split; [intros ? ? ? []|]. split; [left; reflexivity|]. split; [intros q [<-|[]]; lra|intros _ q [<-|[]]; reflexivity].
Qed.
Lemma reduce_head p : forall out, exists t, reduce f p out = p :: t.
Proof. induction out as [|m out IH]; [exists []; reflexivity|]. destruct out as [|a out]; [exists [m]; reflexivity|]. cbn [reduce]. destruct (Rle_dec _ 0); [exact IH|eexists; reflexivity]. Qed.
Lemma half_head lft rgt inp : exists t, build_half_hull lft rgt inp f = rgt :: t.
Proof. unfold build_half_hull. rewrite fold_left_app. cbn [fold_left]. apply reduce_head. Qed.
End Half.
