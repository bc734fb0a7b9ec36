(** The hull and areas. *)
From Coq Require Import Reals List ZArith Bool Lra Lia Permutation Sorted.
From Verif Require Import Vec_Model Hull_Model Hull_Spec Hull_Proofs.
Import ListNotations.
Local Open Scope R_scope.

(** ** sorting and parting *)
Lemma insert_perm p l : Permutation (insert_x p l) (p :: l).
Proof. induction l as [|q l IH]; [reflexivity|]. cbn [insert_x]. destruct (Rlt_dec (fst q) (fst p)); [|reflexivity]. rewrite IH. apply perm_swap. Qed.
Lemma sort_perm l : Permutation (sort_x l) l.
Proof. induction l as [|p l IH]; [reflexivity|]. cbn [sort_x fold_right]. rewrite insert_perm. apply perm_skip. exact IH. Qed.
Notation lex := (fun a b : point => fst a <= fst b).
Lemma insert_sorted p l : StronglySorted lex l -> StronglySorted lex (insert_x p l).
Proof.
  induction 1 as [|q l SS IH F]; [repeat constructor|]. cbn [insert_x]. destruct (Rlt_dec (fst q) (fst p)) as [H|H].
  - constructor; [exact IH|]. apply Forall_forall. intros y Y. apply (Permutation_in _ (insert_perm p l)) in Y as [<-|Y]; [lra|]. rewrite Forall_forall in F. apply F. exact Y.
  - constructor; [constructor; assumption|]. constructor; [lra|]. eapply Forall_impl; [|exact F]. intros y Y. cbn beta in Y |- *. lra.
Qed.
Lemma sort_sorted l : StronglySorted lex (sort_x l).
Proof. induction l as [|p l IH]; [constructor|]. apply insert_sorted. exact IH. Qed.
Lemma sorted_app_l l r : StronglySorted lex (l ++ r) -> StronglySorted lex l.
Proof. induction l as [|a l IH]; [constructor|]. cbn [app]. intros H. apply StronglySorted_inv in H as [H F]. constructor; [apply IH; exact H|]. apply Forall_app in F. tauto. Qed.
Lemma sorted_filter g l r : StronglySorted lex (l ++ [r]) -> StronglySorted lex (filter g l ++ [r]).
Proof.
  induction l as [|a l IH]; intros H; [exact H|]. cbn [app filter] in *. apply StronglySorted_inv in H as [H F]. destruct (g a); [|apply IH; exact H]. cbn [app]. constructor; [apply IH; exact H|]. apply Forall_app in F as [F1 F2]. apply Forall_app. split; [|exact F2]. apply Forall_forall. intros y Y. apply filter_In in Y as [Y _]. rewrite Forall_forall in F1. apply F1. exact Y.
Qed.
Lemma partition_some raw : (2 <= length raw)%nat -> exists l r mid, sort_x raw = l :: mid ++ [r] /\ partition_points raw = Some (l, r, filter (fun p => if Rlt_dec (direction l r p) 0 then true else false) mid, filter (fun p => if Rlt_dec (direction l r p) 0 then false else true) mid).
Proof.
  intros N. rewrite <- (Permutation_length (sort_perm raw)) in N. unfold partition_points. destruct (sort_x raw) as [|l rest]; [cbn [length] in N; lia|]. destruct (rev rest) as [|r m] eqn:E.
  - apply (f_equal (@rev point)) in E. rewrite rev_involutive in E. subst rest. cbn in N. lia.
  - exists l, r, (rev m). split; [|reflexivity]. apply (f_equal (@rev point)) in E. rewrite rev_involutive in E. rewrite E. reflexivity.
Qed.
Lemma partition_none raw : (length raw < 2)%nat -> partition_points raw = None.
Proof. destruct raw as [|a [|b raw]]; cbn [length]; intros N; [reflexivity|reflexivity|lia]. Qed.
Lemma leftmost_first raw l rest : one_leftmost raw -> sort_x raw = l :: rest -> forall q, In q rest -> fst l < fst q.
Proof.
  intros (m & a & b & -> & H) E. assert (P : Permutation (m :: a ++ b) (l :: rest)). { rewrite <- E, sort_perm. apply Permutation_middle. } pose proof (sort_sorted (a ++ m :: b)) as SS. rewrite E in SS. apply StronglySorted_inv in SS as [_ F]. rewrite Forall_forall in F.
  assert (L : l = m). { assert (I : In l (m :: a ++ b)) by (apply (Permutation_in _ (Permutation_sym P)); left; reflexivity). destruct I as [<-|I]; [reflexivity|]. exfalso. apply H in I. assert (J : In m (l :: rest)) by (apply (Permutation_in _ P); left; reflexivity). destruct J as [<-|J]; [lra|]. apply F in J. lra. }
  subst m. apply Permutation_cons_inv in P. intros q Q. apply H. apply (Permutation_in _ (Permutation_sym P)). exact Q.
Qed.

(** ** consecutive points *)
Definition pairs (l : list point) : list (point * point) := combine l (tl l).
Lemma sides_pairs p t : sides (p :: t) = pairs (p :: t ++ [p]).
Proof.
  unfold sides, pairs. cbn [tl]. enough (G : forall (t : list point) q, combine (q :: t) (t ++ [p]) = combine (q :: t ++ [p]) (t ++ [p])) by apply G. clear t. induction t as [|a t IH]; intros q; [reflexivity|]. cbn [app combine]. f_equal. apply (IH a).
Qed.
Lemma pairs_cons a b t : pairs (a :: b :: t) = (a, b) :: pairs (b :: t).
Proof. reflexivity. Qed.
Lemma pairs_app x c s : pairs (x ++ c :: s) = pairs (x ++ [c]) ++ pairs (c :: s).
Proof.
  induction x as [|a x IH]; [destruct s; reflexivity|]. destruct x as [|b x]; [destruct s; reflexivity|]. cbn [app] in *. rewrite !pairs_cons. cbn [app]. f_equal. exact IH.
Qed.
Lemma pairs_in a b l : In (a, b) (pairs l) <-> exists x y, l = x ++ a :: b :: y.
Proof.
  split.
  - induction l as [|c l IH]; [intros []|]. destruct l as [|d l]; [intros []|]. rewrite pairs_cons. intros [E|I]; [injection E as <- <-; exists [], l; reflexivity|]. destruct (IH I) as (x & y & ->). exists (c :: x), y. reflexivity.
  - intros (x & y & ->). rewrite pairs_app. apply in_or_app. right. left. reflexivity.
Qed.
Lemma edges_in a b l : In (a, b) (edges l) <-> exists x y, l = x ++ b :: a :: y.
Proof.
  split.
  - induction l as [|c l IH]; [intros []|]. destruct l as [|d l]; [intros []|]. cbn [edges]. intros [E|I]; [injection E as <- <-; exists [], l; reflexivity|]. destruct (IH I) as (x & y & E). exists (c :: x), y. cbn [app]. f_equal. exact E.
  - intros (x & y & ->). induction x as [|c x IH]; [left; reflexivity|]. cbn [app]. destruct (x ++ b :: a :: y) as [|d r] eqn:E; [destruct x; discriminate|]. cbn [edges]. right. exact IH.
Qed.
Lemma pairs_rev a b l : In (a, b) (pairs (rev l)) <-> In (a, b) (edges l).
Proof.
  rewrite pairs_in, edges_in. split; intros (x & y & E).
  - exists (rev y), (rev x). apply (f_equal (@rev point)) in E. rewrite rev_involutive in E. rewrite E, rev_app_distr. cbn [rev]. rewrite <- !app_assoc. reflexivity.
  - exists (rev y), (rev x). rewrite E, rev_app_distr. cbn [rev]. rewrite <- !app_assoc. reflexivity.
Qed.
(** the closed way around the hull *)
Lemma around (l r : point) tu tl_ : tu <> [] -> tl_ <> [] -> last (r :: tu) l = l -> last (r :: tl_) l = l -> exists s, rev (r :: tl_) = l :: s /\
  match removelast (r :: tu) ++ removelast (rev (r :: tl_)) with [] => False | p :: t => p = r /\ (p :: t) ++ [p] = (r :: tu) ++ s end.
Proof.
  intros NU NL LU LL. assert (EU : r :: tu = removelast (r :: tu) ++ [l]) by (transitivity (removelast (r :: tu) ++ [last (r :: tu) l]); [apply app_removelast_last; discriminate|rewrite LU; reflexivity]). assert (EL : r :: tl_ = removelast (r :: tl_) ++ [l]) by (transitivity (removelast (r :: tl_) ++ [last (r :: tl_) l]); [apply app_removelast_last; discriminate|rewrite LL; reflexivity]).
  exists (rev (removelast (r :: tl_))). assert (ER : rev (r :: tl_) = l :: rev (removelast (r :: tl_))) by (rewrite EL at 1; rewrite rev_app_distr; reflexivity). split; [exact ER|].
  assert (HU : exists w, removelast (r :: tu) = r :: w) by (destruct tu; [contradiction|eexists; reflexivity]). destruct HU as [w HU]. rewrite HU. cbn [app]. split; [reflexivity|].
  assert (RL : removelast (rev (r :: tl_)) ++ [r] = rev (r :: tl_)) by (cbn [rev]; rewrite removelast_last; reflexivity).
  change (r :: (w ++ removelast (rev (r :: tl_))) ++ [r]) with (((r :: w) ++ removelast (rev (r :: tl_))) ++ [r]). rewrite <- app_assoc, RL, ER. rewrite <- HU. transitivity ((removelast (r :: tu) ++ [l]) ++ rev (removelast (r :: tl_))); [rewrite <- app_assoc; reflexivity|exact (f_equal (fun z => z ++ rev (removelast (r :: tl_))) (eq_sym EU))].
Qed.

Lemma hull_around raw : (2 <= length raw)%nat -> one_leftmost raw -> exists l r mid U L s P, sort_x raw = l :: mid ++ [r] /\ hull raw = Some P /\
  U = build_half_hull l r (filter (fun p => if Rlt_dec (direction l r p) 0 then true else false) mid) (-1) /\
  L = build_half_hull l r (filter (fun p => if Rlt_dec (direction l r p) 0 then false else true) mid) 1 /\
  rev L = l :: s /\ (exists t, P = r :: t /\ P ++ [r] = U ++ s) /\ last U l = l /\ (forall p, In p (mid ++ [r]) -> fst l < fst p) /\
  state_ok (-1) l (rev (filter (fun p => if Rlt_dec (direction l r p) 0 then true else false) mid ++ [r]) ++ [l]) U /\
  state_ok 1 l (rev (filter (fun p => if Rlt_dec (direction l r p) 0 then false else true) mid ++ [r]) ++ [l]) L.
Proof.
  intros N O. destruct (partition_some raw N) as (l & r & mid & E & H). assert (XL : forall p, In p (mid ++ [r]) -> fst l < fst p) by (apply (leftmost_first raw l _ O E)).
  pose proof (sort_sorted raw) as SS. rewrite E in SS. apply StronglySorted_inv in SS as [SS _].
  assert (G : forall f g, state_ok f l (rev (filter g mid ++ [r]) ++ [l]) (build_half_hull l r (filter g mid) f)).
  { intros f g. apply half_ok; [|apply sorted_filter; exact SS]. intros p Hp. apply XL. apply in_app_or in Hp as [Hp|Hp]; apply in_or_app; [left|right; exact Hp]. apply filter_In in Hp. tauto. }
  unfold hull. rewrite H.
  pose proof (G (-1) (fun p => if Rlt_dec (direction l r p) 0 then true else false)) as GU. pose proof (G 1 (fun p => if Rlt_dec (direction l r p) 0 then false else true)) as GL. clear G.
  destruct (half_head (-1) l r (filter (fun p => if Rlt_dec (direction l r p) 0 then true else false) mid)) as [tu EU]. destruct (half_head 1 l r (filter (fun p => if Rlt_dec (direction l r p) 0 then false else true) mid)) as [tl_ EL].
  rewrite EU in GU |- *. rewrite EL in GL |- *.
  assert (LR : fst l < fst r) by (apply XL; apply in_or_app; right; left; reflexivity).
  assert (NE : forall f qs t, state_ok f l qs (r :: t) -> t <> [] /\ last (r :: t) l = l). { intros f qs t (_ & La & _). split; [|exact La]. intros ->. cbn [last] in La. rewrite La in LR. lra. }
  destruct (NE _ _ _ GU) as [NU LU]. destruct (NE _ _ _ GL) as [NL LL]. destruct (around l r tu tl_ NU NL LU LL) as (s & R1 & R2).
  exists l, r, mid, (r :: tu), (r :: tl_), s, (removelast (r :: tu) ++ removelast (rev (r :: tl_))).
  split; [exact E|]. split; [reflexivity|]. split; [symmetry; exact EU|]. split; [symmetry; exact EL|]. split; [exact R1|]. split; [|split; [exact LU|]; split; [exact XL|]; split; assumption].
  destruct (removelast (r :: tu) ++ removelast (rev (r :: tl_))) as [|p t]; [destruct R2|]. destruct R2 as [-> R2]. exists t. split; [reflexivity|exact R2].
Qed.
Lemma turn_back a b q : turn a b q = - turn b a q.
Proof. unfold turn. ring. Qed.
Lemma in_filters l r mid raw q : sort_x raw = l :: mid ++ [r] -> In q raw -> In q (rev (filter (fun p => if Rlt_dec (direction l r p) 0 then true else false) mid ++ [r]) ++ [l]) \/ In q (rev (filter (fun p => if Rlt_dec (direction l r p) 0 then false else true) mid ++ [r]) ++ [l]).
Proof.
  intros E Q. apply (Permutation_in _ (Permutation_sym (sort_perm raw))) in Q. rewrite E in Q. rewrite !in_app_iff, <- !in_rev, !in_app_iff, !filter_In. destruct Q as [<-|Q]; [left; right; left; reflexivity|]. apply in_app_or in Q as [Q|Q]; [|left; left; right; exact Q]. destruct (Rlt_dec (direction l r q) 0); auto.
Qed.
(** a point beyond the line from the first to the last is beyond each edge of the other half *)
Lemma beyond f l r a b q : fst l < fst r -> fst l <= fst q -> fst q <= fst r -> fst a <= fst b -> 0 <= f * turn a b l -> 0 <= f * turn a b r -> 0 <= f * turn l r q -> 0 <= f * turn a b q.
Proof.
  intros X Q1 Q2 AB HL HR H. apply (mul_nonneg (fst r - fst l) _ (f * ((fst r - fst l) * turn a b q))); [lra|ring|].
  replace (f * _) with ((fst r - fst q) * (f * turn a b l) + (fst q - fst l) * (f * turn a b r) + (fst b - fst a) * (f * turn l r q)) by (unfold turn; ring). repeat apply Rplus_le_le_0_compat; apply mulp; lra.
Qed.
Lemma chain_edges f : forall out, chain f out -> forall a b, In (a, b) (edges out) -> fst a <= fst b.
Proof. induction out as [|c out IH]; [intros _ ? ? []|]. destruct out as [|d out]; [intros _ ? ? []|]. intros (X & _ & C) a b. cbn [edges]. intros [E|I]; [injection E as <- <-; lra|]. apply IH; assumption. Qed.
Lemma chain1_edges f out : chain1 f out -> forall a b, In (a, b) (edges out) -> fst a <= fst b.
Proof.
  destruct out as [|c [|d [|e out]]]; [intros _ ? ? []|intros _ ? ? []| |].
  - cbn [chain1 edges]. intros X a b [E|[]]. injection E as <- <-. lra.
  - intros (X & _ & C) a b. cbn [edges]. intros [E|I]; [injection E as <- <-; lra|]. apply (chain_edges f (d :: e :: out)); assumption.
Qed.
Lemma hull_encloses raw P : one_leftmost raw -> hull raw = Some P -> encloses P raw /\ incl P raw /\ (2 <= length P)%nat.
Proof.
  intros O H. assert (N : (2 <= length raw)%nat). { destruct (le_lt_dec 2 (length raw)) as [N|N]; [exact N|]. unfold hull in H. rewrite (partition_none raw N) in H. discriminate. }
  destruct (hull_around raw N O) as (l & r & mid & U & L & s & P' & E & H' & EU & EL & RL & (t & EP & AR) & LU & XL & SU & SL). rewrite H in H'. injection H' as <-.
  destruct SU as (CU & _ & IU & AU & _ & _). destruct SL as (CL & LL & IL & AL & _ & _).
  assert (IR : forall g q, In q (rev (filter g mid ++ [r]) ++ [l]) -> In q raw). { intros g q Q. apply (Permutation_in _ (sort_perm raw)). rewrite E. rewrite in_app_iff, <- in_rev, in_app_iff, filter_In in Q. destruct Q as [[[Q _]|Q]|[<-|[]]]; [right; apply in_or_app; left; exact Q|right; apply in_or_app; right; exact Q|left; reflexivity]. }
  assert (LR : fst l < fst r) by (apply XL; apply in_or_app; right; left; reflexivity).
  assert (RANGE : forall q, In q raw -> fst l <= fst q <= fst r). { intros q Q. apply (Permutation_in _ (Permutation_sym (sort_perm raw))) in Q. rewrite E in Q. destruct Q as [<-|Q]; [lra|]. split; [apply Rlt_le; apply XL; exact Q|]. pose proof (sort_sorted raw) as SS. rewrite E in SS. apply StronglySorted_inv in SS as [SS _]. clear - Q SS. apply in_app_or in Q as [Q|[<-|[]]]; [|lra]. induction mid as [|m mid IH]; [destruct Q|]. cbn [app] in SS. apply StronglySorted_inv in SS as [SS F]. destruct Q as [<-|Q]; [|apply IH; assumption]. rewrite Forall_forall in F. apply F. apply in_or_app. right. left. reflexivity. }
  split; [|split].
  - assert (EU' : removelast U ++ [l] = U) by (transitivity (removelast U ++ [last U l]); [rewrite LU; reflexivity|]; symmetry; apply app_removelast_last; destruct (half_head (-1) l r (filter (fun p => if Rlt_dec (direction l r p) 0 then true else false) mid)) as [w W]; rewrite EU, W; discriminate).
    intros a b q S0 Q. unfold left_of. rewrite EP, sides_pairs in S0. rewrite EP in AR. cbn [app] in AR. rewrite AR in S0. rewrite <- EU', <- app_assoc in S0. cbn [app] in S0. rewrite pairs_app in S0. rewrite <- RL in S0.
    rewrite EU' in S0.
    assert (INL : forall g, In l (rev (filter g mid ++ [r]) ++ [l])) by (intros g; apply in_or_app; right; left; reflexivity). assert (INR : forall g, In r (rev (filter g mid ++ [r]) ++ [l])) by (intros g; apply in_or_app; left; apply -> in_rev; apply in_or_app; right; left; reflexivity).
    apply in_app_or in S0 as [S0|S0].
    + apply pairs_in in S0. assert (S1 : In (b, a) (edges U)) by (apply edges_in; exact S0). rewrite turn_back. destruct (in_filters l r mid raw q E Q) as [F|F]; [specialize (AU b a q S1 F); lra|].
      pose proof (RANGE q Q) as [Q1 Q2]. pose proof (chain1_edges _ _ CU _ _ S1) as XE. pose proof (AU b a l S1 (INL _)) as HL. pose proof (AU b a r S1 (INR _)) as HR. enough (0 <= -1 * turn b a q) by lra. apply (beyond (-1) l r b a q); auto. rewrite in_app_iff, <- in_rev, in_app_iff, filter_In in F. destruct F as [[[F1 F2]|[<-|[]]]|[<-|[]]]; [|rewrite turn_self; lra|rewrite turn_self0; lra]. rewrite direction_turn in F2. destruct (Rlt_dec (- turn l r q) 0); [discriminate|]. lra.
    + apply pairs_rev in S0. destruct (in_filters l r mid raw q E Q) as [F|F]; [|specialize (AL a b q S0 F); lra].
      pose proof (RANGE q Q) as [Q1 Q2]. pose proof (chain1_edges _ _ CL _ _ S0) as XE. pose proof (AL a b l S0 (INL _)) as HL. pose proof (AL a b r S0 (INR _)) as HR. enough (0 <= 1 * turn a b q) by lra. apply (beyond 1 l r a b q); auto. rewrite in_app_iff, <- in_rev, in_app_iff, filter_In in F. destruct F as [[[F1 F2]|[<-|[]]]|[<-|[]]]; [|rewrite turn_self; lra|rewrite turn_self0; lra]. rewrite direction_turn in F2. destruct (Rlt_dec (- turn l r q) 0); [lra|discriminate].
  - intros q Q. assert (Q' : In q (U ++ s)) by (rewrite <- AR; apply in_or_app; left; exact Q). apply in_app_or in Q' as [Q'|Q']; [apply (IR _ q (IU q Q'))|]. eapply IR. apply IL. rewrite in_rev. rewrite RL. right. exact Q'.
  - apply (f_equal (@length point)) in AR. rewrite !app_length in AR. cbn [length] in AR. apply (f_equal (@length point)) in RL. rewrite rev_length in RL. cbn [length] in RL.
    assert (LEN : forall f inp, last (build_half_hull l r inp f) l = l -> (2 <= length (build_half_hull l r inp f))%nat). { intros f inp La. destruct (half_head f l r inp) as [w W]. rewrite W in La |- *. destruct w; [cbn [last] in La; rewrite La in LR; lra|cbn [length]; lia]. }
    assert (2 <= length U)%nat by (rewrite EU in LU |- *; apply LEN; exact LU). assert (2 <= length L)%nat by (rewrite EL in LL |- *; apply LEN; exact LL). lia.
Qed.
