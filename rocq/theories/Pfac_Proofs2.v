From Coq Require Import List Arith Bool Lia.
From Verif Require Import Pfac_Model Pfac_Spec Pfac_Proofs.
Import ListNotations.

Section Mesh.
Context {P : Type} (peq : P -> P -> bool).
Hypothesis D : decides peq.
Notation scene := (scene P).

Lemma inv_weaken n0 s0 (VP VP' : P -> Prop) (EP EP' : P -> P -> Prop) done L (s : scene) : inv n0 s0 VP EP done L s -> (forall p, VP p <-> VP' p) -> (forall p q, EP p q -> EP' p q) -> inv n0 s0 VP' EP' done L s.
Proof.
  intros [N O NS ND PS VE GI CY ON CN PF] V E. constructor; try assumption.
  - intros p. rewrite <- V. apply VE.
  - intros a b c H. destruct (GI a b c H) as (A & B & C & S & u & v & U & W & X). split; [exact A|]. split; [exact B|]. split; [exact C|]. split; [exact S|]. exists u, v. auto.
Qed.
(** ids of vertices: those known, and new ones in order *)
Fixpoint fill (f : list (option nat)) (new : list nat) : option (list nat) :=
  match f, new with
  | [], [] => Some []
  | Some j :: f', _ => option_map (cons j) (fill f' new)
  | None :: f', x :: new' => option_map (cons x) (fill f' new')
  | _, _ => None
  end.
Lemma vertices_inv n0 s0 EP done : forall l VP L (s : scene) f nodes s', inv n0 s0 VP EP done L s -> vertices peq l (nodesIds L) s = (f, nodes, s') -> exists new ids,
  nodes = nodesIds L ++ new /\ inv n0 s0 (fun q => VP q \/ In q l) EP done (mkLists nodes (cylIds L) (pfIds L)) s' /\ later n0 s s' /\ gi s' = gi s /\ fill f new = Some ids /\ Forall2 (fun i p => In i nodes /\ place s' i = Some p) ids l.
Proof.
  induction l as [|p l IH]; intros VP L s f nodes s' I E; cbn [vertices] in E.
  - injection E as <- <- <-. exists [], []. rewrite app_nil_r. split; [reflexivity|]. split; [|split; [apply later_refl|split; [reflexivity|split; [reflexivity|constructor]]]].
    destruct L as [nd cy pf]. cbn [nodesIds cylIds pfIds]. eapply inv_weaken; [exact I| |auto]. intros q. cbn [In]. tauto.
  - pose proof (known_spec peq D s (nodesIds L) p) as K. destruct (known peq s (nodesIds L) p) as [j|].
    + destruct K as (KJ & KP). destruct (vertices peq l (nodesIds L) s) as ((f1, nodes1), s1) eqn:E1. injection E as <- <- <-. destruct (IH VP L s f1 nodes1 s1 I E1) as (new & ids & A & B & C & G & F & H). exists new, (j :: ids). split; [exact A|]. split; [|split; [exact C|split; [exact G|split]]].
      * eapply inv_weaken; [exact B| |auto]. intros q. cbn [In]. split; [tauto|]. intros [X|[<- |X]]; [tauto| |tauto]. left. apply (v_vert _ _ _ _ _ _ _ I). exists j. split; assumption.
      * cbn [fill]. rewrite F. reflexivity.
      * constructor; [|exact H]. split; [rewrite A; apply in_app_iff; left; exact KJ|eapply later_place; eassumption].
    + cbn [append] in E. pose proof (add_node n0 s0 VP EP done L s p I K) as I1. set (L1 := mkLists (nodesIds L ++ [length (gb s)]) (cylIds L) (pfIds L)) in *. set (s1 := mkScene (gb s ++ [gridNode p]) (gi s)) in *.
      change (nodesIds L ++ [length (gb s)]) with (nodesIds L1) in E. destruct (vertices peq l (nodesIds L1) s1) as ((f1, nodes1), s2) eqn:E1. injection E as <- <- <-. destruct (IH _ L1 s1 f1 nodes1 s2 I1 E1) as (new & ids & A & B & C & G & F & H).
      assert (T : later n0 s s1) by (apply later_app; apply (v_n _ _ _ _ _ _ _ I)).
      exists (length (gb s) :: new), (length (gb s) :: ids). split; [rewrite A; cbn [L1 nodesIds]; rewrite <- app_assoc; reflexivity|]. split; [|split; [eapply later_trans; eassumption|split; [rewrite G; reflexivity|split]]].
      * eapply inv_weaken; [exact B| |auto]. intros q. cbn [In]. split; [intros [[X| ->]|X]; tauto|intros [X|[<- |X]]; tauto].
      * cbn [fill]. rewrite F. reflexivity.
      * constructor; [|exact H]. split; [rewrite A; cbn [L1 nodesIds]; apply in_app_iff; left; apply in_app_iff; right; left; reflexivity|]. eapply later_place; [exact C|]. unfold place. cbn [s1 gb]. rewrite nth_app_new. reflexivity.
Qed.
Lemma chosen_fill nodes new f i j k : fill f new = Some [i; j; k] -> chosen (length nodes) (nodes ++ new) f = Some (i, j, k).
Proof.
  assert (NN : forall m, nth (length nodes + m) (nodes ++ new) 0 = nth m new 0) by (intros m; rewrite app_nth2 by lia; f_equal; lia).
  unfold chosen. cbv zeta. rewrite !NN. intros H.
  destruct f as [|[a|] [|[b|] [|[c|] [|x f]]]]; destruct new as [|u [|v [|w [|y new]]]]; cbn [fill option_map] in H; try discriminate; try (injection H as <- <- <-; reflexivity); try (injection H; discriminate); destruct x; cbn [fill option_map] in H; try discriminate; repeat (destruct (fill _ _); cbn [option_map] in H; try discriminate).
Qed.
(** every node begins a connection *)
Definition lead (L : lists) (s : scene) : Prop := forall i, In i (nodesIds L) -> begins s i.
Definition alone (s : scene) (i : nat) : Prop := forall x y c, In (x, y, c) (gi s) -> x <> i /\ y <> i.
Lemma begins_mono (s s' : scene) i : (forall x y c, In (x, y, c) (gi s) -> In (x, y, c) (gi s')) -> begins s i -> begins s' i.
Proof. intros H (b & c & X). exists b, c. apply H. exact X. Qed.
Lemma creator3_inv n0 s0 VP EP done L (s : scene) i j k a b c : inv n0 s0 VP EP done L s -> proper (a, b, c) -> In i (nodesIds L) -> In j (nodesIds L) -> In k (nodesIds L) -> place s i = Some a -> place s j = Some b -> place s k = Some c ->
  (forall n, In n (nodesIds L) -> begins s n \/ (alone s n /\ (n = i \/ n = j \/ n = k))) -> exists L' s', creator3 i j k L s = Ok L' s' /\
  inv n0 s0 VP (fun x y => EP x y \/ (x = a /\ y = b) \/ (x = b /\ y = c) \/ (x = c /\ y = a)) (done ++ [(a, b, c)]) L' s' /\ lead L' s' /\ later n0 s s'.
Proof.
  intros I (Nab & Nbc & Nac) Hi Hj Hk Pi Pj Pk LD. unfold creator3.
  assert (ij : i <> j) by congruence. assert (jk : j <> k) by congruence. assert (ik : i <> k) by congruence.
  destruct (connect_inv _ _ _ _ _ _ _ i j a b I Hi Hj Pi Pj) as (L1 & s1 & E1 & I1 & T1 & N1 & F1 & (c1 & C1) & G1 & B1 & U1). rewrite E1.
  pose proof (later_place _ _ _ _ _ T1 Pi) as Pi1. pose proof (later_place _ _ _ _ _ T1 Pj) as Pj1. pose proof (later_place _ _ _ _ _ T1 Pk) as Pk1.
  rewrite <- N1 in Hi, Hj, Hk. destruct (connect_inv _ _ _ _ _ _ _ j k b c I1 Hj Hk Pj1 Pk1) as (L2 & s2 & E2 & I2 & T2 & N2 & F2 & (c2 & C2) & G2 & B2 & U2). rewrite E2.
  pose proof (later_place _ _ _ _ _ T2 Pi1) as Pi2. pose proof (later_place _ _ _ _ _ T2 Pj1) as Pj2. pose proof (later_place _ _ _ _ _ T2 Pk1) as Pk2.
  rewrite <- N2 in Hi, Hj, Hk. destruct (connect_inv _ _ _ _ _ _ _ k i c a I2 Hk Hi Pk2 Pi2) as (L3 & s3 & E3 & I3 & T3 & N3 & F3 & (c3 & C3) & G3 & B3 & U3). rewrite E3.
  pose proof (later_place _ _ _ _ _ T3 Pi2) as Pi3. pose proof (later_place _ _ _ _ _ T3 Pj2) as Pj3. pose proof (later_place _ _ _ _ _ T3 Pk2) as Pk3.
  rewrite <- N3 in Hi, Hj, Hk.
  assert (FI : forall (u v : scene) x y z, (forall x y c, In (x, y, c) (gi u) -> In (x, y, c) (gi v)) -> find u x y = Some z -> exists w, find v x y = Some w).
  { intros u v x y z M H. pose proof (find_spec u x y) as A. rewrite H in A. pose proof (find_spec v x y) as B. destruct (find v x y) as [w|]; [exists w; reflexivity|]. exfalso. destruct (B z) as (Q1 & Q2). destruct A as [A|A]; apply M in A; contradiction. }
  assert (FS : forall (u : scene) x y z, find u x y = Some z -> exists w, find u y x = Some w).
  { intros u x y z H. pose proof (find_spec u x y) as A. rewrite H in A. pose proof (find_spec u y x) as B. destruct (find u y x) as [w|]; [exists w; reflexivity|]. exfalso. destruct (B z) as (Q1 & Q2). destruct A as [A|A]; contradiction. }
  assert (M13 : forall x y c, In (x, y, c) (gi s1) -> In (x, y, c) (gi s3)) by (intros x y z H; apply G3; apply G2; exact H).
  destruct (facet_inv _ _ _ _ _ _ _ i j k a b c I3 Hi Hj Hk Pi3 Pj3 Pk3 (FI _ _ _ _ _ M13 C1) (FI _ _ _ _ _ G3 C2) (FS _ _ _ _ C3)) as (f & s4 & E4 & I4 & G4 & T4). rewrite E4.
  eexists _, s4. split; [reflexivity|]. split; [eapply inv_weaken; [exact I4|intros; reflexivity|intros p q; cbv beta; tauto]|]. split.
  - intros n Hn. cbn [nodesIds] in Hn. rewrite N3, N2, N1 in Hn. assert (M4 : forall x y c, In (x, y, c) (gi s3) -> In (x, y, c) (gi s4)) by (rewrite G4; auto). apply (begins_mono s3 s4 n M4). destruct (LD n Hn) as [B|(AL & Q)].
    + apply (begins_mono s s3); [|exact B]. intros x y z H. apply M13. apply G1. exact H.
    + destruct Q as [-> |[-> | ->]].
      * apply (begins_mono s1 s3); [exact M13|]. apply B1. pose proof (find_spec s i j) as A. destruct (find s i j) as [w|]; [|reflexivity]. exfalso. destruct A as [A|A]; destruct (AL _ _ _ A) as (X & Y); congruence.
      * apply (begins_mono s2 s3); [exact G3|]. apply B2. pose proof (find_spec s1 j k) as A. destruct (find s1 j k) as [w|]; [|reflexivity]. exfalso. destruct A as [A|A]; apply U1 in A as [A|(A1 & A2)]; try (destruct (AL _ _ _ A) as (X & Y)); congruence.
      * apply B3. pose proof (find_spec s2 k i) as A. destruct (find s2 k i) as [w|]; [|reflexivity]. exfalso. destruct A as [A|A]; apply U2 in A as [A|(A1 & A2)]; try (apply U1 in A as [A|(A1 & A2)]); try (destruct (AL _ _ _ A) as (X & Y)); congruence.
  - eapply later_trans; [exact T1|]. eapply later_trans; [exact T2|]. eapply later_trans; [exact T3|exact T4].
Qed.
Lemma fill_new f : forall new ids x, fill f new = Some ids -> In x new -> In x ids.
Proof.
  induction f as [|[j|] f IH]; intros new ids x H Hx; cbn [fill] in H.
  - destruct new; [destruct Hx|discriminate].
  - destruct (fill f new) as [l|] eqn:E; [|discriminate]. injection H as <-. right. eapply IH; eassumption.
  - destruct new as [|y new]; [discriminate|]. destruct (fill f new) as [l|] eqn:E; [|discriminate]. injection H as <-. destruct Hx as [<- |Hx]; [left; reflexivity|right; eapply IH; eassumption].
Qed.
Lemma creator1_inv n0 s0 VP EP done L (s : scene) a b c : inv n0 s0 VP EP done L s -> lead L s -> proper (a, b, c) -> exists L' s', creator1 peq a b c L s = Ok L' s' /\
  inv n0 s0 (fun q => VP q \/ In q [a; b; c]) (fun x y => EP x y \/ (x = a /\ y = b) \/ (x = b /\ y = c) \/ (x = c /\ y = a)) (done ++ [(a, b, c)]) L' s' /\ lead L' s' /\ later n0 s s'.
Proof.
  intros I LD PR. unfold creator1. destruct (vertices peq [a; b; c] (nodesIds L) s) as ((f, nodes), s1) eqn:E. destruct (vertices_inv n0 s0 EP done _ VP L s f nodes s1 I E) as (new & ids & A & B & C & G & F & H).
  inversion H as [|i ? ids1 ? (Hi & Pi) H1]; subst. inversion H1 as [|j ? ids2 ? (Hj & Pj) H2]; subst. inversion H2 as [|k ? ids3 ? (Hk & Pk) H3]; subst. inversion H3; subst. rewrite (chosen_fill _ _ _ _ _ _ F).
  destruct (creator3_inv n0 s0 _ EP done _ s1 i j k a b c B PR Hi Hj Hk Pi Pj Pk) as (L' & s' & E' & I' & LD' & T').
  - cbn [nodesIds]. intros n Hn. apply in_app_iff in Hn as [Hn|Hn]; [left; destruct (LD n Hn) as (x & y & X); exists x, y; rewrite G; exact X|]. right. split.
    + intros x y z X. rewrite G in X. destruct (v_gi _ _ _ _ _ _ _ I x y z X) as (X1 & X2 & _). pose proof (v_nd _ _ _ _ _ _ _ B) as NDP. cbn [nodesIds] in NDP.
      assert (NI : forall q, In q (nodesIds L) -> q <> n) by (intros q Q ->; clear -NDP Q Hn; induction (nodesIds L) as [|r l IH]; [destruct Q|]; cbn [app] in NDP; apply NoDup_cons_iff in NDP as (Z & NDP); destruct Q as [-> |Q]; [apply Z; apply in_app_iff; right; exact Hn|auto]).
      split; apply NI; assumption.
    + pose proof (fill_new _ _ _ _ F Hn) as Q. destruct Q as [-> |[-> |[-> |[]]]]; auto.
  - exists L', s'. split; [exact E'|]. split; [exact I'|]. split; [exact LD'|]. eapply later_trans; eassumption.
Qed.
Lemma import_inv n0 s0 : forall faces done L (s : scene), Forall proper faces -> inv n0 s0 (vertex done) (edge done) done L s -> lead L s -> exists L' s', import peq faces L s = Ok L' s' /\ inv n0 s0 (vertex (done ++ faces)) (edge (done ++ faces)) (done ++ faces) L' s' /\ lead L' s' /\ later n0 s s'.
Proof.
  induction faces as [|((a, b), c) faces IH]; intros done L s F I LD; cbn [import].
  - exists L, s. rewrite app_nil_r. split; [reflexivity|]. split; [exact I|]. split; [exact LD|apply later_refl].
  - inversion F as [|? ? PR F']; subst. destruct (creator1_inv _ _ _ _ _ _ _ a b c I LD PR) as (L1 & s1 & E1 & I1 & LD1 & T1). rewrite E1.
    destruct (IH (done ++ [(a, b, c)]) L1 s1 F') as (L2 & s2 & E2 & I2 & LD2 & T2).
    + eapply inv_weaken; [exact I1| |].
      * intros p. unfold vertex. split.
        -- intros [(x & y & z & X & Q)|[<- |[<- |[<- |[]]]]]; [exists x, y, z; split; [apply in_app_iff; left; exact X|exact Q]| | |]; exists a, b, c; (split; [apply in_app_iff; right; left; reflexivity|auto]).
        -- intros (x & y & z & X & Q). apply in_app_iff in X as [X|[X|[]]]; [left; exists x, y, z; split; assumption|]. injection X as <- <- <-. right. cbn [In]. destruct Q as [-> |[-> | ->]]; auto.
      * intros p q [(x & y & z & X & Q)|Q]; [exists x, y, z; split; [apply in_app_iff; left; exact X|exact Q]|]. exists a, b, c. split; [apply in_app_iff; right; left; reflexivity|tauto].
    + exact LD1.
    + exists L2, s2. split; [exact E2|]. rewrite <- app_assoc in I2. split; [exact I2|]. split; [exact LD2|eapply later_trans; eassumption].
Qed.
Lemma start_inv (s : scene) : fresh s -> inv (length (gb s)) s (vertex []) (edge []) [] nothing s.
Proof.
  intros F. constructor; cbn [nothing nodesIds cylIds pfIds].
  - lia.
  - apply later_refl.
  - intros i [].
  - constructor.
  - intros i j p [].
  - intros p. split; [intros (i & [] & _)|intros (a & b & c & [] & _)].
  - intros a b c H. rewrite F in H. destruct H.
  - rewrite F. reflexivity.
  - intros a b c a' b' c' H. rewrite F in H. destruct H.
  - constructor.
  - constructor.
Qed.
Lemma imported faces (s : scene) : fresh s -> Forall proper faces -> exists L s', import peq faces nothing s = Ok L s' /\ inv (length (gb s)) s (vertex faces) (edge faces) faces L s' /\ lead L s'.
Proof. intros F PR. destruct (import_inv (length (gb s)) s faces [] nothing s PR (start_inv s F)) as (L & s' & E & I & LD & _); [intros i []|]. exists L, s'. split; [exact E|]. split; assumption. Qed.
End Mesh.

(** ** C218, C219 *)
Lemma mesh_nodes {P} (peq : P -> P -> bool) : decides peq -> forall faces (s : scene P), fresh s -> Forall proper faces -> exists L s', import peq faces nothing s = Ok L s' /\
  NoDup (nodesIds L) /\ (forall i, In i (nodesIds L) -> shape_of s' i = Some KNode) /\
  (forall i j p, In i (nodesIds L) -> In j (nodesIds L) -> place s' i = Some p -> place s' j = Some p -> i = j) /\
  (forall p, (exists i, In i (nodesIds L) /\ place s' i = Some p) <-> vertex faces p) /\
  (forall id, id < length (gb s) -> nth_error (gb s') id = nth_error (gb s) id).
Proof.
  intros D faces s F PR. destruct (imported peq D faces s F PR) as (L & s' & E & I & _). exists L, s'. split; [exact E|]. split; [apply (v_nd _ _ _ _ _ _ _ I)|]. split; [intros i Hi; apply (v_nodes _ _ _ _ _ _ _ I i Hi)|]. split; [apply (v_pos _ _ _ _ _ _ _ I)|]. split; [apply (v_vert _ _ _ _ _ _ _ I)|]. apply (v_old _ _ _ _ _ _ _ I).
Qed.
Lemma mesh_facets {P} (peq : P -> P -> bool) : decides peq -> forall faces (s : scene P), fresh s -> Forall proper faces -> exists L s', import peq faces nothing s = Ok L s' /\
  length (pfIds L) = length faces /\ (forall n f face, nth_error (pfIds L) n = Some f -> nth_error faces n = Some face -> is_facet s' L f face).
Proof.
  intros D faces s F PR. destruct (imported peq D faces s F PR) as (L & s' & E & I & _). exists L, s'. split; [exact E|]. pose proof (v_pf _ _ _ _ _ _ _ I) as H. clear -H. revert H. generalize (pfIds L) as l. intros l H. split; [induction H; cbn [length]; congruence|]. induction H as [|x y l l' X H IH]; intros [|n] f face A B; cbn [nth_error] in A, B; try discriminate; [injection A as <-; injection B as <-; exact X|eapply IH; eassumption].
Qed.
Lemma mesh_edges {P} (peq : P -> P -> bool) : decides peq -> forall faces (s : scene P), fresh s -> Forall proper faces -> exists L s', import peq faces nothing s = Ok L s' /\ NoDup (cylIds L) /\
  (forall c, In c (cylIds L) -> exists a b p q, shape_of s' c = Some (KConn a b) /\ In a (nodesIds L) /\ In b (nodesIds L) /\ place s' a = Some p /\ place s' b = Some q /\ edge faces p q) /\
  (forall c d a b, In c (cylIds L) -> In d (cylIds L) -> joins s' c a b -> joins s' d a b -> c = d).
Proof.
  intros D faces s F PR. destruct (imported peq D faces s F PR) as (L & s' & E & I & _). exists L, s'. split; [exact E|]. split; [apply (v_cnd _ _ _ _ _ _ _ I)|].
  assert (G : forall c, In c (cylIds L) -> exists a b, In (a, b, c) (gi s')).
  { intros c H. rewrite (v_cyl _ _ _ _ _ _ _ I) in H. apply in_map_iff in H as (((a, b), c') & Q & H). cbn [snd] in Q. subst c'. exists a, b. exact H. }
  split.
  - intros c H. destruct (G c H) as (a & b & X). destruct (v_gi _ _ _ _ _ _ _ I a b c X) as (A & B & _ & S & p & q & Pa & Pb & Q). exists a, b, p, q. auto 10.
  - intros c d a b Hc Hd Jc Jd. destruct (G c Hc) as (a1 & b1 & X). destruct (G d Hd) as (a2 & b2 & Y). destruct (v_gi _ _ _ _ _ _ _ I _ _ _ X) as (_ & _ & _ & S & _). destruct (v_gi _ _ _ _ _ _ _ I _ _ _ Y) as (_ & _ & _ & S' & _).
    apply (v_one _ _ _ _ _ _ _ I _ _ _ _ _ _ X Y). destruct Jc as [Jc|Jc], Jd as [Jd|Jd]; rewrite S in Jc; rewrite S' in Jd; injection Jc as <- <-; injection Jd as <- <-; auto.
Qed.

(** ** C220: motion *)
Section Motion.
Context {P : Type}.
Notation scene := (scene P). Notation gbody := (gbody P).
Lemma move_parts_nth a b c (p : P) : forall (l : list gbody) k i, nth_error (move_parts a b c p k l) i = option_map (fun x => if (k + i =? c) || (is_part a (gk x) || is_part b (gk x)) && first_is a (gk x) then mkG (gk x) p (gbounded x) else x) (nth_error l i).
Proof.
  induction l as [|x l IH]; intros k [|i]; cbn [move_parts nth_error option_map]; try reflexivity.
  - rewrite Nat.add_0_r. reflexivity.
  - rewrite IH. replace (S k + i) with (k + S i) by lia. reflexivity.
Qed.
Lemma first_part a (k : kind) : first_is a k = true -> is_part a k = true.
Proof. destruct k; cbn [first_is is_part]; try discriminate. intros ->. reflexivity. Qed.
Definition nodes_at (g : nat -> P) (l : list gbody) : Prop := forall i x, nth_error l i = Some x -> gk x = KNode -> gpos x = g i.
Definition entries (G : list (nat * nat * nat)) (l : list gbody) : Prop := forall a b c, In (a, b, c) G -> option_map gk (nth_error l a) = Some KNode /\ option_map gk (nth_error l c) = Some (KConn a b).
Lemma follow1_nth g (l : list gbody) a b c : nodes_at g l -> option_map gk (nth_error l a) = Some KNode -> forall i, nth_error (follow1 l (a, b, c)) i = option_map (fun x => if (i =? c) || first_is a (gk x) then mkG (gk x) (g a) (gbounded x) else x) (nth_error l i).
Proof.
  intros NA KA i. unfold follow1. destruct (nth_error l a) as [y|] eqn:E; [|discriminate]. cbn [option_map] in *. injection KA as KA. rewrite (NA a y E KA). rewrite move_parts_nth. cbn [Nat.add]. destruct (nth_error l i) as [x|]; [|reflexivity]. cbn [option_map]. f_equal.
  destruct (first_is a (gk x)) eqn:F; [rewrite (first_part _ _ F); reflexivity|rewrite andb_false_r; reflexivity].
Qed.
Definition head (k : kind) : nat := match k with KConn a _ => a | KFacet n _ _ _ _ _ => n | _ => 0 end.
Definition concerns (G : list (nat * nat * nat)) (i : nat) (k : kind) : Prop := exists a b c, In (a, b, c) G /\ (i = c \/ first_is a k = true).
Lemma follow_fold g : forall G (l : list gbody), entries G l -> nodes_at g l -> forall i x, nth_error l i = Some x -> exists x', nth_error (fold_left follow1 G l) i = Some x' /\ gk x' = gk x /\ gbounded x' = gbounded x /\
  (gpos x' = gpos x \/ gpos x' = g (head (gk x))) /\ (concerns G i (gk x) \/ gpos x = g (head (gk x)) -> gpos x' = g (head (gk x))) /\ (~ concerns G i (gk x) -> gpos x' = gpos x).
Proof.
  induction G as [|((a, b), c) G IH]; intros l EN NA i x X; cbn [fold_left].
  - exists x. split; [exact X|]. split; [reflexivity|]. split; [reflexivity|]. split; [auto|]. split; [|reflexivity]. intros [(u & v & w & [] & _)|H]. exact H.
  - destruct (EN a b c (or_introl eq_refl)) as (KA & KC). pose proof (follow1_nth g l a b c NA KA) as F.
    assert (NK : forall i y, nth_error (follow1 l (a, b, c)) i = Some y -> exists x, nth_error l i = Some x /\ gk y = gk x /\ ((y = x /\ (i <> c /\ first_is a (gk x) = false)) \/ (gpos y = g a /\ (i = c \/ first_is a (gk x) = true) /\ gbounded y = gbounded x))).
    { intros j y Y. rewrite F in Y. destruct (nth_error l j) as [z|] eqn:Z; [|discriminate]. cbn [option_map] in Y. injection Y as <-. exists z. split; [reflexivity|]. destruct (Nat.eqb_spec j c) as [Q|Q]; cbn [orb gk]; [split; [reflexivity|right; split; [reflexivity|split; [left; exact Q|reflexivity]]]|]. destruct (first_is a (gk z)) eqn:FA; cbn [gk]; (split; [reflexivity|]); [right; split; [reflexivity|split; [right; reflexivity|reflexivity]]|left; auto]. }
    assert (KK : forall j, option_map gk (nth_error (follow1 l (a, b, c)) j) = option_map gk (nth_error l j)).
    { intros j. rewrite F. destruct (nth_error l j) as [z|]; [|reflexivity]. cbn [option_map]. destruct ((j =? c) || first_is a (gk z)); reflexivity. }
    assert (EN1 : entries G (follow1 l (a, b, c))) by (intros u v w H; rewrite !KK; apply EN; right; exact H).
    assert (NA1 : nodes_at g (follow1 l (a, b, c))).
    { intros j y Y K. destruct (NK j y Y) as (z & Z & KZ & [(-> & _)|(_ & [-> |Q] & _)]); [exact (NA j z Z (eq_trans (eq_sym KZ) K))| |].
      - rewrite Z in KC. cbn [option_map] in KC. injection KC as KC. congruence.
      - rewrite <- KZ, K in Q. discriminate. }
    destruct (nth_error (follow1 l (a, b, c)) i) as [y|] eqn:Y; [|rewrite F, X in Y; discriminate].
    destruct (NK i y Y) as (x0 & X0 & KY & Q). rewrite X in X0. injection X0 as <-.
    destruct (IH _ EN1 NA1 i y Y) as (x' & X' & K' & B' & D' & C' & N'). exists x'. rewrite KY in K', D', C', N'. split; [exact X'|]. split; [exact K'|].
    assert (HA : (i = c \/ first_is a (gk x) = true) -> head (gk x) = a).
    { intros [-> |H]; [rewrite X in KC; cbn [option_map] in KC; injection KC as ->; reflexivity|]. destruct (gk x); cbn [first_is] in H; try discriminate. apply Nat.eqb_eq in H. symmetry. exact H. }
    destruct Q as [(-> & N1 & N2)|(PY & C & BY)].
    + split; [exact B'|]. split; [exact D'|]. split.
      * intros [(u & v & w & [H|H] & I)|H]; [injection H as <- <- <-; destruct I as [I|I]; congruence|apply C'; left; exists u, v, w; split; assumption|apply C'; right; exact H].
      * intros H. apply N'. intros (u & v & w & I & J). apply H. exists u, v, w. split; [right; exact I|exact J].
    + specialize (HA C). split; [congruence|]. rewrite PY, HA in D'. split; [right; rewrite HA; destruct D'; assumption|]. split; [intros _; rewrite HA; destruct D'; assumption|]. intros H. exfalso. apply H. exists a, b, c. split; [left; reflexivity|exact C].
Qed.
Lemma combine_nth {A} (l : list A) : forall k i, nth_error (combine (seq k (length l)) l) i = option_map (pair (k + i)) (nth_error l i).
Proof.
  induction l as [|x l IH]; intros k [|i]; cbn [length seq combine nth_error option_map]; try reflexivity.
  - rewrite Nat.add_0_r. reflexivity.
  - rewrite IH. replace (S k + i) with (k + S i) by lia. reflexivity.
Qed.
Lemma move_nodes_nth g (s : scene) i : nth_error (gb (move_nodes g s)) i = option_map (fun x => match gk x with KNode => mkG KNode (g i) (gbounded x) | _ => x end) (nth_error (gb s) i).
Proof. unfold move_nodes. cbn [gb]. rewrite nth_error_map, combine_nth. cbn [Nat.add]. destruct (nth_error (gb s) i); reflexivity. Qed.
Lemma followed g (s : scene) : (forall a b c, In (a, b, c) (gi s) -> shape_of s a = Some KNode /\ shape_of s c = Some (KConn a b)) -> let t := follow (move_nodes g s) in
  (forall i, shape_of t i = shape_of s i) /\ (forall i, shape_of s i = Some KNode -> place t i = Some (g i)) /\ (forall i, shape_of s i = Some KPlain -> place t i = place s i) /\
  (forall a b c, In (a, b, c) (gi s) -> place t c = Some (g a)) /\ (forall f n1 n2 n3 c1 c2 c3, shape_of s f = Some (KFacet n1 n2 n3 c1 c2 c3) -> begins s n1 -> place t f = Some (g n1)).
Proof.
  intros W t. set (m := move_nodes g s) in *.
  assert (KK : forall j, option_map gk (nth_error (gb m) j) = option_map gk (nth_error (gb s) j)).
  { intros j. unfold m. rewrite move_nodes_nth. destruct (nth_error (gb s) j) as [x|]; [|reflexivity]. cbn [option_map]. destruct (gk x) eqn:K; cbn [gk]; rewrite ?K; reflexivity. }
  assert (NA : nodes_at g (gb m)).
  { intros j y Y K. unfold m in Y. rewrite move_nodes_nth in Y. destruct (nth_error (gb s) j) as [x|]; [|discriminate]. cbn [option_map] in Y. injection Y as <-. destruct (gk x) eqn:KX; cbn [gk gpos] in *; try reflexivity; rewrite KX in K; discriminate. }
  assert (EN : entries (gi s) (gb m)) by (intros a b c H; rewrite !KK; apply W; exact H).
  pose proof (follow_fold g (gi s) (gb m) EN NA) as FF. change (fold_left follow1 (gi s) (gb m)) with (gb t) in FF.
  assert (GET : forall i k, shape_of s i = Some k -> exists x x', nth_error (gb m) i = Some x /\ nth_error (gb t) i = Some x' /\ gk x = k /\ gk x' = k /\ (concerns (gi s) i k \/ gpos x = g (head k) -> gpos x' = g (head k)) /\ (~ concerns (gi s) i k -> gpos x' = gpos x)).
  { intros i k S. unfold shape_of in S. rewrite <- KK in S. destruct (nth_error (gb m) i) as [x|] eqn:X; [|discriminate]. cbn [option_map] in S. injection S as S. destruct (FF i x X) as (x' & X' & K' & _ & _ & C' & N'). exists x, x'. rewrite S in *. auto 10. }
  assert (CK : forall i k, shape_of s i = Some k -> concerns (gi s) i k -> (exists a b, k = KConn a b) \/ exists n1 n2 n3 c1 c2 c3, k = KFacet n1 n2 n3 c1 c2 c3).
  { intros i k S (a & b & c & H & [-> |Q]); [destruct (W a b c H) as (_ & X); rewrite X in S; injection S as <-; left; exists a, b; reflexivity|]. right. destruct k; try discriminate. eauto 10. }
  split; [|split; [|split; [|split]]].
  - intros i. unfold shape_of. rewrite <- KK. destruct (nth_error (gb m) i) as [x|] eqn:X; [destruct (FF i x X) as (x' & X' & K' & _); rewrite X'; cbn [option_map]; rewrite K'; reflexivity|].
    cbn [option_map]. assert (LE : forall G l, length (fold_left (@follow1 P) G l) = length l).
    { clear. intros G. induction G as [|((a, b), c) G IH]; intros l; cbn [fold_left]; [reflexivity|]. rewrite IH. unfold follow1. destruct (option_map gpos (nth_error l a)); [|reflexivity]. generalize 0 as k. clear. induction l as [|x l IH]; intros k; cbn [move_parts length]; [reflexivity|]. rewrite IH. reflexivity. }
    assert (E : nth_error (gb t) i = None); [|rewrite E; reflexivity]. apply nth_error_None. cbn [t follow gb]. rewrite LE. apply nth_error_None. exact X.
  - intros i S. destruct (GET i KNode S) as (x & x' & X & X' & K & K' & _ & N'). unfold place. rewrite X'. cbn [option_map]. f_equal. rewrite N'; [exact (NA i x X K)|]. intros H. destruct (CK i KNode S H) as [(a & b & Q)|(n1 & n2 & n3 & c1 & c2 & c3 & Q)]; discriminate.
  - intros i S. destruct (GET i KPlain S) as (x & x' & X & X' & K & K' & _ & N'). unfold place. rewrite X'. cbn [option_map]. rewrite N'; [|intros H; destruct (CK i KPlain S H) as [(a & b & Q)|(n1 & n2 & n3 & c1 & c2 & c3 & Q)]; discriminate].
    unfold m in X. rewrite move_nodes_nth in X. unfold shape_of in S. destruct (nth_error (gb s) i) as [y|]; [|discriminate]. cbn [option_map] in *. injection S as S. rewrite S in X. injection X as <-. reflexivity.
  - intros a b c H. destruct (W a b c H) as (_ & S). destruct (GET c _ S) as (x & x' & X & X' & _ & _ & C' & _). unfold place. rewrite X'. cbn [option_map]. rewrite C'; [reflexivity|]. left. exists a, b, c. auto.
  - intros f n1 n2 n3 c1 c2 c3 S (b & c & H). destruct (GET f _ S) as (x & x' & X & X' & _ & _ & C' & _). unfold place. rewrite X'. cbn [option_map]. rewrite C'; [reflexivity|]. left. exists n1, b, c. split; [exact H|]. right. cbn [first_is]. apply Nat.eqb_refl.
Qed.
End Motion.
Lemma mesh_motion {P} (peq : P -> P -> bool) : decides peq -> forall faces (s : scene P), fresh s -> Forall proper faces -> exists L s', import peq faces nothing s = Ok L s' /\ forall g, let t := follow (move_nodes g s') in
  (forall i, shape_of t i = shape_of s' i) /\ (forall n, In n (nodesIds L) -> place t n = Some (g n)) /\
  (forall c, In c (cylIds L) -> exists a b, shape_of t c = Some (KConn a b) /\ place t c = Some (g a)) /\
  (forall f, In f (pfIds L) -> exists n1 n2 n3 c1 c2 c3, shape_of t f = Some (KFacet n1 n2 n3 c1 c2 c3) /\ place t f = Some (g n1)) /\
  (forall i, shape_of s' i = Some KPlain -> place t i = place s' i).
Proof.
  intros D faces s F PR. destruct (imported peq D faces s F PR) as (L & s' & E & I & LD). exists L, s'. split; [exact E|]. intros g t.
  destruct (followed g s') as (A & B & C & C1 & C2).
  { intros a b c H. destruct (v_gi _ _ _ _ _ _ _ I a b c H) as (X & _ & _ & S & _). split; [apply (v_nodes _ _ _ _ _ _ _ I a X)|exact S]. }
  split; [exact A|]. split; [intros n H; apply B; apply (v_nodes _ _ _ _ _ _ _ I n H)|]. split; [|split; [|exact C]].
  - intros c H. rewrite (v_cyl _ _ _ _ _ _ _ I) in H. apply in_map_iff in H as (((a, b), c') & Q & H). cbn [snd] in Q. subst c'. exists a, b. fold t in A, C1. rewrite A. split; [apply (v_gi _ _ _ _ _ _ _ I a b c H)|exact (C1 a b c H)].
  - intros f H. pose proof (v_pf _ _ _ _ _ _ _ I) as PF. assert (X : exists face, is_facet s' L f face).
    { clear -PF H. induction PF as [|x y l l' X PF IH]; [destruct H|]. destruct H as [<- |H]; [exists y; exact X|exact (IH H)]. }
    destruct X as (((pa, pb), pc) & n1 & n2 & n3 & c1 & c2 & c3 & S & _ & _ & N1 & _). exists n1, n2, n3, c1, c2, c3. fold t in A, C2. rewrite A. split; [exact S|]. exact (C2 f n1 n2 n3 c1 c2 c3 S (LD n1 N1)).
Qed.

Lemma mesh_motion_refuted : exists f s n1 n2 n3 c1 c2 c3, by_hand = Ok f s /\ shape_of s f = Some (KFacet n1 n2 n3 c1 c2 c3) /\ forall g, g n1 <> 0 -> let t := follow (move_nodes g s) in place t n1 = Some (g n1) /\ place t f = Some 0.
Proof. eexists _, _, _, _, _, _, _, _. split; [reflexivity|]. split; [reflexivity|]. intros g _. split; reflexivity. Qed.
