(** Corners, areas, sections. *)
From Coq Require Import Reals List ZArith Bool Lra Lia Permutation Sorted.
From Verif Require Import Vec_Model Hull_Model Hull_Spec Hull_Proofs Hull_Proofs2.
Import ListNotations.
Local Open Scope R_scope.

(** ** no corner is on a side *)
Lemma chain_turns f : forall x c b a y, chain f (x ++ c :: b :: a :: y) -> 0 < f * turn a b c.
Proof.
  induction x as [|d x IH]; intros c b a y C.
  - destruct C as (_ & T & _). exact T.
  - apply (IH c b a y). cbn [app] in C. destruct (x ++ c :: b :: a :: y) as [|e r] eqn:E; [destruct x; discriminate|]. destruct C as (_ & _ & C). exact C.
Qed.
Lemma chain1_turns f x c b a y : chain1 f (x ++ c :: b :: a :: y) -> 0 < f * turn a b c.
Proof.
  destruct x as [|d x]; [intros (_ & T & _); exact T|]. cbn [app]. intros C. assert (C' : chain f (x ++ c :: b :: a :: y)); [|exact (chain_turns _ _ _ _ _ _ C')].
  destruct x as [|e x]; [destruct C as (_ & _ & C); exact C|]. cbn [app] in C |- *. destruct (x ++ c :: b :: a :: y) as [|g r] eqn:E; [destruct x; discriminate|]. destruct C as (_ & _ & C). exact C.
Qed.
Lemma hull_corners raw P p t : one_leftmost raw -> hull raw = Some P -> P = p :: t -> forall x a b c y, P ++ [p] = x ++ a :: b :: c :: y -> (exists q, In q raw /\ fst q < fst b) -> 0 < turn a b c.
Proof.
  intros O H EP x a b c y T (q & Q & QB). assert (N : (2 <= length raw)%nat). { destruct (le_lt_dec 2 (length raw)) as [N|N]; [exact N|]. unfold hull in H. rewrite (partition_none raw N) in H. discriminate. }
  destruct (hull_around raw N O) as (l & r & mid & U & L & s & P' & E & H' & EU & EL & RL & (t' & EP' & AR) & LU & XL & SU & SL). rewrite H in H'. injection H' as <-. assert (p = r) by congruence. subst p.
  assert (B : b <> l). { intros ->. apply (Permutation_in _ (Permutation_sym (sort_perm raw))) in Q. rewrite E in Q. destruct Q as [<-|Q]; [lra|]. specialize (XL q Q). lra. }
  assert (NU : U <> []) by (destruct SU as (_ & _ & _ & _ & _ & SU); destruct U; [destruct SU|discriminate]). pose proof (app_removelast_last l NU) as EU'. rewrite LU in EU'.
  rewrite T, EU', <- app_assoc in AR. cbn [app] in AR. destruct SU as (CU & _). destruct SL as (CL & _).
  assert (SPLIT : (exists y', U = x ++ a :: b :: c :: y') \/ (exists x', l :: s = x' ++ a :: b :: c :: y)).
  { rewrite EU'. revert AR B. clear. generalize (removelast U). intros u. revert u s. induction x as [|d x IH]; intros u s AR B.
    - destruct u as [|u0 u]; [right; exists []; symmetry; exact AR|]. cbn [app] in AR. injection AR as <- AR. destruct u as [|u1 u]; [injection AR as -> _; contradiction|]. cbn [app] in AR. injection AR as <- AR. left. destruct u as [|u2 u]; cbn [app] in AR; injection AR as <- AR; [exists []; reflexivity|]. exists (u ++ [l]). reflexivity.
    - destruct u as [|u0 u]; [right; exists (d :: x); symmetry; exact AR|]. cbn [app] in AR. injection AR as <- AR. destruct (IH u s AR B) as [(y' & W)|R]; [left; exists y'; cbn [app]; f_equal; exact W|right; exact R]. }
  destruct SPLIT as [(y' & W)|(x' & W)].
  - rewrite W in CU. apply chain1_turns in CU. replace (turn a b c) with (- turn c b a) by (unfold turn; ring). lra.
  - assert (EL' : L = rev y ++ c :: b :: a :: rev x'). { rewrite <- (rev_involutive L), RL, W, rev_app_distr. cbn [rev]. rewrite <- !app_assoc. reflexivity. } rewrite EL' in CL. apply chain1_turns in CL. lra.
Qed.
Lemma hull_none raw : hull raw = None <-> (length raw < 2)%nat.
Proof.
  split; intros H.
  - destruct (le_lt_dec 2 (length raw)) as [N|N]; [|exact N]. exfalso. destruct (partition_some raw N) as (l & r & mid & _ & E). unfold hull in H. rewrite E in H. discriminate.
  - unfold hull. rewrite (partition_none raw H). reflexivity.
Qed.

(** ** areas *)
Definition cross2 (a b : point) : R := fst a * snd b - fst b * snd a.
Definition psum (g : point -> point -> R) (l : list (point * point)) : R := fold_right (fun s t => g (fst s) (snd s) + t) 0 l.
Lemma psum_app g l m : psum g (l ++ m) = psum g l + psum g m.
Proof. unfold psum. induction l as [|s l IH]; cbn [app fold_right]; [ring|]. rewrite IH. ring. Qed.
Lemma open_pairs P : open_sum P = psum cross2 (pairs P).
Proof. induction P as [|p P IH]; [reflexivity|]. destruct P as [|q P]; [reflexivity|]. rewrite pairs_cons. cbn [psum fold_right open_sum fst snd]. fold (psum cross2 (pairs (q :: P))). rewrite <- IH. reflexivity. Qed.
Lemma psum_cons g s l : psum g (s :: l) = g (fst s) (snd s) + psum g l.
Proof. reflexivity. Qed.
Lemma psum_snoc g z d : forall l, l <> [] -> psum g (pairs (l ++ [z])) = psum g (pairs l) + g (last l d) z.
Proof.
  induction l as [|a l IH]; intros N; [contradiction|]. destruct l as [|b l]; [unfold psum, pairs; cbn [app tl combine fold_right fst snd last]; ring|]. change ((a :: b :: l) ++ [z]) with (a :: b :: l ++ [z]). rewrite !pairs_cons, !psum_cons. change (b :: l ++ [z]) with ((b :: l) ++ [z]). rewrite IH by discriminate. change (last (a :: b :: l) d) with (last (b :: l) d). ring.
Qed.
Lemma area_pairs p t : simplePolygonArea2d (p :: t) = Some (Rabs (psum cross2 (pairs (p :: t ++ [p])) / 2)).
Proof. unfold simplePolygonArea2d. rewrite open_pairs. change (p :: t ++ [p]) with ((p :: t) ++ [p]). rewrite (psum_snoc cross2 p p) by discriminate. reflexivity. Qed.
Lemma area_sides P : P <> [] -> simplePolygonArea2d P = Some (Rabs (psum cross2 (sides P) / 2)).
Proof. destruct P as [|p t]; [contradiction|]. intros _. rewrite area_pairs, sides_pairs. reflexivity. Qed.
Lemma psum_turn o l : forall d, l <> [] -> psum (turn o) (pairs l) = psum cross2 (pairs l) + cross2 o (hd d l) - cross2 o (last l d).
Proof.
  induction l as [|a l IH]; intros d N; [contradiction|]. destruct l as [|b l]; [cbn [pairs tl combine psum fold_right hd last]; unfold pairs; cbn [tl combine fold_right]; lra|]. rewrite pairs_cons. cbn [psum fold_right fst snd]. fold (psum (turn o) (pairs (b :: l))) (psum cross2 (pairs (b :: l))). rewrite (IH d) by discriminate. cbn [hd]. change (last (a :: b :: l) d) with (last (b :: l) d). generalize (last (b :: l) d). intros q. unfold turn, cross2. lra.
Qed.
Lemma area_from P o : P <> [] -> simplePolygonArea2d P = Some (Rabs (psum (turn o) (sides P) / 2)).
Proof.
  intros N. rewrite (area_sides P N). destruct P as [|p t]; [contradiction|]. rewrite sides_pairs. rewrite (psum_turn o (p :: t ++ [p]) p) by discriminate. cbn [hd]. change (p :: t ++ [p]) with ((p :: t) ++ [p]). rewrite last_last. f_equal. f_equal. lra.
Qed.
Lemma area_fan P o : P <> [] -> (forall a b, In (a, b) (sides P) -> left_of a b o) -> simplePolygonArea2d P = Some (fan o P).
Proof.
  intros N H. rewrite (area_from P o N). f_equal. unfold fan. assert (G : forall l, (forall a b, In (a, b) l -> left_of a b o) -> 0 <= psum (turn o) l /\ psum (turn o) l / 2 = fold_right (fun s t => triangle o (fst s) (snd s) + t) 0 l).
  { induction l as [|[a b] l IH]; intros G; [cbn; lra|]. destruct (IH (fun a b I => G a b (or_intror I))) as [I1 I2]. cbn [psum fold_right fst snd]. fold (psum (turn o) l). rewrite <- I2. assert (T : 0 <= turn o a b) by (rewrite turn_rot; apply G; left; reflexivity). unfold triangle. rewrite (Rabs_pos_eq (turn o a b) T). split; lra. }
  destruct (G (sides P) H) as [G1 G2]. rewrite <- G2. apply Rabs_pos_eq. lra.
Qed.
Lemma area_rotated a b : simplePolygonArea2d (a ++ b) = simplePolygonArea2d (b ++ a).
Proof.
  destruct a as [|x a]; [rewrite app_nil_r; reflexivity|]. destruct b as [|y b]; [rewrite app_nil_r; reflexivity|]. cbn [app]. rewrite !area_pairs. f_equal. f_equal. f_equal.
  replace (x :: (a ++ y :: b) ++ [x]) with ((x :: a) ++ y :: (b ++ [x])) by (cbn [app]; rewrite <- app_assoc; reflexivity). replace (y :: (b ++ x :: a) ++ [y]) with ((y :: b) ++ x :: (a ++ [y])) by (cbn [app]; rewrite <- app_assoc; reflexivity). rewrite (pairs_app (x :: a)), (pairs_app (y :: b)), !psum_app. cbn [app]. lra.
Qed.
Lemma pairs_map (h : point -> point) l : pairs (map h l) = map (fun s => (h (fst s), h (snd s))) (pairs l).
Proof. induction l as [|a l IH]; [reflexivity|]. destruct l as [|b l]; [reflexivity|]. cbn [map] in *. rewrite !pairs_cons. cbn [map]. f_equal. exact IH. Qed.
Lemma psum_map g h l : psum g (map (fun s => (h (fst s), h (snd s))) l) = psum (fun a b => g (h a) (h b)) l.
Proof. induction l as [|s l IH]; [reflexivity|]. cbn [map psum fold_right fst snd]. fold (psum g (map (fun s => (h (fst s), h (snd s))) l)) (psum (fun a b => g (h a) (h b)) l). rewrite IH. reflexivity. Qed.
Lemma psum_scale g g' k l : (forall a b, g a b = k * g' a b) -> psum g l = k * psum g' l.
Proof. intros E. induction l as [|s l IH]; [cbn; lra|]. cbn [psum fold_right]. fold (psum g l) (psum g' l). rewrite IH, E. lra. Qed.
Lemma sides_map h P : sides (map h P) = map (fun s => (h (fst s), h (snd s))) (sides P).
Proof. destruct P as [|p t]; [reflexivity|]. cbn [map]. rewrite !sides_pairs. rewrite <- pairs_map. cbn [map]. rewrite map_app. reflexivity. Qed.
Lemma area_moved d P : simplePolygonArea2d (map (moved d) P) = simplePolygonArea2d P.
Proof.
  destruct P as [|p t]; [reflexivity|]. rewrite (area_from _ d) by discriminate. rewrite sides_map, psum_map, (area_sides (p :: t)) by discriminate. rewrite (psum_scale _ cross2 1); [rewrite Rmult_1_l; reflexivity|]. intros a b. unfold turn, moved, cross2. cbn [fst snd]. ring.
Qed.
Lemma area_enlarged k P a : simplePolygonArea2d P = Some a -> simplePolygonArea2d (map (enlarged k) P) = Some (k * k * a).
Proof.
  destruct P as [|p t]; [discriminate|]. rewrite !area_sides by discriminate. intros H. injection H as <-. rewrite sides_map, psum_map, (psum_scale _ cross2 (k * k)) by (intros; unfold enlarged, cross2; cbn [fst snd]; ring). f_equal. unfold Rdiv. rewrite Rmult_assoc, Rabs_mult. rewrite (Rabs_pos_eq (k * k)) by apply Rle_0_sqr. reflexivity.
Qed.
Lemma area_mirrored P : simplePolygonArea2d (map mirrored P) = simplePolygonArea2d P.
Proof.
  destruct P as [|p t]; [reflexivity|]. rewrite !area_sides by discriminate. rewrite sides_map, psum_map, (psum_scale _ cross2 (-1)) by (intros; unfold mirrored, cross2; cbn [fst snd]; ring). f_equal. rewrite <- (Rabs_Ropp (psum cross2 (sides (p :: t)) / 2)). f_equal. lra.
Qed.
Lemma psum_rev l : psum cross2 (pairs (rev l)) = - psum cross2 (pairs l).
Proof.
  induction l as [|a l IH]; [cbn; lra|]. destruct l as [|b l]; [cbn; lra|]. change (rev (a :: b :: l)) with (rev (b :: l) ++ [a]). rewrite (psum_snoc cross2 a a) by (cbn [rev]; destruct (rev l); discriminate). rewrite IH, pairs_cons, psum_cons. cbn [rev fst snd]. rewrite last_last. unfold cross2. lra.
Qed.
Lemma area_reversed P : simplePolygonArea2d (rev P) = simplePolygonArea2d P.
Proof.
  destruct P as [|p t]; [reflexivity|]. cbn [rev]. rewrite area_rotated. cbn [app]. rewrite !area_pairs. replace (p :: rev t ++ [p]) with (rev (p :: t ++ [p])) by (cbn [rev]; rewrite rev_app_distr; reflexivity). rewrite psum_rev. f_equal. rewrite <- (Rabs_Ropp (psum cross2 (pairs (p :: t ++ [p])) / 2)). f_equal. lra.
Qed.
Lemma hull_area raw P : one_leftmost raw -> hull raw = Some P -> forall o, In o raw -> simplePolygonArea2d P = Some (fan o P).
Proof. intros O H o I. destruct (hull_encloses raw P O H) as (E & _ & N). apply area_fan; [intros ->; cbn in N; lia|]. intros a b S0. apply E; assumption. Qed.

(** ** sections *)
Lemma coordinate_along c axis : coordinate c axis = along axis c.
Proof. unfold coordinate, along. destruct axis as [|[p|p|]|p]; reflexivity. Qed.
Lemma skipped_meets coord axis s : 0 <= snd s -> (skipped coord axis s = false <-> meets coord axis s).
Proof.
  intros R0. unfold skipped, meets. cbv zeta. rewrite <- coordinate_along. set (x := coordinate (fst s) axis). split; intros H.
  - apply Rabs_le. destruct (Rlt_dec coord x) as [A|A], (Rlt_dec x coord) as [B|B]; cbn [orb] in H; try lra.
    + destruct (Rlt_dec coord (x - snd s)); [discriminate|]. lra.
    + destruct (Rlt_dec (x + snd s) coord); [discriminate|]. lra.
  - apply Rabs_def2_le in H || idtac. assert (- snd s <= x - coord <= snd s) by (unfold Rabs in H; destruct (Rcase_abs (x - coord)); lra). destruct (Rlt_dec coord x) as [A|A]; [destruct (Rlt_dec coord (x - snd s)) as [B|B]; [lra|]|]; cbn [orb]; (destruct (Rlt_dec x coord) as [C|C]; [destruct (Rlt_dec (x + snd s) coord); [lra|reflexivity]|reflexivity]).
Qed.
Lemma section_nothing spheres coord axis : (0 <= axis <= 2)%Z -> (forall s, In s spheres -> 0 <= snd s) -> (forall s, In s spheres -> ~ meets coord axis s) -> approxSectionArea spheres coord axis = Area 0.
Proof.
  intros A R0 H. unfold approxSectionArea. replace ((axis <? 0) || (2 <? axis))%Z with false by (symmetry; apply orb_false_intro; apply Z.ltb_ge; lia).
  replace (filter (fun s => negb (skipped coord axis s)) spheres) with (@nil (vec * R)); [reflexivity|]. symmetry. induction spheres as [|s l IH]; [reflexivity|]. cbn [filter]. destruct (skipped coord axis s) eqn:E; [cbn [negb]; apply IH; intros; [apply R0|apply H]; right; assumption|]. exfalso. apply (H s); [left; reflexivity|]. apply (skipped_meets coord axis s); [apply R0; left; reflexivity|exact E].
Qed.
Lemma reduce_two f p : forall out, out <> [] -> exists t, reduce f p out = p :: t /\ t <> [].
Proof. induction out as [|m out IH]; [contradiction|]. intros _. destruct out as [|a out]; [exists [m]; split; [reflexivity|discriminate]|]. cbn [reduce]. destruct (Rle_dec _ 0); [apply IH; discriminate|eexists; split; [reflexivity|discriminate]]. Qed.
Lemma half_two f l r inp : exists t, build_half_hull l r inp f = r :: t /\ t <> [].
Proof.
  unfold build_half_hull. rewrite fold_left_app. cbn [fold_left]. apply reduce_two. assert (G : forall i o, o <> [] -> fold_left (fun out p => reduce f p out) i o <> []); [|apply G; discriminate]. induction i as [|p i IH]; intros o N; [exact N|]. cbn [fold_left]. apply IH. destruct (reduce_two f p o N) as (t & -> & _). discriminate.
Qed.
Lemma hull_nonempty raw P : hull raw = Some P -> P <> [].
Proof.
  unfold hull. destruct (partition_points raw) as [[[[l r] u] lo]|]; [|discriminate]. intros H. injection H as <-. destruct (half_two (-1) l r u) as (t & -> & N). destruct t as [|a t]; [contradiction|]. discriminate.
Qed.
Lemma section_defined spheres coord axis : approxSectionArea spheres coord axis <> Undefined /\ (approxSectionArea spheres coord axis = InvalidAxis <-> ~ (0 <= axis <= 2)%Z).
Proof.
  unfold approxSectionArea. destruct ((axis <? 0) || (2 <? axis))%Z eqn:A.
  - split; [discriminate|]. split; [intros _|reflexivity]. apply orb_true_iff in A. rewrite !Z.ltb_lt in A. lia.
  - apply orb_false_iff in A. rewrite !Z.ltb_ge in A. destruct (flat_map (corners axis) (filter (fun s => negb (skipped coord axis s)) spheres)) as [|c cl] eqn:E; [split; [discriminate|]; split; [discriminate|lia]|].
    assert (N : (2 <= length (c :: cl))%nat). { rewrite <- E. destruct (filter _ spheres); [discriminate|]. cbn [flat_map corners app length]. lia. }
    destruct (hull (c :: cl)) as [h|] eqn:H; [|apply hull_none in H; lia]. pose proof (hull_nonempty _ _ H) as NE. rewrite (area_sides h NE). split; [discriminate|]. split; [discriminate|lia].
Qed.
Lemma section_axis spheres coord axis a : approxSectionArea spheres coord axis = Area a -> 0 <= a.
Proof.
  unfold approxSectionArea. destruct ((axis <? 0) || (2 <? axis))%Z; [discriminate|]. destruct (flat_map _ _) as [|c cl]; [intros H; injection H as <-; lra|]. destruct (hull (c :: cl)) as [h|] eqn:H; [|discriminate]. rewrite (area_sides h (hull_nonempty _ _ H)). intros I. injection I as <-. apply Rabs_pos.
Qed.

(** ** a point that is lost *)
Lemma lost_point : hull [(0, 0); (0, 2); (0, 1); (1, 0)] = Some [(1, 0); (0, 1); (0, 0)].
Proof.
  unfold hull, partition_points, sort_x. cbn [fold_right insert_x fst]. repeat (destruct (Rlt_dec _ _) as [?|?]; try lra; cbn [insert_x fst]).
  cbn [rev app filter]. unfold direction at 1 2 3 4. cbn [fst snd]. repeat (destruct (Rlt_dec _ _) as [?|?]; try lra). unfold build_half_hull. cbn [app fold_left]. repeat (cbn [reduce]; unfold direction; cbn [fst snd]; destruct (Rle_dec _ _) as [?|?]; try lra). reflexivity.
Qed.
Lemma lost_area : simplePolygonArea2d [(1, 0); (0, 1); (0, 0)] = Some (1/2) /\ simplePolygonArea2d [(1, 0); (0, 2); (0, 0)] = Some 1.
Proof. unfold simplePolygonArea2d. cbn [open_sum last fst snd]. split; f_equal; rewrite Rabs_pos_eq; lra. Qed.
(** one sphere of radius 2: its section is in a square of area 16 *)
Lemma too_large : approxSectionArea [(V 0 0 0, 2)] 0 0 = Area (12 * sqrt 3) /\ 16 < 12 * sqrt 3.
Proof.
  assert (S0 : 4 / 3 < sqrt 3). { rewrite <- (sqrt_Rsqr (4 / 3)) by lra. apply sqrt_lt_1; unfold Rsqr; lra. } split; [|lra].
  unfold approxSectionArea. cbn [Z.ltb Z.compare orb]. cbn [filter]. replace (skipped 0 0 (V 0 0 0, 2)) with false. 2:{ symmetry. apply skipped_meets; cbn [snd]; [lra|]. unfold meets, along. cbn [fst snd vx]. rewrite Rminus_0_r, Rabs_R0. lra. }
  cbn [negb flat_map app]. unfold corners. cbn [fst snd]. change ((0 + 1) mod 3)%Z with 1%Z. change ((0 + 2) mod 3)%Z with 2%Z. unfold coordinate. cbn [Z.eqb Pos.eqb vx vy vz app]. generalize (sqrt 3) S0. clear. intros h H.
  unfold hull, partition_points, sort_x. cbn [fold_right insert_x fst]. repeat (destruct (Rlt_dec _ _) as [?|?]; try lra; cbn [insert_x fst]).
  cbn [rev app]. repeat (cbn [filter]; unfold direction at 1; cbn [fst snd]; destruct (Rlt_dec _ _) as [?|?]; try lra). cbn [filter]. unfold build_half_hull. cbn [app fold_left].
  repeat (cbn [reduce]; unfold direction; cbn [fst snd]; destruct (Rle_dec _ _) as [?|?]; try lra). cbn [removelast rev app]. unfold simplePolygonArea2d. cbn [open_sum last fst snd]. f_equal. rewrite Rabs_pos_eq; lra.
Qed.
(** the area of a section is that of a polygon around the corners of all spheres that meet the plane *)
Lemma section_hull spheres coord axis a : approxSectionArea spheres coord axis = Area a -> (exists s, In s spheres /\ meets coord axis s) -> (forall s, In s spheres -> 0 <= snd s) ->
  let cloud := flat_map (corners axis) (filter (fun s => negb (skipped coord axis s)) spheres) in
  (forall s, In s spheres -> meets coord axis s -> incl (corners axis s) cloud) /\ (forall q, In q cloud -> exists s, In s spheres /\ meets coord axis s /\ In q (corners axis s)) /\
  (one_leftmost cloud -> exists P, encloses P cloud /\ incl P cloud /\ forall o, In o cloud -> a = fan o P).
Proof.
  intros H (s0 & I0 & M0) R0 cloud. assert (C : forall s, In s spheres -> meets coord axis s -> incl (corners axis s) cloud).
  { intros s I M q Q. unfold cloud. apply in_flat_map. exists s. split; [|exact Q]. apply filter_In. split; [exact I|]. rewrite (proj2 (skipped_meets coord axis s (R0 s I)) M). reflexivity. }
  split; [exact C|]. split.
  { intros q Q. unfold cloud in Q. apply in_flat_map in Q as (s & F & Q). apply filter_In in F as [F1 F2]. exists s. split; [exact F1|]. split; [|exact Q]. apply skipped_meets; [apply R0; exact F1|]. destruct (skipped coord axis s); [discriminate|reflexivity]. }
  intros O. unfold approxSectionArea in H. destruct ((axis <? 0) || (2 <? axis))%Z; [discriminate|]. fold cloud in H. destruct cloud as [|c cl] eqn:E; [exfalso; apply (C s0 I0 M0 (hd (0,0) (corners axis s0))); left; reflexivity|].
  destruct (hull (c :: cl)) as [P|] eqn:EH; [|discriminate]. exists P. destruct (hull_encloses _ _ O EH) as (H1 & H2 & _). split; [exact H1|]. split; [exact H2|]. intros o Io. rewrite (hull_area _ _ O EH o Io) in H. injection H as <-. reflexivity.
Qed.
Lemma square_case : one_leftmost [(0, 0); (1, 1); (1, -1); (2, 0); (1, 0)].
Proof. exists (0, 0), [], [(1, 1); (1, -1); (2, 0); (1, 0)]. split; [reflexivity|]. intros q. cbn [app In]. intros [<-|[<-|[<-|[<-|[]]]]]; cbn [fst]; lra. Qed.
Lemma corners_leftmost axis s : 0 < snd s -> one_leftmost (corners axis s).
Proof.
  intros R0. unfold corners. cbv zeta. set (a := coordinate (fst s) ((axis + 1) mod 3)). set (b := coordinate (fst s) ((axis + 2) mod 3)). exists (a - snd s, b), [(a + snd s, b)]. eexists. split; [reflexivity|]. intros q. cbn [app In]. intros [<-|[<-|[<-|[<-|[<-|[]]]]]]; cbn [fst]; lra.
Qed.
