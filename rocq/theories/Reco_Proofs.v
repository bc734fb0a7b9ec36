(** Recorders *)
From Coq Require Import Reals List Bool Arith Lia Lra.
From Verif Require Import Vec_Model Vec_Proofs Reco_Model Reco_Spec.
Import ListNotations.

(** ** C284 *)
Lemma same_name_iff a b : same_name a b = true <-> a = b.
Proof.
  unfold same_name. rewrite andb_true_iff, Nat.eqb_eq. destruct a as [a [i|]], b as [b [j|]]; cbn [fst snd]; rewrite ?Nat.eqb_eq; split; intros H; try (destruct H; congruence); try (injection H as -> ->; auto); try (injection H as ->; auto); try discriminate H.
Qed.
Lemma same_refl a : same_name a a = true. Proof. apply same_name_iff. reflexivity. Qed.
Lemma set_same {A} (fs : files A) n l : set_file fs n l n = l. Proof. unfold set_file. rewrite same_refl. reflexivity. Qed.
Lemma set_other {A} (fs : files A) n l m : m <> n -> set_file fs n l m = fs m.
Proof. intros N. unfold set_file. destruct (same_name m n) eqn:E; [apply same_name_iff in E; contradiction|reflexivity]. Qed.
Theorem appended {A} c (l : list (nat * A)) : file c <> 0 -> truncate c = false -> addIterNum c = false -> forall fs out, out = None \/ out = Some (file c, None) ->
  exists fs' out', records c (fs, out) l = Some (fs', out') /\ fs' (file c, None) = fs (file c, None) ++ map snd l /\ (forall m, m <> (file c, None) -> fs' m = fs m).
Proof.
  intros F T I. induction l as [|[i r] l IH]; intros fs out O.
  - exists fs, out. split; [reflexivity|]. rewrite app_nil_r. split; reflexivity.
  - cbn [records]. assert (E : record c (fs, out) i r = Some (set_file fs (file c, None) (fs (file c, None) ++ [r]), if closes c then None else Some (file c, None))).
    { unfold record, open_name, opened. rewrite I, T. destruct O as [-> | ->]; [|reflexivity]. apply Nat.eqb_neq in F. rewrite F. reflexivity. }
    rewrite E. destruct (IH (set_file fs (file c, None) (fs (file c, None) ++ [r])) (if closes c then None else Some (file c, None))) as (fs' & out' & R1 & R2 & R3); [destruct (closes c); auto|].
    exists fs', out'. split; [exact R1|]. split; [rewrite R2, set_same, <- app_assoc; reflexivity|]. intros m M. rewrite (R3 m M). apply set_other. exact M.
Qed.
(** kept open: only what was there before is deleted *)
Theorem kept_open {A} c (l : list (nat * A)) i r fs : file c <> 0 -> truncate c = true -> addIterNum c = false -> closes c = false ->
  exists fs' out', records c (fs, None) ((i, r) :: l) = Some (fs', out') /\ fs' (file c, None) = r :: map snd l /\ (forall m, m <> (file c, None) -> fs' m = fs m).
Proof.
  intros F T I C. cbn [records]. assert (E : record c (fs, None) i r = Some (set_file (set_file fs (file c, None) []) (file c, None) [r], Some (file c, None))).
  { unfold record, open_name, opened. rewrite I, T, C. apply Nat.eqb_neq in F. rewrite F, set_same. reflexivity. }
  rewrite E. assert (G : forall (l : list (nat * A)) (fs : files A), exists fs' out', records c (fs, Some (file c, None)) l = Some (fs', out') /\ fs' (file c, None) = fs (file c, None) ++ map snd l /\ (forall m, m <> (file c, None) -> fs' m = fs m)).
  { clear - C. induction l as [|[i r] l IH]; intros fs; [exists fs, (Some (file c, None)); split; [reflexivity|]; rewrite app_nil_r; split; reflexivity|]. cbn [records record]. rewrite C. destruct (IH (set_file fs (file c, None) (fs (file c, None) ++ [r]))) as (fs' & out' & R1 & R2 & R3). exists fs', out'. split; [exact R1|]. split; [rewrite R2, set_same, <- app_assoc; reflexivity|]. intros m M. rewrite (R3 m M). apply set_other. exact M. }
  destruct (G l (set_file (set_file fs (file c, None) []) (file c, None) [r])) as (fs' & out' & R1 & R2 & R3). exists fs', out'. split; [exact R1|]. split; [rewrite R2, set_same; reflexivity|]. intros m M. rewrite (R3 m M), !set_other by exact M. reflexivity.
Qed.
(** closed at each step: a file of its own for each step *)
Theorem numbered_files {A} c (l : list (nat * A)) : addIterNum c = true -> closes c = true -> NoDup (map fst l) -> forall fs,
  exists fs', records c (fs, None) l = Some (fs', None) /\ (forall i r, In (i, r) l -> fs' (file c, Some i) = (if truncate c then [] else fs (file c, Some i)) ++ [r]) /\ (forall m, (forall i, In i (map fst l) -> m <> (file c, Some i)) -> fs' m = fs m).
Proof.
  intros I C. induction l as [|[i r] l IH]; intros ND fs; [exists fs; split; [reflexivity|]; split; [intros i r []|reflexivity]|]. cbn [map fst] in ND. inversion ND as [|? ? N1 N2]; subst. cbn [records]. set (n := (file c, Some i) : name).
  assert (E : record c (fs, None) i r = Some (set_file (opened c fs n) n (opened c fs n n ++ [r]), None)) by (unfold record, open_name; rewrite I, C; reflexivity). rewrite E.
  destruct (IH N2 (set_file (opened c fs n) n (opened c fs n n ++ [r]))) as (fs' & R1 & R2 & R3). assert (OT : forall m, m <> n -> set_file (opened c fs n) n (opened c fs n n ++ [r]) m = fs m) by (intros m M; rewrite set_other by exact M; unfold opened; destruct (truncate c); [apply set_other; exact M|reflexivity]).
  exists fs'. split; [exact R1|]. split.
  - intros j q [[= <- <-] | J].
    + rewrite R3; [rewrite set_same; unfold opened, n; destruct (truncate c); [rewrite set_same; reflexivity|reflexivity]|]. intros k K [= <-]. contradiction.
    + rewrite (R2 j q J). rewrite OT; [reflexivity|]. intros [= ->]. apply N1. apply in_map_iff. exists (i, q). split; [reflexivity|exact J].
  - intros m M. rewrite R3; [apply OT; apply M; left; reflexivity|]. intros k K. apply M. right. exact K.
Qed.
(** closed at each step and emptied at each opening: the last row only *)
Theorem emptied_refuted {A} c (l : list (nat * A)) i r fs : file c <> 0 -> truncate c = true -> addIterNum c = false -> closes c = true ->
  exists fs', records c (fs, None) (l ++ [(i, r)]) = Some (fs', None) /\ fs' (file c, None) = [r].
Proof.
  intros F T I C. assert (E : forall fs i r, record c (fs, None) i r = Some (set_file (set_file fs (file c, None) ([] : list A)) (file c, None) [r], None)).
  { intros fs0 i0 r0. unfold record, open_name, opened. rewrite I, T, C. apply Nat.eqb_neq in F. rewrite F, set_same. reflexivity. }
  revert fs. induction l as [|[j q] l IH]; intros fs; cbn [app records]; rewrite E; [eexists; split; [reflexivity|apply set_same]|apply IH].
Qed.
(** kept open with numbers of steps: one file *)
Theorem one_file_refuted {A} c (l : list (nat * A)) i r fs : addIterNum c = true -> closes c = false -> truncate c = false ->
  exists fs', records c (fs, None) ((i, r) :: l) = Some (fs', Some (file c, Some i)) /\ fs' (file c, Some i) = fs (file c, Some i) ++ r :: map snd l /\ (forall m, m <> (file c, Some i) -> fs' m = fs m).
Proof.
  intros I C T. set (n := (file c, Some i) : name). assert (G : forall (l : list (nat * A)) (fs : files A), exists fs', records c (fs, Some n) l = Some (fs', Some n) /\ fs' n = fs n ++ map snd l /\ (forall m, m <> n -> fs' m = fs m)).
  { clear - C. induction l as [|[j r] l IH]; intros fs; [exists fs; split; [reflexivity|]; rewrite app_nil_r; split; reflexivity|]. cbn [records record]. rewrite C. destruct (IH (set_file fs n (fs n ++ [r]))) as (fs' & R1 & R2 & R3). exists fs'. split; [exact R1|]. split; [rewrite R2, set_same, <- app_assoc; reflexivity|]. intros m M. rewrite (R3 m M). apply set_other. exact M. }
  cbn [records]. assert (E : record c (fs, None) i r = Some (set_file fs n (fs n ++ [r]), Some n)) by (unfold record, open_name, opened; rewrite I, C, T; reflexivity). rewrite E. destruct (G l (set_file fs n (fs n ++ [r]))) as (fs' & R1 & R2 & R3). exists fs'. split; [exact R1|]. split; [rewrite R2, set_same, <- app_assoc; reflexivity|]. intros m M. rewrite (R3 m M). apply set_other. exact M.
Qed.

(** ** C285 *)
Local Open Scope R_scope.
Lemma vadd_assoc' a b c : vadd (vadd a b) c = vadd a (vadd b c). Proof. unfold vadd. cbn [vx vy vz]. f_equal; ring. Qed.
Lemma vadd_0 a : vadd vzero a = a. Proof. destruct a as [x y z]. unfold vadd, vzero. cbn [vx vy vz]. f_equal; ring. Qed.
Lemma vadd_0r a : vadd a vzero = a. Proof. destruct a as [x y z]. unfold vadd, vzero. cbn [vx vy vz]. f_equal; ring. Qed.
Theorem force_sum world ids : totalForce world ids = vsum (map lforce (existing world ids)).
Proof.
  unfold totalForce. assert (G : forall ids s, fold_left (fun s i => match world i with Some b => vadd s (lforce b) | None => s end) ids s = vadd s (vsum (map lforce (existing world ids)))).
  { clear ids. induction ids as [|i ids IH]; intros s; cbn [fold_left existing]; [cbn [map vsum]; symmetry; apply vadd_0r|]. rewrite IH. destruct (world i) as [b|]; [|reflexivity]. cbn [map vsum]. apply vadd_assoc'. }
  rewrite G. apply vadd_0.
Qed.
(** the moment of a force is counted with the wrong sign *)
Lemma sign axis r f : norm2 axis = 1 -> dot axis (cross (cross axis (cross axis r)) f) = - dot axis (cross r f).
Proof.
  intros N. unfold norm2 in N. assert (E : dot axis (cross (cross axis (cross axis r)) f) = - (dot axis axis * dot axis (cross r f))) by (unfold dot, cross; cbn [vx vy vz]; ring). rewrite E, N. ring.
Qed.
Theorem torque_sum axis zero world ids : norm2 axis = 1 -> totalTorque axis zero world ids = rsum (map (fun b => dot axis (ltorque b) - of_force axis zero b) (existing world ids)).
Proof.
  intros N. unfold totalTorque. assert (G : forall ids s, fold_left (fun s i => match world i with
                        | Some b => let rad := cross axis (cross axis (vsub (lpos b) zero)) in s + dot axis (vadd (ltorque b) (cross rad (lforce b)))
                        | None => s
                        end) ids s = s + rsum (map (fun b => dot axis (ltorque b) - of_force axis zero b) (existing world ids))).
  { clear ids. induction ids as [|i ids IH]; intros s; cbn [fold_left existing]; [cbn [map rsum]; ring|]. rewrite IH. destruct (world i) as [b|]; [|reflexivity]. cbn [map rsum]. cbv zeta. assert (D : forall a b c, dot a (vadd b c) = dot a b + dot a c) by (intros; unfold dot, vadd; cbn [vx vy vz]; ring). rewrite D, (sign axis _ _ N). unfold of_force. ring. }
  rewrite G. ring.
Qed.
Lemma rsum_ext {A} (f g : A -> R) l : (forall x, In x l -> f x = g x) -> rsum (map f l) = rsum (map g l).
Proof. induction l as [|x l IH]; intros H; [reflexivity|]. cbn [map rsum]. rewrite (H x (or_introl eq_refl)), IH; [reflexivity|]. intros y Y. apply H. right. exact Y. Qed.
Theorem torque_right axis zero world ids : norm2 axis = 1 -> (forall b, In b (existing world ids) -> of_force axis zero b = 0) -> totalTorque axis zero world ids = rsum (map (torque_about axis zero) (existing world ids)).
Proof.
  intros N H. rewrite (torque_sum axis zero world ids N). apply rsum_ext. intros b B. pose proof (H b B) as Z. unfold torque_about, of_force in *. assert (D : forall a b c, dot a (vadd b c) = dot a b + dot a c) by (intros; unfold dot, vadd; cbn [vx vy vz]; ring). rewrite D, Z. ring.
Qed.
Theorem torque_reversed_refuted axis zero world ids : norm2 axis = 1 -> (forall b, In b (existing world ids) -> ltorque b = vzero) -> totalTorque axis zero world ids = - rsum (map (torque_about axis zero) (existing world ids)).
Proof.
  intros N H. rewrite (torque_sum axis zero world ids N). assert (O : forall l, - rsum l = rsum (map Ropp l)) by (induction l as [|x l IH]; cbn [map rsum]; [ring|rewrite <- IH; ring]). rewrite O, map_map. apply rsum_ext. intros b B. unfold torque_about, of_force. rewrite (H b B), vadd_0. assert (Z : dot axis vzero = 0) by (unfold dot, vzero; cbn [vx vy vz]; ring). rewrite Z. ring.
Qed.
Theorem pusher_refuted : totalTorque (V 0 0 1) vzero (fun _ => Some pusher) [0%nat] = -1 /\ torque_about (V 0 0 1) vzero pusher = 1.
Proof. split; unfold totalTorque, torque_about, pusher; cbn [fold_left lpos lforce ltorque]; cbv zeta; unfold dot, cross, vadd, vsub, vzero; cbn [vx vy vz]; ring. Qed.
