From Coq Require Import Reals List ZArith NArith Bool Lra Lia.
From Verif Require Import Vec_Model Attr_Model Strain_Model Strain_Spec.
Import ListNotations.
Local Open Scope R_scope.

Lemma coord_set v a x : coord (set_coord v a x) a = x.
Proof. destruct a as [|[|a]]; reflexivity. Qed.
Lemma coord_set_other v a x : (a < 3)%nat -> other_coords a (set_coord v a x) v.
Proof. intros A k K N. destruct a as [|[|[|a]]]; [| | |lia]; destruct k as [|[|[|k]]]; try lia; reflexivity. Qed.
Lemma block_spec c ids : forall w w', block c ids w = Some w' -> (forall i, In i ids -> w i <> None) /\
  forall i, w' i = match w i with Some b => if in_dec Nat.eq_dec i ids then Some (mkB (bpos b) (bvel b) (blocked c)) else Some b | None => None end.
Proof.
  induction ids as [|a ids IH]; intros w w' E; cbn [block] in E.
  - injection E as <-. split; [intros i []|]. intros i. destruct (w i); reflexivity.
  - destruct (w a) as [b|] eqn:A; [|discriminate]. apply IH in E. destruct E as [X Y]. split.
    + intros i [<-|I]; [congruence|]. destruct (Nat.eq_dec i a) as [Ei|Ni]; [rewrite Ei; congruence|]. specialize (X i I). unfold put in X. apply Nat.eqb_neq in Ni. rewrite Ni in X. exact X.
    + intros i. rewrite Y. unfold put. destruct (Nat.eqb_spec i a) as [->|N].
      * rewrite A. destruct (in_dec Nat.eq_dec a (a :: ids)) as [_|Z]; [|destruct Z; left; reflexivity]. destruct (in_dec Nat.eq_dec a ids); reflexivity.
      * destruct (w i) as [b'|]; [|reflexivity]. destruct (in_dec Nat.eq_dec i ids) as [I|I], (in_dec Nat.eq_dec i (a :: ids)) as [J|J]; try reflexivity; [destruct J; right; exact I|destruct J as [->|J]; contradiction].
Qed.
Lemma block_some c ids : forall w, (forall i, In i ids -> w i <> None) -> exists w', block c ids w = Some w'.
Proof.
  induction ids as [|a ids IH]; intros w H; cbn [block]; [exists w; reflexivity|]. destruct (w a) as [b|] eqn:A; [|destruct (H a (or_introl eq_refl) A)]. apply IH. intros i I. unfold put. destruct (Nat.eqb i a); [discriminate|]. apply H. right. exact I.
Qed.
Lemma drive_spec a v ids : forall w w', drive a v ids w = Some w' -> (forall i, In i ids -> w i <> None) /\
  forall i, w' i = match w i with Some b => if in_dec Nat.eq_dec i ids then Some (mkB (bpos b) (set_coord (bvel b) a v) (dofs b)) else Some b | None => None end.
Proof.
  induction ids as [|k ids IH]; intros w w' E; cbn [drive] in E.
  - injection E as <-. split; [intros i []|]. intros i. destruct (w i); reflexivity.
  - destruct (w k) as [b|] eqn:A; [|discriminate]. apply IH in E. destruct E as [X Y]. split.
    + intros i [<-|I]; [congruence|]. destruct (Nat.eq_dec i k) as [Ei|Ni]; [rewrite Ei; congruence|]. specialize (X i I). unfold put in X. apply Nat.eqb_neq in Ni. rewrite Ni in X. exact X.
    + intros i. rewrite Y. unfold put. destruct (Nat.eqb_spec i k) as [->|N].
      * rewrite A. destruct (in_dec Nat.eq_dec k (k :: ids)) as [_|Z]; [|destruct Z; left; reflexivity]. destruct (in_dec Nat.eq_dec k ids); [|reflexivity]. cbn [bpos bvel dofs]. do 2 f_equal. destruct a as [|[|a]]; reflexivity.
      * destruct (w i) as [b'|]; [|reflexivity]. destruct (in_dec Nat.eq_dec i ids) as [I|I], (in_dec Nat.eq_dec i (k :: ids)) as [J|J]; try reflexivity; [destruct J; right; exact I|destruct J as [->|J]; contradiction].
Qed.
Lemma drive_some a v ids : forall w, (forall i, In i ids -> w i <> None) -> exists w', drive a v ids w = Some w'.
Proof.
  induction ids as [|k ids IH]; intros w H; cbn [drive]; [exists w; reflexivity|]. destruct (w k) as [b|] eqn:A; [|destruct (H k (or_introl eq_refl) A)]. apply IH. intros i I. unfold put. destruct (Nat.eqb i k); [discriminate|]. apply H. right. exact I.
Qed.
(** the axis is always blocked *)
Lemma blocked_axis c : (axis c < 3)%nat -> N.land (blocked c) (axisDOF (N.of_nat (axis c)) false) <> 0%N.
Proof. intros A. unfold blocked. destruct (axis c) as [|[|[|a]]]; [| | |lia]; destruct (blockDisplacements c), (blockRotations c); cbn; discriminate. Qed.

(** ** initialization *)
Theorem init_done c sc s w s' sc' w' : init c sc s w = Done s' sc' w' -> exists p0 p1 r,
  axisCoord c w (posIds c) = Some p1 /\ axisCoord c w (negIds c) = Some p0 /\ originalLength s' = p1 - p0 /\ 0 < p1 - p0 /\
  strainRate s' = Some r /\ absSpeed s' = Some (r * (p1 - p0)) /\ (forall q, strainRate s = Some q -> r = q) /\ (forall a, strainRate s = None -> absSpeed s = Some a -> r * (p1 - p0) = a) /\
  sc' = sc /\ needsInit s' = false /\ currentStrainRate s' = currentStrainRate s /\ active s' = active s /\ notYetReversed s' = notYetReversed s /\
  (forall i, In i (posIds c) \/ In i (negIds c) -> exists b, w i = Some b /\ w' i = Some (mkB (bpos b) (bvel b) (blocked c))) /\
  (forall i, ~ (In i (posIds c) \/ In i (negIds c)) -> if setSpeeds c then
      forall b, w i = Some b -> exists v0 v1, ends (asymmetry c) (r * (p1 - p0)) = Some (v0, v1) /\ w' i = Some (mkB (bpos b) (set_coord (bvel b) (axis c) ((coord (bpos b) (axis c) - p0) / (p1 - p0) * (v1 - v0) + v0)) (dofs b))
    else w' i = w i).
Proof.
  unfold init. cbn [active strainRate absSpeed currentStrainRate initAccelTime_s originalLength notYetReversed strain avgStress]. destruct (block c (posIds c) w) as [w1|] eqn:B1; [|discriminate]. destruct (block c (negIds c) w1) as [w2|] eqn:B2; [|discriminate].
  apply block_spec in B1, B2. destruct B1 as [X1 Y1], B2 as [X2 Y2].
  assert (K : forall i, w2 i = match w i with Some b => if in_dec Nat.eq_dec i (posIds c ++ negIds c) then Some (mkB (bpos b) (bvel b) (blocked c)) else Some b | None => None end).
  { intros i. rewrite Y2, Y1. destruct (w i) as [b|]; [|reflexivity]. destruct (in_dec Nat.eq_dec i (posIds c)) as [I|I], (in_dec Nat.eq_dec i (negIds c)) as [J|J], (in_dec Nat.eq_dec i (posIds c ++ negIds c)) as [Q|Q]; try reflexivity; rewrite in_app_iff in Q; tauto. }
  assert (A : forall ids, axisCoord c w2 ids = axisCoord c w ids). { intros [|i ids]; [reflexivity|]. cbn [axisCoord]. rewrite K. destruct (w i) as [b|]; [|reflexivity]. destruct (in_dec _ _ _); reflexivity. }
  rewrite !A. destruct (axisCoord c w (posIds c)) as [p1|]; [|discriminate]. destruct (axisCoord c w (negIds c)) as [p0|]; [|discriminate]. destruct (Rle_dec (p1 - p0) 0) as [|L]; [discriminate|].
  assert (P : 0 < p1 - p0) by lra. intros E.
  assert (R : exists r, (match strainRate s, absSpeed s with None, None => None | None, Some a => Some (a / (p1 - p0), a) | Some q, _ => Some (q, q * (p1 - p0)) end) = Some (r, r * (p1 - p0)) /\ (forall q, strainRate s = Some q -> r = q) /\ (forall a, strainRate s = None -> absSpeed s = Some a -> r * (p1 - p0) = a)).
  { destruct (strainRate s) as [q|]; [exists q; split; [reflexivity|]; split; [congruence|discriminate]|]. destruct (absSpeed s) as [a|]; [|discriminate E]. exists (a / (p1 - p0)). assert (D : a / (p1 - p0) * (p1 - p0) = a) by (field; lra). split; [rewrite D; reflexivity|]. split; [discriminate|]. intros a' _ Q. injection Q as <-. exact D. }
  destruct R as [r [R [R1 R2]]]. cbv zeta in E. rewrite R in E. exists p0, p1, r.
  assert (G : forall w3, (match crossSectionArea c with None => Throws (mkU false (active s) (Some r) (Some (r * (p1 - p0))) (currentStrainRate s) (if setSpeeds c then 0 else if Rle_dec 0 (initAccelTime c) then initAccelTime c else dt sc * (- initAccelTime c)) (p1 - p0) (notYetReversed s) (strain s) (avgStress s)) w3
     | Some _ => Done (mkU false (active s) (Some r) (Some (r * (p1 - p0))) (currentStrainRate s) (if setSpeeds c then 0 else if Rle_dec 0 (initAccelTime c) then initAccelTime c else dt sc * (- initAccelTime c)) (p1 - p0) (notYetReversed s) (strain s) (avgStress s)) sc w3 end) = Done s' sc' w' ->
     w' = w3 /\ originalLength s' = p1 - p0 /\ strainRate s' = Some r /\ absSpeed s' = Some (r * (p1 - p0)) /\ sc' = sc /\ needsInit s' = false /\ currentStrainRate s' = currentStrainRate s /\ active s' = active s /\ notYetReversed s' = notYetReversed s).
  { intros w3 Q. destruct (crossSectionArea c); [|discriminate]. injection Q as <- <- <-. tauto. }
  destruct (setSpeeds c) eqn:SS.
  - destruct (ends (asymmetry c) (r * (p1 - p0))) as [[v0 v1]|] eqn:EN; [|discriminate]. apply G in E. destruct E as [-> [E1 [E2 [E3 [E4 [E5 [E6 [E7 E8]]]]]]]]. repeat (split; [assumption||reflexivity|]). split.
    + intros i I. assert (Q : In i (posIds c ++ negIds c)) by (apply in_app_iff; exact I). destruct (w i) as [b|] eqn:W.
      * exists b. split; [reflexivity|]. unfold spread. rewrite K, W. destruct (in_dec Nat.eq_dec i (posIds c ++ negIds c)) as [_|Z]; [|contradiction]. destruct (in_dec Nat.eq_dec i (posIds c)) as [_|Z1]; [reflexivity|]. destruct (in_dec Nat.eq_dec i (negIds c)) as [_|Z2]; [reflexivity|]. tauto.
      * exfalso. destruct I as [I|I]; [apply (X1 i I W)|]. apply (X2 i I). rewrite Y1, W. reflexivity.
    + intros i I b W. exists v0, v1. split; [reflexivity|]. unfold spread. rewrite K, W. destruct (in_dec Nat.eq_dec i (posIds c ++ negIds c)) as [Z|_]; [rewrite in_app_iff in Z; contradiction|]. destruct (in_dec Nat.eq_dec i (posIds c)) as [Z|_]; [tauto|]. destruct (in_dec Nat.eq_dec i (negIds c)) as [Z|_]; [tauto|]. reflexivity.
  - apply G in E. destruct E as [-> [E1 [E2 [E3 [E4 [E5 [E6 [E7 E8]]]]]]]]. repeat (split; [assumption||reflexivity|]). split.
    + intros i I. assert (Q : In i (posIds c ++ negIds c)) by (apply in_app_iff; exact I). destruct (w i) as [b|] eqn:W.
      * exists b. split; [reflexivity|]. rewrite K, W. destruct (in_dec Nat.eq_dec i (posIds c ++ negIds c)) as [_|Z]; [reflexivity|contradiction].
      * exfalso. destruct I as [I|I]; [apply (X1 i I W)|]. apply (X2 i I). rewrite Y1, W. reflexivity.
    + intros i I. rewrite K. destruct (w i) as [b|]; [|reflexivity]. destruct (in_dec Nat.eq_dec i (posIds c ++ negIds c)) as [Z|_]; [rewrite in_app_iff in Z; contradiction|reflexivity].
Qed.

(** ** one action *)
Definition half (c : conf) (d : R) : R := if (asymmetry c =? 0)%Z then d * (1/2) else d.
Lemma act_done c sc F s w s' sc' w' : act c sc F s w = Done s' sc' w' -> posIds c <> [] -> negIds c <> [] -> exists r p0 p1 d reached,
  rate sc s = Some r /\ axisCoord c w (posIds c) = Some p1 /\ axisCoord c w (negIds c) = Some p0 /\ limited c s (p1 - p0) (r * originalLength s * dt sc) = (d, reached) /\
  sc' = (if reached then mkS (time sc) (dt sc) (iter sc) (iter sc + 1 + idleIterations c) else sc) /\
  active s' = active s && negb reached /\ strainRate s' = strainRate s /\ (currentStrainRate s' = Some r \/ currentStrainRate s' = Some (r * -1)) /\ originalLength s' = originalLength s /\
  strain s' = (p1 - p0) / originalLength s - 1 /\ needsInit s' = needsInit s /\ initAccelTime_s s' = initAccelTime_s s /\
  (forall i, w' i = match w i with
     | Some b => if in_dec Nat.eq_dec i (posIds c) then if (asymmetry c =? -1)%Z then if in_dec Nat.eq_dec i (negIds c) then Some (mkB (bpos b) (set_coord (bvel b) (axis c) (- half c d / dt sc)) (dofs b)) else Some b else Some (mkB (bpos b) (set_coord (bvel b) (axis c) (half c d / dt sc)) (dofs b))
                 else if in_dec Nat.eq_dec i (negIds c) then if (asymmetry c =? 1)%Z then Some b else Some (mkB (bpos b) (set_coord (bvel b) (axis c) (- half c d / dt sc)) (dofs b))
                 else Some b
     | None => None end) /\
  (exists turned, currentStrainRate s' = Some (if turned : bool then r * -1 else r) /\ notYetReversed s' = notYetReversed s && negb turned) /\
  (Z.rem (iter sc) (stressUpdateInterval c) = 0%Z -> exists A, crossSectionArea c = Some A /\ avgStress s' = (- axialForces (axis c) F (posIds c) + axialForces (axis c) F (negIds c)) / (2 * A)).
Proof.
  intros E NP NN. unfold act in E. destruct (posIds c) as [|i0 P] eqn:EP; [contradiction|]. destruct (negIds c) as [|j0 N] eqn:EN; [contradiction|]. rewrite <- EP, <- EN in *. clear NP NN.
  destruct (rate sc s) as [r|]; [|discriminate]. destruct (axisCoord c w (posIds c)) as [p1|]; [|discriminate]. destruct (axisCoord c w (negIds c)) as [p0|]; [|discriminate]. destruct (limited c s (p1 - p0) (r * originalLength s * dt sc)) as [d reached] eqn:LIM. cbv zeta in E. fold (half c d) in E.
  destruct (if (asymmetry c =? 1)%Z then Some w else drive (axis c) (- half c d / dt sc) (negIds c) w) as [w1|] eqn:D1; [|discriminate].
  destruct (if (asymmetry c =? -1)%Z then Some w1 else drive (axis c) (half c d / dt sc) (posIds c) w1) as [w2|] eqn:D2; [|discriminate].
  destruct (stressUpdateInterval c =? 0)%Z; [discriminate|].
  match type of E with match ?X with _ => _ end = _ => destruct X as [stress|] eqn:ST; [|discriminate] end.
  injection E as <- <- <-. exists r, p0, p1, d, reached. split; [reflexivity|]. split; [reflexivity|]. split; [reflexivity|]. split; [exact LIM|]. split; [reflexivity|]. cbn [active strainRate currentStrainRate originalLength strain needsInit initAccelTime_s avgStress notYetReversed].
  match goal with |- context [if ?b then r * -1 else r] => remember b as turned end.
  split; [reflexivity|]. split; [reflexivity|]. split; [destruct turned; [right|left]; reflexivity|]. split; [reflexivity|]. split; [reflexivity|]. split; [reflexivity|]. split; [reflexivity|]. split.
  - intros i. assert (W1 : w1 i = match w i with Some b => if in_dec Nat.eq_dec i (negIds c) then if (asymmetry c =? 1)%Z then Some b else Some (mkB (bpos b) (set_coord (bvel b) (axis c) (- half c d / dt sc)) (dofs b)) else Some b | None => None end).
    { destruct (asymmetry c =? 1)%Z; [injection D1 as <-; destruct (w i); [destruct (in_dec _ _ _)|]; reflexivity|]. apply drive_spec in D1. apply D1. }
    destruct (asymmetry c =? -1)%Z eqn:AM.
    + injection D2 as <-. rewrite W1. destruct (w i) as [b|]; [|reflexivity]. apply Z.eqb_eq in AM. rewrite AM. cbn [Z.eqb]. destruct (in_dec Nat.eq_dec i (posIds c)), (in_dec Nat.eq_dec i (negIds c)); reflexivity.
    + apply drive_spec in D2. rewrite (proj2 D2 i), W1. destruct (w i) as [b|]; [|reflexivity]. destruct (in_dec Nat.eq_dec i (negIds c)); destruct (asymmetry c =? 1)%Z; destruct (in_dec Nat.eq_dec i (posIds c)); try reflexivity. cbn [bpos bvel dofs]. do 2 f_equal. destruct (axis c) as [|[|a]]; reflexivity.
  - split; [exists turned; split; reflexivity|]. intros Z. rewrite Z in ST. cbn [Z.eqb] in ST. destruct (crossSectionArea c) as [A|]; [|discriminate]. injection ST as <-. exists A. split; reflexivity.
Qed.
