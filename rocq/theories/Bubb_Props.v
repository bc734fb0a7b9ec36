(** Properties C286-C289: elastic contacts and bubbles *)
From Coq Require Import Reals List Bool Arith Lia Lra.
From Verif Require Import Vec_Model Bubb_Model Bubb_Spec Bubb_Proofs.
Import ListNotations.

Local Open Scope R_scope.
(** C286. The stiffness of two spheres is the harmonic average of modulus times radius; *)
Theorem C286_spheres_partial Ea Eb r1 r2 : 0 < Ea -> 0 < Eb -> 0 < r1 -> 0 < r2 -> norm_kn Ea Eb (Some (r1, r2)) = Some (harmonic (Ea * r1) (Eb * r2)).
Proof. exact (stiffness Ea Eb r1 r2). Qed.
Print Assumptions C286_spheres_partial.
Example C286_spheres_case : 0 < 1 /\ 0 < 2.
Proof. lra. Qed.
(** a body without radius has that of the other; *)
Theorem C286_flat_partial Ea Eb r : 0 < Ea -> 0 < Eb -> 0 < r -> norm_kn Ea Eb (Some (r, 0)) = Some (harmonic (Ea * r) (Eb * r)) /\ norm_kn Ea Eb (Some (0, r)) = Some (harmonic (Ea * r) (Eb * r)).
Proof. exact (stiffness_flat Ea Eb r). Qed.
Print Assumptions C286_flat_partial.
Example C286_flat_case : norm_kn 1 1 (Some (2, 0)) = Some 2.
Proof. destruct (stiffness_flat 1 1 2) as (E & _); try lra. rewrite E. f_equal. unfold harmonic. field. Qed.
(** without spheres it is that of the moduli; *)
Theorem C286_other_partial Ea Eb : 0 < Ea -> 0 < Eb -> norm_kn Ea Eb None = Some (harmonic Ea Eb).
Proof. exact (stiffness_other Ea Eb). Qed.
Print Assumptions C286_other_partial.
Example C286_other_case : norm_kn 1 1 None = Some 1.
Proof. rewrite stiffness_other by lra. f_equal. unfold harmonic. field. Qed.
(** normal and shear stiffnesses of two spheres are harmonic averages, the latter with the ratio of each; *)
Theorem C286_shear_partial Ea Eb Va Vb r1 r2 : 0 < Ea -> 0 < Eb -> 0 < Va -> 0 < Vb -> 0 < r1 -> 0 < r2 -> normshear Ea Eb Va Vb (Some (r1, r2)) = (Some (harmonic (Ea * r1) (Eb * r2)), Some (harmonic (Ea * r1 * Va) (Eb * r2 * Vb))).
Proof. exact (shear Ea Eb Va Vb r1 r2). Qed.
Print Assumptions C286_shear_partial.
Example C286_shear_case : 0 < 1 /\ 0 < / 2.
Proof. lra. Qed.
(** the order of the bodies does not matter. *)
Theorem C286_order_partial Ea Eb Va Vb r1 r2 : 0 < r1 -> 0 < r2 -> norm_kn Ea Eb (Some (r1, r2)) = norm_kn Eb Ea (Some (r2, r1)) /\ norm_kn Ea Eb None = norm_kn Eb Ea None /\ normshear Ea Eb Va Vb (Some (r1, r2)) = normshear Eb Ea Vb Va (Some (r2, r1)) /\ normshear Ea Eb Va Vb None = normshear Eb Ea Vb Va None.
Proof. exact (either_order Ea Eb Va Vb r1 r2). Qed.
Print Assumptions C286_order_partial.
Example C286_order_case : 0 < 1.
Proof. lra. Qed.
(** C286. But contacts other than those of spheres get the shear stiffness as the normal one and no shear stiffness. *)
Theorem C286_other_refuted : normshear 1 1 (/ 2) (/ 2) None = (Some (/ 2), Some 0) /\ norm_kn 1 1 None = Some 1.
Proof. exact (other_refuted). Qed.
Print Assumptions C286_other_refuted.

(** C287. For fractions below one, the exponential goes on from the curve of bubbles where it begins, with the same force and the same slope, and the force grows with the overlap. *)
Theorem C287_curve_partial pct c1 r : 0 < pct < 1 -> 0 < c1 -> 0 < r -> exists k, computeCoeffs pct c1 r = Some k /\ Dmax k < 0 /\ chan c1 r (Dmax k) (pct * c1 * r) /\ extension k (Dmax k) = pct * c1 * r /\ 0 < start k /\
  derivable_pt_lim (extension k) (Dmax k) (c1 / (ln (pct * c1 * r / (4 * c1 * r)) + 1)) /\ (forall s s', s < s' -> extension k s' < extension k s).
Proof. exact (curve pct c1 r). Qed.
Print Assumptions C287_curve_partial.
Example C287_curve_case : 0 < / 10 < 1.
Proof. lra. Qed.
(** The force is that of the exponential at larger overlaps. *)
Theorem C287_deep_partial iter tol sep c1 r f k : sep < Dmax k -> computeForce iter tol sep c1 r f k = Force (extension k sep).
Proof. exact (deep iter tol sep c1 r f k). Qed.
Print Assumptions C287_deep_partial.
Example C287_deep_case : forall k, Dmax k - 1 < Dmax k.
Proof. intros k. lra. Qed.
(** C287. With a fraction of 4 the force falls as bubbles overlap more, at all overlaps; *)
Theorem C287_falling_refuted c1 r : 0 < c1 -> 0 < r -> exists k, computeCoeffs 4 c1 r = Some k /\ Dmax k = 0 /\ (forall s s', s < s' -> extension k s < extension k s').
Proof. exact (falling_refuted c1 r). Qed.
Print Assumptions C287_falling_refuted.
Example C287_falling_case : 0 < 1.
Proof. lra. Qed.
(** and with 4/e coefficients are quotients by zero. *)
Theorem C287_singular_refuted c1 r : computeCoeffs (4 * exp (-1)) c1 r = None.
Proof. exact (singular_refuted c1 r). Qed.
Print Assumptions C287_singular_refuted.

(** C288. At smaller overlaps a force that is returned is positive and differs by no more than the relative tolerance from one from which a step of Newton for the curve leads to it; *)
Theorem C288_shallow_partial iter tol sep c1 r f0 k f : 0 < tol -> Dmax k <= sep -> computeForce iter tol sep c1 r f0 k = Force f -> 0 < f /\ exists x, 0 < x /\ ln (x / (4 * c1 * r)) + 1 <> 0 /\ f = x + (sep * c1 - x * ln (x / (4 * c1 * r))) / (ln (x / (4 * c1 * r)) + 1) /\ Rabs (f - x) <= tol * x.
Proof. exact (shallow iter tol sep c1 r f0 k f). Qed.
Print Assumptions C288_shallow_partial.
Example C288_shallow_case : 0 < / 10 /\ Dmax (mkC (-1) 1 1 1) <= 0.
Proof. cbn [Dmax]. lra. Qed.
(** so for any number of iterations: the force is positive and the result of a step of Newton from a positive force that differs by no more than the relative tolerance; *)
Theorem C288_result_partial n tol sep c1 c2 : 0 < tol -> forall ret f, newton n tol sep c1 c2 ret = Force f -> 0 < f /\ exists r, 0 < r /\ ln (r * c2) + 1 <> 0 /\ f = r + (sep * c1 - r * ln (r * c2)) / (ln (r * c2) + 1) /\ Rabs (f - r) <= tol * r.
Proof. exact (positive n tol sep c1 c2). Qed.
Print Assumptions C288_result_partial.
Example C288_result_case : newton 1 (/ 10) 0 1 (1 / (4 * 1 * 1)) (4 * 1 * 1) = Force (4 * 1 * 1).
Proof. apply steady; try lra; [unfold chan|]; (replace (4 * 1 * 1 / (4 * 1 * 1)) with 1 by lra) || (replace (4 * 1 * 1 * (1 / (4 * 1 * 1))) with 1 by lra); rewrite ln_1; lra. Qed.
(** if the overlap does not change, a force on the curve stays exactly. *)
Theorem C288_steady_partial n tol sep c1 r f : 0 <= tol -> 0 < f -> chan c1 r sep f -> ln (f * (1 / (4 * c1 * r))) + 1 <> 0 -> newton (S n) tol sep c1 (1 / (4 * c1 * r)) f = Force f.
Proof. exact (steady n tol sep c1 r f). Qed.
Print Assumptions C288_steady_partial.
Example C288_steady_case : chan 1 1 0 4 /\ ln (4 * (1 / (4 * 1 * 1))) + 1 <> 0.
Proof. split; [unfold chan; replace (4 / (4 * 1 * 1)) with 1 by lra|replace (4 * (1 / (4 * 1 * 1))) with 1 by lra]; rewrite ln_1; lra. Qed.
(** C288. From a force of 4/e times the largest the result is not a number, without an error. *)
Theorem C288_vertical_refuted n tol sep c1 r : 0 < c1 -> 0 < r -> newton n tol sep c1 (1 / (4 * c1 * r)) (4 * c1 * r * exp (-1)) = NotANumber.
Proof. exact (vertical_refuted n tol sep c1 r). Qed.
Print Assumptions C288_vertical_refuted.
Example C288_vertical_case : 0 < 1.
Proof. lra. Qed.
(** C289. A contact of bubbles is removed just if there is no overlap; *)
Theorem C289_removed_partial iter tol l b fresh r1 r2 un : go iter tol l b fresh r1 r2 un = None <-> un <= 0.
Proof. exact (removed iter tol l b fresh r1 r2 un). Qed.
Print Assumptions C289_removed_partial.
Example C289_removed_case : 0 < 1.
Proof. lra. Qed.
(** a new contact sets all that the law needs, *)
Theorem C289_fresh_partial iter tol l b r1 r2 un l' b' o : go iter tol l b true r1 r2 un = Some (l', b', o) -> computeCoeffs (pctMaxForce l) (2 * PI * surfaceTension l) (/ 2 * (r1 + r2)) <> None -> o <> Unset /\ made l' b'.
Proof. exact (fresh_made iter tol l b r1 r2 un l' b' o). Qed.
Print Assumptions C289_fresh_partial.
Example C289_fresh_case : computeCoeffs (/ 10) 1 1 <> None.
Proof. destruct (curve (/ 10) 1 1) as (k & E & _); try lra. rewrite E. discriminate. Qed.
(** and for every history of overlaps it stays set; *)
Theorem C289_set_partial iter tol r1 r2 us : forall l b, made l b -> ~ In Unset (history iter tol l b r1 r2 us).
Proof. exact (always_set iter tol r1 r2 us). Qed.
Print Assumptions C289_set_partial.
Example C289_set_case : made (mkLaw (/ 10) 1 (Some 1)) (mkBub 1 1 (-1) (Some (1, 1))).
Proof. split; discriminate. Qed.
(** the force of a deep contact is that of its exponential, *)
Theorem C289_deep_partial iter tol l b r1 r2 un A B : 0 < un -> lost b = Some (A, B) -> - un < saved_Dmax b -> go iter tol l b false r1 r2 un = Some (l, mkBub (A * exp (B * - un)) (rAvg b) (saved_Dmax b) (lost b), Force (A * exp (B * - un))).
Proof. exact (step_deep iter tol l b r1 r2 un A B). Qed.
Print Assumptions C289_deep_partial.
Example C289_deep_case : 0 < 2 /\ - (2) < saved_Dmax (mkBub 1 1 (-1) (Some (1, 1))).
Proof. cbn [saved_Dmax]. lra. Qed.
(** that of others is kept if it is on the curve, *)
Theorem C289_shallow_partial iter tol l b r1 r2 un c : 0 < un -> c1 l = Some c -> saved_Dmax b <= - un -> 0 <= tol -> 0 < fN b -> chan c (rAvg b) (- un) (fN b) -> ln (fN b / (4 * c * rAvg b)) + 1 <> 0 -> go iter tol l b false r1 r2 un = Some (l, b, Force (fN b)).
Proof. exact (step_shallow iter tol l b r1 r2 un c). Qed.
Print Assumptions C289_shallow_partial.
Example C289_shallow_case : chan 1 1 0 4 /\ ln (4 / (4 * 1 * 1)) + 1 <> 0.
Proof. unfold chan. replace (4 / (4 * 1 * 1)) with 1 by lra. rewrite ln_1. lra. Qed.
(** that of a new deep one is that of the exponential of the tension and of the mean radius; *)
Theorem C289_new_partial iter tol l b r1 r2 un k : 0 < un -> computeCoeffs (pctMaxForce l) (2 * PI * surfaceTension l) (/ 2 * (r1 + r2)) = Some k -> - un < Dmax k -> exists l' b', go iter tol l b true r1 r2 un = Some (l', b', Force (extension k (- un))).
Proof. exact (new_contact iter tol l b r1 r2 un k). Qed.
Print Assumptions C289_new_partial.
Example C289_new_case : exists k, computeCoeffs (/ 10) 1 1 = Some k /\ Dmax k < 0.
Proof. destruct (curve (/ 10) 1 1) as (k & E & D & _); try lra. exists k. split; assumption. Qed.
(** forces and moments on both are balanced. *)
Theorem C289_balance_partial f normal cp p1 p2 : vadd (fst (fst (apply f normal cp p1 p2))) (fst (snd (apply f normal cp p1 p2))) = vzero /\
  vadd (vadd (snd (fst (apply f normal cp p1 p2))) (cross p1 (fst (fst (apply f normal cp p1 p2))))) (vadd (snd (snd (apply f normal cp p1 p2))) (cross p2 (fst (snd (apply f normal cp p1 p2))))) = vzero.
Proof. exact (balance f normal cp p1 p2). Qed.
Print Assumptions C289_balance_partial.

(** C289. But three numbers are not saved: after loading, the first step of every contact with overlap reads one that was never set. *)
Theorem C289_reload_refuted iter tol l b r1 r2 un : 0 < un -> let (l', b') := reload l b in exists b2, go iter tol l' b' false r1 r2 un = Some (l', b2, Unset).
Proof. exact (reload_refuted iter tol l b r1 r2 un). Qed.
Print Assumptions C289_reload_refuted.
Example C289_reload_case : 0 < 1.
Proof. lra. Qed.
