(** Properties C235-C239: piecewise-linear functions *)
From Coq Require Import Reals List ZArith Lra.
From Verif Require Import Lint_Model Lint_Spec Lint_Proofs Lint_Proofs2.
Import ListNotations.
Local Open Scope R_scope.

(** C235. Under a slope: what is returned is the only point of the interval with that area, an error says that there is none or that there are two; a failed assertion says that it could only be where the line crosses the axis. *)
Theorem C235_slope_partial I x0 y0 x1 y1 : x0 < x1 -> y0 <> y1 ->
  match revIntegrateLinear I x0 y0 x1 y1 with
  | Ret x => x0 <= x <= x1 /\ trapezoid x0 y0 x1 y1 x = I /\ forall t, x0 <= t <= x1 -> trapezoid x0 y0 x1 y1 t = I -> t = x
  | NoRadix => forall t, x0 <= t <= x1 -> trapezoid x0 y0 x1 y1 t <> I
  | BothRadices => exists s t, s <> t /\ x0 <= s <= x1 /\ x0 <= t <= x1 /\ trapezoid x0 y0 x1 y1 s = I /\ trapezoid x0 y0 x1 y1 t = I
  | AssertionFailed => forall t, x0 <= t <= x1 -> trapezoid x0 y0 x1 y1 t = I -> on_line x0 y0 x1 y1 t = 0
  | _ => False
  end.
Proof. exact (rev_exact I x0 y0 x1 y1). Qed.
Print Assumptions C235_slope_partial.
Example C235_slope_case : 0 < 1 /\ 1 <> 2 /\ exists x, revIntegrateLinear (5/8) 0 1 1 2 = Ret x.
Proof. split; [lra|]. split; [lra|]. destruct (rev_complete (5/8) 0 1 1 2) as (x & E & _); try lra; [rewrite trap_end; lra|]. exists x. exact E. Qed.
(** C235. Where the line is not below the axis, the point exists and is returned, if the line is above the axis there; also for constant functions. *)
Theorem C235_found_partial I x0 y0 x1 y1 : x0 < x1 -> 0 <= y0 -> 0 <= y1 -> 0 <= I <= trapezoid x0 y0 x1 y1 x1 -> 0 < y0 \/ 0 < I -> 0 < y1 \/ I < trapezoid x0 y0 x1 y1 x1 ->
  exists x, revIntegrateLinear I x0 y0 x1 y1 = Ret x /\ x0 <= x <= x1 /\ trapezoid x0 y0 x1 y1 x = I.
Proof. exact (rev_complete I x0 y0 x1 y1). Qed.
Print Assumptions C235_found_partial.
Example C235_found_case : 0 <= 3 <= trapezoid 0 1 2 2 2.
Proof. rewrite trap_end by lra. lra. Qed.
(** C235 is refuted: for a constant function the range is not checked, *)
Theorem C235_level_refuted : revIntegrateLinear 5 0 1 1 1 = Ret (0 + 5 / 1) /\ ~ (0 <= 0 + 5 / 1 <= 1).
Proof. exact (rev_level_refuted). Qed.
Print Assumptions C235_level_refuted.

(** C235 is refuted: the point on the axis, which is the only one, is not found, *)
Theorem C235_corner_refuted : revIntegrateLinear 0 0 0 1 1 = AssertionFailed /\ trapezoid 0 0 1 1 0 = 0 /\ forall t, 0 <= t <= 1 -> trapezoid 0 0 1 1 t = 0 -> t = 0.
Proof. exact (rev_corner_refuted). Qed.
Print Assumptions C235_corner_refuted.

(** C235 is refuted: for the zero function there is a division by zero instead of an error. *)
Theorem C235_zero_refuted I : revIntegrateLinear I 0 0 1 0 = ZeroDivision.
Proof. exact (rev_zero_refuted I). Qed.
Print Assumptions C235_zero_refuted.

(** C236. The integral is the area under the function, *)
Theorem C236_area x0 y0 l : increasing x0 l -> integral (xs x0 l) (ys y0 l) = Ret (whole x0 y0 l).
Proof. exact (integral_area x0 y0 l). Qed.
Print Assumptions C236_area.
Example C236_area_case : increasing 0 [(1, 2); (3, 1)] /\ positive 1 [(1, 2); (3, 1)].
Proof. split; [cbn [increasing]; lra|]. split; [lra|]. repeat (apply Forall_cons; [cbn [snd]; lra|]). apply Forall_nil. Qed.
(** C236. lists of different lengths are noticed, *)
Theorem C236_lengths (x y : list R) : length x <> length y -> integral x y = AssertionFailed.
Proof. exact (integral_lengths x y). Qed.
Print Assumptions C236_lengths.
Example C236_lengths_case : length [1; 2] <> length [1].
Proof. discriminate. Qed.
(** C236. Area up to t has the height at t as its derivative (between corners), *)
Theorem C236_derivative l : forall x0 y0 t, increasing x0 l -> x0 < t < end_x x0 l -> ~ In t (map fst l) -> derivable_pt_lim (under x0 y0 l) t (height x0 y0 l t).
Proof. exact (under_deriv l). Qed.
Print Assumptions C236_derivative.
Example C236_derivative_case : (increasing 0 [(1, 2); (3, 1)] /\ positive 1 [(1, 2); (3, 1)]) /\ 0 < 2 < end_x 0 [(1, 2); (3, 1)] /\ ~ In 2 (map fst [(1, 2); (3, 1)]).
Proof. split; [|cbn [end_x map fst In]; lra]. split; [cbn [increasing]; lra|]. split; [lra|]. repeat (apply Forall_cons; [cbn [snd]; lra|]). apply Forall_nil. Qed.
(** C236. and grows by trapezoids between corners, so that it has no jumps. *)
Theorem C236_step l : forall x0 y0 s t, increasing x0 l -> x0 <= s -> s <= t -> t <= end_x x0 l -> (forall c, In c (map fst l) -> c <= s \/ t <= c) -> under x0 y0 l t - under x0 y0 l s = (t - s) * (height x0 y0 l s + height x0 y0 l t) / 2.
Proof. exact (under_step l). Qed.
Print Assumptions C236_step.
Example C236_step_case : (increasing 0 [(1, 2); (3, 1)] /\ positive 1 [(1, 2); (3, 1)]) /\ 0 <= 2 /\ 2 <= 5/2 /\ 5/2 <= end_x 0 [(1, 2); (3, 1)] /\ (forall c, In c (map fst [(1, 2); (3, 1)]) -> c <= 2 \/ 5/2 <= c).
Proof. split; [|cbn [end_x map fst In]; split; [lra|split; [lra|split; [lra|intros c [<- |[<- |[]]]; lra]]]]. split; [cbn [increasing]; lra|]. split; [lra|]. repeat (apply Forall_cons; [cbn [snd]; lra|]). apply Forall_nil. Qed.
(** C237. For a function nowhere below the axis, and any area less than the whole, the point is found and is within the range, unless an assertion fails and there is a corner on the axis with that area. *)
Theorem C237_found_partial I x0 y0 l : increasing x0 l -> nonnegative y0 l -> 0 <= I < whole x0 y0 l ->
  (exists x, xFractionalFromIntegral I (xs x0 l) (ys y0 l) = Ret x /\ x0 <= x <= end_x x0 l /\ under x0 y0 l x = I) \/
  (xFractionalFromIntegral I (xs x0 l) (ys y0 l) = AssertionFailed /\ exists x, zero_corner x0 y0 l x /\ x0 <= x <= end_x x0 l /\ under x0 y0 l x = I).
Proof. exact (frac_complete I x0 y0 l). Qed.
Print Assumptions C237_found_partial.
Example C237_found_case : (increasing 0 [(1, 2); (3, 1)] /\ positive 1 [(1, 2); (3, 1)]) /\ 0 <= 2 < whole 0 1 [(1, 2); (3, 1)].
Proof. split; [|rewrite whole_cons by (cbn [increasing]; lra); rewrite whole_cons by (cbn [increasing]; lra); unfold whole; cbn [end_x under]; lra]. split; [cbn [increasing]; lra|]. split; [lra|]. repeat (apply Forall_cons; [cbn [snd]; lra|]). apply Forall_nil. Qed.
(** C237. For a function above the axis it is the inverse of area at every point but the last, *)
Theorem C237_inverse_partial x0 y0 l t : increasing x0 l -> positive y0 l -> x0 <= t < end_x x0 l -> xFractionalFromIntegral (under x0 y0 l t) (xs x0 l) (ys y0 l) = Ret t.
Proof. exact (frac_inverse x0 y0 l t). Qed.
Print Assumptions C237_inverse_partial.
Example C237_inverse_case : (increasing 0 [(1, 2); (3, 1)] /\ positive 1 [(1, 2); (3, 1)]) /\ 0 <= 2 < end_x 0 [(1, 2); (3, 1)].
Proof. split; [|cbn [end_x]; lra]. split; [cbn [increasing]; lra|]. split; [lra|]. repeat (apply Forall_cons; [cbn [snd]; lra|]). apply Forall_nil. Qed.
(** C237. and an area of at least the whole gives an error. *)
Theorem C237_over_partial I x0 y0 l : increasing x0 l -> nonnegative y0 l -> whole x0 y0 l <= I -> xFractionalFromIntegral I (xs x0 l) (ys y0 l) = NotReached.
Proof. exact (frac_over I x0 y0 l). Qed.
Print Assumptions C237_over_partial.
Example C237_over_case : (increasing 0 [(1, 2); (3, 1)] /\ positive 1 [(1, 2); (3, 1)]) /\ whole 0 1 [(1, 2); (3, 1)] <= 5.
Proof. split; [|rewrite whole_cons by (cbn [increasing]; lra); rewrite whole_cons by (cbn [increasing]; lra); unfold whole; cbn [end_x under]; lra]. split; [cbn [increasing]; lra|]. split; [lra|]. repeat (apply Forall_cons; [cbn [snd]; lra|]). apply Forall_nil. Qed.
(** C237 is refuted for the last point: the area up to it gives an error. *)
Theorem C237_end_refuted x0 y0 l : increasing x0 l -> nonnegative y0 l -> xFractionalFromIntegral (under x0 y0 l (end_x x0 l)) (xs x0 l) (ys y0 l) = NotReached.
Proof. exact (frac_end_refuted x0 y0 l). Qed.
Print Assumptions C237_end_refuted.
Example C237_end_case : increasing 0 [(1, 2); (3, 1)] /\ positive 1 [(1, 2); (3, 1)].
Proof. split; [cbn [increasing]; lra|]. split; [lra|]. repeat (apply Forall_cons; [cbn [snd]; lra|]). apply Forall_nil. Qed.
(** C237 is refuted for negative areas: a point before the range is returned instead of an error. *)
Theorem C237_negative_refuted : xFractionalFromIntegral (-1) (xs 0 [(1, 1)]) (ys 1 [(1, 1)]) = Ret (0 + (-1 - 0) / 1) /\ 0 + (-1 - 0) / 1 < 0.
Proof. exact (frac_negative_refuted). Qed.
Print Assumptions C237_negative_refuted.

(** C237 is refuted for a function which starts at the axis: the assertion fails for no area at all. *)
Theorem C237_corner_refuted : xFractionalFromIntegral 0 (xs 0 [(1, 1)]) (ys 0 [(1, 1)]) = AssertionFailed.
Proof. exact (frac_corner_refuted). Qed.
Print Assumptions C237_corner_refuted.

(** C238. For a periodic function above the axis, the point with a given area is found for every point of every period, past ones too, *)
Theorem C238_inverse_partial x0 y0 l (n : Z) t : increasing x0 l -> positive y0 l -> x0 <= t < end_x x0 l ->
  xFromIntegral (IZR n * whole x0 y0 l + under x0 y0 l t) (xs x0 l) (ys y0 l) = Ret ((end_x x0 l - x0) * IZR n + t).
Proof. exact (periodic_inverse x0 y0 l n t). Qed.
Print Assumptions C238_inverse_partial.
Example C238_inverse_case : (increasing 0 [(1, 2); (3, 1)] /\ positive 1 [(1, 2); (3, 1)]) /\ 0 <= 2 < end_x 0 [(1, 2); (3, 1)].
Proof. split; [|cbn [end_x]; lra]. split; [cbn [increasing]; lra|]. split; [lra|]. repeat (apply Forall_cons; [cbn [snd]; lra|]). apply Forall_nil. Qed.
(** C238. and every area is of this kind, so that nothing is ever raised. *)
Theorem C238_total_partial x0 y0 l I : increasing x0 l -> positive y0 l -> l <> [] -> exists (n : Z) t, x0 <= t < end_x x0 l /\ I = IZR n * whole x0 y0 l + under x0 y0 l t.
Proof. exact (periodic_total x0 y0 l I). Qed.
Print Assumptions C238_total_partial.
Example C238_total_case : (increasing 0 [(1, 2); (3, 1)] /\ positive 1 [(1, 2); (3, 1)]) /\ [(1, 2); (3, 1)] <> [].
Proof. split; [|discriminate]. split; [cbn [increasing]; lra|]. split; [lra|]. repeat (apply Forall_cons; [cbn [snd]; lra|]). apply Forall_nil. Qed.
(** C238 is refuted for the zero function, *)
Theorem C238_zero_refuted I : xFromIntegral I (xs 0 [(1, 0)]) (ys 0 [(1, 0)]) = ZeroDivision.
Proof. exact (periodic_zero_refuted I). Qed.
Print Assumptions C238_zero_refuted.

(** C238 is refuted for functions below the axis: an area that exists is not reached, *)
Theorem C238_negative_refuted : under 0 (-1) [(1, -1)] (1/2) = - (1/2) /\ xFromIntegral (- (1/2)) (xs 0 [(1, -1)]) (ys (-1) [(1, -1)]) = NotReached.
Proof. exact (periodic_negative_refuted). Qed.
Print Assumptions C238_negative_refuted.

(** C238 is refuted for functions that start at the axis: the assertion fails for any whole number of periods. *)
Theorem C238_corner_refuted (n : Z) : xFromIntegral (IZR n) (xs 0 [(1, 1); (2, 0)]) (ys 0 [(1, 1); (2, 0)]) = AssertionFailed.
Proof. exact (periodic_corner_refuted n). Qed.
Print Assumptions C238_corner_refuted.

(** C239. Sanitizing gives lists which increase and span the wanted interval; the function is the same everywhere, and constant padding is what is added to its integral. *)
Theorem C239_sanitized xa ya l x0 x1 : increasing xa l ->
  exists h l', sanitizeInterpolation (xs xa l) (ys ya l) x0 x1 = Ret (xs h l', ys ya l') /\ increasing h l' /\ h = Rmin x0 xa /\ end_x h l' = Rmax (end_x xa l) x1 /\
  (forall t, height h ya l' t = height xa ya l t) /\ whole h ya l' = whole xa ya l + (xa - h) * ya + (end_x h l' - end_x xa l) * end_y ya l.
Proof. exact (sanitize_form xa ya l x0 x1). Qed.
Print Assumptions C239_sanitized.
Example C239_sanitized_case : increasing 0 [(1, 2); (3, 1)] /\ positive 1 [(1, 2); (3, 1)].
Proof. split; [cbn [increasing]; lra|]. split; [lra|]. repeat (apply Forall_cons; [cbn [snd]; lra|]). apply Forall_nil. Qed.
(** C239. A function which spans the interval is left as it is. *)
Theorem C239_again xa ya l x0 x1 : xa <= x0 -> x1 <= end_x xa l -> sanitizeInterpolation (xs xa l) (ys ya l) x0 x1 = Ret (xs xa l, ys ya l).
Proof. exact (sanitize_again xa ya l x0 x1). Qed.
Print Assumptions C239_again.
Example C239_again_case : (increasing 0 [(1, 2); (3, 1)] /\ positive 1 [(1, 2); (3, 1)]) /\ 0 <= 1 /\ 2 <= end_x 0 [(1, 2); (3, 1)].
Proof. split; [|cbn [end_x]; lra]. split; [cbn [increasing]; lra|]. split; [lra|]. repeat (apply Forall_cons; [cbn [snd]; lra|]). apply Forall_nil. Qed.
(** C239. Empty lists are an error. *)
Theorem C239_empty y x0 x1 : sanitizeInterpolation [] y x0 x1 = IndexError.
Proof. exact (sanitize_empty y x0 x1). Qed.
Print Assumptions C239_empty.

