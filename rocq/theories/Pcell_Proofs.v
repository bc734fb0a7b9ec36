From Coq Require Import Reals List ZArith Bool Lra Lia.
From Verif Require Import Vec_Model Pcell_Model Pcell_Spec.
From Verif Require Cell_Model.
Import ListNotations.
Local Open Scope R_scope.

Lemma sqrt_self x : 0 < x -> sqrt (x * x) = x.
Proof. intros H. apply sqrt_square. lra. Qed.
Lemma comp_tab f k : (k < 3)%nat -> comp (tab f) k = f k.
Proof. intros H. destruct k as [|[|[|k]]]; [reflexivity|reflexivity|reflexivity|lia]. Qed.
Lemma vpos_grown dt s g : vpos s -> 0 < 1 + dt * vx g -> 0 < 1 + dt * vy g -> 0 < 1 + dt * vz g -> vpos (grown dt s g).
Proof. intros [A [B C]] X Y Z. unfold grown. split; [|split]; cbn [vx vy vz]; apply Rmult_lt_0_compat; assumption. Qed.
(** ** integration of a rectangular cell *)
Lemma integrate_boxy dt c s t g : boxy c s t g -> 0 < 1 + dt * vx g -> 0 < 1 + dt * vy g -> 0 < 1 + dt * vz g ->
  exists c', Cell_Model.integrateAndUpdate dt c = Cell_Model.Updated c' /\ boxy c' (grown dt s g) (grown dt t g) g.
Proof.
  intros [H [_ [T [G P]]]] X Y Z. pose proof (vpos_grown dt s g P X Y Z) as PG. destruct PG as [PX [PY PZ]].
  assert (E : madd (Cell_Model.hSize c) (mmul (mscale dt (Cell_Model.velGrad c)) (Cell_Model.hSize c)) = diag (grown dt s g)).
  { rewrite H, G. destruct s as [s1 s2 s3], g as [g1 g2 g3]. unfold grown, diag, madd, mmul, mscale, rowmul, vadd, smul, dot, col0, col1, col2. cbn [vx vy vz r0 r1 r2]. f_equal; f_equal; ring. }
  assert (E2 : madd (Cell_Model.trsf c) (mmul (mscale dt (Cell_Model.velGrad c)) (Cell_Model.trsf c)) = diag (grown dt t g)).
  { rewrite T, G. destruct t as [s1 s2 s3], g as [g1 g2 g3]. unfold grown, diag, madd, mmul, mscale, rowmul, vadd, smul, dot, col0, col1, col2. cbn [vx vy vz r0 r1 r2]. f_equal; f_equal; ring. }
  unfold Cell_Model.integrateAndUpdate. cbv zeta. rewrite E, E2. destruct (grown dt s g) as [a1 a2 a3]. cbn [vx vy vz] in PX, PY, PZ.
  assert (D : det (diag (V a1 a2 a3)) = a1 * a2 * a3) by (unfold det, diag, dot, cross; cbn [vx vy vz r0 r1 r2]; ring). rewrite D. destruct (Req_EM_T (a1 * a2 * a3) 0) as [Q|_]; [exfalso; assert (0 < a1 * a2 * a3) by (apply Rmult_lt_0_compat; [apply Rmult_lt_0_compat|]; assumption); lra|].
  eexists. split; [reflexivity|]. unfold boxy. cbn [Cell_Model.hSize Cell_Model.size Cell_Model.trsf Cell_Model.velGrad]. split; [reflexivity|]. split; [|split; [reflexivity|split; [exact G|split; [exact PX|split; [exact PY|exact PZ]]]]].
  unfold norm, norm2, dot, diag, col0, col1, col2. cbn [vx vy vz r0 r1 r2]. f_equal; [rewrite <- (sqrt_self a1 PX) at 3|rewrite <- (sqrt_self a2 PY) at 3|rewrite <- (sqrt_self a3 PZ) at 3]; f_equal; ring.
Qed.
Lemma boxy_rates c s t g v : boxy c s t g -> boxy (with_rates c v) s t v.
Proof.
  intros [H [S [T [G P]]]]. unfold with_rates, boxy. cbn [Cell_Model.with_vg Cell_Model.hSize Cell_Model.size Cell_Model.trsf Cell_Model.velGrad]. rewrite G. split; [exact H|]. split; [exact S|]. split; [exact T|]. split; [|exact P]. destruct v as [v1 v2 v3], g as [g1 g2 g3]. reflexivity.
Qed.
(** ** limits *)
Lemma sign_le x : Rabs (sign x) <= 1.
Proof. unfold sign. destruct (Rlt_dec x 0); [rewrite Rabs_left; lra|]. destruct (Rlt_dec 0 x); [rewrite Rabs_right; lra|rewrite Rabs_R0; lra]. Qed.
Lemma clip_le d x : 0 <= d -> Rabs (clip d x) <= d.
Proof.
  intros D. unfold clip. destruct (Rlt_dec d (Rabs x)) as [_|H]; [|lra]. rewrite Rabs_mult, (Rabs_right d) by lra. replace d with (1 * d) at 2 by ring. apply Rmult_le_compat_r; [exact D|apply sign_le].
Qed.
Lemma clip_id d x : Rabs x <= d -> clip d x = x.
Proof. intros H. unfold clip. destruct (Rlt_dec d (Rabs x)); [lra|reflexivity]. Qed.
Lemma Rmax_abs d x y : 0 <= d -> Rabs x <= d -> y <= 0 -> Rabs (Rmax x y) <= d.
Proof. intros D X Y. unfold Rmax. destruct (Rle_dec x y) as [L|_]; [|exact X]. rewrite Rabs_left1 by exact Y. assert (- x <= Rabs x) by (rewrite <- Rabs_Ropp; apply RRle_abs). lra. Qed.
Lemma axis_grow_bounds goal sig area size K d span : 0 <= d -> 21/10 * span <= size -> Rabs (axis_grow goal sig area size K d span) <= d /\ 21/10 * span <= size + axis_grow goal sig area size K d span.
Proof.
  intros D S. unfold axis_grow. split; [apply Rmax_abs; [exact D|apply clip_le, D|lra]|]. pose proof (Rmax_r (clip d (1 / 10000 * (goal - sig) * area / kdiv K)) (- (size - 21 / 10 * span))). lra.
Qed.
Lemma avg_grow_le goal sa aa q K d : 0 <= d -> 0 < q -> Rabs (q * avg_grow goal sa aa q K d) <= d.
Proof.
  intros D Q. unfold avg_grow. cbv zeta. destruct (Rlt_dec _ _) as [_|H]; [|lra]. remember (sign (1 / 10000 * (goal - sa) * aa / kdiv K)) as z. replace (q * (z * d / q)) with (z * d) by (field; lra). rewrite Rabs_mult, (Rabs_right d) by lra. replace d with (1 * d) at 2 by ring. apply Rmult_le_compat_r; [exact D|]. rewrite Heqz. apply sign_le.
Qed.
Lemma vmin_le v : vmin v <= vx v /\ vmin v <= vy v /\ vmin v <= vz v.
Proof. unfold vmin. pose proof (Rmin_l (vx v) (Rmin (vy v) (vz v))). pose proof (Rmin_r (vx v) (Rmin (vy v) (vz v))). pose proof (Rmin_l (vy v) (vz v)). pose proof (Rmin_r (vy v) (vz v)). lra. Qed.
Lemma vmax_ge v : vx v <= vmax v /\ vy v <= vmax v /\ vz v <= vmax v.
Proof. unfold vmax. pose proof (Rmax_l (vx v) (Rmax (vy v) (vz v))). pose proof (Rmax_r (vx v) (Rmax (vy v) (vz v))). pose proof (Rmax_l (vy v) (vz v)). pose proof (Rmax_r (vy v) (vz v)). lra. Qed.
(** growth in proportion of one edge *)
Lemma keep_bounds g a x mn mx d span : 0 < a -> 0 < x -> x <= mx -> mn <= x -> Rabs (mx / a * g) <= d -> - (mn - 21/10 * span) / (mx / a) <= g -> 21/10 * span <= mn -> Rabs (g / a * x) <= d /\ 21/10 * span <= x + g / a * x.
Proof.
  intros A X XM MX D OK S. assert (IA : 0 < / a) by (apply Rinv_0_lt_compat, A). assert (Q : 0 < mx / a) by (unfold Rdiv; apply Rmult_lt_0_compat; lra). assert (XA : 0 < x * / a) by (apply Rmult_lt_0_compat; assumption).
  assert (XL : x * / a <= mx / a) by (unfold Rdiv; apply Rmult_le_compat_r; lra). assert (OK' : - (mn - 21/10 * span) <= g * (mx / a)). { apply Rmult_le_compat_r with (r := mx / a) in OK; [|lra]. replace (- (mn - 21 / 10 * span) / (mx / a) * (mx / a)) with (- (mn - 21/10 * span)) in OK by (field; lra). exact OK. }
  replace (g / a * x) with (g * (x * / a)) by (unfold Rdiv; ring). split.
  - rewrite Rabs_mult in D |- *. rewrite (Rabs_right (mx / a)) in D by lra. rewrite (Rabs_right (x * / a)) by lra. apply Rle_trans with (Rabs g * (mx / a)); [apply Rmult_le_compat_l; [apply Rabs_pos|exact XL]|lra].
  - destruct (Rle_or_lt 0 g) as [G|G]; [assert (0 <= g * (x * / a)) by (apply Rmult_le_pos; lra); lra|]. assert (g * (mx / a) <= g * (x * / a)) by (apply Rmult_le_compat_neg_l; lra). lra.
Qed.
Lemma transition_done cf iter m s c ok s' c' h : transition cf iter m s c ok = IDone s' c' h -> c' = c /\ charLen s' = charLen s /\ maxSpan s' = maxSpan s /\ maxDispl s' = maxDispl s /\ sigma s' = sigma s /\ avgStiffness s' = avgStiffness s /\
  ((state s' = state s /\ h = false) \/ (ok = true /\ state s' = S (state s) /\ unb s' < maxUnb cf /\ h = (S (state s) =? length (stresses cf))%nat)) /\ (ok = true -> Z.rem iter (updateInt cf) = 0%Z -> unb s' = unbalanced m) /\ (ok = false \/ Z.rem iter (updateInt cf) <> 0%Z -> unb s' = unb s).
Proof.
  unfold transition. destruct ok; [|intros E; injection E as <- <- <-; do 6 (split; [reflexivity|]); split; [left; split; reflexivity|split; [discriminate|reflexivity]]]. cbv zeta.
  remember (if (Z.rem iter (updateInt cf) =? 0)%Z then unbalanced m else unb s) as u. assert (U : (true = true -> Z.rem iter (updateInt cf) = 0%Z -> u = unbalanced m) /\ (true = false \/ Z.rem iter (updateInt cf) <> 0%Z -> u = unb s)).
  { rewrite Hequ. split; [intros _ ->; reflexivity|]. intros [Q|Q]; [discriminate|]. apply Z.eqb_neq in Q. rewrite Q. reflexivity. }
  destruct (Rlt_dec u (maxUnb cf)) as [L|L]; intros E; injection E as <- <- <-; cbn [charLen maxSpan maxDispl sigma avgStiffness state unb]; (do 6 (split; [reflexivity|])); (split; [|exact U]); [right|left]; repeat split; exact L.
Qed.
Lemma all_at_least_of m v : (forall k, (k < 3)%nat -> m <= comp v k) -> all_at_least m v.
Proof. intros H. split; [exact (H 0%nat ltac:(lia))|split; [exact (H 1%nat ltac:(lia))|exact (H 2%nat ltac:(lia))]]. Qed.
Lemma comp_pos s k : vpos s -> 0 < comp s k.
Proof. intros [A [B C]]. destruct k as [|[|k]]; assumption. Qed.
Lemma comp_min s k : vmin s <= comp s k.
Proof. destruct (vmin_le s) as [A [B C]]. destruct k as [|[|k]]; assumption. Qed.
Lemma comp_max s k : comp s k <= vmax s.
Proof. destruct (vmax_ge s) as [A [B C]]. destruct k as [|[|k]]; assumption. Qed.
Lemma comp_grown dt s g k : comp (grown dt s g) k = (1 + dt * comp g k) * comp s k.
Proof. destruct k as [|[|k]]; reflexivity. Qed.
Lemma vavg_pos s : vpos s -> 0 < vavg s.
Proof. intros [A [B C]]. unfold vavg. lra. Qed.
Lemma grown_grow dt s grow : vpos s -> dt <> 0 -> grown dt s (tab (fun k => comp grow k / (dt * comp s k))) = vadd s grow.
Proof. intros [A [B C]] D. destruct s as [s1 s2 s3], grow as [w1 w2 w3]. cbn [vx vy vz] in *. unfold grown, tab, vadd. cbn [comp vx vy vz]. f_equal; field; split; lra. Qed.
(** ** one action of the compressor *)
Theorem iso_action_done cf b iter dt m s c s' c' h S T G : boxy c S T G -> 0 < dt -> (state s < length (stresses cf))%nat -> iso_action cf b iter dt m s c = IDone s' c' h -> 0 <= maxDispl s' ->
  exists G', boxy c' S T G' /\ all_at_least (21/10 * maxSpan s') S /\ all_at_least (21/10 * maxSpan s') (grown dt S G') /\ within (maxDispl s') (grown dt S G') S /\ (keepProportions cf = true -> proportional S (grown dt S G')) /\
    (0 < maxSpan s -> maxSpan s' = maxSpan s) /\ (0 <= maxDispl s -> maxDispl s' = maxDispl s).
Proof.
  intros B DT ST E DP. pose proof B as [_ [SZ [_ [_ P]]]]. unfold iso_action in E. destruct (Nat.leb_spec (length (stresses cf)) (state s)); [lia|]. destruct (char_len b (charLen s)) as [cl| |]; try discriminate. rewrite SZ in E. cbv zeta in E.
  remember (if Rle_dec (maxSpan s) 0 then span_of b (maxSpan s) else maxSpan s) as span. remember (if Rlt_dec (maxDispl s) 0 then 1 / 100 * cl else maxDispl s) as d. destruct (Rlt_dec (vmin S) (21 / 10 * span)) as [|MN]; [discriminate|]. apply Rnot_lt_le in MN. destruct (updateInt cf =? 0)%Z; [discriminate|].
  match type of E with context [if ?x then stiffness m else avgStiffness s] => remember x as measure end.
  assert (SP : 0 < maxSpan s -> span = maxSpan s) by (intros; rewrite Heqspan; destruct (Rle_dec (maxSpan s) 0); [lra|reflexivity]). assert (DS : 0 <= maxDispl s -> d = maxDispl s) by (intros; rewrite Heqd; destruct (Rlt_dec (maxDispl s) 0); [lra|reflexivity]).
  assert (G0 : forall grow, (forall k, (k < 3)%nat -> Rabs (comp grow k) <= d /\ 21/10 * span <= comp S k + comp grow k) -> forall G', G' = tab (fun k => comp grow k / (dt * comp S k)) -> all_at_least (21/10 * span) S /\ all_at_least (21/10 * span) (grown dt S G') /\ within d (grown dt S G') S).
  { intros grow H0 G' ->. rewrite grown_grow by (assumption || lra). split; [apply all_at_least_of; intros k _; pose proof (comp_min S k); lra|]. destruct (H0 0%nat ltac:(lia)) as [A1 A2], (H0 1%nat ltac:(lia)) as [B1 B2], (H0 2%nat ltac:(lia)) as [C1 C2]. cbn [comp] in *. split; [unfold all_at_least, vadd; cbn [vx vy vz]; lra|]. unfold within, vadd. cbn [vx vy vz].
    replace (vx S + vx grow - vx S) with (vx grow) by ring. replace (vy S + vy grow - vy S) with (vy grow) by ring. replace (vz S + vz grow - vz S) with (vz grow) by ring. tauto. }
  destruct (keepProportions cf).
  - remember (avg_grow _ _ _ (vmax S / vavg S) _ d) as g. destruct (Rlt_dec g _) as [|OK]; [discriminate|]. apply Rnot_lt_le in OK. apply transition_done in E. destruct E as [-> [_ [E1 [E2 _]]]]. cbn [maxSpan maxDispl] in E1, E2. rewrite E1, E2 in *.
    pose proof (vavg_pos S P) as AP. assert (Q : 0 < vmax S / vavg S) by (unfold Rdiv; apply Rmult_lt_0_compat; [pose proof (comp_max S 0); pose proof (comp_pos S 0 P); lra|apply Rinv_0_lt_compat, AP]).
    assert (GL : Rabs (vmax S / vavg S * g) <= d) by (rewrite Heqg; apply avg_grow_le; assumption).
    eexists. split; [apply boxy_rates with (g := G); exact B|]. destruct (G0 (smul (g / vavg S) S)) with (G' := tab (fun k => comp (smul (g / vavg S) S) k / (dt * comp S k))) as [K1 [K2 K3]]; [|reflexivity|].
    { intros k _. replace (comp (smul (g / vavg S) S) k) with (g / vavg S * comp S k) by (destruct k as [|[|k]]; reflexivity). apply keep_bounds with (mn := vmin S) (mx := vmax S); [exact AP|apply comp_pos, P|apply comp_max|apply comp_min|exact GL|exact OK|exact MN]. }
    split; [exact K1|]. split; [exact K2|]. split; [exact K3|]. split; [|split; assumption]. intros _. exists (1 + g / vavg S). rewrite grown_grow by (assumption || lra). destruct S as [a1 a2 a3]. unfold vadd, smul. cbn [vx vy vz]. f_equal; ring.
  - apply transition_done in E. destruct E as [-> [_ [E1 [E2 _]]]]. cbn [maxSpan maxDispl] in E1, E2. rewrite E1, E2 in *.
    match goal with |- context [tab (fun k => comp (tab ?f) k / _)] => remember (tab f) as grow end.
    eexists. split; [apply boxy_rates with (g := G); exact B|]. destruct (G0 grow) with (G' := tab (fun k => comp grow k / (dt * comp S k))) as [K1 [K2 K3]]; [|reflexivity|].
    { intros k K. rewrite Heqgrow, comp_tab by exact K. apply axis_grow_bounds; [exact DP|]. pose proof (comp_min S k). lra. }
    split; [exact K1|]. split; [exact K2|]. split; [exact K3|]. split; [discriminate|split; assumption].
Qed.
