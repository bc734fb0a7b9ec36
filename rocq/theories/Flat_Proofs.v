From Coq Require Import Reals List ZArith Bool Arith Lra Lia.
From Verif Require Import Vec_Model Vec_Proofs Law_Model Law_Proofs Flat_Model Flat_Spec.
Import ListNotations.
Local Open Scope R_scope.

(** ** integers *)
Lemma floor_spec r : IZR (floorR r) <= r < IZR (floorR r) + 1.
Proof. unfold floorR. destruct (base_Int_part r). lra. Qed.
Lemma floor_unique n r : IZR n <= r < IZR n + 1 -> floorR r = n.
Proof. intros (A & B). unfold floorR, Int_part. assert (U : (n + 1)%Z = up r); [|rewrite <- U; lia]. apply tech_up; rewrite plus_IZR; lra. Qed.
Lemma floor_mono a b : a <= b -> (floorR a <= floorR b)%Z.
Proof. intros H. pose proof (floor_spec a). pose proof (floor_spec b). assert (L : IZR (floorR a) < IZR (floorR b + 1)) by (rewrite plus_IZR; lra). apply lt_IZR in L. lia. Qed.
Lemma ceil_pos r : 0 < r -> (0 < ceilR r)%Z.
Proof. intros H. unfold ceilR. pose proof (floor_spec (- r)). assert (L : IZR (floorR (- r)) < 0) by lra. apply lt_IZR in L. lia. Qed.
Lemma ceil_ge r : r <= IZR (ceilR r).
Proof. unfold ceilR. rewrite opp_IZR. pose proof (floor_spec (- r)). lra. Qed.
Lemma floor_cell m step x : 0 < step -> cell_of m step x (floorR ((x - m) / step)).
Proof.
  intros S. unfold cell_of. pose proof (floor_spec ((x - m) / step)) as (A & B). assert (E : (x - m) / step * step = x - m) by (field; lra). remember (IZR (floorR ((x - m) / step))) as k. remember ((x - m) / step) as q.
  assert (k * step <= q * step) by (apply Rmult_le_compat_r; lra). assert (q * step < (k + 1) * step) by (apply Rmult_lt_compat_r; lra). lra.
Qed.
Lemma cell_floor m step x k : 0 < step -> cell_of m step x k -> floorR ((x - m) / step) = k.
Proof.
  intros S (A & B). apply floor_unique. assert (E : (x - m) / step * step = x - m) by (field; lra). remember ((x - m) / step) as q. split; [apply Rmult_le_reg_r with step; lra|apply Rmult_lt_reg_r with step; lra].
Qed.
Lemma in_zrange a b k : In k (zrange a b) <-> (a <= k <= b)%Z.
Proof.
  unfold zrange. rewrite in_map_iff. split.
  - intros (n & <- & N). apply in_seq in N. lia.
  - intros H. exists (Z.to_nat (k - a)). split; [lia|]. apply in_seq. lia.
Qed.
Lemma in_cells ax ay az bx by_ bz x y z : In (x, y, z) (cells_between (ax, ay, az) (bx, by_, bz)) <-> ((ax <= x <= bx) /\ (ay <= y <= by_) /\ (az <= z <= bz))%Z.
Proof.
  unfold cells_between. rewrite in_flat_map. split.
  - intros (x' & X & H). apply in_flat_map in H as (y' & Y & H). apply in_map_iff in H as (z' & E & Z). injection E as -> -> ->. apply in_zrange in X, Y, Z. auto.
  - intros (X & Y & Z). exists x. split; [apply in_zrange; exact X|]. apply in_flat_map. exists y. split; [apply in_zrange; exact Y|]. apply in_map_iff. exists z. split; [reflexivity|apply in_zrange; exact Z].
Qed.
(** ** cells *)
Definition sized (g : grid) : Prop := (0 < gx g /\ 0 < gy g /\ 0 < gz g)%Z.
Lemma fit_range i s : (0 < s)%Z -> (0 <= fit i s < s)%Z.
Proof. unfold fit. lia. Qed.
Lemma fit_id i s : (0 <= i < s)%Z -> fit i s = i.
Proof. unfold fit. lia. Qed.
Lemma lin_fit g c : sized g -> lin g (fitGrid g c) = lin g c.
Proof. intros (A & B & C). destruct c as [[x y] z]. unfold fitGrid, lin. rewrite !(fit_id (fit _ _)) by (apply fit_range; assumption). reflexivity. Qed.
Lemma mixed_bound sx sy sz x y z : (0 < sx -> 0 < sy -> 0 <= x < sx -> 0 <= y < sy -> 0 <= z < sz -> 0 <= x + sx * y + sx * sy * z < sx * sy * sz)%Z.
Proof. intros. assert (0 <= x + sx * y < sx * sy)%Z by nia. nia. Qed.
Lemma lin_bound g c : sized g -> (lin g c < len g)%nat.
Proof.
  intros (A & B & C). destruct c as [[x y] z]. unfold lin, len. pose proof (fit_range x _ A). pose proof (fit_range y _ B). pose proof (fit_range z _ C). pose proof (mixed_bound (gx g) (gy g) (gz g) _ _ _ A B H H0 H1). lia.
Qed.
Lemma lin_injective g x y z x' y' z' : (0 <= x < gx g)%Z -> (0 <= y < gy g)%Z -> (0 <= z < gz g)%Z -> (0 <= x' < gx g)%Z -> (0 <= y' < gy g)%Z -> (0 <= z' < gz g)%Z -> lin g (x, y, z) = lin g (x', y', z') -> (x, y, z) = (x', y', z').
Proof.
  intros X Y Z X' Y' Z' E. unfold lin in E. rewrite !fit_id in E by assumption. assert (A : (0 < gx g)%Z) by lia. assert (B : (0 < gy g)%Z) by lia.
  pose proof (mixed_bound (gx g) (gy g) (gz g) x y z A B X Y Z) as M. pose proof (mixed_bound (gx g) (gy g) (gz g) x' y' z' A B X' Y' Z') as M'.
  apply Z2Nat.inj in E; [|lia|lia].
  assert (Ez : z = z').
  { assert (U : (0 <= x + gx g * y < gx g * gy g)%Z) by nia. assert (U' : (0 <= x' + gx g * y' < gx g * gy g)%Z) by nia. rewrite (Z.div_unique_pos (x + gx g * y + gx g * gy g * z) (gx g * gy g) z (x + gx g * y) U) by ring. rewrite E. symmetry. apply (Z.div_unique_pos _ (gx g * gy g) z' (x' + gx g * y') U'). ring. }
  subst z'. assert (E2 : (x + gx g * y = x' + gx g * y')%Z) by lia. assert (Ey : y = y').
  { rewrite (Z.div_unique_pos (x + gx g * y) (gx g) y x X) by ring. rewrite E2. symmetry. apply (Z.div_unique_pos _ (gx g) y' x' X'). ring. }
  subst y'. assert (x = x') by lia. subst. reflexivity.
Qed.
(** ** filling *)
Lemma put_spec g d n id : (n < len g)%nat -> exists d', put g d n id = Some d' /\ In id (d' n) /\ (forall k x, In x (d k) -> In x (d' k)) /\ (forall k x, In x (d' k) -> In x (d k) \/ (k = n /\ x = id)).
Proof.
  intros L. unfold put. apply Nat.ltb_lt in L. rewrite L.
  assert (A : let d' := (fun k => if (k =? n)%nat then d n ++ [id] else d k) in In id (d' n) /\ (forall k x, In x (d k) -> In x (d' k)) /\ (forall k x, In x (d' k) -> In x (d k) \/ (k = n /\ x = id))).
  { cbv zeta. split; [rewrite Nat.eqb_refl; apply in_or_app; right; left; reflexivity|]. split; intros k x H; destruct (Nat.eqb_spec k n) as [->|N].
    - apply in_or_app. left. exact H.
    - exact H.
    - apply in_app_or in H as [H|[H|[]]]; auto.
    - auto. }
  cbv zeta in A. destruct (rev (d n)) as [|y t] eqn:E; [eexists; split; [reflexivity|exact A]|]. destruct (Nat.eqb_spec y id) as [->|N]; [|eexists; split; [reflexivity|exact A]].
  exists d. split; [reflexivity|]. split; [apply in_rev; rewrite E; left; reflexivity|]. split; auto.
Qed.
Definition near (g : grid) (r : R) (C : vec) (c : cell) : Prop := norm2 (vsub C (closest_point g c (pt2int g C) C)) <= r * r.
Lemma add_spheres g id r C : sized g -> forall cs d, exists d', fold_left (add_sphere g id r C) cs (Ok d) = Ok d' /\
  (forall c, In c cs -> near g r C c -> In id (d' (lin g c))) /\ (forall k x, In x (d k) -> In x (d' k)) /\
  (forall k x, In x (d' k) -> In x (d k) \/ (x = id /\ exists c, In c cs /\ near g r C c /\ k = lin g c)).
Proof.
  intros S. induction cs as [|c cs IH]; intros d.
  - exists d. split; [reflexivity|]. split; [intros c []|]. split; auto.
  - cbn [fold_left]. unfold add_sphere at 2. destruct (Rle_dec _ (r * r)) as [N|N].
    + destruct (put_spec g d (lin g (fitGrid g c)) id) as (d1 & -> & P1 & P2 & P3); [rewrite lin_fit by exact S; apply lin_bound; exact S|]. rewrite lin_fit in P1, P3 by exact S.
      destruct (IH d1) as (d' & E & A & B & D). exists d'. split; [exact E|]. split; [intros c' [<- |H] H'; [apply B; exact P1|apply A; assumption]|]. split; [intros k x H; apply B, P2, H|].
      intros k x H. destruct (D k x H) as [H1|(-> & c' & I & M)]; [|right; split; [reflexivity|exists c'; split; [right; exact I|exact M]]]. destruct (P3 k x H1) as [H2|(-> & ->)]; [left; exact H2|]. right. split; [reflexivity|]. exists c. split; [left; reflexivity|]. split; [exact N|reflexivity].
    + destruct (IH d) as (d' & E & A & B & D). exists d'. split; [exact E|]. split; [intros c' [<- |H] H'; [contradiction|apply A; assumption]|]. split; [exact B|].
      intros k x H. destruct (D k x H) as [H1|(-> & c' & I & M)]; [left; exact H1|right; split; [reflexivity|exists c'; split; [right; exact I|exact M]]].
Qed.
Definition box_cells (g : grid) (r : R) (C : vec) : list cell := cells_between (pt2int g (vsub C (V r r r))) (pt2int g (vadd C (V r r r))).
Lemma fill_from g verlet : sized g -> forall bodies n d, spherical bodies -> exists d', fold_left (updateBodyCells g verlet) (combine (seq n (length bodies)) bodies) (Ok d) = Ok d' /\
  (forall i r C c, sphere_at bodies i r C -> In c (box_cells g (r + verlet) C) -> near g (r + verlet) C c -> In (n + i)%nat (d' (lin g c))) /\ (forall k x, In x (d k) -> In x (d' k)) /\
  (forall k x, In x (d' k) -> In x (d k) \/ exists i r C c, x = (n + i)%nat /\ sphere_at bodies i r C /\ In c (box_cells g (r + verlet) C) /\ near g (r + verlet) C c /\ k = lin g c).
Proof.
  intros S. induction bodies as [|b bodies IH]; intros n d SP.
  - exists d. split; [reflexivity|]. split; [intros i r C c (b & E & _); destruct i; discriminate|]. split; auto.
  - cbn [length seq combine fold_left]. inversion SP as [|? ? S1 S2]; subst.
    assert (ST : exists d1, updateBodyCells g verlet (Ok d) (n, b) = Ok d1 /\ (forall r C c, sphere_at [b] 0 r C -> In c (box_cells g (r + verlet) C) -> near g (r + verlet) C c -> In n (d1 (lin g c))) /\ (forall k x, In x (d k) -> In x (d1 k)) /\
      (forall k x, In x (d1 k) -> In x (d k) \/ exists r C c, x = n /\ sphere_at [b] 0 r C /\ In c (box_cells g (r + verlet) C) /\ near g (r + verlet) C c /\ k = lin g c)).
    { unfold updateBodyCells. cbn [snd fst]. destruct b as [b|]; [|exists d; split; [reflexivity|split; [intros r C c (b & E & _); discriminate|auto]]].
      destruct (fshape_of b) as [[rad|]|] eqn:F; [|exfalso; apply S1; reflexivity|exists d; split; [reflexivity|split; [intros r C c (b' & E & E' & _); injection E as <-; congruence|auto]]].
      cbv zeta. destruct (add_spheres g n (rad + verlet) (fpos b) S (cells_between (pt2int g (vsub (fpos b) (V (rad + verlet) (rad + verlet) (rad + verlet)))) (pt2int g (vadd (fpos b) (V (rad + verlet) (rad + verlet) (rad + verlet))))) d) as (d1 & E & A & B & D).
      exists d1. split; [exact E|]. split; [|split; [exact B|]].
      - intros r C c (b' & E1 & E2 & E3) I N. injection E1 as <-. rewrite F in E2. injection E2 as <-. subst C. apply A; assumption.
      - intros k x H. destruct (D k x H) as [H1|(-> & c & I & N & K)]; [left; exact H1|]. right. exists rad, (fpos b), c. split; [reflexivity|]. split; [exists b; auto|]. auto. }
    destruct ST as (d1 & E1 & A1 & B1 & D1). rewrite E1. destruct (IH (Datatypes.S n) d1 S2) as (d' & E & A & B & D). exists d'. split; [exact E|]. split; [|split; [intros k x H; apply B, B1, H|]].
    + intros i r C c (b' & N & F & P) I NE. destruct i as [|i]; cbn [nth_error] in N.
      * rewrite Nat.add_0_r. apply B, A1 with r C; [exists b'; auto|exact I|exact NE].
      * replace (n + Datatypes.S i)%nat with (Datatypes.S n + i)%nat by lia. apply A with r C; [exists b'; auto|exact I|exact NE].
    + intros k x H. destruct (D k x H) as [H1|(i & r & C & c & -> & (b' & N & F & P) & Q)].
      * destruct (D1 k x H1) as [H2|(r & C & c & -> & (b' & N & F & P) & Q)]; [left; exact H2|]. right. exists 0%nat, r, C, c. split; [lia|]. split; [exists b'; auto|exact Q].
      * right. exists (Datatypes.S i), r, C, c. split; [lia|]. split; [exists b'; auto|exact Q].
Qed.
Lemma fill_spec g verlet bodies : sized g -> spherical bodies -> exists d, fill g verlet bodies = Ok d /\
  (forall i r C c, sphere_at bodies i r C -> In c (box_cells g (r + verlet) C) -> near g (r + verlet) C c -> In i (d (lin g c))) /\
  (forall k i, In i (d k) -> exists r C c, sphere_at bodies i r C /\ In c (box_cells g (r + verlet) C) /\ near g (r + verlet) C c /\ k = lin g c).
Proof.
  intros S SP. destruct (fill_from g verlet S bodies 0 (fun _ => []) SP) as (d & E & A & _ & D). exists d. split; [exact E|]. split; [exact A|]. intros k i H. destruct (D k i H) as [[]|(j & r & C & c & -> & Q)]. exists r, C, c. exact Q.
Qed.
Lemma updateGrid_spec mn0 mx step g : updateGrid mn0 mx step = Some g -> sized g /\ mn g = mn0 /\ gstep g = step /\ 0 < step /\ gx g = ceilR ((vx mx - vx mn0) / step) /\ gy g = ceilR ((vy mx - vy mn0) / step) /\ gz g = ceilR ((vz mx - vz mn0) / step).
Proof.
  unfold updateGrid. destruct (Rle_dec step 0) as [|S]; [discriminate|]. cbv zeta. unfold vsub. cbn [vx vy vz]. destruct (Rle_dec _ 0) as [|X]; [discriminate|]. destruct (Rle_dec _ 0) as [|Y]; [discriminate|]. destruct (Rle_dec _ 0) as [|Z]; [discriminate|].
  intros E. injection E as <-. unfold sized. cbn [gx gy gz mn gstep]. split; [|split; [reflexivity|split; [reflexivity|split; [lra|auto]]]]. split; [|split]; apply ceil_pos, Rdiv_lt_0_compat; lra.
Qed.
(** never out of bounds, an error exactly in the documented cases *)
Lemma action_defined newton mn0 mx step verlet may iter bodies l : (newton = true -> 0 < step -> vx mn0 < vx mx -> vy mn0 < vy mx -> vz mn0 < vz mx -> spherical bodies -> exists l', action newton mn0 mx step verlet may iter bodies l = Ok l').
Proof.
  intros -> S X Y Z SP. unfold action. assert (G : exists g, updateGrid mn0 mx step = Some g).
  { unfold updateGrid, vsub. cbn [vx vy vz]. destruct (Rle_dec step 0); [exfalso; lra|]. cbv zeta. cbn [vx vy vz]. destruct (Rle_dec _ 0); [exfalso; lra|]. destruct (Rle_dec _ 0); [exfalso; lra|]. destruct (Rle_dec _ 0); [exfalso; lra|]. eauto. }
  destruct G as (g & G). rewrite G. destruct (updateGrid_spec _ _ _ _ G) as (SZ & _). destruct (fill_spec g verlet bodies SZ SP) as (d & -> & _). eauto.
Qed.
Lemma fold_stuck g verlet l : forall (e : outcome data), match e with Ok _ => False | _ => True end -> fold_left (updateBodyCells g verlet) l e = e.
Proof. induction l as [|x l IH]; intros e H; [reflexivity|]. cbn [fold_left]. destruct e; [contradiction| |]; cbn [updateBodyCells]; apply IH; exact I. Qed.
Lemma add_no_throw g id r C cs : forall d, d <> Throws -> fold_left (add_sphere g id r C) cs d <> Throws.
Proof. induction cs as [|c cs IH]; intros d H; [exact H|]. cbn [fold_left]. apply IH. unfold add_sphere. destruct d; [|exact H|discriminate]. destruct (Rle_dec _ _); [destruct (put _ _ _ _)|]; discriminate. Qed.
(** ** a ball meets the cells of its points *)
Lemma closest_le m step c center x p : 0 < step -> cell_of m step x center -> cell_of m step p c -> (x - closest m step c center x) * (x - closest m step c center x) <= (x - p) * (x - p).
Proof.
  intros S (X0 & X1) (P0 & P1). unfold closest. destruct (Z.eqb_spec c center) as [->|N]; [replace (x - x) with 0 by ring; rewrite Rmult_0_l; apply Rle_0_sqr|]. destruct (Z.ltb_spec c center) as [L|L].
  - assert (K : IZR c + 1 <= IZR center) by (rewrite <- plus_IZR; apply IZR_le; lia). assert (KS : step * (IZR c + 1) <= step * IZR center) by (apply Rmult_le_compat_l; lra).
    apply Rsqr_incr_1; unfold Rsqr; lra.
  - assert (K : IZR center + 1 <= IZR c) by (rewrite <- plus_IZR; apply IZR_le; lia). assert (KS : step * (IZR center + 1) <= step * IZR c) by (apply Rmult_le_compat_l; lra).
    rewrite Rplus_0_r. replace ((x - (m + step * IZR c)) * (x - (m + step * IZR c))) with ((m + step * IZR c - x) * (m + step * IZR c - x)) by ring. replace ((x - p) * (x - p)) with ((p - x) * (p - x)) by ring. apply Rsqr_incr_1; lra.
Qed.
Lemma sqr_abs a r : 0 <= r -> a * a <= r * r -> - r <= a <= r.
Proof. intros H L. split; apply Rnot_lt_le; intros N; assert (r * r < a * a); try lra; [replace (a * a) with ((- a) * (- a)) by ring|]; apply Rmult_le_0_lt_compat; lra. Qed.
Lemma ball_axis r C p : 0 <= r -> in_ball r C p -> (- r <= vx C - vx p <= r) /\ (- r <= vy C - vy p <= r) /\ (- r <= vz C - vz p <= r).
Proof.
  intros H. unfold in_ball, norm2, dot, vsub. cbn [vx vy vz]. intros L. pose proof (Rle_0_sqr (vx C - vx p)) as A. pose proof (Rle_0_sqr (vy C - vy p)) as B. pose proof (Rle_0_sqr (vz C - vz p)) as D. unfold Rsqr in *.
  split; [|split]; apply sqr_abs; lra.
Qed.
Lemma ball_near g r C p : diagonal (mn g) -> 0 < gstep g -> 0 <= r -> in_ball r C p -> In (pt2int g p) (box_cells g r C) /\ near g r C (pt2int g p).
Proof.
  intros (DX & DZ) S H B. pose proof (ball_axis r C p H B) as (BX & BY & BZ). assert (IS : 0 < / gstep g) by (apply Rinv_0_lt_compat; exact S).
  assert (FM : forall a b, a <= b -> (floorR ((a - vy (mn g)) / gstep g) <= floorR ((b - vy (mn g)) / gstep g))%Z) by (intros a b AB; apply floor_mono; unfold Rdiv; apply Rmult_le_compat_r; lra).
  split.
  - unfold box_cells, pt2int, vsub, vadd. cbn [vx vy vz]. apply in_cells. split; [|split]; split; apply FM; lra.
  - unfold near. unfold in_ball in B. apply Rle_trans with (norm2 (vsub C p)); [|exact B]. unfold norm2, dot, closest_point, pt2int, vsub. cbn [vx vy vz]. rewrite DX, DZ.
    pose proof (closest_le (vy (mn g)) (gstep g) _ _ (vx C) (vx p) S (floor_cell (vy (mn g)) (gstep g) (vx C) S) (floor_cell (vy (mn g)) (gstep g) (vx p) S)).
    pose proof (closest_le (vy (mn g)) (gstep g) _ _ (vy C) (vy p) S (floor_cell (vy (mn g)) (gstep g) (vy C) S) (floor_cell (vy (mn g)) (gstep g) (vy p) S)).
    pose proof (closest_le (vy (mn g)) (gstep g) _ _ (vz C) (vz p) S (floor_cell (vy (mn g)) (gstep g) (vz C) S) (floor_cell (vy (mn g)) (gstep g) (vz p) S)). lra.
Qed.
Lemma common_point r1 C1 r2 C2 : 0 <= r1 -> 0 <= r2 -> meet r1 C1 r2 C2 -> exists p, in_ball r1 C1 p /\ in_ball r2 C2 p.
Proof.
  intros H1 H2 (_ & M). unfold in_ball. destruct (Req_EM_T (r1 + r2) 0) as [Z|Z].
  - exists C1. assert (r1 = 0) by lra. assert (r2 = 0) by lra. subst. assert (E : norm2 (vsub C1 C1) = 0) by vring. rewrite E. split; [lra|]. assert (E' : norm2 (vsub C2 C1) = norm2 (vsub C1 C2)) by vring. rewrite E'. lra.
  - remember (r1 / (r1 + r2)) as t. exists (vadd C1 (smul t (vsub C2 C1))).
    assert (T0 : 0 <= t) by (subst t; apply Rmult_le_pos; [lra|left; apply Rinv_0_lt_compat; lra]). assert (T1 : t * (r1 + r2) = r1) by (subst t; field; exact Z).
    assert (E1 : norm2 (vsub C1 (vadd C1 (smul t (vsub C2 C1)))) = t * t * norm2 (vsub C1 C2)) by vring. assert (E2 : norm2 (vsub C2 (vadd C1 (smul t (vsub C2 C1)))) = (1 - t) * (1 - t) * norm2 (vsub C1 C2)) by vring. rewrite E1, E2.
    assert (R1 : r1 * r1 = t * t * ((r1 + r2) * (r1 + r2))) by (rewrite <- T1 at 1 2; ring). assert (T2 : (1 - t) * (r1 + r2) = r2) by lra. assert (R2 : r2 * r2 = (1 - t) * (1 - t) * ((r1 + r2) * (r1 + r2))) by (rewrite <- T2 at 1 2; ring).
    rewrite R1, R2. split; apply Rmult_le_compat_l; try exact M; apply Rle_0_sqr.
Qed.
