(** Decomposition of the domain. *)
From Verif Require Import Vec_Model Dom_Model Dom_Spec.
From Coq Require Import Reals List ZArith QArith Qround Arith Lia Lra Psatz.
Import ListNotations.
Local Open Scope R_scope.

Ltac sqs := repeat match goal with
  | |- context [?a ^ 2] => match goal with H : 0 <= a ^ 2 |- _ => fail 1 | _ => pose proof (pow2_ge_0 a) end
  end; lra.

(** ** the sum of the distances from the corners of a block grows with the distance from its centre *)
Definition pair (t a r : R) : R := sqrt ((t - a)^2 + r) + sqrt ((t + a)^2 + r).
Lemma lips w d c : 0 <= d -> 0 <= c -> sqrt (w^2 + c) <= sqrt ((w + d)^2 + c) + d.
Proof.
  intros Hd Hc. assert (P : 0 <= (w + d)^2 + c) by sqs. set (s := sqrt ((w + d)^2 + c)). assert (Hs : 0 <= s) by apply sqrt_pos. assert (S2 : s * s = (w + d)^2 + c) by (apply sqrt_sqrt; exact P).
  assert (A : - (w + d) <= s). { destruct (Rle_dec 0 (w + d)); [lra|]. apply Rsqr_incr_0_var; [|exact Hs]. unfold Rsqr. nra. }
  rewrite <- (sqrt_Rsqr (s + d)) by lra. apply sqrt_le_1_alt. unfold Rsqr. nra.
Qed.
Lemma lips_strict w d c : 0 < d -> 0 < c -> sqrt (w^2 + c) < sqrt ((w + d)^2 + c) + d.
Proof.
  intros Hd Hc. assert (P : 0 <= (w + d)^2 + c) by sqs. set (s := sqrt ((w + d)^2 + c)). assert (Hs : 0 <= s) by apply sqrt_pos. assert (S2 : s * s = (w + d)^2 + c) by (apply sqrt_sqrt; exact P).
  assert (A : - (w + d) < s). { destruct (Rlt_dec 0 (w + d)); [lra|]. apply Rsqr_incrst_0; [unfold Rsqr; nra|lra|exact Hs]. }
  rewrite <- (sqrt_Rsqr (s + d)) by lra. apply sqrt_lt_1_alt. unfold Rsqr. split; [nra|]. nra.
Qed.
Lemma pair_sq t a r : 0 <= r -> pair t a r * pair t a r = 2 * (t^2 + a^2 + r) + 2 * sqrt ((t^2 - a^2 + r)^2 + 4 * r * a^2).
Proof.
  intros Hr. unfold pair. set (u := sqrt ((t - a)^2 + r)). set (v := sqrt ((t + a)^2 + r)).
  assert (U : u * u = (t - a)^2 + r) by (apply sqrt_sqrt; sqs). assert (V : v * v = (t + a)^2 + r) by (apply sqrt_sqrt; sqs).
  assert (UV : u * v = sqrt ((t^2 - a^2 + r)^2 + 4 * r * a^2)). { unfold u, v. rewrite <- sqrt_mult_alt by sqs. f_equal. ring. }
  replace ((u + v) * (u + v)) with (u * u + v * v + 2 * (u * v)) by ring. rewrite U, V, UV. ring.
Qed.
Lemma pair_pos t a r : 0 <= pair t a r. Proof. unfold pair. pose proof (sqrt_pos ((t - a)^2 + r)). pose proof (sqrt_pos ((t + a)^2 + r)). lra. Qed.
Lemma pair_mono t t' a r : 0 <= r -> t^2 <= t'^2 -> pair t a r <= pair t' a r.
Proof.
  intros Hr H. apply Rsqr_incr_0_var; [|apply pair_pos]. unfold Rsqr. rewrite !pair_sq by exact Hr.
  pose proof (lips (t^2 - a^2 + r) (t'^2 - t^2) (4 * r * a^2) ltac:(lra) ltac:(nra)) as L. replace (t^2 - a^2 + r + (t'^2 - t^2)) with (t'^2 - a^2 + r) in L by ring. lra.
Qed.
Lemma pair_strict t t' a r : 0 < r -> a <> 0 -> t^2 < t'^2 -> pair t a r < pair t' a r.
Proof.
  intros Hr Ha H. apply Rsqr_incrst_0; [|apply pair_pos|apply pair_pos]. unfold Rsqr. rewrite !pair_sq by lra.
  assert (0 < a^2) by (destruct (Rlt_dec a 0); nra). pose proof (lips_strict (t^2 - a^2 + r) (t'^2 - t^2) (4 * r * a^2) ltac:(lra) ltac:(nra)) as L. replace (t^2 - a^2 + r + (t'^2 - t^2)) with (t'^2 - a^2 + r) in L by ring. lra.
Qed.
(** all eight corners; u: position with respect to the centre, a b c: half edges *)
Definition oct (u v w a b c : R) : R :=
  pair u a ((v - b)^2 + (w - c)^2) + pair u a ((v + b)^2 + (w - c)^2) + pair u a ((v - b)^2 + (w + c)^2) + pair u a ((v + b)^2 + (w + c)^2).
Lemma oct_x u u' v w a b c : u^2 <= u'^2 -> oct u v w a b c <= oct u' v w a b c.
Proof. intros H. unfold oct. apply Rplus_le_compat; [apply Rplus_le_compat; [apply Rplus_le_compat|]|]; apply pair_mono; try exact H; sqs. Qed.
Lemma oct_x_strict u u' v w a b c : 0 < a -> 0 < b -> u^2 < u'^2 -> oct u v w a b c < oct u' v w a b c.
Proof.
  intros Ha Hb H. unfold oct. assert (D : forall r, 0 <= r -> pair u a r <= pair u' a r) by (intros r Hr; apply pair_mono; [exact Hr|lra]).
  assert (S : forall r, 0 < r -> pair u a r < pair u' a r) by (intros r Hr; apply pair_strict; [exact Hr|lra|exact H]).
  pose proof (D ((v - b)^2 + (w - c)^2) ltac:(sqs)). pose proof (D ((v + b)^2 + (w - c)^2) ltac:(sqs)). pose proof (D ((v - b)^2 + (w + c)^2) ltac:(sqs)). pose proof (D ((v + b)^2 + (w + c)^2) ltac:(sqs)).
  destruct (Rle_dec 0 v) as [C|C].
  - pose proof (pow2_ge_0 (w - c)). pose proof (S ((v + b)^2 + (w - c)^2) ltac:(nra)). lra.
  - pose proof (pow2_ge_0 (w - c)). pose proof (S ((v - b)^2 + (w - c)^2) ltac:(nra)). lra.
Qed.
Lemma oct_swap u v w a b c : oct u v w a b c = oct v u w b a c.
Proof.
  unfold oct, pair.
  replace ((u - a)^2 + ((v - b)^2 + (w - c)^2)) with ((v - b)^2 + ((u - a)^2 + (w - c)^2)) by ring. replace ((u + a)^2 + ((v - b)^2 + (w - c)^2)) with ((v - b)^2 + ((u + a)^2 + (w - c)^2)) by ring.
  replace ((u - a)^2 + ((v + b)^2 + (w - c)^2)) with ((v + b)^2 + ((u - a)^2 + (w - c)^2)) by ring. replace ((u + a)^2 + ((v + b)^2 + (w - c)^2)) with ((v + b)^2 + ((u + a)^2 + (w - c)^2)) by ring.
  replace ((u - a)^2 + ((v - b)^2 + (w + c)^2)) with ((v - b)^2 + ((u - a)^2 + (w + c)^2)) by ring. replace ((u + a)^2 + ((v - b)^2 + (w + c)^2)) with ((v - b)^2 + ((u + a)^2 + (w + c)^2)) by ring.
  replace ((u - a)^2 + ((v + b)^2 + (w + c)^2)) with ((v + b)^2 + ((u - a)^2 + (w + c)^2)) by ring. replace ((u + a)^2 + ((v + b)^2 + (w + c)^2)) with ((v + b)^2 + ((u + a)^2 + (w + c)^2)) by ring. ring.
Qed.
Lemma oct_turn u v w a b c : oct u v w a b c = oct u w v a c b.
Proof.
  unfold oct. rewrite (Rplus_comm ((w - c)^2)), (Rplus_comm ((w + c)^2) ((v - b)^2)), (Rplus_comm ((w - c)^2)), (Rplus_comm ((w + c)^2) ((v + b)^2)). ring.
Qed.
Lemma oct_mono u v w u' v' w' a b c : 0 < a -> 0 < b -> 0 < c -> u^2 <= u'^2 -> v^2 <= v'^2 -> w^2 <= w'^2 -> (u^2 < u'^2 \/ v^2 < v'^2 \/ w^2 < w'^2) -> oct u v w a b c < oct u' v' w' a b c.
Proof.
  intros Ha Hb Hc Hu Hv Hw Hs.
  assert (X : oct u v w a b c <= oct u' v w a b c) by (apply oct_x; exact Hu).
  assert (Y : oct u' v w a b c <= oct u' v' w a b c) by (rewrite (oct_swap u' v), (oct_swap u' v'); apply oct_x; exact Hv).
  assert (Z : oct u' v' w a b c <= oct u' v' w' a b c) by (rewrite (oct_turn u' v' w), (oct_turn u' v' w'), (oct_swap u' w), (oct_swap u' w'); apply oct_x; exact Hw).
  destruct Hs as [H|[H|H]].
  - pose proof (oct_x_strict u u' v w a b c Ha Hb H). lra.
  - assert (oct u' v w a b c < oct u' v' w a b c) by (rewrite (oct_swap u' v), (oct_swap u' v'); apply oct_x_strict; assumption). lra.
  - assert (oct u' v' w a b c < oct u' v' w' a b c) by (rewrite (oct_turn u' v' w), (oct_turn u' v' w'), (oct_swap u' w), (oct_swap u' w'); apply oct_x_strict; assumption). lra.
Qed.
Lemma total_oct x x' y y' z z' p : totalDist (corners x x' y y' z z') p =
  oct (vx p - (x + x') / 2) (vy p - (y + y') / 2) (vz p - (z + z') / 2) ((x' - x) / 2) ((y' - y) / 2) ((z' - z) / 2).
Proof.
  unfold totalDist, corners. cbn [fold_left]. unfold norm, norm2, dot, vsub. cbn [vx vy vz]. unfold oct, pair.
  set (px := vx p). set (py := vy p). set (pz := vz p).
  assert (E : forall a b c a2 b2 c2 : R, a = a2 \/ a = - a2 -> b = b2 \/ b = - b2 -> c = c2 \/ c = - c2 -> sqrt (a * a + b * b + c * c) = sqrt (a2^2 + (b2^2 + c2^2))).
  { intros a b c a2 b2 c2 A B C. f_equal. assert (a * a = a2^2) by (destruct A as [-> | ->]; ring). assert (b * b = b2^2) by (destruct B as [-> | ->]; ring). assert (c * c = c2^2) by (destruct C as [-> | ->]; ring). lra. }
  rewrite (E (px - x) (py - y) (pz - z) (px - (x + x') / 2 + (x' - x) / 2) (py - (y + y') / 2 + (y' - y) / 2) (pz - (z + z') / 2 + (z' - z) / 2)) by (left; field).
  rewrite (E (px - x') (py - y) (pz - z) (px - (x + x') / 2 - (x' - x) / 2) (py - (y + y') / 2 + (y' - y) / 2) (pz - (z + z') / 2 + (z' - z) / 2)) by (left; field).
  rewrite (E (px - x) (py - y') (pz - z) (px - (x + x') / 2 + (x' - x) / 2) (py - (y + y') / 2 - (y' - y) / 2) (pz - (z + z') / 2 + (z' - z) / 2)) by (left; field).
  rewrite (E (px - x') (py - y') (pz - z) (px - (x + x') / 2 - (x' - x) / 2) (py - (y + y') / 2 - (y' - y) / 2) (pz - (z + z') / 2 + (z' - z) / 2)) by (left; field).
  rewrite (E (px - x) (py - y) (pz - z') (px - (x + x') / 2 + (x' - x) / 2) (py - (y + y') / 2 + (y' - y) / 2) (pz - (z + z') / 2 - (z' - z) / 2)) by (left; field).
  rewrite (E (px - x') (py - y) (pz - z') (px - (x + x') / 2 - (x' - x) / 2) (py - (y + y') / 2 + (y' - y) / 2) (pz - (z + z') / 2 - (z' - z) / 2)) by (left; field).
  rewrite (E (px - x) (py - y') (pz - z') (px - (x + x') / 2 + (x' - x) / 2) (py - (y + y') / 2 - (y' - y) / 2) (pz - (z + z') / 2 - (z' - z) / 2)) by (left; field).
  rewrite (E (px - x') (py - y') (pz - z') (px - (x + x') / 2 - (x' - x) / 2) (py - (y + y') / 2 - (y' - y) / 2) (pz - (z + z') / 2 - (z' - z) / 2)) by (left; field).
  ring.
Qed.

(** ** findSubdomain *)
Lemma find_fold p sds : forall d w, let r := fold_left (closer p) sds (d, w) in
  (fst r <= d) /\ (forall sd, In sd sds -> fst r <= totalDist (points sd) p) /\ (r = (d, w) \/ exists sd, In sd sds /\ r = (totalDist (points sd) p, worker sd)).
Proof.
  induction sds as [|s sds IH]; intros d w; cbn [fold_left].
  - cbv zeta. cbn [fst]. split; [lra|]. split; [intros sd []|left; reflexivity].
  - unfold closer at 2 4 6 8. cbn [fst]. destruct (Rlt_dec (totalDist (points s) p) d) as [C|C].
    + destruct (IH (totalDist (points s) p) (worker s)) as (A & B & D). cbv zeta in *. split; [lra|]. split; [intros sd [<- |H]; [exact A|exact (B sd H)]|]. right. destruct D as [D|(sd & H & E)]; [exists s; split; [left; reflexivity|exact D]|exists sd; split; [right; exact H|exact E]].
    + destruct (IH d w) as (A & B & D). cbv zeta in *. split; [lra|]. split; [intros sd [<- |H]; [lra|exact (B sd H)]|]. destruct D as [D|(sd & H & E)]; [left; exact D|right; exists sd; split; [right; exact H|exact E]].
Qed.
(** a subdomain strictly closer than all others is found *)
Lemma find_min sds sd p : In sd sds -> totalDist (points sd) p < 10000000 -> (forall s, In s sds -> s <> sd -> totalDist (points sd) p < totalDist (points s) p) -> findSubdomain sds p = worker sd.
Proof.
  intros Hi Hl Hm. unfold findSubdomain. destruct (find_fold p sds 10000000 0%nat) as (A & B & D). cbv zeta in *. specialize (B sd Hi). destruct D as [D|(s & Hs & E)].
  - rewrite D in B. cbn [fst] in B. lra.
  - rewrite E. cbn [snd]. rewrite E in B. cbn [fst] in B. destruct (Nat.eq_dec (worker s) (worker sd)) as [Ew|Ew]; [exact Ew|]. exfalso. assert (Hne : s <> sd) by (intros ->; contradiction). specialize (Hm s Hs Hne). lra.
Qed.
(** what is found is the closest one, or nothing is within the limit *)
Lemma find_closest sds p : (findSubdomain sds p = 0%nat /\ forall sd, In sd sds -> 10000000 <= totalDist (points sd) p) \/
  exists sd, In sd sds /\ findSubdomain sds p = worker sd /\ forall s, In s sds -> totalDist (points sd) p <= totalDist (points s) p.
Proof.
  unfold findSubdomain. destruct (find_fold p sds 10000000 0%nat) as (A & B & D). cbv zeta in *. destruct D as [D|(s & Hs & E)].
  - left. rewrite D in *. cbn [fst snd] in *. auto.
  - right. exists s. rewrite E in *. cbn [fst snd] in *. auto.
Qed.
