(** Decomposition of the domain: blocks, number of blocks, points. *)
From Verif Require Import Vec_Model Dom_Model Dom_Spec Dom_Proofs.
From Coq Require Import Reals List ZArith QArith Qround Arith Lia Lra Psatz FinFun.
Import ListNotations.
Local Open Scope R_scope.

(** ** the blocks *)
Section Parts.
Variables X Y Z : nat -> R.
Fixpoint parts (u w : nat) (cs : list (nat * nat * nat)) : list subdomain :=
  match cs with
  | [] => []
  | (i, j, k) :: cs' => match u with
      | S u' => makeTwoSubdomains X Y Z i j k w ++ parts u' (w + 2) cs'
      | O => makeOneSubdomain X Y Z i j k w ++ parts 0 (w + 1) cs'
      end
  end.
Lemma visit_parts cs : forall u w sds, snd (fold_left (visit X Y Z) cs (u, w, sds)) = sds ++ parts u w cs.
Proof.
  induction cs as [|[[i j] k] cs IH]; intros u w sds; [cbn [fold_left snd parts]; rewrite app_nil_r; reflexivity|]. cbn [fold_left visit parts].
  destruct u as [|u]; rewrite IH, <- app_assoc; reflexivity.
Qed.
Lemma parts_workers cs : forall u w, map worker (parts u w cs) = seq (w + 1) (length cs + Nat.min u (length cs)).
Proof.
  induction cs as [|[[i j] k] cs IH]; intros u w; [rewrite Nat.min_0_r; reflexivity|]. cbn [parts length]. destruct u as [|u]; rewrite map_app, IH.
  - rewrite !Nat.min_0_l, !Nat.add_0_r. cbn [makeOneSubdomain map app worker seq]. f_equal. rewrite <- Nat.add_succ_r. f_equal. lia.
  - cbn [Nat.min]. replace (S (length cs) + S (Nat.min u (length cs)))%nat with (S (S (length cs + Nat.min u (length cs)))) by lia.
    cbn [makeTwoSubdomains map app worker seq]. f_equal. f_equal; [lia|f_equal; lia].
Qed.
Hypothesis incX : forall i, X i < X (S i).
Hypothesis incY : forall i, Y i < Y (S i).
Hypothesis incZ : forall i, Z i < Z (S i).
Lemma mono F (inc : forall i, F i < F (S i)) i i' : (i <= i')%nat -> F i <= F i'.
Proof. induction 1 as [|m H IH]; [lra|]. specialize (inc m). lra. Qed.
Lemma same_slot F (inc : forall i, F i < F (S i)) i i' p : F i < p < F (S i) -> F i' < p < F (S i') -> i = i'.
Proof.
  intros A B. destruct (Nat.lt_trichotomy i i') as [C|[C|C]]; [|exact C|]; exfalso.
  - pose proof (mono F inc (S i) i' C). lra.
  - pose proof (mono F inc (S i') i C). lra.
Qed.
Definition in_cell (c : nat * nat * nat) (p : vec) : Prop := let '(i, j, k) := c in X i <= vx p <= X (S i) /\ Y j <= vy p <= Y (S j) /\ Z k <= vz p <= Z (S k).
Definition inside_cell (c : nat * nat * nat) (p : vec) : Prop := let '(i, j, k) := c in X i < vx p < X (S i) /\ Y j < vy p < Y (S j) /\ Z k < vz p < Z (S k).
Lemma sub_box x x' y y' z z' w p : in_sub (mkS (corners x x' y y' z z') w) p <-> x <= vx p <= x' /\ y <= vy p <= y' /\ z <= vz p <= z'.
Proof.
  unfold in_sub, corners. cbn [points hd_error rev app]. split.
  - intros (a & b & Ea & Eb & H). injection Ea as <-. injection Eb as <-. exact H.
  - intros H. eexists _, _. split; [reflexivity|]. split; [reflexivity|exact H].
Qed.
Lemma sub_inside x x' y y' z z' w p : inside_sub (mkS (corners x x' y y' z z') w) p <-> x < vx p < x' /\ y < vy p < y' /\ z < vz p < z'.
Proof.
  unfold inside_sub, corners. cbn [points hd_error rev app]. split.
  - intros (a & b & Ea & Eb & H). injection Ea as <-. injection Eb as <-. exact H.
  - intros H. eexists _, _. split; [reflexivity|]. split; [reflexivity|exact H].
Qed.
Lemma parts_in cs : forall u w sd p, In sd (parts u w cs) -> in_sub sd p -> exists c, In c cs /\ in_cell c p.
Proof.
  induction cs as [|[[i j] k] cs IH]; intros u w sd p Hi Hp; [destruct Hi|]. pose proof (incX i). cbn [parts] in Hi. destruct u as [|u]; apply in_app_or in Hi; destruct Hi as [Hi|Hi].
  - destruct Hi as [<- |[]]. apply sub_box in Hp. exists (i, j, k). split; [left; reflexivity|exact Hp].
  - destruct (IH _ _ _ _ Hi Hp) as (c & A & B). exists c. split; [right; exact A|exact B].
  - exists (i, j, k). split; [left; reflexivity|]. destruct Hi as [<- |[<- |[]]]; apply sub_box in Hp; unfold in_cell; repeat split; lra.
  - destruct (IH _ _ _ _ Hi Hp) as (c & A & B). exists c. split; [right; exact A|exact B].
Qed.
Lemma parts_inside cs : forall u w sd p, In sd (parts u w cs) -> inside_sub sd p -> exists c, In c cs /\ inside_cell c p.
Proof.
  induction cs as [|[[i j] k] cs IH]; intros u w sd p Hi Hp; [destruct Hi|]. pose proof (incX i). cbn [parts] in Hi. destruct u as [|u]; apply in_app_or in Hi; destruct Hi as [Hi|Hi].
  - destruct Hi as [<- |[]]. apply sub_inside in Hp. exists (i, j, k). split; [left; reflexivity|exact Hp].
  - destruct (IH _ _ _ _ Hi Hp) as (c & A & B). exists c. split; [right; exact A|exact B].
  - exists (i, j, k). split; [left; reflexivity|]. destruct Hi as [<- |[<- |[]]]; apply sub_inside in Hp; unfold inside_cell; repeat split; lra.
  - destruct (IH _ _ _ _ Hi Hp) as (c & A & B). exists c. split; [right; exact A|exact B].
Qed.
Lemma parts_cover cs : forall u w c p, In c cs -> in_cell c p -> exists sd, In sd (parts u w cs) /\ in_sub sd p.
Proof.
  induction cs as [|[[i j] k] cs IH]; intros u w c p Hi Hp; [destruct Hi|]. cbn [parts]. destruct Hi as [<- |Hi].
  - unfold in_cell in Hp. destruct u as [|u].
    + eexists. split; [apply in_or_app; left; left; reflexivity|]. apply sub_box. exact Hp.
    + destruct (Rle_dec (vx p) (X i + (X (S i) - X i) / 2)) as [C|C]; eexists.
      * split; [apply in_or_app; left; left; reflexivity|]. apply sub_box. repeat split; lra.
      * split; [apply in_or_app; left; right; left; reflexivity|]. apply sub_box. repeat split; lra.
  - destruct u as [|u].
    + destruct (IH 0%nat (w + 1)%nat c p Hi Hp) as (sd & A & B). exists sd. split; [apply in_or_app; right; exact A|exact B].
    + destruct (IH u (w + 2)%nat c p Hi Hp) as (sd & A & B). exists sd. split; [apply in_or_app; right; exact A|exact B].
Qed.
Lemma same_cell c c' p : inside_cell c p -> inside_cell c' p -> c = c'.
Proof.
  destruct c as [[i j] k], c' as [[i' j'] k']. unfold inside_cell. intros (A & B & C) (A' & B' & C').
  rewrite (same_slot X incX i i' _ A A'), (same_slot Y incY j j' _ B B'), (same_slot Z incZ k k' _ C C'). reflexivity.
Qed.
Lemma parts_unique cs : NoDup cs -> forall u w sd sd' p, In sd (parts u w cs) -> In sd' (parts u w cs) -> inside_sub sd p -> inside_sub sd' p -> sd = sd'.
Proof.
  induction cs as [|[[i j] k] cs IH]; intros Nd u w sd sd' p H H' Hp Hp'; [destruct H|]. inversion Nd as [|? ? N1 N2]; subst. pose proof (incX i) as I.
  set (head := match u with S _ => makeTwoSubdomains X Y Z i j k w | O => makeOneSubdomain X Y Z i j k w end).
  assert (E : exists u' w', parts u w ((i, j, k) :: cs) = head ++ parts u' w' cs) by (destruct u; cbn [parts]; eexists _, _; reflexivity). destruct E as (u' & w' & E). rewrite E in H, H'.
  assert (Hd : forall s, In s head -> inside_sub s p -> inside_cell (i, j, k) p).
  { intros s Hs Hsp. unfold head in Hs. destruct u as [|u]; [destruct Hs as [<- |[]]; apply sub_inside in Hsp; exact Hsp|]. destruct Hs as [<- |[<- |[]]]; apply sub_inside in Hsp; unfold inside_cell; repeat split; lra. }
  assert (Tl : forall s, In s (parts u' w' cs) -> inside_sub s p -> inside_cell (i, j, k) p -> False).
  { intros s Hs Hsp Hc. destruct (parts_inside cs u' w' s p Hs Hsp) as (c & Hc1 & Hc2). apply N1. rewrite (same_cell _ _ _ Hc Hc2). exact Hc1. }
  apply in_app_or in H, H'. destruct H as [H|H], H' as [H'|H'].
  - unfold head in H, H'. destruct u as [|u].
    + destruct H as [<- |[]], H' as [<- |[]]. reflexivity.
    + destruct H as [<- |[<- |[]]], H' as [<- |[<- |[]]]; try reflexivity; exfalso; apply sub_inside in Hp, Hp'; lra.
  - exfalso. exact (Tl sd' H' Hp' (Hd sd H Hp)).
  - exfalso. exact (Tl sd H Hp (Hd sd' H' Hp')).
  - exact (IH N2 u' w' sd sd' p H H' Hp Hp').
Qed.
End Parts.

Lemma in_cells nx ny nz i j k : In (i, j, k) (cells nx ny nz) <-> (i < nx /\ j < ny /\ k < nz)%nat.
Proof.
  unfold cells. rewrite in_flat_map. split.
  - intros (i' & Hi & H). apply in_flat_map in H. destruct H as (j' & Hj & H). apply in_map_iff in H. destruct H as (k' & E & Hk). injection E as -> -> ->. apply in_seq in Hi, Hj, Hk. lia.
  - intros (Hi & Hj & Hk). exists i. split; [apply in_seq; lia|]. apply in_flat_map. exists j. split; [apply in_seq; lia|]. apply in_map. apply in_seq. lia.
Qed.
Lemma nodup_flat {A B} (f : A -> list B) l : NoDup l -> (forall x, In x l -> NoDup (f x)) -> (forall x y b, In x l -> In y l -> In b (f x) -> In b (f y) -> x = y) -> NoDup (flat_map f l).
Proof.
  induction l as [|a l IH]; intros Nd Hf Hd; [constructor|]. inversion Nd as [|? ? N1 N2]; subst. cbn [flat_map].
  assert (IHl : NoDup (flat_map f l)). { apply IH; [exact N2|intros x Hx; apply Hf; right; exact Hx|]. intros x y b Hx Hy. apply Hd; right; assumption. }
  assert (Dj : forall b, In b (f a) -> ~ In b (flat_map f l)). { intros b Hb C. apply in_flat_map in C. destruct C as (y & Hy & Hby). apply N1. rewrite (Hd a y b); [exact Hy|left; reflexivity|right; exact Hy|exact Hb|exact Hby]. }
  specialize (Hf a (or_introl eq_refl)). clear - IHl Dj Hf. induction (f a) as [|b bs IHb]; [exact IHl|]. inversion Hf as [|? ? M1 M2]; subst. cbn [app]. constructor; [|apply IHb; [exact M2|intros b' Hb'; apply Dj; right; exact Hb']].
  intros C. apply in_app_or in C. destruct C as [C|C]; [contradiction|]. exact (Dj b (or_introl eq_refl) C).
Qed.
Lemma cells_nodup nx ny nz : NoDup (cells nx ny nz).
Proof.
  unfold cells. apply nodup_flat; [apply seq_NoDup| |].
  - intros i _. apply nodup_flat; [apply seq_NoDup| |].
    + intros j _. apply Injective_map_NoDup; [|apply seq_NoDup]. intros a b H. injection H as ->. reflexivity.
    + intros a b c _ _ Ha Hb. apply in_map_iff in Ha, Hb. destruct Ha as (k & <- & _), Hb as (k' & E & _). injection E as -> _. reflexivity.
  - intros a b c _ _ Ha Hb. apply in_flat_map in Ha, Hb. destruct Ha as (j & _ & Ha), Hb as (j' & _ & Hb). apply in_map_iff in Ha, Hb. destruct Ha as (k & <- & _), Hb as (k' & E & _). injection E as -> _ _. reflexivity.
Qed.
Lemma flat_length {A B} (f : A -> list B) l m : (forall x, In x l -> length (f x) = m) -> length (flat_map f l) = (length l * m)%nat.
Proof. induction l as [|a l IH]; intros H; [reflexivity|]. cbn [flat_map length]. rewrite app_length, (H a (or_introl eq_refl)), IH; [lia|]. intros x Hx. apply H. right. exact Hx. Qed.
Lemma cells_length nx ny nz : length (cells nx ny nz) = (nx * ny * nz)%nat.
Proof.
  unfold cells. rewrite (flat_length _ _ (ny * nz)); [rewrite seq_length; lia|]. intros i _. rewrite (flat_length _ _ nz); [rewrite seq_length; lia|]. intros j _. rewrite map_length, seq_length. reflexivity.
Qed.

(** ** linspace *)
Section Lin.
Variables (a b : R) (d : nat).
Hypothesis ab : a < b.
Hypothesis d0 : (0 < d)%nat.
Let h := (b - a) / INR d.
Lemma dpos : 0 < INR d. Proof. apply lt_0_INR. exact d0. Qed.
Lemma hpos : 0 < h. Proof. pose proof dpos. unfold h. apply Rdiv_lt_0_compat; lra. Qed.
Lemma lin_step i : linspace a b d (S i) = linspace a b d i + h. Proof. unfold linspace. fold h. rewrite S_INR. ring. Qed.
Lemma lin_inc i : linspace a b d i < linspace a b d (S i). Proof. rewrite lin_step. pose proof hpos. lra. Qed.
Lemma lin_0 : linspace a b d 0 = a. Proof. unfold linspace. cbn [INR]. ring. Qed.
Lemma lin_d : linspace a b d d = b. Proof. unfold linspace. pose proof dpos. field. lra. Qed.
Lemma lin_slot p : a <= p <= b -> exists i, (i < d)%nat /\ linspace a b d i <= p <= linspace a b d (S i).
Proof.
  intros Hp. assert (G : forall m, (0 < m)%nat -> p <= linspace a b d m -> exists i, (i < m)%nat /\ linspace a b d i <= p <= linspace a b d (S i)).
  { induction m as [|m IH]; intros Hm Hpm; [lia|]. destruct (Rle_dec p (linspace a b d m)) as [C|C].
    - destruct m as [|m]; [exists 0%nat; split; [lia|]; rewrite lin_0 in *; lra|]. destruct (IH ltac:(lia) C) as (i & Hi & H). exists i. split; [lia|exact H].
    - exists m. split; [lia|]. lra. }
  apply G; [exact d0|]. rewrite lin_d. lra.
Qed.
Lemma lin_range i : (i <= d)%nat -> a <= linspace a b d i <= b.
Proof. intros Hi. pose proof (mono (linspace a b d) lin_inc 0 i ltac:(lia)) as A. pose proof (mono (linspace a b d) lin_inc i d Hi) as B. rewrite lin_0 in A. rewrite lin_d in B. lra. Qed.
End Lin.

Lemma blocks_parts mn mx nx ny nz u : blocks mn mx nx ny nz u = parts (linspace (vx mn) (vx mx) nx) (linspace (vy mn) (vy mx) ny) (linspace (vz mn) (vz mx) nz) u 0 (cells nx ny nz).
Proof. unfold blocks, partitionSubdomains. rewrite visit_parts. reflexivity. Qed.
Lemma blocks_tile mn mx nx ny nz u : below mn mx -> (0 < nx)%nat -> (0 < ny)%nat -> (0 < nz)%nat -> (u <= nx * ny * nz)%nat -> tiles mn mx (nx * ny * nz + u) (blocks mn mx nx ny nz u).
Proof.
  intros (Bx & By & Bz) Hx Hy Hz Hu. rewrite blocks_parts. pose proof (lin_inc _ _ _ Bx Hx) as Ix. pose proof (lin_inc _ _ _ By Hy) as Iy. pose proof (lin_inc _ _ _ Bz Hz) as Iz. split; [|split; [|split]].
  - rewrite parts_workers, cells_length. f_equal. lia.
  - intros p (Px & Py & Pz). destruct (lin_slot _ _ _ Hx _ Px) as (i & Hi & Ei), (lin_slot _ _ _ Hy _ Py) as (j & Hj & Ej), (lin_slot _ _ _ Hz _ Pz) as (k & Hk & Ek).
    apply (parts_cover _ _ _ (cells nx ny nz) u 0%nat (i, j, k) p); [apply in_cells; auto|]. unfold in_cell. auto.
  - intros sd p Hs Hp. destruct (parts_in _ _ _ Ix (cells nx ny nz) u 0%nat sd p Hs Hp) as ([[i j] k] & Hc & (A & B & C)). apply in_cells in Hc.
    pose proof (lin_range _ _ _ Bx Hx i ltac:(lia)). pose proof (lin_range _ _ _ Bx Hx (S i) ltac:(lia)). pose proof (lin_range _ _ _ By Hy j ltac:(lia)). pose proof (lin_range _ _ _ By Hy (S j) ltac:(lia)).
    pose proof (lin_range _ _ _ Bz Hz k ltac:(lia)). pose proof (lin_range _ _ _ Bz Hz (S k) ltac:(lia)). unfold Dom_Spec.between. lra.
  - intros sd sd' p. apply parts_unique; [exact Ix|exact Iy|exact Iz|apply cells_nodup].
Qed.

(** *** the subdomain in which the point is, is found, if all have the same size *)
Lemma far_centre x h p i i' (F : nat -> R) : 0 < h -> (forall n, F n = x + INR n * h) -> F i < p < F (S i) -> i <> i' -> (p - (F i + F (S i)) / 2)^2 < (p - (F i' + F (S i')) / 2)^2.
Proof.
  intros Hh EF Hp Hne. rewrite !EF, !S_INR in *. set (t := p - (x + INR i * h + (x + (INR i + 1) * h)) / 2). assert (T : - (h / 2) < t < h / 2) by (unfold t; lra).
  destruct (Nat.lt_ge_cases i i') as [C|C].
  - assert (E : exists e, 1 <= e /\ INR i' = INR i + e). { exists (INR (i' - i)). split; [apply (le_INR 1); lia|]. rewrite minus_INR by lia. lra. } destruct E as (e & He & ->).
    replace (p - (x + (INR i + e) * h + (x + (INR i + e + 1) * h)) / 2) with (t - e * h) by (unfold t; field). assert (h <= e * h) by nra. nra.
  - assert (E : exists e, 1 <= e /\ INR i = INR i' + e). { exists (INR (i - i')). split; [apply (le_INR 1); lia|]. rewrite minus_INR by lia. lra. } destruct E as (e & He & E).
    replace (p - (x + INR i' * h + (x + (INR i' + 1) * h)) / 2) with (t + e * h) by (unfold t; rewrite E; field). assert (h <= e * h) by nra. nra.
Qed.
Lemma parts_regular X Y Z cs : forall w sd, In sd (parts X Y Z 0 w cs) -> exists i j k w', In (i, j, k) cs /\ sd = mkS (corners (X i) (X (S i)) (Y j) (Y (S j)) (Z k) (Z (S k))) w'.
Proof.
  induction cs as [|[[i j] k] cs IH]; intros w sd H; [destruct H|]. cbn [parts] in H. apply in_app_or in H. destruct H as [H|H].
  - destruct H as [<- |[]]. exists i, j, k, (w + 1)%nat. split; [left; reflexivity|reflexivity].
  - destruct (IH _ _ H) as (i' & j' & k' & w' & A & B). exists i', j', k', w'. split; [right; exact A|exact B].
Qed.
Lemma manual_find mn mx nx ny nz sd p : below mn mx -> (0 < nx)%nat -> (0 < ny)%nat -> (0 < nz)%nat -> In sd (manual mn mx nx ny nz) -> inside_sub sd p -> totalDist (points sd) p < 10000000 ->
  findSubdomain (manual mn mx nx ny nz) p = worker sd.
Proof.
  intros B Hx Hy Hz Hs Hp Hl. apply find_min; [exact Hs|exact Hl|]. intros s Hi Hne.
  destruct (blocks_tile mn mx nx ny nz 0 B Hx Hy Hz ltac:(lia)) as (_ & _ & _ & U). fold (manual mn mx nx ny nz) in U. destruct B as (Bx & By & Bz).
  pose proof Hs as Hs'. pose proof Hi as Hi'. unfold manual in Hs', Hi'. rewrite blocks_parts in Hs', Hi'. apply parts_regular in Hs', Hi'. destruct Hs' as (i & j & k & w & Hc & E), Hi' as (i' & j' & k' & w' & Hc' & E').
  pose proof Hp as Hp'. rewrite E in Hp'. apply sub_inside in Hp'. destruct Hp' as (Px & Py & Pz).
  assert (D : i <> i' \/ j <> j' \/ k <> k').
  { destruct (Nat.eq_dec i i') as [Ei|]; [|auto]. destruct (Nat.eq_dec j j') as [Ej|]; [|auto]. destruct (Nat.eq_dec k k') as [Ek|]; [|auto]. exfalso. apply Hne. apply (U s sd p Hi Hs); [|exact Hp]. rewrite E', <- Ei, <- Ej, <- Ek. apply sub_inside. auto. }
  rewrite E, E'. cbn [points]. rewrite !total_oct.
  assert (HX : forall n, linspace (vx mn) (vx mx) nx (S n) - linspace (vx mn) (vx mx) nx n = (vx mx - vx mn) / INR nx) by (intros n; rewrite lin_step; ring).
  assert (HY : forall n, linspace (vy mn) (vy mx) ny (S n) - linspace (vy mn) (vy mx) ny n = (vy mx - vy mn) / INR ny) by (intros n; rewrite lin_step; ring).
  assert (HZ : forall n, linspace (vz mn) (vz mx) nz (S n) - linspace (vz mn) (vz mx) nz n = (vz mx - vz mn) / INR nz) by (intros n; rewrite lin_step; ring).
  rewrite !HX, !HY, !HZ. pose proof (hpos _ _ _ Bx Hx) as hx. pose proof (hpos _ _ _ By Hy) as hy. pose proof (hpos _ _ _ Bz Hz) as hz.
  assert (FX : i <> i' -> (vx p - (linspace (vx mn) (vx mx) nx i + linspace (vx mn) (vx mx) nx (S i)) / 2)^2 < (vx p - (linspace (vx mn) (vx mx) nx i' + linspace (vx mn) (vx mx) nx (S i')) / 2)^2)
    by (intros H; apply (far_centre (vx mn) ((vx mx - vx mn) / INR nx)); [exact hx|reflexivity|exact Px|exact H]).
  assert (FY : j <> j' -> (vy p - (linspace (vy mn) (vy mx) ny j + linspace (vy mn) (vy mx) ny (S j)) / 2)^2 < (vy p - (linspace (vy mn) (vy mx) ny j' + linspace (vy mn) (vy mx) ny (S j')) / 2)^2)
    by (intros H; apply (far_centre (vy mn) ((vy mx - vy mn) / INR ny)); [exact hy|reflexivity|exact Py|exact H]).
  assert (FZ : k <> k' -> (vz p - (linspace (vz mn) (vz mx) nz k + linspace (vz mn) (vz mx) nz (S k)) / 2)^2 < (vz p - (linspace (vz mn) (vz mx) nz k' + linspace (vz mn) (vz mx) nz (S k')) / 2)^2)
    by (intros H; apply (far_centre (vz mn) ((vz mx - vz mn) / INR nz)); [exact hz|reflexivity|exact Pz|exact H]).
  apply oct_mono; try lra.
  - destruct (Nat.eq_dec i i') as [<- |C]; [lra|left; exact (FX C)].
  - destruct (Nat.eq_dec j j') as [<- |C]; [lra|left; exact (FY C)].
  - destruct (Nat.eq_dec k k') as [<- |C]; [lra|left; exact (FZ C)].
  - destruct D as [C|[C|C]]; auto.
Qed.

(** ** number of blocks *)
Section Loop.
Local Open Scope Z_scope.
Lemma idx_12 d0 d1 d2 : idxOfSmallestPositiveNumber [d0; d1; d2] = if 2 <? d1 then 2 else 1.
Proof. unfold idxOfSmallestPositiveNumber. cbn. destruct (2 <? d1); reflexivity. Qed.
Definition flat (s : decomp) : Prop := int (xD s) = 0 \/ int (zD s) = 0.
Lemma flat_step n s : 0 < n -> flat s -> exists s', iteration n s = Next s' /\ flat s'.
Proof.
  intros Hn Hf. assert (E : estimated s = 0) by (unfold estimated; destruct Hf as [-> | ->]; lia). unfold iteration. rewrite E. rewrite (proj2 (Z.ltb_ge n 0)) by lia. rewrite (proj2 (Z.ltb_lt 0 n)) by lia.
  cbn [map forallb]. assert (E1 : int (xD s) * int (zD s) = 0) by (destruct Hf as [-> | ->]; lia). rewrite E1.
  rewrite (proj2 (Z.ltb_ge 0 (0 - (n - 0)))) by lia. cbn [andb]. rewrite andb_false_r. rewrite idx_12. rewrite (proj2 (Z.ltb_ge 2 (0 - (n - 0)))) by lia. cbn [Z.eqb]. eexists. split; [reflexivity|]. exact Hf.
Qed.
Lemma flat_never n fuel : forall s, 0 < n -> flat s -> loop n fuel s = None.
Proof.
  induction fuel as [|k IH]; intros s Hn Hf; [reflexivity|]. cbn [loop]. destruct (flat_step n s Hn Hf) as (s' & -> & Hf'). apply IH; assumption.
Qed.
Fixpoint after (n : Z) (k : nat) (s : decomp) : option decomp :=
  match k with O => Some s | S k' => match iteration n s with Next s' => after n k' s' | Stop => None end end.
Lemma after_never n k : forall s s', after n k s = Some s' -> (forall fuel, loop n fuel s' = None) -> forall fuel, loop n fuel s = None.
Proof.
  induction k as [|k IH]; intros s s' E H fuel; [injection E as <-; apply H|]. cbn [after] in E. destruct (iteration n s) as [s1|] eqn:Ei; [|discriminate]. destruct fuel as [|fuel]; [reflexivity|]. cbn [loop]. rewrite Ei. exact (IH s1 s' E H fuel).
Qed.
Definition nonneg (s : decomp) : Prop := (0 <= xD s /\ 0 <= yD s /\ 0 <= zD s)%Q.
Lemma int_nonneg q : (0 <= q)%Q -> 0 <= int q. Proof. intros H. apply (Qfloor_resp_le 0 q) in H. exact H. Qed.
Lemma inject_nonneg z : 0 <= z -> (0 <= inject_Z z)%Q. Proof. intros H. change 0%Q with (inject_Z 0). rewrite <- Zle_Qle. exact H. Qed.
Lemma iteration_nonneg n s s' : nonneg s -> iteration n s = Next s' -> nonneg s'.
Proof.
  intros (A & B & C). unfold iteration. pose proof (int_nonneg _ A). pose proof (int_nonneg _ B). pose proof (int_nonneg _ C). assert (K : (0 <= 99 # 100)%Q) by discriminate.
  destruct (n <? estimated s).
  - intros H2. injection H2 as <-. split; [|split]; cbn [xD yD zD]; apply Qmult_le_0_compat; assumption.
  - destruct (estimated s <? n); [|discriminate]. destruct (forallb _ _); [discriminate|]. destruct (_ =? 0); [|destruct (_ =? 1); [|destruct (_ =? 2)]]; intros H2; injection H2 as <-; (split; [|split]); cbn [xD yD zD]; try assumption; apply inject_nonneg; lia.
Qed.
Lemma loop_stop n fuel : forall s s', nonneg s -> loop n fuel s = Some s' -> nonneg s' /\ iteration n s' = Stop.
Proof.
  induction fuel as [|k IH]; intros s s' Hs E; [discriminate|]. cbn [loop] in E. destruct (iteration n s) as [s1|] eqn:Ei; [apply (IH s1 s'); [exact (iteration_nonneg n s s1 Hs Ei)|exact E]|]. injection E as <-. auto.
Qed.
Lemma stop_count n s : 0 < n -> nonneg s -> iteration n s = Stop ->
  let x := int (xD s) in let y := int (yD s) in let z := int (zD s) in 0 < x /\ 0 < y /\ 0 < z /\ 0 <= n - estimated s <= x * y * z /\ x * y * z + (n - estimated s) = n.
Proof.
  intros Hn (A & B & C). pose proof (int_nonneg _ A) as PA. pose proof (int_nonneg _ B) as PB. pose proof (int_nonneg _ C) as PC. unfold iteration, estimated. cbv zeta. set (x := int (xD s)) in *. set (y := int (yD s)) in *. set (z := int (zD s)) in *.
  destruct (Z.ltb_spec n (y * x * z)) as [H|H]; [discriminate|]. destruct (Z.ltb_spec (y * x * z) n) as [H1|H1].
  - cbn [map forallb]. destruct (Z.ltb_spec 0 (y * z - (n - y * x * z))) as [D0|D0]; cbn [andb].
    2: { destruct (_ =? 0); [discriminate|]. destruct (_ =? 1); [discriminate|]. destruct (_ =? 2); discriminate. }
    destruct (Z.ltb_spec 0 (x * z - (n - y * x * z))) as [D1|D1]; cbn [andb].
    2: { destruct (_ =? 0); [discriminate|]. destruct (_ =? 1); [discriminate|]. destruct (_ =? 2); discriminate. }
    destruct (Z.ltb_spec 0 (y * x - (n - y * x * z))) as [D2|D2]; cbn [andb].
    2: { destruct (_ =? 0); [discriminate|]. destruct (_ =? 1); [discriminate|]. destruct (_ =? 2); discriminate. }
    intros _. assert (x <> 0) by (intros E; rewrite E in D1; lia). assert (y <> 0) by (intros E; rewrite E in D0; lia). assert (z <> 0) by (intros E; rewrite E in D0; lia). repeat split; try nia.
  - intros _. assert (E : y * x * z = n) by lia. assert (x <> 0) by (intros E0; rewrite E0 in E; lia). assert (y <> 0) by (intros E0; rewrite E0 in E; lia). assert (z <> 0) by (intros E0; rewrite E0 in E; lia). repeat split; nia.
Qed.
End Loop.
Lemma automatic_tiles mn mx n s0 fuel s : below mn mx -> (0 < n)%Z -> nonneg s0 -> loop n fuel s0 = Some s -> tiles mn mx (Z.to_nat n) (automatic mn mx n s).
Proof.
  intros B Hn H0 E. destruct (loop_stop n fuel s0 s H0 E) as [Hs Hi]. destruct (stop_count n s Hn Hs Hi) as (X & Y & Z & U & T). unfold automatic.
  replace (Z.to_nat n) with (Z.to_nat (int (xD s)) * Z.to_nat (int (yD s)) * Z.to_nat (int (zD s)) + Z.to_nat (n - estimated s))%nat.
  - apply blocks_tile; [exact B|lia|lia|lia|]. rewrite <- !Z2Nat.inj_mul by lia. apply Z2Nat.inj_le; lia.
  - rewrite <- !Z2Nat.inj_mul, <- Z2Nat.inj_add by lia. f_equal. exact T.
Qed.
Lemma guess_nonneg x y z : (0 <= x)%Q -> (0 <= y)%Q -> (0 <= z)%Q -> nonneg (first_guess x y z).
Proof. intros X Y Z. assert (K : (0 <= 200)%Q) by discriminate. split; [|split]; cbn [first_guess xD yD zD]; apply inject_nonneg, int_nonneg, Qmult_le_0_compat; assumption. Qed.
Lemma int_inject z : int (inject_Z z) = z. Proof. apply Qfloor_Z. Qed.
Lemma thin_zero x : (0 <= x)%Q -> (x < 1 # 200)%Q -> int (200 * x) = 0%Z.
Proof.
  intros H0 H1. assert (K : (200 * x < 1)%Q) by (setoid_replace 1%Q with (200 * (1 # 200))%Q by reflexivity; apply Qmult_lt_l; [reflexivity|exact H1]).
  assert (K2 : (0 <= 200)%Q) by discriminate. pose proof (int_nonneg (200 * x) (Qmult_le_0_compat _ _ K2 H0)) as P. assert (L : (inject_Z (int (200 * x)) < inject_Z 1)%Q) by (eapply Qle_lt_trans; [apply Qfloor_le|exact K]).
  rewrite <- Zlt_Qlt in L. lia.
Qed.
Lemma thin_never x y z n fuel : (0 < n)%Z -> (0 <= x)%Q -> (0 <= z)%Q -> (x < 1 # 200 \/ z < 1 # 200)%Q -> loop n fuel (first_guess x y z) = None.
Proof.
  intros Hn Hx Hz H. apply flat_never; [exact Hn|]. unfold flat, first_guess. cbn [xD zD]. rewrite !int_inject. destruct H as [H|H]; [left|right]; apply thin_zero; assumption.
Qed.

(** ** points *)
Lemma nn_fold p pts : forall d, let r := fold_left (fun d q => if Rlt_dec (norm (vsub p q)) d then norm (vsub p q) else d) pts d in
  r <= d /\ (forall q, In q pts -> r <= norm (vsub p q)) /\ (r = d \/ exists q, In q pts /\ r = norm (vsub p q)).
Proof.
  induction pts as [|q pts IH]; intros d; cbn [fold_left]; cbv zeta.
  - split; [lra|]. split; [intros q []|left; reflexivity].
  - destruct (Rlt_dec (norm (vsub p q)) d) as [C|C].
    + destruct (IH (norm (vsub p q))) as (A & B & D). cbv zeta in *. split; [lra|]. split; [intros q' [<- |H]; [exact A|exact (B q' H)]|]. right. destruct D as [D|(q' & H & E)]; [exists q; split; [left; reflexivity|exact D]|exists q'; split; [right; exact H|exact E]].
    + destruct (IH d) as (A & B & D). cbv zeta in *. split; [lra|]. split; [intros q' [<- |H]; [lra|exact (B q' H)]|]. destruct D as [D|(q' & H & E)]; [left; exact D|right; exists q'; split; [right; exact H|exact E]].
Qed.
Lemma nn_nearest pts p : (exists q, In q pts /\ norm (vsub p q) < 1000000) -> is_nearest pts p (nearestNeighborDist pts p).
Proof.
  intros (q & Hq & Hl). unfold nearestNeighborDist. destruct (nn_fold p pts 1000000) as (A & B & D). cbv zeta in *. split; [exact B|]. destruct D as [D|D]; [|exact D]. specialize (B q Hq). lra.
Qed.
Lemma remote_fold others cands : forall d o, let r := fold_left (fun st i => if Rlt_dec (fst st) (nearestNeighborDist others i) then (nearestNeighborDist others i, Some i) else st) cands (d, o) in
  d <= fst r /\ (forall q, In q cands -> nearestNeighborDist others q <= fst r) /\ (r = (d, o) \/ exists q, In q cands /\ r = (nearestNeighborDist others q, Some q)).
Proof.
  induction cands as [|q cands IH]; intros d o; cbn [fold_left]; cbv zeta.
  - cbn [fst]. split; [lra|]. split; [intros q []|left; reflexivity].
  - cbn [fst]. destruct (Rlt_dec d (nearestNeighborDist others q)) as [C|C].
    + destruct (IH (nearestNeighborDist others q) (Some q)) as (A & B & D). cbv zeta in *. split; [lra|]. split; [intros q' [<- |H]; [exact A|exact (B q' H)]|]. right. destruct D as [D|(q' & H & E)]; [exists q; split; [left; reflexivity|exact D]|exists q'; split; [right; exact H|exact E]].
    + destruct (IH d o) as (A & B & D). cbv zeta in *. split; [lra|]. split; [intros q' [<- |H]; [lra|exact (B q' H)]|]. destruct D as [D|(q' & H & E)]; [left; exact D|right; exists q'; split; [right; exact H|exact E]].
Qed.
Lemma most_remote others cands p : findMostRemotePointNN others cands = Some p -> In p cands /\ forall q, In q cands -> nearestNeighborDist others q <= nearestNeighborDist others p.
Proof.
  unfold findMostRemotePointNN. destruct (remote_fold others cands 0 None) as (A & B & D). cbv zeta in *. intros E. destruct D as [D|(q & H & Er)]; [rewrite D in E; discriminate|]. rewrite Er in *. cbn [fst snd] in *. injection E as <-. auto.
Qed.
Lemma total_one q p : totalDist [q] p = norm (vsub p q). Proof. unfold totalDist. cbn [fold_left]. ring. Qed.
Lemma in_cloud sub : forall k sd, In sd (map (fun qi => mkS [fst qi] (snd qi + 1)) (combine sub (seq k (length sub)))) <-> exists i q, nth_error sub i = Some q /\ sd = mkS [q] (k + i + 1).
Proof.
  induction sub as [|q sub IH]; intros k sd; cbn [length seq combine map In].
  - split; [intros []|]. intros (i & q & H & _). destruct i; discriminate.
  - rewrite IH. split.
    + intros [<- |(i & q' & H & ->)]; [exists 0%nat, q; split; [reflexivity|]; cbn [fst snd]; f_equal; lia|exists (S i), q'; split; [exact H|f_equal; lia]].
    + intros ([|i] & q' & H & ->); [left; injection H as ->; cbn [fst snd]; f_equal; lia|right; exists i, q'; split; [exact H|f_equal; lia]].
Qed.
Lemma cloud_nearest sub p : (exists q, In q sub /\ norm (vsub p q) < 10000000) ->
  exists i q, nth_error sub i = Some q /\ findSubdomainCloud sub p = (i + 1)%nat /\ is_nearest sub p (norm (vsub p q)).
Proof.
  intros (q0 & H0 & Hl). unfold findSubdomainCloud. set (sds := map _ _). destruct (find_closest sds p) as [[_ H]|(sd & Hs & E & H)].
  - exfalso. apply In_nth_error in H0. destruct H0 as (i & Hi). specialize (H (mkS [q0] (0 + i + 1))). cbn [points] in H. rewrite total_one in H. assert (K : In (mkS [q0] (0 + i + 1)) sds) by (apply in_cloud; exists i, q0; auto). specialize (H K). lra.
  - apply in_cloud in Hs. destruct Hs as (i & q & Hi & ->). exists i, q. split; [exact Hi|]. split; [exact E|]. cbn [points] in H. rewrite total_one in H. split; [|exists q; split; [exact (nth_error_In _ _ Hi)|reflexivity]].
    intros q' Hq'. apply In_nth_error in Hq'. destruct Hq' as (i' & Hi'). specialize (H (mkS [q'] (0 + i' + 1))). cbn [points] in H. rewrite total_one in H. apply H. apply in_cloud. exists i', q'. auto.
Qed.
