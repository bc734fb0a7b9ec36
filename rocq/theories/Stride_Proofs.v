From Coq Require Import List ZArith Arith Bool Lia.
From Verif Require Import Coll_Model Coll_Spec Coll_Proofs1 Coll_Proofs2 Coll_Proofs3 Stride_Model Stride_Spec.
Import ListNotations.

Lemma nth_mapi {A B} (g : nat -> A -> B) l : forall k i, nth_error (map (fun p => g (fst p) (snd p)) (combine (seq k (length l)) l)) i = option_map (g (k + i)) (nth_error l i).
Proof.
  induction l as [|x l IH]; intros k [|i]; cbn; try reflexivity; [rewrite Nat.add_0_r; reflexivity|]. rewrite IH. f_equal. f_equal. lia.
Qed.
Lemma length_mapi {A B} (g : nat -> A -> B) l k : length (map (fun p => g (fst p) (snd p)) (combine (seq k (length l)) l)) = length l.
Proof. rewrite map_length, combine_length, seq_length. apply Nat.min_id. Qed.
Lemma dispatch_nth sw bs i : nth_error (dispatch sw bs) i = option_map (option_map (processBody (sw i))) (nth_error bs i).
Proof. unfold dispatch. apply (nth_mapi (fun i o => option_map (processBody (sw i)) o) bs 0 i). Qed.
Lemma dispatch_length sw bs : length (dispatch sw bs) = length bs.
Proof. apply (length_mapi (fun i o => option_map (processBody (sw i)) o) bs 0). Qed.
Lemma move_nth on mv bs i : nth_error (move_all on mv bs) i = option_map (option_map (fun b => if on b then put (mv i) b else b)) (nth_error bs i).
Proof. unfold move_all. apply (nth_mapi (fun i o => option_map (fun b => if on b then put (mv i) b else b) o) bs 0 i). Qed.
Lemma move_length on mv bs : length (move_all on mv bs) = length bs.
Proof. apply (length_mapi (fun i o => option_map (fun b => if on b then put (mv i) b else b) o) bs 0). Qed.
Lemma scene_length bs : length (scene_of bs) = length bs.
Proof. apply map_length. Qed.
Lemma scene_at bs i : body_at (scene_of bs) i = match nth_error bs i with Some (Some b) => Some (seen b) | _ => None end.
Proof. unfold body_at, scene_of. rewrite nth_error_map. destruct (nth_error bs i) as [[b|]|]; reflexivity. Qed.

(** same for the collider, apart from the position *)
Definition alike (b0 b : body) : Prop :=
  bbox b0 = bbox b /\ subdomain b0 = subdomain b /\ isSubdomain b0 = isSubdomain b /\ clumpId b0 = clumpId b /\ groupMask b0 = groupMask b.
Lemma alike_may m av i j a b c d : alike a b -> alike c d -> mayCollide m av i j (Some a) (Some c) = mayCollide m av i j (Some b) (Some d).
Proof.
  intros (_ & A1 & A2 & A3 & A4) (_ & B1 & B2 & B3 & B4). cbn [mayCollide]. unfold isStandalone, same_clumpId, isClump, maskCompatible. rewrite A1, A2, A3, A4, B1, B2, B3, B4. reflexivity.
Qed.

(** the scene at the last run *)
Record since (m av : Z) (x : st) (s0 : settings) (bs0 : bodies) (I0 : ints) : Prop := mkSince {
  si_inv : inv s0 (col x) bs0 I0;
  si_me : me s0 = m; si_av : avoid s0 = av;
  si_len : length bs0 <= length (sbs x);
  si_old : forall i b, i < length bs0 -> body_of x i b -> exists b0, body_at bs0 i = Some b0 /\ alike b0 (seen b) /\ (bounded b = true -> bnd b <> None);
  si_new : forall i b, length bs0 <= i -> body_of x i b -> bnd b = None;
  si_int : forall i j, linked I0 i j -> linked (sints x) i j }.
Definition ok (m av : Z) (x : st) : Prop := exists s0 bs0 I0, since m av x s0 bs0 I0.

Lemma start_ok m av : ok m av start.
Proof.
  exists (mkSettings m av 0 false 1 0 false false (fun l => l) (fun l => l)), [], []. constructor; try reflexivity; cbn; auto.
  - split; [apply fresh_ok|]. split.
    + intros a _. split; [apply Permutation.Permutation_refl|]. split; [|intros e []]. intros [|z l1] u l2 v l3 E; discriminate E.
    + intros i j u v _ Hu. destruct (no_box_empty [] i u eq_refl Hu).
  - intros i b _ H. destruct i; discriminate H.
  - intros i b _ H. destruct i; discriminate H.
Qed.

Lemma has_box_scene bs i u : has_box (scene_of bs) i u <-> exists b r, nth_error bs i = Some (Some b) /\ bnd b = Some r /\ bx r = u.
Proof.
  unfold has_box. rewrite scene_at. split.
  - intros (b & H & Hb). destruct (nth_error bs i) as [[b'|]|]; try discriminate. injection H as <-. cbn in Hb. destruct (bnd b') as [r|] eqn:E; [|discriminate]. injection Hb as <-. eauto.
  - intros (b & r & -> & Hr & <-). exists (seen b). split; [reflexivity|]. cbn. rewrite Hr. reflexivity.
Qed.
Lemma process_seen sw b : sdom (processBody sw b) = sdom b /\ sIsSub (processBody sw b) = sIsSub b /\ sclump (processBody sw b) = sclump b /\ smask (processBody sw b) = smask b /\ bounded (processBody sw b) = bounded b.
Proof. unfold processBody. destruct (bounded b) eqn:E; cbn; auto. Qed.

Lemma collide_ok m av v x y : fair m av (Collider v) x -> ok m av x -> collide v x = Some y ->
  ok m av y /\ exists s0 I0, since m av y s0 (scene_of (sbs y)) I0 /\ sbs y = dispatch (sweeps v) (sbs x).
Proof.
  intros (Hs & Hm & Ha) (s0 & bs0 & I0 & S) H. unfold collide in H.
  destruct (verletPos v && _); [discriminate|]. set (bs := dispatch (sweeps v) (sbs x)) in *.
  destruct (action (vset v) (col x) (scene_of bs) (sints x)) as [[c J]|] eqn:E; [|discriminate].
  assert (Ht : tame s0 bs0 I0 (vset v) (scene_of bs) (sints x)).
  { split; [rewrite scene_length; unfold bs; rewrite dispatch_length; apply S|]. intros i j Hij Hi Hj (u & Hu) (w & Hw) Hal.
    apply has_box_scene in Hu. destruct Hu as (b & r & Hb & Hr & _). apply has_box_scene in Hw. destruct Hw as (b' & r' & Hb' & Hr' & _).
    unfold bs in Hb, Hb'. rewrite dispatch_nth in Hb, Hb'. destruct (nth_error (sbs x) i) as [[b1|]|] eqn:E1; try discriminate. destruct (nth_error (sbs x) j) as [[b2|]|] eqn:E2; try discriminate.
    cbn in Hb, Hb'. injection Hb as <-. injection Hb' as <-.
    destruct (si_old _ _ _ _ _ _ S i b1 Hi E1) as (d1 & D1 & A1 & B1). destruct (si_old _ _ _ _ _ _ S j b2 Hj E2) as (d2 & D2 & A2 & B2).
    assert (N1 : bnd b1 <> None). { unfold processBody in Hr. destruct (bounded b1) eqn:Eb; [apply B1; reflexivity|congruence]. }
    assert (N2 : bnd b2 <> None). { unfold processBody in Hr'. destruct (bounded b2) eqn:Eb; [apply B2; reflexivity|congruence]. }
    destruct (bnd b1) as [r1|] eqn:Er1; [|contradiction]. destruct (bnd b2) as [r2|] eqn:Er2; [|contradiction].
    split; [exists (bx r1), d1; split; [exact D1|]; destruct A1 as (-> & _); cbn; rewrite Er1; reflexivity|].
    split; [exists (bx r2), d2; split; [exact D2|]; destruct A2 as (-> & _); cbn; rewrite Er2; reflexivity|].
    split; [|apply S]. unfold allowed in *. rewrite D1, D2. rewrite !scene_at in Hal. unfold bs in Hal. rewrite !dispatch_nth, E1, E2 in Hal. cbn [option_map] in Hal.
    rewrite (si_me _ _ _ _ _ _ S), (si_av _ _ _ _ _ _ S), <- Hm, <- Ha. rewrite <- Hal. cbn [mayCollide]. unfold isStandalone, same_clumpId, isClump, maskCompatible. cbn [seen subdomain isSubdomain clumpId groupMask].
    destruct A1 as (_ & P1 & P2 & P3 & P4), A2 as (_ & Q1 & Q2 & Q3 & Q4). rewrite P1, P2, P3, P4, Q1, Q2, Q3, Q4.
    destruct (process_seen (sweeps v i) b1) as (-> & -> & -> & -> & _). destruct (process_seen (sweeps v j) b2) as (-> & -> & -> & -> & _). reflexivity. }
  pose proof (run_tame _ _ _ _ _ _ _ _ _ (si_inv _ _ _ _ _ _ S) Hs Ht E) as Hinv.
  injection H as <-. cbn [sbs].
  assert (X : since m av (mkSt bs c J (strideActive x || verletPos v) match known x with None => if verletPos v then present v else None | k => k end (vmax x)) (vset v) (scene_of bs) J).
  { constructor; cbn [sbs col sints]; auto.
    - rewrite scene_length. lia.
    - intros i b Hi Hb. unfold body_of in Hb. cbn [sbs] in Hb. exists (seen b). rewrite scene_at, Hb. split; [reflexivity|]. split; [repeat split|].
      unfold bs in Hb. rewrite dispatch_nth in Hb. destruct (nth_error (sbs x) i) as [[b1|]|]; try discriminate. cbn in Hb. injection Hb as <-. unfold processBody. destruct (bounded b1) eqn:Eb; [cbn; discriminate|congruence].
    - intros i b Hi Hb. unfold body_of in Hb. cbn [sbs] in Hb. assert (i < length bs) by (apply nth_error_Some; congruence). rewrite scene_length in Hi. lia. }
  split; [exists (vset v), (scene_of bs), J; exact X|]. exists (vset v), J. split; [exact X|reflexivity].
Qed.

Lemma since_moved m av x on mv s0 bs0 I0 vm : since m av x s0 bs0 I0 -> since m av (mkSt (move_all on mv (sbs x)) (col x) (sints x) (strideActive x) (known x) vm) s0 bs0 I0.
Proof.
  intros S. constructor; cbn [sbs col sints]; try apply S.
  - rewrite move_length. apply S.
  - intros i b Hi Hb. unfold body_of in Hb. cbn [sbs] in Hb. rewrite move_nth in Hb. destruct (nth_error (sbs x) i) as [[b1|]|] eqn:E; try discriminate. cbn in Hb. injection Hb as <-.
    destruct (si_old _ _ _ _ _ _ S i b1 Hi E) as (b0 & D & A & B). exists b0. split; [exact D|]. destruct (on b1); [|auto]. split; [exact A|exact B].
  - intros i b Hi Hb. unfold body_of in Hb. cbn [sbs] in Hb. rewrite move_nth in Hb. destruct (nth_error (sbs x) i) as [[b1|]|] eqn:E; try discriminate. cbn in Hb. injection Hb as <-.
    pose proof (si_new _ _ _ _ _ _ S i b1 Hi E) as N. destruct (on b1); exact N.
Qed.
Lemma nth_app_cases {A} (l l' : list A) i a : nth_error (l ++ l') i = Some a -> nth_error l i = Some a \/ (length l <= i /\ In a l').
Proof.
  intros H. destruct (Nat.lt_ge_cases i (length l)) as [Hi|Hi]; [rewrite nth_error_app1 in H by exact Hi; auto|]. rewrite nth_error_app2 in H by exact Hi. right. split; [exact Hi|]. eapply nth_error_In. exact H.
Qed.

Lemma exec1_ok m av o x y : fair m av o x -> ok m av x -> exec1 o x = Some y -> ok m av y.
Proof.
  intros Hf Hok H. destruct o as [v|J|w mv|mv|l]; cbn [exec1] in H.
  - destruct (isActivated v x); [|injection H as <-; exact Hok]. eapply collide_ok; eassumption.
  - injection H as <-. destruct Hok as (s0 & bs0 & I0 & S). exists s0, bs0, I0. destruct S. constructor; cbn; auto.
  - injection H as <-. destruct Hok as (s0 & bs0 & I0 & S). exists s0, bs0, I0. apply since_moved. exact S.
  - injection H as <-. destruct Hok as (s0 & bs0 & I0 & S). exists s0, bs0, I0. apply since_moved. exact S.
  - injection H as <-. destruct Hok as (s0 & bs0 & I0 & S). exists s0, bs0, I0. cbn [fair] in Hf. constructor; cbn [sbs col sints]; try apply S.
    + rewrite app_length. pose proof (si_len _ _ _ _ _ _ S). lia.
    + intros i b Hi Hb. apply nth_app_cases in Hb. destruct Hb as [Hb|[Hb _]]; [exact (si_old _ _ _ _ _ _ S i b Hi Hb)|]. pose proof (si_len _ _ _ _ _ _ S). lia.
    + intros i b Hi Hb. apply nth_app_cases in Hb. destruct Hb as [Hb|[_ Hb]]; [exact (si_new _ _ _ _ _ _ S i b Hi Hb)|auto].
Qed.
Lemma exec_ok m av os : forall x y, along (fair m av) os x -> ok m av x -> exec os x = Some y -> ok m av y.
Proof.
  induction os as [|o os IH]; intros x y Hf Hok H; cbn in *; [injection H as <-; exact Hok|]. destruct Hf as [Hf Hr].
  destruct (exec1 o x) as [z|] eqn:E; [|discriminate]. eapply IH; [exact Hr| |exact H]. eapply exec1_ok; eassumption.
Qed.

Theorem inside_linked m av os x : along (fair m av) os start -> exec os start = Some x ->
  forall i j b1 b2, i <> j -> body_of x i b1 -> body_of x j b2 -> inside_box b1 -> inside_box b2 -> shapes_overlap b1 b2 -> may_collide m av i j b1 b2 -> linked (sints x) i j.
Proof.
  intros Hf He i j b1 b2 Hij H1 H2 (r1 & R1 & I1) (r2 & R2 & I2) Ho Hm. destruct (exec_ok m av os start x Hf (start_ok m av) He) as (s0 & bs0 & I0 & S).
  apply (si_int _ _ _ _ _ _ S). destruct (si_inv _ _ _ _ _ _ S) as (A & B & C).
  destruct (Nat.lt_ge_cases i (length bs0)) as [Hi|Hi]; [|pose proof (si_new _ _ _ _ _ _ S i b1 Hi H1); congruence].
  destruct (Nat.lt_ge_cases j (length bs0)) as [Hj|Hj]; [|pose proof (si_new _ _ _ _ _ _ S j b2 Hj H2); congruence].
  destruct (si_old _ _ _ _ _ _ S i b1 Hi H1) as (d1 & D1 & A1 & _). destruct (si_old _ _ _ _ _ _ S j b2 Hj H2) as (d2 & D2 & A2 & _).
  assert (X1 : has_box bs0 i (bx r1)). { exists d1. split; [exact D1|]. destruct A1 as (-> & _). cbn. rewrite R1. reflexivity. }
  assert (X2 : has_box bs0 j (bx r2)). { exists d2. split; [exact D2|]. destruct A2 as (-> & _). cbn. rewrite R2. reflexivity. }
  apply (C i j (bx r1) (bx r2) Hij X1 X2).
  - unfold allowed. rewrite D1, D2, (si_me _ _ _ _ _ _ S), (si_av _ _ _ _ _ _ S). rewrite (alike_may _ _ _ _ _ _ _ _ A1 A2). exact Hm.
  - intros a Ha. destruct (list_ok_to _ _ _ (B a Ha)) as [U So]. destruct (Ho a Ha) as [O1 O2], (I1 a Ha) as [I1a I1b], (I2 a Ha) as [I2a I2b].
    split; [eapply strict_lov; [exact U|exact So|exact X1|exact X2|lia]|eapply strict_lov; [exact U|exact So|exact X2|exact X1|lia]].
Qed.

(** ** the boxes are left only when the integrator has noticed *)
(** the box is what the dispatcher made around the reference position *)
Definition tight (b : sbody) : Prop :=
  bounded b = true -> forall r, bnd b = Some r ->
    (forall a, lo (bx r) a = refPos r a - elo b a - Z.max 0 (sweepLength r) /\ hi (bx r) a = refPos r a + ehi b a + Z.max 0 (sweepLength r))%Z /\
    (moved b = false -> forall a, a < 3 -> spos b a = refPos r a).
Definition quiet (x : st) : Prop :=
  (forall i b, body_of x i b -> tight b) /\
  (forall w, known x = Some w -> vmax x w = Half -> forall i b, body_of x i b -> bounded b = true -> bnd b <> None -> inside_box b).

Lemma smax_Half x y : smax x y = Half -> x <> Two /\ y <> Two.
Proof. destruct x, y; cbn; intros H; split; congruence. Qed.
Lemma recorded_Half bs : recorded bs <> Two -> forall b, In (Some b) bs -> moved b = true -> saveMaximaDisplacement b <> Two.
Proof.
  induction bs as [|ob bs IH]; intros H b Hin Hm; [destruct Hin|]. cbn [recorded fold_right] in H. fold (recorded bs) in H. destruct Hin as [->|Hin].
  - rewrite Hm in H. intros E. rewrite E in H. cbn in H. congruence.
  - apply IH; auto. intros E. destruct ob as [b'|]; [|congruence]. destruct (moved b'); [|congruence]. rewrite E in H. destruct (saveMaximaDisplacement b'); cbn in H; congruence.
Qed.
Lemma tight_inside b r : bounded b = true -> bnd b = Some r -> tight b -> (moved b = true -> saveMaximaDisplacement b <> Two) -> inside_box b.
Proof.
  intros Hb Hr Ht Hs. destruct (Ht Hb r Hr) as [Hx Hst]. exists r. split; [exact Hr|]. intros a Ha. destruct (Hx a) as [-> ->].
  destruct (moved b) eqn:Em; [|specialize (Hst eq_refl a Ha); lia]. specialize (Hs eq_refl). unfold saveMaximaDisplacement in Hs. rewrite Hr in Hs.
  assert (Hd : (Z.abs (spos b a - refPos r a) <= maxDisp b r)%Z). { unfold maxDisp. destruct a as [|[|[|a]]]; lia. }
  destruct (Z.eqb_spec (maxDisp b r) 0) as [E0|E0]; [lia|]. destruct (Z.ltb_spec (maxDisp b r) (sweepLength r)) as [El|El]; [lia|]. cbn in Hs. congruence.
Qed.
Lemma process_tight sw b : bounded b = true -> tight (processBody sw b) /\ inside_box (processBody sw b).
Proof.
  intros E. assert (T : tight (processBody sw b)).
  { unfold processBody. rewrite E. intros _ r Hr. cbn in Hr. injection Hr as <-. cbn. split; [|auto]. intros a. destruct (Z.ltb_spec 0 sw); lia. }
  split; [exact T|]. unfold processBody. rewrite E. eexists. split; [reflexivity|]. cbn. intros a _. destruct (Z.ltb_spec 0 sw); lia.
Qed.
Lemma process_unbounded sw b : bounded b = false -> processBody sw b = b.
Proof. unfold processBody. intros ->. reflexivity. Qed.

Definition steady (o : op) (x : st) : Prop :=
  match o with
  | Newton w mv => (known x = None \/ known x = Some w) /\
      forall i b, body_of x i b -> forall a, mlo (mv i) a = elo b a /\ mhi (mv i) a = ehi b a
  | Script _ => False
  | _ => True
  end.
Lemma rules_steady w os : forall x, (known x = None \/ known x = Some w) ->
  along no_script os x -> along no_turn os x -> along (one_integrator w) os x -> along steady os x.
Proof.
  induction os as [|o os IH]; intros x Hk A B C; [exact I|]. cbn [along] in *. destruct A as [A1 A2], B as [B1 B2], C as [C1 C2]. split.
  - destruct o; cbn [no_script no_turn one_integrator steady] in *; try tauto. subst. split; [exact Hk|exact B1].
  - destruct (exec1 o x) as [y|] eqn:E; [|exact I]. apply IH; try assumption. destruct o as [v|J|w' mv|mv|l]; cbn [exec1 one_integrator] in *; try (injection E as <-; exact Hk).
    destruct (isActivated v x); [|injection E as <-; exact Hk]. unfold collide in E. destruct (verletPos v && _); [discriminate|]. destruct (action _ _ _ _) as [[c J]|]; [|discriminate]. injection E as <-. cbn [known].
    destruct (known x); [exact Hk|]. rewrite C1. destruct (verletPos v); auto.
Qed.

Lemma exec1_quiet m av o x y : fair m av o x -> steady o x -> quiet x -> exec1 o x = Some y -> quiet y.
Proof.
  intros Hf Hs [Q1 Q2] H. destruct o as [v|J|w mv|mv|l]; cbn [exec1] in H.
  - destruct (isActivated v x); [|injection H as <-; split; assumption]. unfold collide in H. destruct (verletPos v && _); [discriminate|].
    destruct (action _ _ _ _) as [[c J]|]; [|discriminate]. injection H as <-.
    assert (X : forall i b, body_of (mkSt (dispatch (sweeps v) (sbs x)) c J (strideActive x || verletPos v) match known x with None => if verletPos v then present v else None | k => k end (vmax x)) i b ->
      tight b /\ (bounded b = true -> inside_box b)).
    { intros i b Hb. unfold body_of in Hb. cbn [sbs] in Hb. rewrite dispatch_nth in Hb. destruct (nth_error (sbs x) i) as [[b1|]|] eqn:E; try discriminate. cbn in Hb. injection Hb as <-.
      destruct (bounded b1) eqn:Eb; [destruct (process_tight (sweeps v i) b1 Eb); auto|]. rewrite (process_unbounded _ _ Eb). split; [exact (Q1 i b1 E)|congruence]. }
    split; [intros i b Hb; apply (X i b Hb)|]. intros w _ _ i b Hb Hbd _. apply (X i b Hb). exact Hbd.
  - injection H as <-. split; assumption.
  - injection H as <-. destruct Hs as [Hk Hrot].
    assert (T : forall i b, nth_error (move_all moved mv (sbs x)) i = Some (Some b) -> tight b).
    { intros i b Hb. rewrite move_nth in Hb. destruct (nth_error (sbs x) i) as [[b1|]|] eqn:E; try discriminate. cbn in Hb. injection Hb as <-.
      destruct (moved b1) eqn:Em; [|exact (Q1 i b1 E)]. intros Hbd r Hr. cbn in Hbd, Hr. destruct (Q1 i b1 E Hbd r Hr) as [T _]. split.
      - intros a. cbn. destruct (Hrot i b1 E a) as [-> ->]. apply T.
      - cbn. congruence. }
    split; [exact T|]. cbn [known vmax sbs]. intros w' Hw Hv i b Hb Hbd Hn. assert (w' = w) by (destruct Hk; congruence). subst w'. rewrite Nat.eqb_refl in Hv. cbv iota in Hv.
    destruct (bnd b) as [r|] eqn:Er; [|contradiction]. apply (tight_inside b r Hbd Er (T i b Hb)). intros Hm. apply (recorded_Half (move_all moved mv (sbs x))); [rewrite Hv; discriminate|eapply nth_error_In; exact Hb|exact Hm].
  - destruct Hs.
  - injection H as <-. cbn [fair] in Hf. split.
    + intros i b Hb. apply nth_app_cases in Hb. destruct Hb as [Hb|[_ Hb]]; [exact (Q1 i b Hb)|]. intros _ r Hr. rewrite (Hf b Hb) in Hr. discriminate.
    + cbn [known vmax]. intros w Hw Hv i b Hb Hbd Hn. apply nth_app_cases in Hb. destruct Hb as [Hb|[_ Hb]]; [exact (Q2 w Hw Hv i b Hb Hbd Hn)|]. rewrite (Hf b Hb) in Hn. contradiction.
Qed.
Lemma exec_quiet m av os : forall x y, along (fair m av) os x -> along steady os x -> quiet x -> exec os x = Some y -> quiet y.
Proof.
  induction os as [|o os IH]; intros x y Hf Hs Hq H; cbn in *; [injection H as <-; exact Hq|]. destruct Hf as [Hf Hfr], Hs as [Hs Hsr].
  destruct (exec1 o x) as [z|] eqn:E; [|discriminate]. eapply IH; [exact Hfr|exact Hsr| |exact H]. eapply exec1_quiet; eassumption.
Qed.
Lemma start_quiet : quiet start.
Proof. split; [intros i b H; destruct i; discriminate H|]. intros w H. discriminate H. Qed.

Lemma along_app P os o : forall x y, along P (os ++ [o]) x -> exec os x = Some y -> along P os x /\ P o y.
Proof.
  induction os as [|q os IH]; intros x y H He; cbn in *; [injection He as <-; tauto|]. destruct H as [H1 H2]. destruct (exec1 q x) as [z|] eqn:E; [|discriminate].
  destruct (IH z y H2 He) as [A B]. auto.
Qed.
Lemma exec_app os o : forall x y, exec (os ++ [o]) x = Some y -> exists z, exec os x = Some z /\ exec1 o z = Some y.
Proof.
  induction os as [|q os IH]; intros x y H; cbn in *.
  - destruct (exec1 o x) as [z|] eqn:E; [|discriminate]. injection H as <-. eauto.
  - destruct (exec1 q x) as [z|]; [|discriminate]. apply IH. exact H.
Qed.

Theorem slot_inside m av os v x : along (fair m av) (os ++ [Collider v]) start -> along steady (os ++ [Collider v]) start -> exec (os ++ [Collider v]) start = Some x ->
  forall i b, body_of x i b -> bounded b = true -> inside_box b.
Proof.
  intros Hf Hs He i b Hb Hbd. destruct (exec_app _ _ _ _ He) as (y & Ey & E1). destruct (along_app _ _ _ _ _ Hf Ey) as [Hf1 Hf2]. destruct (along_app _ _ _ _ _ Hs Ey) as [Hs1 _].
  pose proof (exec_ok m av os start y Hf1 (start_ok m av) Ey) as Hok. pose proof (exec_quiet m av os start y Hf1 Hs1 start_quiet Ey) as Hq.
  cbn [exec1] in E1. destruct (isActivated v y) eqn:Ea.
  - unfold collide in E1. destruct (verletPos v && _); [discriminate|]. destruct (action _ _ _ _) as [[c J]|]; [|discriminate]. injection E1 as <-.
    unfold body_of in Hb. cbn [sbs] in Hb. rewrite dispatch_nth in Hb. destruct (nth_error (sbs y) i) as [[b1|]|]; try discriminate. cbn in Hb. injection Hb as <-.
    destruct (process_seen (sweeps v i) b1) as (_ & _ & _ & _ & Eb). rewrite Eb in Hbd. apply process_tight. exact Hbd.
  - injection E1 as <-. unfold isActivated in Ea. rewrite !orb_false_iff in Ea. destruct Ea as ((((_ & Ek) & El) & _) & _).
    destruct (known y) as [w|] eqn:Ekn; [|discriminate]. destruct (vmax y w) eqn:Ev; try discriminate. destruct Hq as [_ Q2].
    apply (Q2 w Ekn Ev i b Hb Hbd). destruct Hok as (s0 & bs0 & I0 & S).
    apply negb_false_iff, Nat.eqb_eq in El. destruct (si_inv _ _ _ _ _ _ S) as ([Hsz _] & _). rewrite Hsz in El.
    assert (Hi : i < length bs0). { assert (i < length (sbs y)) by (apply nth_error_Some; unfold body_of in Hb; congruence). lia. }
    destruct (si_old _ _ _ _ _ _ S i b Hi Hb) as (_ & _ & _ & N). auto.
Qed.

Theorem no_contact_missed m av w os v x : along (fair m av) (os ++ [Collider v]) start ->
  along no_script (os ++ [Collider v]) start -> along no_turn (os ++ [Collider v]) start -> along (one_integrator w) (os ++ [Collider v]) start ->
  exec (os ++ [Collider v]) start = Some x -> (forall i b, body_of x i b -> bounded b = true -> inside_box b) /\ ~ missed m av x.
Proof.
  intros Hf A B C He. assert (Hs : along steady (os ++ [Collider v]) start) by (eapply rules_steady; eauto). split; [intros; eapply slot_inside; eauto|].
  intros (i & j & b1 & b2 & Hij & H1 & H2 & B1 & B2 & Ho & Hm & Hn). apply Hn. eapply inside_linked; eauto; eapply slot_inside; eauto.
Qed.
