From Coq Require Import List ZArith Bool Lia.
From Verif Require Import Scene_Model Scene_Spec.
Import ListNotations.
Open Scope Z_scope.

Section P.
Context {E W T : Type} (sm : sem E W T).
Notation scene := (scene E W T).
Notation move := (moveToNextTimeStep sm).

(** scene [s] with clock/world of [k] and the pending requests applied;
    [ls] engines running, [n0]/[b0] pending list and flag at the start *)
Definition embed (ls n0 : list E) (sub : Z) (b0 : bool) (k : core E W T) : scene :=
  mkScene ls (last_engines n0 (k_reqs k)) sub (last_flag b0 (k_reqs k)) (k_iter k) (k_time k) (k_world k).

Lemma last_engines_app (n0 : list E) a b : last_engines n0 (a ++ b) = last_engines (last_engines n0 a) b.
Proof. apply fold_left_app. Qed.
Lemma last_flag_app (b0 : bool) (a b : list (req E)) : last_flag b0 (a ++ b) = last_flag (last_flag b0 a) b.
Proof. apply fold_left_app. Qed.

Lemma do_reqs rs (ls n0 : list E) sub b0 i (t : T) (w : W) :
  0 <= sub ->
  fold_left do_req rs (mkScene ls n0 sub b0 i t w) = mkScene ls (last_engines n0 rs) sub (last_flag b0 rs) i t w.
Proof.
  intros Hs. revert n0 b0. induction rs as [|r rs IH]; intros n0 b0; [reflexivity|].
  cbn [fold_left]. destruct r as [l|b]; unfold do_req, engines_set, with_ss; simpl subStep.
  - destruct (Z.ltb_spec sub 0); [lia|]. cbn. apply IH.
  - cbn. apply IH.
Qed.

Lemma run_engine_spec e ls n0 sub b0 k :
  0 <= sub ->
  run_engine sm e (embed ls n0 sub b0 k) =
  let (k', x) := exec sm (Eng e) k in (embed ls n0 sub b0 k', x).
Proof.
  intros Hs. unfold run_engine, exec, engine_effect. simpl world. simpl iter. simpl time.
  destruct (dead sm e (k_world k)); cbn [o_w o_reqs o_exc].
  - unfold embed; cbn. rewrite app_nil_r. reflexivity.
  - destruct (activated sm e (k_iter k) (k_time k) (k_world k)) as [o b].
    unfold apply_out, with_world, embed. cbn [engines next subStep subStepping iter time world].
    rewrite do_reqs by assumption.
    destruct (o_exc o) eqn:Ex.
    + cbn [k_reqs k_iter k_time k_world]. rewrite last_engines_app, last_flag_app, Ex. reflexivity.
    + destruct b.
      * cbn [engines next subStep subStepping iter time world o_w o_reqs o_exc].
        rewrite do_reqs by assumption. cbn [k_reqs k_iter k_time k_world].
        rewrite !last_engines_app, !last_flag_app. reflexivity.
      * cbn [k_reqs k_iter k_time k_world]. rewrite last_engines_app, last_flag_app, Ex. reflexivity.
Qed.

Lemma run_prologue_spec ls n0 sub b0 k :
  run_prologue sm (embed ls n0 sub b0 k) =
  let (k', x) := exec sm Cell k in (embed ls n0 sub b0 k', x).
Proof.
  unfold run_prologue, exec, embed, with_world. cbn. destruct (prologue sm (k_world k)) as [w x]. reflexivity.
Qed.

Lemma advance_spec ls n0 sub b0 k :
  advance sm (embed ls n0 sub b0 k) = embed ls n0 sub b0 (fst (exec sm Clock k)).
Proof. reflexivity. Qed.

Lemma run_engines_spec l : forall ls n0 sub b0 k, 0 <= sub ->
  run_engines sm l (embed ls n0 sub b0 k) =
  let (k', x) := execs sm (map Eng l) k in (embed ls n0 sub b0 k', x).
Proof.
  induction l as [|e l IH]; intros ls n0 sub b0 k Hs; [reflexivity|].
  cbn [run_engines map execs]. rewrite run_engine_spec by assumption.
  destruct (exec sm (Eng e) k) as [k1 [|]]; [reflexivity|]. apply IH; assumption.
Qed.

Lemma execs_app l1 l2 k :
  execs sm (l1 ++ l2) k = let (k1, x) := execs sm l1 k in if x then (k1, true) else execs sm l2 k1.
Proof.
  revert k; induction l1 as [|x l1 IH]; intros k; [reflexivity|].
  cbn [app execs]. destruct (exec sm x k) as [k1 [|]]; [reflexivity|]. apply IH.
Qed.

Lemma execs_program l k :
  execs sm (program l) k =
  let (k1, x) := exec sm Cell k in
  if x then (k1, true) else
  let (k2, x) := execs sm (map Eng l) k1 in
  if x then (k2, true) else (fst (exec sm Clock k2), false).
Proof.
  unfold program. cbn [execs app]. destruct (exec sm Cell k) as [k1 [|]]; [reflexivity|].
  rewrite execs_app. destruct (execs sm (map Eng l) k1) as [k2 [|]]; reflexivity.
Qed.

(** normal form of a scene at a boundary after the pending list was taken over *)
Lemma take_pending (s : scene) :
  (subStep s = -1) ->
  match next s with
  | [] => s
  | n => if (subStep s <? 0) || ((subStep s <=? 0) && negb (subStepping s))
         then mkScene n [] (-1) (subStepping s) (iter s) (time s) (world s) else s
  end = mkScene (engines_get s) [] (-1) (subStepping s) (iter s) (time s) (world s).
Proof.
  intros Hs. unfold engines_get. destruct s as [ls n sub b i t w]; simpl in *; subst sub.
  destruct n; reflexivity.
Qed.

(** ** the ordinary step *)
Lemma full_step s :
  subStep s = -1 -> subStepping s = false ->
  move s = let (k, x) := execs sm (program (engines_get s)) (core_of s) in
           if x then (embed (engines_get s) [] 0 false k, true)
           else (embed (engines_get s) [] (-1) false k, false).
Proof.
  intros Hs Hb. unfold moveToNextTimeStep. rewrite take_pending by assumption. rewrite Hb.
  cbn [subStepping subStep negb andb]. rewrite execs_program.
  change (-1 <? 0) with true. cbn [negb andb].
  replace (with_sub (mkScene (engines_get s) [] (-1) false (iter s) (time s) (world s)) 0)
    with (embed (engines_get s) [] 0 false (core_of s)) by reflexivity.
  rewrite run_prologue_spec. destruct (exec sm Cell (core_of s)) as [k1 [|]]; [reflexivity|].
  replace (engines (embed (engines_get s) [] 0 false k1)) with (engines_get s) by reflexivity.
  rewrite run_engines_spec by lia.
  destruct (execs sm (map Eng (engines_get s)) k1) as [k2 [|]]; reflexivity.
Qed.

(** ** the loop over sub-steps *)
Lemma sub_body_spec ls n0 sub b0 k j :
  0 <= j -> 0 <= sub ->
  sub_body sm j (embed ls n0 sub b0 k) =
  if j <? Z.of_nat (length ls) then
    match nth_error ls (Z.to_nat j) with
    | Some e => let (k', x) := exec sm (Eng e) k in (embed ls n0 sub b0 k', x)
    | None => (embed ls n0 sub b0 k, true)
    end
  else if j =? Z.of_nat (length ls) then (embed ls n0 (-2) b0 (fst (exec sm Clock k)), false)
  else (embed ls n0 sub b0 k, false).
Proof.
  intros Hj Hs. unfold sub_body.
  destruct (Z.eqb_spec j (-1)); [lia|]. destruct (Z.leb_spec 0 j); [|lia].
  replace (engines (embed ls n0 sub b0 k)) with ls by reflexivity. cbn [andb].
  destruct (j <? Z.of_nat (length ls)); [|reflexivity].
  destruct (nth_error ls (Z.to_nat j)); [|reflexivity]. apply run_engine_spec; assumption.
Qed.

(** running all the items from engine [j] on *)
Lemma sub_loop_spec l : forall pre n0 sub b0 k, 0 <= sub ->
  sub_loop sm (S (length l)) (Z.of_nat (length pre)) (embed (pre ++ l) n0 sub b0 k) =
  let (k', x) := execs sm (map Eng l ++ [Clock]) k in
  if x then (embed (pre ++ l) n0 sub b0 k', true) else (embed (pre ++ l) n0 (-2) b0 k', false).
Proof.
  induction l as [|e l IH]; intros pre n0 sub b0 k Hs.
  - cbn [sub_loop length map app]. rewrite sub_body_spec by lia.
    rewrite app_nil_r, Z.ltb_irrefl, Z.eqb_refl. reflexivity.
  - cbn [sub_loop]. rewrite sub_body_spec by lia.
    destruct (Z.ltb_spec (Z.of_nat (length pre)) (Z.of_nat (length (pre ++ e :: l)))) as [|Hge];
      [|rewrite app_length in Hge; cbn [length] in Hge; lia].
    rewrite Nat2Z.id, nth_error_app2, Nat.sub_diag by lia. cbn [nth_error map app execs].
    destruct (exec sm (Eng e) k) as [k1 [|]]; [reflexivity|].
    specialize (IH (pre ++ [e]) n0 sub b0 k1 Hs).
    rewrite app_length in IH. cbn [length] in IH.
    replace (Z.of_nat (length pre + 1)) with (Z.of_nat (length pre) + 1) in IH by lia.
    rewrite <- app_assoc in IH. cbn [app] in IH. exact IH.
Qed.

(** A call in the middle of a step with no change of engines pending, or in
    sub-stepping mode past the prologue: characterisation of the else-branch. *)
Definition remaining (ls : list E) (sub : Z) : list (item E) :=
  map Eng (skipn (Z.to_nat sub) ls) ++ [Clock].

(** condition under which the pending list is not taken over at this call *)
Lemma keep_pending (s : scene) :
  0 <= subStep s -> (next s = [] \/ 0 < subStep s \/ subStepping s = true) ->
  match next s with
  | [] => s
  | n => if (subStep s <? 0) || ((subStep s <=? 0) && negb (subStepping s))
         then mkScene n [] (-1) (subStepping s) (iter s) (time s) (world s) else s
  end = s.
Proof.
  intros H0 H. destruct (next s) as [|e n] eqn:En; [reflexivity|].
  destruct (Z.ltb_spec (subStep s) 0); [lia|]. cbn [orb].
  destruct H as [H|[H|H]]; [discriminate| |].
  - destruct (Z.leb_spec (subStep s) 0); [lia|]. reflexivity.
  - rewrite H, andb_false_r. reflexivity.
Qed.

(** finishing a partly done step at once *)
Lemma finish_step ls n0 sub k :
  0 <= sub <= Z.of_nat (length ls) ->
  (last_engines n0 (k_reqs k) = [] \/ 0 < sub) -> last_flag false (k_reqs k) = false ->
  move (embed ls n0 sub false k) =
  let (k', x) := execs sm (remaining ls sub) k in
  if x then (embed ls n0 sub false k', true) else (embed ls n0 (-1) false k', false).
Proof.
  intros Hs Hn Hf. unfold moveToNextTimeStep.
  rewrite keep_pending; [|cbn; lia|cbn; tauto].
  set (s := embed ls n0 sub false k).
  replace (subStepping s) with false by (cbn; congruence).
  replace (subStep s) with sub by reflexivity. replace (engines s) with ls by reflexivity.
  destruct (Z.ltb_spec sub 0); [lia|]. cbn [negb andb].
  destruct (Z.ltb_spec sub (-1)); [lia|]. destruct (Z.ltb_spec (Z.of_nat (length ls)) sub); [lia|]. cbn [orb].
  replace (subStepping s) with false by (cbn; congruence).
  replace (subStep s) with sub by reflexivity. replace (engines s) with ls by reflexivity.
  unfold remaining.
  pose proof (sub_loop_spec (skipn (Z.to_nat sub) ls) (firstn (Z.to_nat sub) ls) n0 sub false k) as L.
  rewrite firstn_skipn, firstn_length, skipn_length in L.
  replace (Z.of_nat (Nat.min (Z.to_nat sub) (length ls))) with sub in L by lia.
  replace (Z.to_nat (Z.of_nat (length ls) - sub + 1)) with (S (length ls - Z.to_nat sub)) by lia.
  subst s. rewrite L by lia.
  destruct (execs sm (map Eng (skipn (Z.to_nat sub) ls) ++ [Clock]) k) as [k' [|]]; reflexivity.
Qed.

(** one sub-step: prologue *)
Lemma sub_prologue s :
  subStep s = -1 -> subStepping s = true ->
  move s = let (k, x) := exec sm Cell (core_of s) in
           if x then (embed (engines_get s) [] (-1) true k, true)
           else (embed (engines_get s) [] 0 true k, false).
Proof.
  intros Hs Hb. unfold moveToNextTimeStep. rewrite take_pending by assumption. rewrite Hb.
  set (s1 := mkScene (engines_get s) [] (-1) true (iter s) (time s) (world s)).
  replace (subStepping s1) with true by reflexivity. replace (subStep s1) with (-1) by reflexivity. cbn [negb andb].
  destruct (Z.ltb_spec (-1) (-1)); [lia|].
  destruct (Z.ltb_spec (Z.of_nat (length (engines s1))) (-1)); [lia|]. cbn [orb].
  replace (subStepping s1) with true by reflexivity. replace (subStep s1) with (-1) by reflexivity.
  replace (Z.to_nat (-1 - -1 + 1)) with 1%nat by reflexivity. cbn [sub_loop].
  unfold sub_body. change (-1 =? -1) with true. cbn iota.
  replace s1 with (embed (engines_get s) [] (-1) true (core_of s)) by reflexivity.
  rewrite run_prologue_spec. destruct (exec sm Cell (core_of s)) as [k [|]]; reflexivity.
Qed.

(** one sub-step: engine or clock *)
Definition item_at (ls : list E) (sub : Z) : item E :=
  match nth_error ls (Z.to_nat sub) with Some e => Eng e | None => Clock end.

Lemma sub_one ls n0 sub k :
  0 <= sub <= Z.of_nat (length ls) -> last_flag true (k_reqs k) = true ->
  move (embed ls n0 sub true k) =
  let (k', x) := exec sm (item_at ls sub) k in
  if x then (embed ls n0 sub true k', true)
  else (embed ls n0 (if sub =? Z.of_nat (length ls) then -1 else sub + 1) true k', false).
Proof.
  intros Hs Hf. unfold moveToNextTimeStep.
  rewrite keep_pending; [|cbn; lia|right; right; cbn; congruence].
  set (s := embed ls n0 sub true k).
  assert (Hss : subStepping s = true) by (cbn; congruence).
  rewrite Hss. cbn [negb andb].
  replace (subStep s) with sub by reflexivity. replace (engines s) with ls by reflexivity.
  destruct (Z.ltb_spec sub (-1)); [lia|]. destruct (Z.ltb_spec (Z.of_nat (length ls)) sub); [lia|]. cbn [orb].
  rewrite Hss. replace (subStep s) with sub by reflexivity.
  replace (Z.to_nat (sub - sub + 1)) with 1%nat by lia. cbn [sub_loop].
  subst s. rewrite sub_body_spec by lia. unfold item_at.
  destruct (Z.ltb_spec sub (Z.of_nat (length ls))) as [Hlt|Hge].
  - destruct (nth_error ls (Z.to_nat sub)) as [e|] eqn:En.
    2:{ apply nth_error_None in En. lia. }
    destruct (exec sm (Eng e) k) as [k' [|]]; [reflexivity|].
    destruct (Z.eqb_spec sub (Z.of_nat (length ls))); [lia|]. reflexivity.
  - replace sub with (Z.of_nat (length ls)) by lia. rewrite Z.eqb_refl, Nat2Z.id.
    destruct (nth_error ls (length ls)) eqn:En; [|reflexivity].
    assert (Hc : nth_error ls (length ls) <> None) by congruence. apply nth_error_Some in Hc. lia.
Qed.

Lemma no_flag_app (a b : list (req E)) : no_flag_req (a ++ b) <-> no_flag_req a /\ no_flag_req b.
Proof.
  unfold no_flag_req. split.
  - intros H; split; intros c Hc; apply (H c), in_or_app; auto.
  - intros [H1 H2] c Hc. apply in_app_or in Hc as [Hc|Hc]; [apply (H1 c)|apply (H2 c)]; assumption.
Qed.

Lemma no_flag_last (b : bool) (rs : list (req E)) : no_flag_req rs -> last_flag b rs = b.
Proof.
  induction rs as [|r rs IH] using rev_ind; intros H; [reflexivity|].
  apply no_flag_app in H as [H1 H2]. rewrite last_flag_app. rewrite (IH H1).
  destruct r; [reflexivity|]. exfalso. apply (H2 b0). left; reflexivity.
Qed.

(** requests only accumulate *)
Lemma exec_reqs x k : exists r, k_reqs (fst (exec sm x k)) = k_reqs k ++ r.
Proof.
  destruct x; cbn.
  - destruct (prologue sm (k_world k)). exists []. cbn. rewrite app_nil_r; reflexivity.
  - eexists; reflexivity.
  - exists []. rewrite app_nil_r; reflexivity.
Qed.

Lemma execs_reqs l : forall k, exists r, k_reqs (fst (execs sm l k)) = k_reqs k ++ r.
Proof.
  induction l as [|x l IH]; intros k; cbn [execs].
  - exists []. cbn. rewrite app_nil_r; reflexivity.
  - destruct (exec_reqs x k) as [r Hr]. destruct (exec sm x k) as [k1 [|]]; cbn [fst] in *.
    + eauto.
    + destruct (IH k1) as [r2 Hr2]. exists (r ++ r2). rewrite Hr2, Hr, app_assoc. reflexivity.
Qed.

(** sub-steps [sub..n] of a step *)
Lemma sub_many l : forall pre n0 k k',
  execs sm (map Eng l ++ [Clock]) k = (k', false) -> no_flag_req (k_reqs k') ->
  calls sm (S (length l)) (embed (pre ++ l) n0 (Z.of_nat (length pre)) true k)
  = Some (embed (pre ++ l) n0 (-1) true k').
Proof.
  induction l as [|e l IH]; intros pre n0 k k' Hx Hf.
  - cbn [calls length]. cbn [map app] in Hx.
    destruct (execs_reqs [Clock] k) as [r Hr]. rewrite Hx in Hr. cbn [fst] in Hr.
    assert (Hk : no_flag_req (k_reqs k)) by (rewrite Hr in Hf; apply no_flag_app in Hf; tauto).
    rewrite sub_one; [| rewrite app_nil_r; lia | apply no_flag_last; assumption].
    unfold item_at. rewrite app_nil_r, Nat2Z.id, Z.eqb_refl.
    replace (nth_error pre (length pre)) with (@None E) by (symmetry; apply nth_error_None; lia).
    cbn in Hx |- *. congruence.
  - change (calls sm (S (length (e :: l)))) with (fun s => match move s with (s1, false) => calls sm (S (length l)) s1 | _ => None end).
    cbn beta.
    cbn [map app execs] in Hx. destruct (exec sm (Eng e) k) as [k1 [|]] eqn:E1; [discriminate|].
    destruct (execs_reqs (map Eng l ++ [Clock]) k1) as [r Hr]. rewrite Hx in Hr. cbn [fst] in Hr.
    assert (Hk1 : no_flag_req (k_reqs k1)) by (rewrite Hr in Hf; apply no_flag_app in Hf; tauto).
    destruct (exec_reqs (Eng e) k) as [r1 Hr1]. rewrite E1 in Hr1. cbn [fst] in Hr1.
    assert (Hk : no_flag_req (k_reqs k)) by (rewrite Hr1 in Hk1; apply no_flag_app in Hk1; tauto).
    rewrite sub_one; [| rewrite app_length; cbn; lia | apply no_flag_last; assumption].
    unfold item_at. rewrite Nat2Z.id, nth_error_app2, Nat.sub_diag by lia. cbn [nth_error]. rewrite E1.
    destruct (Z.eqb_spec (Z.of_nat (length pre)) (Z.of_nat (length (pre ++ e :: l)))) as [Heq|_];
      [rewrite app_length in Heq; cbn in Heq; lia|].
    specialize (IH (pre ++ [e]) n0 k1 k' Hx Hf). rewrite app_length in IH. cbn [length] in IH.
    replace (Z.of_nat (length pre + 1)) with (Z.of_nat (length pre) + 1) in IH by lia.
    rewrite <- app_assoc in IH. exact IH.
Qed.

Lemma substeps_equal_step s k :
  subStep s = -1 ->
  execs sm (program (engines_get s)) (core_of s) = (k, false) -> no_flag_req (k_reqs k) ->
  exists s', move (with_ss s false) = (s', false) /\
    calls sm (length (engines_get s) + 2) (with_ss s true) = Some (with_ss s' true) /\
    subStep s' = -1 /\ subStepping s' = false /\
    iter s' = iter s + 1 /\ time s' = k_time k /\ world s' = k_world k /\
    engines s' = engines_get s /\ next s' = last_engines [] (k_reqs k).
Proof.
  intros Hs Hx Hf. exists (embed (engines_get s) [] (-1) false k).
  split.
  { rewrite full_step by (try reflexivity; assumption).
    replace (core_of (with_ss s false)) with (core_of s) by reflexivity.
    replace (engines_get (with_ss s false)) with (engines_get s) by reflexivity.
    rewrite Hx. reflexivity. }
  split.
  { replace (length (engines_get s) + 2)%nat with (S (S (length (engines_get s)))) by lia.
    change (calls sm (S (S (length (engines_get s))))) with
      (fun s0 => match move s0 with (s1, false) => calls sm (S (length (engines_get s))) s1 | _ => None end).
    cbn beta. rewrite sub_prologue by (try reflexivity; assumption).
    replace (core_of (with_ss s true)) with (core_of s) by reflexivity.
    replace (engines_get (with_ss s true)) with (engines_get s) by reflexivity.
    unfold program in Hx. cbn [execs] in Hx.
    destruct (exec sm Cell (core_of s)) as [k1 [|]] eqn:E1; [discriminate|].
    pose proof (sub_many (engines_get s) [] [] k1 k Hx Hf) as L. cbn [app length] in L.
    change (Z.of_nat 0) with 0 in L. rewrite L. f_equal.
    unfold embed, with_ss. cbn. f_equal. apply no_flag_last; assumption. }
  cbn. repeat split; auto.
  - apply no_flag_last; assumption.
  - rewrite execs_program in Hx.
    destruct (exec sm Cell (core_of s)) as [k1 [|]] eqn:E1; [discriminate|].
    destruct (execs sm (map Eng (engines_get s)) k1) as [k2 [|]] eqn:E2; [discriminate|].
    injection Hx as <-. cbn [fst exec k_iter].
    assert (A : forall l a, k_iter (fst (execs sm (map Eng l) a)) = k_iter a).
    { induction l as [|e l IH]; intros a; [reflexivity|]. cbn [map execs].
      destruct (exec sm (Eng e) a) as [a1 [|]] eqn:Ea; assert (Hi : k_iter a1 = k_iter a)
        by (cbn in Ea; injection Ea as <- _; reflexivity); [exact Hi|]. rewrite IH; exact Hi. }
    specialize (A (engines_get s) k1). rewrite E2 in A. cbn in A. rewrite A.
    cbn in E1. destruct (prologue sm (world s)). injection E1 as <- _. reflexivity.
Qed.

Lemma calls_app a b s : calls sm (a + b) s = match calls sm a s with Some s1 => calls sm b s1 | None => None end.
Proof.
  revert s; induction a as [|a IH]; intros s; [reflexivity|].
  cbn [Nat.add calls]. destruct (move s) as [s1 [|]]; [reflexivity|apply IH].
Qed.

Lemma substeps_equal_steps n : forall s s',
  subStep s = -1 -> subStepping s = false -> good sm n s -> steps sm n s = Some s' ->
  exists m, calls sm m (with_ss s true) = Some (with_ss s' true).
Proof.
  induction n as [|n IH]; intros s s' Hs Hb G Hst.
  - cbn in Hst. injection Hst as <-. exists O. reflexivity.
  - cbn [steps] in Hst. destruct G as (k & Hx & Hf & Hn).
    destruct (substeps_equal_step s k Hs Hx Hf) as (s1 & Hm & Hc & Hs1 & Hb1 & _).
    assert (Es : with_ss s false = s) by (destruct s; cbn in *; subst; reflexivity).
    pose proof Hm as Hm'. rewrite Es in Hm'. rewrite Hm' in Hst.
    destruct (IH s1 s' Hs1 Hb1 (Hn _ Hm) Hst) as [m Hcm].
    exists (length (engines_get s) + 2 + m)%nat. rewrite calls_app, Hc. exact Hcm.
Qed.

(** ** mixed mode *)
Lemma quiet_reqs x k : quiet sm -> exists k', exec sm x k = (k', false) /\ k_reqs k' = k_reqs k.
Proof.
  intros (Q1 & Q2 & Q3). destruct x; cbn.
  - specialize (Q3 (k_world k)). destruct (prologue sm (k_world k)) as [w b]. cbn in Q3. subst b. eexists; split; reflexivity.
  - assert (H : o_exc (engine_effect sm e (k_iter k) (k_time k) (k_world k)) = false /\
                o_reqs (engine_effect sm e (k_iter k) (k_time k) (k_world k)) = []).
    { unfold engine_effect. destruct (dead sm e (k_world k)); [split; reflexivity|].
      specialize (Q2 e (k_iter k) (k_time k) (k_world k)).
      destruct (activated sm e (k_iter k) (k_time k) (k_world k)) as [o b]. cbn in Q2. destruct Q2 as [Qr Qe].
      rewrite Qe. destruct b; [|auto]. cbn. destruct (Q1 e (k_iter k) (k_time k) (o_w o)) as [Ar Ae].
      rewrite Qr, Ar. auto. }
    destruct H as [He Hr]. rewrite He, Hr, app_nil_r. eexists; split; reflexivity.
  - eexists; split; reflexivity.
Qed.

Lemma quiet_execs l : quiet sm -> forall k, exists k', execs sm l k = (k', false) /\ k_reqs k' = k_reqs k.
Proof.
  intros Q. induction l as [|x l IH]; intros k; cbn [execs]; [eauto|].
  destruct (quiet_reqs x k Q) as (k1 & E1 & R). rewrite E1.
  destruct (IH k1) as (k2 & E2 & R2). exists k2. rewrite E2, R2, R. auto.
Qed.

(** after [m] full rounds and [j] items of the next round *)
Definition at_pos (ls : list E) (k0 : core E W T) (m : nat) (j : nat) (s : scene) : Prop :=
  (j <= S (length ls))%nat /\
  subStep s = Z.of_nat j - 1 /\ engines s = ls /\ next s = [] /\
  exists k, execs sm (cyc m ls ++ firstn j (program ls)) k0 = (k, false) /\ k_reqs k = [] /\
            iter s = k_iter k /\ time s = k_time k /\ world s = k_world k.

Lemma program_length (ls : list E) : length (program ls) = S (S (length ls)).
Proof. unfold program. cbn. rewrite app_length, map_length. cbn. lia. Qed.

Lemma cyc_snoc m (ls : list E) : cyc (S m) ls = cyc m ls ++ program ls.
Proof.
  induction m as [|m IH]; [cbn; rewrite app_nil_r; reflexivity|].
  change (cyc (S (S m)) ls) with (program ls ++ cyc (S m) ls).
  change (cyc (S m) ls) with (program ls ++ cyc m ls) at 2.
  rewrite IH, app_assoc. reflexivity.
Qed.

Lemma nth_program (ls : list E) j : (1 <= j <= S (length ls))%nat ->
  nth_error (program ls) j = Some (item_at ls (Z.of_nat j - 1)).
Proof.
  intros Hj. destruct j as [|j]; [lia|]. unfold program, item_at. cbn [nth_error].
  replace (Z.to_nat (Z.of_nat (S j) - 1)) with j by lia.
  destruct (Nat.lt_ge_cases j (length ls)) as [Hl|Hl].
  - rewrite nth_error_app1 by (rewrite map_length; lia). rewrite nth_error_map.
    destruct (nth_error ls j) eqn:En; [reflexivity|]. apply nth_error_None in En. lia.
  - assert (j = length ls) by lia. subst j.
    rewrite nth_error_app2 by (rewrite map_length; lia). rewrite map_length, Nat.sub_diag.
    replace (nth_error ls (length ls)) with (@None E) by (symmetry; apply nth_error_None; lia). reflexivity.
Qed.

Lemma firstn_S_nth {A} (l : list A) j x : nth_error l j = Some x -> firstn (S j) l = firstn j l ++ [x].
Proof. revert j; induction l as [|y l IH]; intros [|j] H; cbn in *; try discriminate; [congruence|]. rewrite <- (IH j H). reflexivity. Qed.

Lemma skip_program (ls : list E) j : (1 <= j <= S (length ls))%nat ->
  skipn j (program ls) = remaining ls (Z.of_nat j - 1).
Proof.
  intros Hj. destruct j as [|j]; [lia|]. unfold program, remaining. cbn [skipn].
  replace (Z.to_nat (Z.of_nat (S j) - 1)) with j by lia.
  rewrite skipn_app, map_length. replace (j - length ls)%nat with O by lia. cbn [skipn].
  f_equal. clear Hj. revert ls; induction j as [|j IH]; intros [|e ls]; cbn; auto.
Qed.

Lemma at_pos_call ls k0 m j s :
  quiet sm -> at_pos ls k0 m j s ->
  exists s', move s = (s', false) /\
    ((subStepping s = true /\ ((j < S (length ls))%nat /\ at_pos ls k0 m (S j) s' \/ (j = S (length ls))%nat /\ at_pos ls k0 (S m) 0 s'))
     \/ (subStepping s = false /\ at_pos ls k0 (S m) 0 s')) /\ subStepping s' = subStepping s.
Proof.
  intros Q (Hj & Hsub & Heng & Hnext & k & Hx & Hr & Hi & Ht & Hw).
  destruct j as [|j].
  - (* at a boundary *)
    cbn [firstn] in Hx. rewrite app_nil_r in Hx.
    assert (Hget : engines_get s = ls) by (unfold engines_get; rewrite Hnext; exact Heng).
    assert (Hk : core_of s = k).
    { unfold core_of. rewrite Hi, Ht, Hw, <- Hr. destruct k; reflexivity. }
    destruct (subStepping s) eqn:Eb.
    + rewrite (sub_prologue s) by (auto; lia). rewrite Hget, Hk.
      destruct (quiet_reqs Cell k Q) as (k1 & E1 & R1). rewrite E1.
      eexists; split; [reflexivity|]. split.
      * left. split; [reflexivity|]. left. split; [lia|].
        split; [lia|]. split; [reflexivity|]. split; [reflexivity|]. split; [cbn; rewrite R1, Hr; reflexivity|].
        exists k1. rewrite execs_app, Hx. unfold program. cbn [firstn execs]. rewrite E1. rewrite R1, Hr. auto.
      * cbn. rewrite R1, Hr. reflexivity.
    + rewrite (full_step s) by (auto; lia). rewrite Hget, Hk.
      destruct (quiet_execs (program ls) Q k) as (k1 & E1 & R1). rewrite E1.
      eexists; split; [reflexivity|]. split.
      * right. split; [reflexivity|]. split; [lia|]. split; [reflexivity|]. split; [reflexivity|].
        split; [cbn; rewrite R1, Hr; reflexivity|].
        exists k1. cbn [firstn]. rewrite app_nil_r, cyc_snoc, execs_app, Hx, E1. rewrite R1, Hr. auto.
      * cbn. rewrite R1, Hr. reflexivity.
  - (* inside a step *)
    assert (Es : forall b, subStepping s = b -> s = embed ls [] (Z.of_nat (S j) - 1) b k).
    { intros b Hb. unfold embed. rewrite Hr. cbn. destruct s; cbn in *; congruence. }
    destruct (subStepping s) eqn:Eb.
    + rewrite (Es true eq_refl).
      rewrite sub_one; [|lia|rewrite Hr; reflexivity].
      destruct (quiet_reqs (item_at ls (Z.of_nat (S j) - 1)) k Q) as (k1 & E1 & R1). rewrite E1.
      eexists; split; [reflexivity|]. split.
      2:{ cbn. rewrite R1, Hr. reflexivity. }
      left. split; [reflexivity|].
      pose proof (firstn_S_nth _ _ _ (nth_program ls (S j) (conj (le_n_S _ _ (Nat.le_0_l _)) Hj))) as Hfn.
      assert (Hx1 : execs sm (cyc m ls ++ firstn (S (S j)) (program ls)) k0 = (k1, false)).
      { rewrite Hfn, app_assoc, execs_app, Hx. cbn [execs]. rewrite E1. reflexivity. }
      destruct (Z.eqb_spec (Z.of_nat (S j) - 1) (Z.of_nat (length ls))) as [He|He].
      * right. split; [lia|]. split; [lia|]. split; [reflexivity|]. split; [reflexivity|].
        split; [cbn; rewrite R1, Hr; reflexivity|]. exists k1. cbn [firstn].
        rewrite app_nil_r, cyc_snoc.
        rewrite firstn_all2 in Hx1 by (rewrite program_length; lia). rewrite Hx1, R1, Hr. auto.
      * left. split; [lia|]. split; [lia|]. split; [cbn [subStep embed]; lia|]. split; [reflexivity|].
        split; [cbn; rewrite R1, Hr; reflexivity|]. exists k1. rewrite Hx1, R1, Hr. auto.
    + rewrite (Es false eq_refl).
      rewrite finish_step; [|lia|left; rewrite Hr; reflexivity|rewrite Hr; reflexivity].
      destruct (quiet_execs (remaining ls (Z.of_nat (S j) - 1)) Q k) as (k1 & E1 & R1). rewrite E1.
      eexists; split; [reflexivity|]. split.
      2:{ cbn. rewrite R1, Hr. reflexivity. }
      right. split; [reflexivity|]. split; [lia|]. split; [reflexivity|]. split; [reflexivity|].
      split; [cbn; rewrite R1, Hr; reflexivity|]. exists k1. cbn [firstn]. rewrite app_nil_r, cyc_snoc.
      rewrite <- (firstn_skipn (S j) (program ls)), app_assoc, execs_app, Hx.
      rewrite skip_program by lia. rewrite E1, R1, Hr. auto.
Qed.

Lemma session_pos l : forall ls k0 m j s, quiet sm -> at_pos ls k0 m j s ->
  exists s' m' j', session sm l s = Some s' /\ at_pos ls k0 m' j' s'.
Proof.
  induction l as [|[|b] l IH]; intros ls k0 m j s Q A; cbn [session].
  - eauto 6.
  - destruct (at_pos_call ls k0 m j s Q A) as (s1 & E1 & H & _). rewrite E1.
    destruct H as [[_ [[_ A1]|[_ A1]]]|[_ A1]]; eapply IH; eassumption.
  - apply (IH ls k0 m j); [assumption|]. destruct A as (A1 & A2 & A3 & A4 & k & A5).
    split; [assumption|]. split; [assumption|]. split; [assumption|]. split; [assumption|]. exists k. exact A5.
Qed.

Lemma execs_cyc_iter m ls k0 k j : execs sm (cyc m ls ++ firstn j (program ls)) k0 = (k, false) ->
  (j <= S (length ls))%nat -> k_iter k = k_iter k0 + Z.of_nat m.
Proof.
  assert (A : forall l a b x, ~ In Clock l -> execs sm l a = (b, x) -> k_iter b = k_iter a).
  { induction l as [|y l IH]; intros a b x Hn Hx; cbn in Hx; [injection Hx as <- _; reflexivity|].
    destruct (exec sm y a) as [a1 q] eqn:Ea.
    assert (Hi : k_iter a1 = k_iter a).
    { destruct y; cbn in Ea.
      - destruct (prologue sm (k_world a)); injection Ea as <- _; reflexivity.
      - injection Ea as <- _; reflexivity.
      - exfalso; apply Hn; left; reflexivity. }
    destruct q; [injection Hx as <- _; exact Hi|].
    rewrite <- Hi. eapply IH; [|exact Hx]. intros H; apply Hn; right; exact H. }
  assert (NC : forall l : list E, ~ In Clock (map Eng l)).
  { intros l H. apply in_map_iff in H as (e & He & _). discriminate. }
  revert k0; induction m as [|m IH]; intros k0 Hx Hj.
  - cbn [cyc app] in Hx. rewrite (A (firstn j (program ls)) k0 k false); [lia| |exact Hx].
    unfold program. change (Cell :: map Eng ls ++ [Clock]) with ((Cell :: map Eng ls) ++ [@Clock E]).
    rewrite firstn_app. replace (j - length (Cell :: map Eng ls))%nat with O by (cbn; rewrite map_length; lia).
    cbn [firstn]. rewrite app_nil_r. intros H.
    assert (H2 : In Clock (Cell :: map Eng ls)).
    { rewrite <- (firstn_skipn j (Cell :: map Eng ls)). apply in_or_app; left; exact H. }
    destruct H2 as [H2|H2]; [discriminate|]. apply (NC _ H2).
  - cbn [cyc] in Hx. rewrite <- app_assoc, execs_app, execs_program in Hx.
    destruct (exec sm Cell k0) as [k1 [|]] eqn:E1; [discriminate|].
    destruct (execs sm (map Eng ls) k1) as [k2 [|]] eqn:E2; [discriminate|].
    apply IH in Hx; [|assumption]. rewrite Hx. cbn [exec fst k_iter].
    rewrite (A _ _ _ _ (NC ls) E2).
    cbn in E1. destruct (prologue sm (k_world k0)); injection E1 as <- _. cbn. lia.
Qed.

Lemma mixed_sessions s l :
  quiet sm -> subStep s = -1 -> next s = [] ->
  exists s' m j, session sm l s = Some s' /\ (j <= S (length (engines s)))%nat /\
    subStep s' = Z.of_nat j - 1 /\ engines s' = engines s /\
    iter s' = iter s + Z.of_nat m /\
    exists k, execs sm (cyc m (engines s) ++ firstn j (program (engines s))) (core_of s) = (k, false) /\
      time s' = k_time k /\ world s' = k_world k.
Proof.
  intros Q Hs Hn.
  assert (A0 : at_pos (engines s) (core_of s) 0 0 s).
  { split; [lia|]. split; [lia|]. split; [reflexivity|]. split; [assumption|].
    exists (core_of s). cbn. auto. }
  destruct (session_pos l _ _ _ _ _ Q A0) as (s' & m & j & E1 & Hj & Hsub & Heng & Hnext & k & Hx & Hr & Hi & Ht & Hw).
  exists s', m, j. split; [exact E1|]. split; [exact Hj|]. split; [exact Hsub|]. split; [exact Heng|].
  split; [rewrite Hi; rewrite (execs_cyc_iter _ _ _ _ _ Hx Hj); reflexivity|]. exists k. auto.
Qed.

(** ** C20 *)
Lemma engine_change_at_boundary s k :
  subStep s = -1 -> subStepping s = false ->
  execs sm (program (engines_get s)) (core_of s) = (k, false) ->
  last_engines [] (k_reqs k) <> [] \/ (forall l, ~ In (SetEngines l) (k_reqs k)) ->
  exists s', move s = (s', false) /\ subStep s' = -1 /\ world s' = k_world k /\
    engines_get s' = last_engines (engines_get s) (k_reqs k).
Proof.
  intros Hs Hb Hx Hl. rewrite (full_step s Hs Hb), Hx. eexists. split; [reflexivity|].
  split; [reflexivity|]. split; [reflexivity|].
  unfold engines_get at 1. cbn [next embed engines].
  assert (A : forall rs (d1 d2 : list E), (forall l, ~ In (SetEngines l) rs) \/ last_engines d1 rs = last_engines d2 rs).
  { induction rs as [|r rs IH] using rev_ind; intros d1 d2; [left; intros l []|].
    rewrite !last_engines_app. destruct r as [l|b]; cbn.
    - right; reflexivity.
    - destruct (IH d1 d2) as [H|H]; [left|right; exact H].
      intros l Hin. apply in_app_or in Hin as [Hin|[Hin|[]]]; [apply (H l Hin)|discriminate]. }
  assert (B : forall rs (d : list E), (forall l, ~ In (SetEngines l) rs) -> last_engines d rs = d).
  { induction rs as [|r rs IH]; intros d Hn; [reflexivity|]. destruct r as [l|b].
    - exfalso. apply (Hn l); left; reflexivity.
    - cbn. apply IH. intros l Hin. apply (Hn l); right; exact Hin. }
  destruct Hl as [Hl|Hl].
  - destruct (last_engines [] (k_reqs k)) as [|e es] eqn:El; [congruence|].
    destruct (A (k_reqs k) [] (engines_get s)) as [H|H]; [rewrite (B _ [] H) in El; discriminate|].
    rewrite <- H, El. reflexivity.
  - rewrite (B _ [] Hl), (B _ _ Hl). reflexivity.
Qed.

(** ** exceptions *)
Lemma exception_step s k :
  subStep s = -1 -> subStepping s = false ->
  execs sm (program (engines_get s)) (core_of s) = (k, true) ->
  exists s', move s = (s', true) /\ iter s' = iter s /\ time s' = time s /\ world s' = k_world k /\
    engines s' = engines_get s /\ subStep s' = 0 /\ next s' = last_engines [] (k_reqs k) /\
    subStepping s' = last_flag false (k_reqs k).
Proof.
  intros Hs Hb Hx. rewrite (full_step s Hs Hb), Hx. eexists; split; [reflexivity|].
  rewrite execs_program in Hx.
  assert (A : k_iter k = iter s /\ k_time k = time s).
  { assert (B : forall l a b x, execs sm (map Eng l) a = (b, x) -> k_iter b = k_iter a /\ k_time b = k_time a).
    { induction l as [|e l IH]; intros a b x Hq; cbn [map execs] in Hq; [injection Hq as <- _; auto|].
      destruct (exec sm (Eng e) a) as [a1 q] eqn:Ea. cbn in Ea.
      assert (k_iter a1 = k_iter a /\ k_time a1 = k_time a) as [H1 H2] by (injection Ea as <- _; auto).
      destruct q; [injection Hq as <- _; auto|]. apply IH in Hq. rewrite <- H1, <- H2. exact Hq. }
    destruct (exec sm Cell (core_of s)) as [k1 q] eqn:E1.
    assert (k_iter k1 = iter s /\ k_time k1 = time s) as [H1 H2].
    { cbn in E1. destruct (prologue sm (world s)); injection E1 as <- _; auto. }
    destruct q; [injection Hx as <-; auto|].
    destruct (execs sm (map Eng (engines_get s)) k1) as [k2 q] eqn:E2. apply B in E2.
    destruct q; [injection Hx as <-; rewrite <- H1, <- H2; exact E2|discriminate]. }
  destruct A as [A1 A2]. cbn. repeat split; auto.
Qed.

(** next ordinary call after an exception: all engines of that step again, without the cell update *)
Lemma retry_after_exception s :
  subStep s = 0 -> subStepping s = false -> next s = [] ->
  move s = let (k, x) := execs sm (map Eng (engines s) ++ [Clock]) (core_of s) in
    if x then (embed (engines s) [] 0 false k, true) else (embed (engines s) [] (-1) false k, false).
Proof.
  intros H1 H2 H3.
  assert (Es : s = embed (engines s) [] 0 false (core_of s)) by (unfold embed; destruct s; cbn in *; congruence).
  rewrite Es at 1. rewrite finish_step; [reflexivity|lia|left; reflexivity|reflexivity].
Qed.

(** in sub-stepping mode the failed item is tried again *)
Lemma sub_exception s s' :
  -1 <= subStep s <= Z.of_nat (length (engines_get s)) -> (0 <= subStep s -> next s = []) -> subStepping s = true ->
  move s = (s', true) -> subStep s' = subStep s /\ iter s' = iter s /\ time s' = time s /\ engines s' = engines_get s.
Proof.
  intros Hr Hn Hb Hm. destruct (Z.eq_dec (subStep s) (-1)) as [Hs|Hs].
  - rewrite (sub_prologue s Hs Hb) in Hm. cbn [exec core_of k_world] in Hm.
    destruct (prologue sm (world s)) as [w [|]]; [|discriminate].
    injection Hm as <-. cbn. auto.
  - assert (Hnx : next s = []) by (apply Hn; lia).
    assert (Hget : engines_get s = engines s) by (unfold engines_get; rewrite Hnx; reflexivity).
    assert (Es : s = embed (engines s) [] (subStep s) true (core_of s)) by (unfold embed; destruct s; cbn in *; congruence).
    rewrite Es in Hm. rewrite sub_one in Hm; [|rewrite <- Hget; lia|reflexivity].
    unfold item_at in Hm. destruct (nth_error (engines s) (Z.to_nat (subStep s))); cbn in Hm; [|discriminate].
    destruct (o_exc (engine_effect sm e (iter s) (time s) (world s))); [|discriminate].
    injection Hm as <-. cbn. auto.
Qed.

End P.

(** ** dead engines do not run *)
Section Dead.
Context {E W T : Type}.

Lemma dead_run_engine (m1 m2 : sem E W T) (e : E) (s : scene E W T) :
  dead m1 = dead m2 ->
  (forall e i t w, dead m1 e w = false -> activated m1 e i t w = activated m2 e i t w /\
     act m1 e i t (o_w (fst (activated m1 e i t w))) = act m2 e i t (o_w (fst (activated m2 e i t w)))) ->
  run_engine m1 e s = run_engine m2 e s.
Proof.
  intros Hd Ha. unfold run_engine. rewrite <- Hd.
  destruct (dead m1 e (world s)) eqn:Ed; [reflexivity|].
  destruct (Ha e (iter s) (time s) (world s) Ed) as [H1 H2].
  rewrite <- H1 in *. destruct (activated m1 e (iter s) (time s) (world s)) as [o b]. cbn in H2.
  unfold apply_out, with_world. 
  assert (A : forall rs (s0 : scene E W T), iter (fold_left do_req rs s0) = iter s0 /\
     time (fold_left do_req rs s0) = time s0 /\ world (fold_left do_req rs s0) = world s0).
  { induction rs as [|r rs IH]; intros s0; [auto|]. cbn [fold_left]. destruct (IH (do_req s0 r)) as (A1 & A2 & A3).
    rewrite A1, A2, A3. destruct r; cbn; [unfold engines_set; destruct (subStep s0 <? 0); auto|auto]. }
  destruct (A (o_reqs o) (mkScene (engines s) (next s) (subStep s) (subStepping s) (iter s) (time s) (o_w o))) as (A1 & A2 & A3).
  destruct (o_exc o); [reflexivity|]. destruct b; [|reflexivity].
  rewrite A1, A2, A3. cbn [iter time world]. rewrite H2. reflexivity.
Qed.

Lemma dead_move (m1 m2 : sem E W T) (s : scene E W T) :
  dead m1 = dead m2 -> prologue m1 = prologue m2 -> tick m1 = tick m2 ->
  (forall e i t w, dead m1 e w = false -> activated m1 e i t w = activated m2 e i t w /\
     act m1 e i t (o_w (fst (activated m1 e i t w))) = act m2 e i t (o_w (fst (activated m2 e i t w)))) ->
  moveToNextTimeStep m1 s = moveToNextTimeStep m2 s.
Proof.
  intros Hd Hp Ht Ha.
  assert (R : forall e s, run_engine m1 e s = run_engine m2 e s) by (intros; apply dead_run_engine; auto).
  assert (RS : forall l s, run_engines m1 l s = run_engines m2 l s).
  { induction l as [|e l IH]; intros s0; [reflexivity|]. cbn [run_engines]. rewrite R.
    destruct (run_engine m2 e s0) as [s1 [|]]; auto. }
  assert (P : forall s, run_prologue m1 s = run_prologue m2 s) by (intros; unfold run_prologue; rewrite Hp; reflexivity).
  assert (AD : forall s, advance m1 s = advance m2 s) by (intros; unfold advance; rewrite Ht; reflexivity).
  assert (SB : forall j s, sub_body m1 j s = sub_body m2 j s).
  { intros j s0. unfold sub_body. rewrite P, AD. destruct (j =? -1); [reflexivity|].
    destruct ((0 <=? j) && (j <? Z.of_nat (length (engines s0)))); [|reflexivity].
    destruct (nth_error (engines s0) (Z.to_nat j)); auto. }
  assert (SL : forall f j s, sub_loop m1 f j s = sub_loop m2 f j s).
  { induction f as [|f IH]; intros j s0; [reflexivity|]. cbn [sub_loop]. rewrite SB.
    destruct (sub_body m2 j s0) as [s1 [|]]; auto. }
  unfold moveToNextTimeStep. cbv zeta.
  set (s0 := match next s with [] => s | _ => _ end).
  destruct (negb (subStepping s0) && (subStep s0 <? 0)).
  - rewrite P. destruct (run_prologue m2 (with_sub s0 0)) as [s1 [|]]; [reflexivity|].
    rewrite RS. destruct (run_engines m2 (engines s1) s1) as [s2 [|]]; [reflexivity|]. rewrite AD. reflexivity.
  - rewrite SL. reflexivity.
Qed.
End Dead.

(** ** Counterexamples.  World: log of what ran. *)
Definition log_sem (rq : nat -> list (req nat)) : sem nat (list nat) nat :=
  mkSem (fun _ _ => false) (fun _ _ _ w => (mkOut w [] false, true))
        (fun e _ _ w => mkOut (w ++ [S e]) (rq e) false)
        (fun w => (w ++ [O], false)) (fun t _ => S t).

Definition s0 : scene nat (list nat) nat := mkScene [7%nat; 8%nat] [] (-1) false 0 0%nat [].

Lemma engines_empty_lost :
  exists s', moveToNextTimeStep (log_sem (fun e => if Nat.eqb e 7 then [SetEngines []] else [])) s0 = (s', false) /\
    engines_get s' = [7%nat; 8%nat].
Proof. eexists. split; vm_compute; reflexivity. Qed.

(** sub-step once, assign O.engines, leave sub-stepping, step: the cell is
    updated twice in one counted step and the new engines run in it *)
Lemma engines_mid_step :
  exists s1 s2,
    moveToNextTimeStep (log_sem (fun _ => [])) (with_ss s0 true) = (s1, false) /\ subStep s1 = 0 /\
    moveToNextTimeStep (log_sem (fun _ => [])) (with_ss (engines_set [9%nat] s1) false) = (s2, false) /\
    iter s2 = 1 /\ world s2 = [0%nat; 0%nat; 10%nat].
Proof. eexists. eexists. repeat split; vm_compute; reflexivity. Qed.
