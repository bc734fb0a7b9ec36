From Coq Require Import Reals Lra Lia List ZArith Bool.
From Verif Require Import Vec_Model Vec_Proofs Rigid_Model Rigid_Spec Law_Model Law_Spec Law_Proofs.
Import ListNotations.
Local Open Scope R_scope.

(** ** rigid motion *)
Lemma incident_rigid g s1 s2 sh sv v0 w : moves_rigidly v0 w (pos s1) (vel s1) (angVel s1) -> moves_rigidly v0 w (vadd (pos s2) sh) (vadd (vel s2) sv) (angVel s2) ->
  getIncidentVel g s1 s2 sh sv false = vzero.
Proof.
  intros [A1 A2] [B1 B2]. unfold getIncidentVel. rewrite A1, A2, B2. assert (E : vel s2 = vsub (vadd v0 (cross w (vadd (pos s2) sh))) sv) by (rewrite <- B1; clear; generalize (vel s2); vring). rewrite E. clear. generalize (pos s1) (pos s2) (contactPoint g). vring.
Qed.
Lemma precompute_inc dt g s1 s2 n isNew sh sv av : getIncidentVel (mkG n (contactPoint g) (penetrationDepth g) (radius1 g) (radius2 g) (twist_axis (precompute dt g s1 s2 n isNew sh sv av)) (orthonormal_axis (precompute dt g s1 s2 n isNew sh sv av)) (shearInc g)) s1 s2 sh sv av = vzero ->
  shearInc (precompute dt g s1 s2 n isNew sh sv av) = vzero.
Proof. intros E. unfold precompute in *. cbv zeta in *. cbn [twist_axis orthonormal_axis shearInc] in *. rewrite E. clear. vring. Qed.
Theorem rigid_no_shear dt f av r1 r2 s1 s2 sh sv fo re old g v0 w : ig2 dt f av r1 r2 s1 s2 sh sv fo re old = Contact g ->
  moves_rigidly v0 w (pos s1) (vel s1) (angVel s1) -> moves_rigidly v0 w (vadd (pos s2) sh) (vadd (vel s2) sv) (angVel s2) -> shearInc g = vzero.
Proof.
  intros E M1 M2. pose proof (ig2_touching _ _ _ _ _ _ _ _ _ _ _ _ _ E) as (_ & T & T0 & _). revert E. unfold ig2. cbv zeta. destruct (_ && _ && _); [discriminate|]. destruct (Req_EM_T _ 0) as [|N]; [discriminate|].
  intros E. injection E as E. rewrite <- E in *. apply precompute_inc. destruct av; [|apply (incident_rigid _ _ _ _ _ v0 w M1 M2)].
  unfold getIncidentVel. cbn [radius1 radius2 penetrationDepth normal contactPoint]. unfold precompute in T, T0. cbv zeta in T, T0. cbn [normal penetrationDepth] in T, T0.
  set (n := vsub (vadd (pos s2) sh) (pos s1)) in *. set (k := smul (/ norm n) n) in *. set (d := norm n) in *. replace (r1 + r2 - (r1 + r2 - d)) with d in * by ring. destruct M1 as [A1 A2], M2 as [B1 B2]. rewrite A1, A2, B2.
  assert (X : vel s2 = vsub (vadd v0 (cross w (vadd (pos s1) (smul d k)))) sv). { rewrite <- T, <- B1. clear. generalize (vel s2). vring. } rewrite X. clearbody k d. clear - T0. generalize (pos s1). intros [p1 p2 p3]. destruct v0, w, k, sv. vgoal. f_equal; field; lra.
Qed.

(** ** the contact seen from the other body *)
Lemma norm_opp v : norm (vopp v) = norm v. Proof. unfold norm. f_equal. vring. Qed.
Theorem ig2_mirror dt f av r1 r2 s1 s2 sh sv fo re old :
  ig2 dt f av r2 r1 s2 s1 (vopp sh) (vopp sv) fo re (option_map (mirror_geom sh) old) = mirror_result sh (ig2 dt f av r1 r2 s1 s2 sh sv fo re old).
Proof.
  unfold ig2. cbv zeta. assert (N : vsub (vadd (pos s1) (vopp sh)) (pos s2) = vopp (vsub (vadd (pos s2) sh) (pos s1))) by (generalize (pos s1) (pos s2); vring). rewrite N. set (n := vsub (vadd (pos s2) sh) (pos s1)) in *.
  rewrite norm_opp. replace (norm2 (vopp n)) with (norm2 n) by (clear; vring). rewrite (Rplus_comm r2 r1). destruct (_ && _ && _); [reflexivity|]. destruct (Req_EM_T (norm n) 0) as [|Hn]; [reflexivity|]. cbn [mirror_result]. f_equal.
  pose proof (unit_scale n Hn) as S. set (d := norm n) in *. set (k := smul (/ d) n) in *. assert (Ek : smul (/ d) (vopp n) = vopp k) by (subst k; clear; set (j := / d); clearbody j; vring). rewrite Ek.
  set (g0 := match old with Some g => g | None => mkG vzero vzero 0 0 0 vzero vzero vzero end).
  assert (H : forall b : bool, (b = true \/ exists g, old = Some g) -> (match option_map (mirror_geom sh) old with Some _ => false | None => true end) = match old with Some _ => false | None => true end) by (intros; destruct old; reflexivity). 
  replace (match option_map (mirror_geom sh) old with Some _ => false | None => true end) with (match old with Some _ => false | None => true end) by (destruct old; reflexivity).
  unfold precompute, mirror_geom. cbv zeta. cbn [normal contactPoint penetrationDepth radius1 radius2 twist_axis orthonormal_axis shearInc].
  assert (G : normal (match option_map (mirror_geom sh) old with Some g => g | None => mkG vzero vzero 0 0 0 vzero vzero vzero end) = vopp (normal g0)) by (subst g0; destruct old; cbn [option_map mirror_geom normal]; [reflexivity|vring]).
  unfold mirror_geom in G. rewrite !G. assert (P : pos s2 = vsub (vadd (pos s1) (smul d k)) sh). { rewrite S. subst n. clear. generalize (pos s1) (pos s2). vring. }
  assert (CP : vadd (pos s2) (smul (r2 - 1/2 * (r1 + r2 - d)) (vopp k)) = vsub (vadd (pos s1) (smul (r1 - 1/2 * (r1 + r2 - d)) k)) sh). { rewrite P. clearbody d k. clear. generalize (pos s1). intros []. destruct k, sh. vgoal. f_equal; field. }
  rewrite CP. set (cp := vadd (pos s1) (smul (r1 - 1/2 * (r1 + r2 - d)) k)). f_equal.
  - destruct old; [|reflexivity]. clearbody d k cp. clear. generalize (normal g0) (angVel s1) (angVel s2). vring.
  - destruct old; [|reflexivity]. clearbody d k cp. clear. generalize (normal g0). vring.
  - assert (X : forall tw ax si, getIncidentVel (mkG (vopp k) (vsub cp sh) (r1 + r2 - d) r2 r1 tw ax si) s2 s1 (vopp sh) (vopp sv) av = vopp (getIncidentVel (mkG k cp (r1 + r2 - d) r1 r2 tw ax si) s1 s2 sh sv av)).
    { intros. unfold getIncidentVel. cbn [normal contactPoint penetrationDepth radius1 radius2]. destruct av.
      - rewrite (Rplus_comm r2 r1). set (al := (r1 + r2) / _). clearbody al d k cp. clear. generalize (vel s1) (vel s2) (angVel s1) (angVel s2). vring.
      - clearbody cp. clear. generalize (vel s1) (vel s2) (angVel s1) (angVel s2) (pos s1) (pos s2). vring. }
    assert (Y : forall tw ax si tw' ax' si', getIncidentVel (mkG k cp (r1 + r2 - d) r1 r2 tw ax si) s1 s2 sh sv av = getIncidentVel (mkG k cp (r1 + r2 - d) r1 r2 tw' ax' si') s1 s2 sh sv av) by reflexivity.
    rewrite X. match goal with |- smul _ (vsub (vopp (getIncidentVel ?g _ _ _ _ _)) _) = vopp (smul _ (vsub (getIncidentVel ?h _ _ _ _ _) _)) => replace (getIncidentVel h s1 s2 sh sv av) with (getIncidentVel g s1 s2 sh sv av) by reflexivity; generalize (getIncidentVel g s1 s2 sh sv av) end. clearbody k. clear. vring.
Qed.
Lemma slip_mirror p fn t : slip p (vopp fn) (vopp t) = (vopp (fst (slip p fn t)), snd (slip p fn t)).
Proof.
  unfold slip. cbv zeta. replace (norm2 (vopp fn)) with (norm2 fn) by vring. replace (norm2 (vopp t)) with (norm2 t) by vring. rewrite norm_opp. destruct (Rlt_dec _ _); cbn [fst snd]; [|reflexivity]. f_equal; generalize (sqrt (norm2 fn * (tanPhi p * tanPhi p)) / norm t) (1 / ks p); clear; vring.
Qed.
Theorem law_mirror L sh g p i1 p1 i2 p2 : (periodic L = false -> sh = vzero) ->
  law L (mirror_geom sh g) (mirror_phys p) i2 p2 i1 p1 =
  match law L g p i1 p1 i2 p2 with Some (p', e) => Some (mirror_phys p', mkE (rev (added e)) (plasticDissipation e) (plastDissip e) (elastPotential e)) | None => None end.
Proof.
  intros Hs. unfold law. cbv zeta. cbn [mirror_geom penetrationDepth normal shearInc radius1 radius2 contactPoint twist_axis orthonormal_axis mirror_phys kn ks tanPhi shearForce]. set (a := if Rlt_dec (penetrationDepth g) 0 then true else false). destruct (a && negb (neverErase L)); [reflexivity|].
  set (s0 := if a then vzero else shearForce p). assert (E0 : (if a then vzero else vopp (shearForce p)) = vopp s0) by (subst s0; destruct a; [vring|reflexivity]). rewrite E0.
  set (m := kn p * Rmax (penetrationDepth g) 0). replace (smul m (vopp (normal g))) with (vopp (smul m (normal g))) by (clearbody m; generalize (normal g); vring).
  replace (vsub (rotate (mirror_geom sh g) (vopp s0)) (smul (ks p) (vopp (shearInc g)))) with (vopp (vsub (rotate g s0) (smul (ks p) (shearInc g)))) by (unfold rotate, mirror_geom; cbn [twist_axis orthonormal_axis]; clearbody s0; generalize (ks p) (shearInc g) (twist_axis g) (orthonormal_axis g); clear; vring).
  change (mkP (kn p) (ks p) (tanPhi p) (vopp (normalForce p)) (vopp (shearForce p))) with (mirror_phys p).
  assert (SM : forall a b, slip (mirror_phys p) a b = slip p a b) by reflexivity. rewrite SM, slip_mirror. destruct (slip p (smul m (normal g)) (vsub (rotate g s0) (smul (ks p) (shearInc g)))) as [fs d]. cbn [fst snd]. f_equal. f_equal.
  cbn [added plasticDissipation plastDissip elastPotential]. set (f := vsub (vopp (smul m (normal g))) fs). replace (vsub (vopp (vopp (smul m (normal g)))) (vopp fs)) with (vopp f) by (subst f; generalize (smul m (normal g)); clear; vring). f_equal.
  - destruct (negb (periodic L) && negb (sphericalBodies L)) eqn:B.
    + apply andb_true_iff in B. destruct B as [B _]. apply negb_true_iff in B. rewrite (Hs B). unfold applyForceAtContactPoint. cbn [rev app]. f_equal; [|f_equal]; f_equal; f_equal; generalize f (contactPoint g); clear; vring.
    + cbn [rev app]. f_equal; [|f_equal]; f_equal; f_equal; generalize f (normal g); clear; intros; vring.
  - destruct (trackEnergy L || traceEnergy L); [|reflexivity]. replace (norm2 (vopp (smul m (normal g)))) with (norm2 (smul m (normal g))) by (generalize (smul m (normal g)); clear; vring). replace (norm2 (vopp fs)) with (norm2 fs) by (clear; vring). reflexivity.
Qed.

(** ** cycles *)
Lemma vsum_cons x l : vsum (x :: l) = vadd x (vsum l). Proof. reflexivity. Qed.
Lemma norm_unit_scale d n : norm2 n = 1 -> 0 < d -> norm (smul d n) = d.
Proof. intros U D. unfold norm. rewrite norm2_smul, U, Rmult_1_r. apply sqrt_Rsqr. lra. Qed.
Lemma ig2_line dt r1 r2 av p1 n o1 o2 i1 i2 m1 m2 d a w old : norm2 n = 1 -> 0 < d ->
  exists g, ig2 dt 1 av r1 r2 (mkR p1 o1 vzero vzero m1 i1) (mkR (vadd p1 (smul d n)) o2 (smul a n) w m2 i2) vzero vzero true true old = Contact g /\
  shearInc g = smul (- dt * (if av then r2 else r2 - 1/2 * (r1 + r2 - d))) (cross w n).
Proof.
  intros U D. unfold ig2. cbv zeta. cbn [negb andb pos]. assert (E : vsub (vadd (vadd p1 (smul d n)) vzero) p1 = smul d n) by vring. rewrite E, (norm_unit_scale d n U D). destruct (Req_EM_T d 0) as [|N]; [lra|].
  assert (K : smul (/ d) (smul d n) = n). { destruct n. vgoal. f_equal; field; exact N. } rewrite K. eexists. split; [reflexivity|]. unfold precompute. cbv zeta. cbn [shearInc]. unfold getIncidentVel. cbn [pos vel angVel radius1 radius2 penetrationDepth normal contactPoint].
  replace (r1 + r2 - (r1 + r2 - d)) with d by ring. destruct av.
  - assert (X : vadd (vsub (vadd (smul ((r1 + r2) / d) (vsub (smul a n) vzero)) (cross w (smul (- r2) n))) (cross vzero (smul r1 n))) (smul ((r1 + r2) / d) vzero) = vadd (smul ((r1 + r2) / d * a) n) (smul (- r2) (cross w n))) by (generalize ((r1 + r2) / d); intros; vring). rewrite X.
    assert (Y : dot n (vadd (smul ((r1 + r2) / d * a) n) (smul (- r2) (cross w n))) = (r1 + r2) / d * a). { transitivity ((r1 + r2) / d * a * norm2 n); [generalize ((r1 + r2) / d); intros; vring|rewrite U; ring]. } rewrite Y. generalize ((r1 + r2) / d * a). clear. intros. vring.
  - set (c := vadd p1 (smul (r1 - 1/2 * (r1 + r2 - d)) n)). assert (X : vadd (vsub (vadd (smul a n) (cross w (vsub c (vadd (vadd p1 (smul d n)) vzero)))) (vadd vzero (cross vzero (vsub c p1)))) vzero = vadd (smul a n) (smul (- (r2 - 1/2 * (r1 + r2 - d))) (cross w n))). { subst c. destruct p1, n, w. vgoal. f_equal; field. } rewrite X.
    assert (Y : dot n (vadd (smul a n) (smul (- (r2 - 1/2 * (r1 + r2 - d))) (cross w n))) = a). { transitivity (a * norm2 n); [vring|rewrite U; ring]. } rewrite Y. clear. vring.
Qed.
Theorem no_ratcheting dt r1 r2 p1 n o1 o2 i1 i2 m1 m2 : norm2 n = 1 -> forall l old, (forall q, In q l -> 0 < fst (fst q)) ->
  exists x, increments dt true r1 r2 old (map (fun q => (mkR p1 o1 vzero vzero m1 i1, mkR (vadd p1 (smul (fst (fst q)) n)) o2 (smul (snd (fst q)) n) (snd q) m2 i2)) l) = Some x /\
  vsum x = smul (- dt * r2) (cross (vsum (map snd l)) n).
Proof.
  intros U. induction l as [|[[d a] w] l IH]; intros old Hd.
  - exists []. split; [reflexivity|]. cbn [vsum map fold_right]. vring.
  - cbn [map increments fst snd]. destruct (ig2_line dt r1 r2 true p1 n o1 o2 i1 i2 m1 m2 d a w old U (Hd ((d, a), w) (or_introl eq_refl))) as (g & E & S). rewrite E. destruct (IH (Some g) (fun q H => Hd q (or_intror H))) as (x & Ex & Sx). rewrite Ex. exists (shearInc g :: x). split; [reflexivity|]. rewrite !vsum_cons, Sx, S. generalize (vsum (map snd l)). clear. vring.
Qed.

(** ** rotation of the shear force *)
Lemma cross_norm a b : norm2 (vsub a (cross a b)) = norm2 a + norm2 (cross a b). Proof. vring. Qed.
Lemma norm2_cross_le a b : norm2 (cross a b) <= norm2 a * norm2 b.
Proof. rewrite lagrange. pose proof (Rle_0_sqr (dot a b)) as H. unfold Rsqr in H. lra. Qed.
Theorem rotate_bounds g s : norm2 s <= norm2 (rotate g s) <= norm2 s * (1 + norm2 (orthonormal_axis g)) * (1 + norm2 (twist_axis g)).
Proof.
  unfold rotate. cbv zeta. set (s1 := vsub s (cross s (orthonormal_axis g))). rewrite cross_norm. pose proof (norm2_pos (cross s1 (twist_axis g))). pose proof (norm2_cross_le s1 (twist_axis g)). assert (E : norm2 s1 = norm2 s + norm2 (cross s (orthonormal_axis g))) by apply cross_norm. pose proof (norm2_pos (cross s (orthonormal_axis g))). pose proof (norm2_cross_le s (orthonormal_axis g)).
  split; [lra|]. assert (A : norm2 s1 <= norm2 s * (1 + norm2 (orthonormal_axis g))) by lra. pose proof (norm2_pos (twist_axis g)). assert (B : norm2 s1 * (1 + norm2 (twist_axis g)) <= norm2 s * (1 + norm2 (orthonormal_axis g)) * (1 + norm2 (twist_axis g))) by (apply Rmult_le_compat_r; lra). lra.
Qed.
Lemma ig2_axes dt f av r1 r2 s1 s2 sh sv fo re g0 g : ig2 dt f av r1 r2 s1 s2 sh sv fo re (Some g0) = Contact g ->
  orthonormal_axis g = cross (normal g0) (normal g) /\ twist_axis g = smul (dt * (1/2) * dot (normal g0) (vadd (angVel s1) (angVel s2))) (normal g0).
Proof.
  unfold ig2. cbv zeta. destruct (_ && _ && _); [discriminate|]. destruct (Req_EM_T _ 0); [discriminate|]. intros E. injection E as <-. split; reflexivity.
Qed.
Theorem rotate_tangent dt f av r1 r2 s1 s2 sh sv fo re g0 g s : ig2 dt f av r1 r2 s1 s2 sh sv fo re (Some g0) = Contact g ->
  dot (normal g0) s = 0 -> dot (normal g0) (vadd (angVel s1) (angVel s2)) = 0 ->
  dot (normal g) (rotate g s) = (1 - dot (normal g0) (normal g)) * dot (normal g) s.
Proof.
  intros E T W. apply ig2_axes in E. destruct E as [E1 E2]. unfold rotate. cbv zeta. rewrite E1, E2, W. revert T. generalize (normal g) (normal g0). clear. intros [n1 n2 n3] [m1 m2 m3] T. destruct s as [a b c]. assert (Q : m1 * a + m2 * b + m3 * c = 0) by exact T. vgoal.
  match goal with |- ?x = ?y => assert (E : x - y = (n1 * n1 + n2 * n2 + n3 * n3) * (m1 * a + m2 * b + m3 * c)) by ring end. rewrite Q in E. lra.
Qed.

(** ** stiffness *)
Theorem ip2_once fa m1 m2 g p : ip2 fa m1 m2 g (Some p) = Phys p. Proof. reflexivity. Qed.
Lemma ip2_new m1 m2 g : 0 < young m1 -> 0 < young m2 -> 0 < poisson m1 -> 0 < poisson m2 -> 0 < radius1 g -> 0 < radius2 g ->
  let a := young m1 * radius1 g in let b := young m2 * radius2 g in let va := a * poisson m1 in let vb := b * poisson m2 in
  exists p, ip2 None m1 m2 g None = Phys p /\ 0 < kn p /\ 0 < ks p /\ / kn p = / (2 * a) + / (2 * b) /\ / ks p = / (2 * va) + / (2 * vb) /\
  tanPhi p = tan (Rmin (frictionAngle m1) (frictionAngle m2)) /\ normalForce p = vzero /\ shearForce p = vzero.
Proof.
  intros Y1 Y2 P1 P2 R1 R2. cbv zeta. unfold ip2. cbv zeta. destruct (Rlt_dec 0 (radius1 g)) as [_|]; [|contradiction]. destruct (Rlt_dec 0 (radius2 g)) as [_|]; [|contradiction].
  assert (A : 0 < young m1 * radius1 g) by (apply Rmult_lt_0_compat; assumption). assert (B : 0 < young m2 * radius2 g) by (apply Rmult_lt_0_compat; assumption).
  set (a := young m1 * radius1 g) in *. set (b := young m2 * radius2 g) in *. assert (VA : 0 < a * poisson m1) by (apply Rmult_lt_0_compat; assumption). assert (VB : 0 < b * poisson m2) by (apply Rmult_lt_0_compat; assumption).
  set (va := a * poisson m1) in *. set (vb := b * poisson m2) in *. destruct (Req_EM_T (a + b) 0); [lra|]. destruct (Req_EM_T (va + vb) 0); [lra|].
  assert (K : forall x y, 0 < x -> 0 < y -> 0 < 2 * x * y / (x + y)). { intros x y Hx Hy. unfold Rdiv. apply Rmult_lt_0_compat; [|apply Rinv_0_lt_compat; lra]. apply Rmult_lt_0_compat; lra. }
  eexists. split; [reflexivity|]. cbn [kn ks tanPhi normalForce shearForce]. split; [apply K; assumption|]. split; [apply K; assumption|]. split; [field; lra|]. split; [field; lra|]. auto.
Qed.

(** ** MatchMaker *)
Lemma find_insert l p v q : find_pair (insert_pair l p v) q = match find_pair l q with Some x => Some x | None => if ((fst p =? fst q) && (snd p =? snd q))%Z then Some v else None end.
Proof.
  unfold insert_pair. assert (H : find_pair (l ++ [(p, v)]) q = match find_pair l q with Some x => Some x | None => if ((fst p =? fst q) && (snd p =? snd q))%Z then Some v else None end).
  { unfold find_pair. induction l as [|e l IH]; cbn [app find]; [destruct ((fst (fst (p, v)) =? fst q)%Z && _) eqn:E; cbn [fst snd] in *; rewrite E; reflexivity|]. destruct ((fst (fst e) =? fst q)%Z && _); [reflexivity|exact IH]. }
  destruct (find_pair l p) as [x|] eqn:E; [|exact H]. destruct (find_pair l q) as [y|] eqn:Eq; [reflexivity|]. destruct ((fst p =? fst q)%Z && (snd p =? snd q)%Z) eqn:B; [|reflexivity]. exfalso. apply andb_true_iff in B. destruct B as [B1 B2]. apply Z.eqb_eq in B1, B2. assert (p = q) by (destruct p, q; cbn in *; congruence). congruence.
Qed.
Lemma minmax_pair a b i j : ((Z.min a b =? Z.min i j) && (Z.max a b =? Z.max i j))%Z = ((a =? i) && (b =? j) || (a =? j) && (b =? i))%Z.
Proof. destruct (Z.eqb_spec a i), (Z.eqb_spec b j), (Z.eqb_spec a j), (Z.eqb_spec b i), (Z.eqb_spec (Z.min a b) (Z.min i j)), (Z.eqb_spec (Z.max a b) (Z.max i j)); cbn [andb orb]; try reflexivity; lia. Qed.
Lemma postLoad_find a v ms i j : find_pair (matchSet (postLoad a v ms)) (Z.min i j, Z.max i j) = first_match ms i j.
Proof.
  unfold postLoad. cbn [matchSet]. assert (H : forall ms l, find_pair (fold_left (fun l (m : Z * Z * R) => insert_pair l (Z.min (fst (fst m)) (snd (fst m)), Z.max (fst (fst m)) (snd (fst m))) (snd m)) ms l) (Z.min i j, Z.max i j) =
    match find_pair l (Z.min i j, Z.max i j) with Some x => Some x | None => first_match ms i j end).
  { clear. induction ms as [|[[x y] w] ms IH]; intros l; cbn [fold_left first_match]; [destruct (find_pair _ _); reflexivity|]. rewrite IH, find_insert. cbn [fst snd]. rewrite minmax_pair. destruct (find_pair l _); [reflexivity|]. destruct (_ || _); reflexivity. }
  rewrite H. reflexivity.
Qed.
Theorem mm_first a v ms i j v1 v2 x : first_match ms i j = Some x -> mm_call (postLoad a v ms) i j v1 v2 = Some x.
Proof. intros H. unfold mm_call. rewrite postLoad_find, H. reflexivity. Qed.
Lemma fallback_comm m a b : computeFallback m a b = computeFallback m b a.
Proof. unfold computeFallback. destruct (m_algo m); try reflexivity; [f_equal; field|rewrite Rmin_comm; reflexivity|rewrite Rmax_comm; reflexivity|]. rewrite (Rplus_comm b a). destruct (Req_EM_T (a + b) 0) as [|N]; [reflexivity|]. f_equal. field. exact N. Qed.
Theorem mm_symmetric m i j v1 v2 : mm_call m i j v1 v2 = mm_call m j i v2 v1.
Proof. unfold mm_call. rewrite (Z.min_comm j i), (Z.max_comm j i). destruct (find_pair _ _); [reflexivity|]. destruct v1, v2; try reflexivity. apply fallback_comm. Qed.
Theorem mm_fallback a v ms i j v1 v2 : first_match ms i j = None -> mm_call (postLoad a v ms) i j v1 v2 =
  match a with
  | Aval => Some v
  | Azero => Some 0
  | _ => match v1, v2 with
         | Some x, Some y => match a with Aavg => Some ((x + y) / 2) | Amin => Some (Rmin x y) | Amax => Some (Rmax x y)
                             | _ => if Req_EM_T (x + y) 0 then None else Some (2 * x * y / (x + y)) end
         | _, _ => None end
  end.
Proof. intros H. unfold mm_call. rewrite postLoad_find, H. unfold computeFallback, postLoad. cbn [m_algo m_val needs_values]. destruct a, v1, v2; reflexivity. Qed.
Theorem ip2_mirror fa m1 m2 g sh old : ip2 fa m2 m1 (mirror_geom sh g) (option_map mirror_phys old) = match ip2 fa m1 m2 g old with Phys p => Phys (mirror_phys p) | NotANumber => NotANumber end.
Proof.
  unfold ip2. destruct old as [p|]; [reflexivity|]. cbn [option_map mirror_geom radius1 radius2]. cbv zeta. set (Ra := if Rlt_dec 0 (radius1 g) then _ else _). set (Rb := if Rlt_dec 0 (radius2 g) then _ else _).
  rewrite (Rplus_comm (young m2 * Rb) (young m1 * Ra)). destruct (Req_EM_T _ 0) as [|N1]; [reflexivity|]. rewrite (Rplus_comm (young m2 * Rb * poisson m2)). destruct (Req_EM_T _ 0) as [|N2]; [reflexivity|].
  replace (match fa with Some mm => mm_call mm (m_id m2) (m_id m1) (Some (frictionAngle m2)) (Some (frictionAngle m1)) | None => Some (Rmin (frictionAngle m2) (frictionAngle m1)) end)
    with (match fa with Some mm => mm_call mm (m_id m1) (m_id m2) (Some (frictionAngle m1)) (Some (frictionAngle m2)) | None => Some (Rmin (frictionAngle m1) (frictionAngle m2)) end) by (destruct fa; [apply mm_symmetric|rewrite Rmin_comm; reflexivity]).
  destruct (match fa with Some _ => _ | None => _ end); [|reflexivity]. unfold mirror_phys. cbn [kn ks tanPhi normalForce shearForce]. f_equal. f_equal; try vring; try (field; assumption).
  all: try (unfold vopp, vzero; cbn [vx vy vz]; f_equal; ring).
Qed.

Theorem treat_swap S c b1 b2 : (periodic (lawc S) = false -> shift2 c = vzero) -> treat S (swap_contact c) b2 b1 = swap_treated (treat S c b1 b2).
Proof.
  intros Z. unfold treat. cbv zeta. cbn [swap_contact geom phys shift2 shiftVel id1 id2].
  assert (I : (match option_map (mirror_geom (shift2 c)) (geom c), option_map mirror_phys (phys c) with Some _, Some _ => true | _, _ => false end) = match geom c, phys c with Some _, Some _ => true | _, _ => false end) by (destruct (geom c), (phys c); reflexivity).
  rewrite I, ig2_mirror. destruct (ig2 _ _ _ _ _ (state b1) (state b2) _ _ _ _ _) as [|g|]; [reflexivity| |reflexivity]. cbn [mirror_result]. rewrite ip2_mirror. destruct (ip2 _ _ _ g _) as [p|]; [|reflexivity]. rewrite law_mirror by exact Z. destruct (law _ g p _ _ _ _) as [[p' e]|]; reflexivity.
Qed.
