(** Inelastic cohesive contacts: pkg/dem/InelastCohFrictPM.{hpp,cpp}. Uses Law for geometry.

    Simplifications: real numbers without rounding, but a quotient 0/0 of Ip2 is None (not a number); in the law, quotients by
    the stiffnesses knT, knC, ktw and by maxBendMom-maxElB are those of numbers other than zero; the elastic twist of the
    contact is an input; normElastEnergy and shearElastEnergy are left out. *)
From Coq Require Import Reals List ZArith Bool.
From Verif Require Import Vec_Model Rigid_Model Law_Model.
Import ListNotations.
Local Open Scope R_scope.

Definition ltR (a b : R) : bool := if Rlt_dec a b then true else false.
Definition leR (a b : R) : bool := if Rle_dec a b then true else false.

(** ** Ip2, cpp:6-62 *)
(** harmonic average: 2ab/(a+b); None: the sum is zero *)
Definition harmonic (a b : R) : option R := if Req_EM_T (a + b) 0 then None else Some (2 * a * b / (a + b)).
(** of the materials: moduli of compression, tension and shear, alphaKr and alphaKtw, creeping and unloading coefficients of tension, limit of
    compression, tension and shear, largest strains of tension and compression (those of twist and bending are alike) *)
Record imat := mkIM { mC : R; mT : R; mS : R; aKr : R; aKtw : R; mcreep : R; munload : R; sC : R; sT : R; sS : R; eT : R; eC : R; etaTw : R }.
Record ipars := mkIP { iknC : option R; iknT : option R; iks : option R; ikr : option R; iktw : option R; ikTCrp : option R; ikTUnld : option R; imaxElC : R; imaxElT : R; iadh : R; imaxExten : R; imaxContract : R; imaxTwist : R }.
Definition otimes (a : option R) (k : R) : option R := match a with Some x => Some (x * k) | None => None end.
Definition otimes2 (a b : option R) : option R := match a, b with Some x, Some y => Some (x * y) | _, _ => None end.
Definition ip2 (m1 m2 : imat) (r1 r2 : R) : ipars :=
  let kT := harmonic (mT m1 * r1) (mT m2 * r2) in
  let kS := harmonic (mS m1 * r1) (mS m2 * r2) in
  mkIP (harmonic (mC m1 * r1) (mC m2 * r2)) kT kS
    (otimes2 (otimes kS (r1 * r2)) (harmonic (aKr m1) (aKr m2))) (otimes2 (otimes kS (r1 * r2)) (harmonic (aKtw m1) (aKtw m2)))
    (otimes kT (Rmin (mcreep m1) (mcreep m2))) (otimes kT (Rmin (munload m1) (munload m2)))
    (Rmin (sC m1) (sC m2) * (Rmin r2 r1 * Rmin r2 r1)) (Rmin (sT m1) (sT m2) * (Rmin r2 r1 * Rmin r2 r1)) (Rmin (sS m1) (sS m2) * (Rmin r1 r2 * Rmin r1 r2))
    (Rmin (eT m1 * r1) (eT m2 * r2)) (Rmin (eC m1 * r1) (eC m2 * r2)) (2 * (314159265 / 100000000) * Rmin (etaTw m1) (etaTw m2)).

(** ** the normal force, cpp:99-167 *)
(** knT, knC, kTCrp, kTUnld, maxExten, maxContract *)
Record nconst := mkNC { knT : R; knC : R; kCrp : R; kUnl : R; maxExten : R; maxContract : R }.
(** maxElT, maxElC, isBroken, onPlastT, onPlastC, unp, maxCrpRchdT, maxCrpRchdC *)
Record nstate := mkN { elT : R; elC : R; isBroken : bool; onT : bool; onC : bool; unp : R; cT0 : R; cT1 : R; cC0 : R; cC1 : R }.
Definition set_broken (s : nstate) : nstate := mkN (elT s) (elC s) true (onT s) (onC s) (unp s) (cT0 s) (cT1 s) (cC0 s) (cC1 s).
Definition huge : R := 100000000000000000000.
(** cpp:114-137; [d] is the penetration depth, [un] the depth less unp *)
Definition tension (k : nconst) (s : nstate) (d un : R) : R * nstate :=
  let e := knT k * un in
  if ltR (elT s) (- e) || onT s then
    let un_ := ltR (cT0 s) un in
    let f := if un_ then kUnl k * (un - cT0 s) + cT1 s else - elT s + kCrp k * (un + elT s / knT k) in
    let c0 := if un_ then cT0 s else un in
    let c1 := if un_ then cT1 s else f in
    if ltR 0 f then (f, mkN 0 (elC s) (isBroken s) true true d huge c1 (cC0 s) (cC1 s))
    else (f, mkN (elT s) (elC s) (isBroken s) true true (unp s) c0 c1 (cC0 s) (cC1 s))
  else (e, mkN (elT s) (elC s) (isBroken s) (onT s) (onC s) (unp s) un e (cC0 s) (cC1 s)).
(** cpp:147-167 *)
Definition compression (k : nconst) (s : nstate) (d un : R) : R * nstate :=
  let e := knC k * un in
  if ltR (elC s) e || onC s then
    let un_ := ltR un (cC0 s) in
    let f := if un_ then kUnl k * (un - cC0 s) + cC1 s else elC s + kCrp k * (un - elC s / knC k) in
    let c0 := if un_ then cC0 s else un in
    let c1 := if un_ then cC1 s else f in
    if ltR f 0 then (f, mkN (elT s) 0 (isBroken s) (onT s) true d (cT0 s) (cT1 s) (- huge) c1)
    else (f, mkN (elT s) (elC s) (isBroken s) (onT s) true (unp s) (cT0 s) (cT1 s) c0 c1)
  else (e, mkN (elT s) (elC s) (isBroken s) (onT s) (onC s) (unp s) (cT0 s) (cT1 s) un e).
(** cpp:99-167: the contact is broken and returned false (erased) or true (kept without forces), or has a force *)
Inductive noutcome := NErase | NSpent | NForce (f : R).
Definition normal_law (k : nconst) (s : nstate) (d : R) : noutcome * nstate :=
  let un := d - unp s in
  if leR un 0 then
    if ltR (maxExten k) (- un) || isBroken s then (NErase, set_broken s)
    else let r := tension k s d un in (NForce (fst r), snd r)
  else
    if ltR (maxContract k) un || isBroken s then (if leR d 0 then NErase else NSpent, set_broken s)
    else let r := compression k s d un in (NForce (fst r), snd r).

(** ** shear, cpp:169-188 *)
Record sstate := mkSS { adhesion : R; cohesionBroken : bool; sforce : vec }.
Definition shear_law (ks tanphi : R) (g : scgeom) (Fn : R) (s : sstate) : sstate :=
  let trial := vadd (rotate g (sforce s)) (smul ks (shearInc g)) in
  let Fs := norm trial in
  let m := if Req_EM_T (adhesion s) 0 then Fn * tanphi else adhesion s in
  let m := Rmax 0 m in
  if ltR m Fs then
    if cohesionBroken s then mkSS (adhesion s) true (smul (m / Fs) trial)
    else mkSS 0 true (smul (Rmax 0 (Fn * tanphi) / Fs) trial)
  else mkSS (adhesion s) (cohesionBroken s) trial.

(** ** twist, cpp:190-225 *)
Record tconst := mkTC { ktw : R; ktwCrp : R; ktwUnl : R; maxTwist : R }.
(** maxElTw, onPlastTw, twp, maxCrpRchdTw, moment_twist *)
Record tstate := mkTS { elTw : R; onTw : bool; twp : R; cW0 : R; cW1 : R; mtwist : vec }.
(** [sign] of the twist, 1 for zero *)
Definition sgn (x : R) : R := if ltR x 0 then -1 else 1.
(** the new state, and whether the cohesion is broken *)
Definition twist_law (k : tconst) (fresh : bool) (n : vec) (gtwist : R) (s : tstate) : tstate * bool :=
  let t := gtwist - twp s in
  let e := t * ktw k in
  let changed := negb fresh && ltR (dot (mtwist s) (smul e n)) 0 in
  if ltR (maxTwist k) (Rabs t) then (mkTS (elTw s) (onTw s) (twp s) (cW0 s) (cW1 s) (smul 0 n), true)
  else if ltR (elTw s) (Rabs e) || onTw s then
    let un_ := ltR (Rabs t) (Rabs (cW0 s)) in
    let f := if un_ then ktwUnl k * (t - cW0 s) + cW1 s else sgn t * elTw s + ktwCrp k * (t - sgn t * elTw s / ktw k) in
    let c0 := if un_ then cW0 s else t in
    let c1 := if un_ then cW1 s else f in
    (if changed then mkTS 0 true gtwist 0 c1 (smul f n) else mkTS (elTw s) true (twp s) c0 c1 (smul f n), false)
  else (mkTS (elTw s) (onTw s) (twp s) t e (smul e n), false).

(** ** bending, cpp:227-261 *)
Record bconst := mkBC { kr : R; krCrp : R; krUnl : R; elB : R; maxBend : R }.
(** onPlastB, moment_bending, pureCreep, maxCrpRchdB, kDam *)
Record bstate := mkBS { onB : bool; mbend : vec; creep : vec; cB : vec; kDam : R }.
Definition bend_law (k : bconst) (g : scgeom) (dt : R) (w1 w2 : vec) (s : bstate) : bstate * bool :=
  let rel := vsub w2 w1 in
  let rot := smul dt (vsub rel (smul (dot (normal g) rel) (normal g))) in
  let m := rotate g (mbend s) in
  let pc := rotate g (creep s) in
  let e := vsub m (smul (kr k) rot) in
  if ltR (elB k) (norm e) || onB s then
    let t := vsub m (smul (kDam s) rot) in
    let pc' := vsub pc (smul (krCrp k) rot) in
    if ltR (norm t) (norm (mbend s)) then
      let b := vsub (vadd t (smul (kDam s) rot)) (smul (krUnl k) rot) in
      let c := if ltR (norm pc') (norm pc) then pc' else vadd pc (smul (krCrp k) rot) in
      (mkBS true b c (cB s) (kr k + (krCrp k - kr k) * (norm (cB s) - elB k) / (maxBend k - elB k)), false)
    else
      let c := if ltR (norm pc) (norm pc') then pc' else vadd pc (smul (krCrp k) rot) in
      let b := if ltR (norm c) (norm t) then c else t in
      let m' := if ltR (norm (cB s)) (norm c) then c else cB s in
      if ltR (maxBend k) (norm c) then (mkBS true vzero c m' (kDam s), true)
      else (mkBS true b c m' (kDam s), false)
  else (mkBS (onB s) e e e (krCrp k), false).

(** ** the law, cpp:87-267 *)
Record iconst := mkIC { nco : nconst; ksh : R; tanPhi_ : R; tco : tconst; bco : bconst }.
Record istate := mkIS { nst : nstate; nforce : vec; sst : sstate; tst : tstate; bst : bstate }.
Definition quiet_t (t : tstate) : tstate := mkTS (elTw t) (onTw t) (twp t) (cW0 t) (cW1 t) vzero.
Definition quiet_b (b : bstate) : bstate := mkBS (onB b) vzero (creep b) (cB b) (kDam b).
(** what a step sees: whether the contact is new, dt, geometry, elastic twist, angular velocities, ids and positions (the second with its period) *)
Record istep := mkIT { fresh : bool; sdt : R; sg : scgeom; stwist : R; om1 : vec; om2 : vec; at1 : vec; at2 : vec }.
(** erased or kept; the state; what is added to forces and torques *)
Definition law (k : iconst) (st : istate) (x : istep) (id1 id2 : nat) : bool * istate * list (nat * (vec * vec)) :=
  let g := sg x in
  let s0 := if fresh x then vzero else sforce (sst st) in
  let quiet := fun n' => mkIS n' vzero (mkSS (adhesion (sst st)) (cohesionBroken (sst st)) vzero) (quiet_t (tst st)) (quiet_b (bst st)) in
  let r := normal_law (nco k) (nst st) (penetrationDepth g) in
  match fst r with
  | NErase => (false, quiet (snd r), [])
  | NSpent => (true, quiet (snd r), [])
  | NForce Fn =>
    let s := shear_law (ksh k) (tanPhi_ k) g Fn (mkSS (adhesion (sst st)) (cohesionBroken (sst st)) s0) in
    let (t, b1) := if cohesionBroken s then (quiet_t (tst st), true) else twist_law (tco k) (fresh x) (normal g) (stwist x) (tst st) in
    let (b, b2) := if b1 then (bst st, true) else bend_law (bco k) g (sdt x) (om1 x) (om2 x) (bst st) in
    let nf := smul (- Fn) (normal g) in
    let m := vadd (mbend b) (mtwist t) in
    (true, mkIS (snd r) nf (mkSS (adhesion s) b2 (sforce s)) t b,
     applyForceAtContactPoint (vadd nf (sforce s)) (contactPoint g) id1 (at1 x) id2 (at2 x)
       ++ [(id1, (vzero, vsub (vopp (mbend b)) (mtwist t))); (id2, (vzero, m))])
  end.
