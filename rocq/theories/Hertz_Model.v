(** Model of contacts with the non-linear stiffness of Hertz and Mindlin: pkg/dem/HertzMindlin.{hpp,cpp}.

    Simplifications
    - real numbers without rounding; x^1.5, x^0.5 and x^0.25 are products and roots; where the code divides by
      zero or takes the root or the logarithm of a number that has none, the model has a result of its own;
    - the radius of the contact area (MindlinPhys::radius, hpp:47) and the adhesion energy computed from it are left out;
    - what the law adds to forces and energies is a list of contributions. *)
From Coq Require Import Reals List ZArith Bool.
From Verif Require Import Vec_Model Rigid_Model Law_Model Coh_Model.
Import ListNotations.
Local Open Scope R_scope.

(** hpp:28-64: MindlinPhys.  What the laws never change: *)
Record hparams := mkHP { kno : R; kso : R; hkr : R; hktw : R; maxBendPl : R; htan : R; hadh : R; hbetan : R; hbetas : R; halpha : R }.
(** and what may change *)
Record hstate := mkHS { hkn : R; hks : R; hnormal : vec; hshear : vec; nVisc : vec; sVisc : vec; sElastic : vec; usElastic : vec; usTotal : vec;
  mBend : vec; mTwist : vec; isAdhesive : bool; isSliding : bool }.
(** hpp:28-64: defaults *)
Definition hfresh : hstate := mkHS 0 0 vzero vzero vzero vzero vzero vzero vzero vzero vzero false false.

(** ** Physics of a new contact *)
(** Ip2_FrictMat_FrictMat_MindlinPhys, hpp:91-100 *)
Record hconf := mkHC { gamma : R; eta : R; krot : R; ktwist : R; c_en : option matchmaker; c_es : option matchmaker; c_betan : option matchmaker; c_betas : option matchmaker; c_frict : option matchmaker }.
(** what a call ends with; Interaction::phys is set in all cases *)
Inductive attempt :=
| Built (p : hparams)   (* returns *)
| Threw (p : hparams)   (* throws an exception *)
| Crash (p : hparams)   (* follows a null pointer *)
| NotFinite.            (* a parameter is infinite or not a number *)
(** cpp:44-45 *)
Definition eff_radius1 (g : scgeom) : R := if ltR 0 (radius1 g) then radius1 g else radius2 g.
(** cpp:50-58: denominators *)
Definition denominators_ok (m1 m2 : material) (Da Db : R) : bool :=
  negb (is0 (1 + poisson m1)) && negb (is0 (1 + poisson m2)) && negb (is0 ((1 - poisson m1 * poisson m1) * young m2 + (1 - poisson m2 * poisson m2) * young m1))
  && negb (is0 (Da + Db)) && leR 0 (Da * Db / (Da + Db)) && negb (is0 (2 - (poisson m1 + poisson m2) / 2)).
(** cpp:54,55 *)
Definition young_eq (m1 m2 : material) : R := young m1 * young m2 / ((1 - poisson m1 * poisson m1) * young m2 + (1 - poisson m2 * poisson m2) * young m1).
Definition radius_eq (Da Db : R) : R := Da * Db / (Da + Db).
(** cpp:50-53,58 *)
Definition shear_coef (m1 m2 : material) (Req : R) : R :=
  2 * sqrt (4 * Req) * ((young m1 / (2 * (1 + poisson m1)) + young m2 / (2 * (1 + poisson m2))) / 2) / (2 - (poisson m1 + poisson m2) / 2).
(** cpp:48-72: all but damping *)
Definition elastic_params (c : hconf) (m1 m2 : material) (g : scgeom) (phi : R) (bn bs al : R) : hparams :=
  let Da := eff_radius1 g in let Db := radius2 g in let Req := radius_eq Da Db in
  mkHP (4/3 * young_eq m1 m2 * sqrt Req) (shear_coef m1 m2 Req) (krot c) (ktwist c) (eta c * ((Da + Db) / 2)) (tan phi) (4 * PI * Req * gamma c) bn bs al.
(** cpp:80-81 *)
Definition tsuji (e E Req : R) : R := - sqrt (5/6) * 2 * ln e / sqrt (ln e * ln e + PI * PI) * sqrt (2 * E * sqrt Req).
(** cpp:59 *)
Definition friction_angle (c : hconf) (m1 m2 : material) : option R :=
  match c_frict c with None => Some (Rmin (frictionAngle m1) (frictionAngle m2))
  | Some mm => mm_call mm (m_id m1) (m_id m2) (Some (frictionAngle m1)) (Some (frictionAngle m2)) end.
Definition given {A} (o : option A) : bool := match o with Some _ => true | None => false end.
(** cpp:26-89 (and 529-596, without frictAngle); [old] is Interaction::phys *)
Definition hip2 (c : hconf) (m1 m2 : material) (g : scgeom) (old : option hparams) : attempt :=
  match old with
  | Some p => Built p
  | None =>
    if negb (denominators_ok m1 m2 (eff_radius1 g) (radius2 g)) then NotFinite
    else match friction_angle c m1 m2 with
    | None => NotFinite
    | Some phi =>
      let mk := elastic_params c m1 m2 g phi in
      if given (c_en c) && given (c_betan c) then Threw (mk 0 0 0)
      else if given (c_es c) && given (c_betas c) then Threw (mk 0 0 0)
      else if given (c_en c) || given (c_es c) then
        match c_en c with
        | None => Crash (mk 0 0 0)
        | Some mm => match mm_call mm (m_id m1) (m_id m2) None None with
                     | None => Threw (mk 0 0 0)
                     | Some e => let E := young_eq m1 m2 in let Req := radius_eq (eff_radius1 g) (radius2 g) in
                                 if leR e 0 || ltR (2 * E * sqrt Req) 0 then NotFinite else Built (mk 0 0 (tsuji e E Req))
                     end
        end
      else
        match (match c_betan c with None => Some 0 | Some mm => mm_call mm (m_id m1) (m_id m2) None None end) with
        | None => Threw (mk 0 0 0)
        | Some bn => match (match c_betas c with None => Some bn | Some mm => mm_call mm (m_id m1) (m_id m2) None None end) with
                     | None => Threw (mk bn 0 0)
                     | Some bs => Built (mk bn bs 0)
                     end
        end
    end
  end.
(** what is in Interaction::phys afterwards *)
Definition left_behind (a : attempt) : option hparams := match a with Built p | Threw p | Crash p => Some p | NotFinite => None end.

(** ** Forces *)
(** Law2_ScGeom_MindlinPhys_Mindlin, hpp:147-152, and Scene::isPeriodic *)
Record hlaw := mkHL { hnever : bool; hratchet : bool; hadhesion : bool; henergy : bool; hmoment : bool; hperiodic : bool }.
(** what a call sees: time step, geometry, the states of the bodies and whether they are dynamic, periodic shifts *)
Record hstep := mkHSt { hdt : R; hg : scgeom; hs1 : rstate; dyn1 : bool; hs2 : rstate; dyn2 : bool; hshift2 : vec; hshiftVel : vec }.
(** what is added to frictionDissipation, shearEnergy, normDampDissip, shearDampDissip *)
Record account := mkAc { a_friction : R; a_shear : R; a_normDamp : R; a_shearDamp : R }.
Definition no_account : account := mkAc 0 0 0 0.
Inductive hresult :=
| HLost                                                              (* returns false *)
| HKept (s : hstate) (added : list (nat * (vec * vec))) (a : account) (* returns true *)
| HNotNumber.                                                        (* division by zero, root of a negative number *)

(** cpp:154-157,197-200,266-269: with neverErase *)
Definition separated (s : hstate) : hstate :=
  mkHS 0 0 vzero vzero (nVisc s) (sVisc s) (sElastic s) (usElastic s) (usTotal s) (mBend s) (mTwist s) (isAdhesive s) (isSliding s).
(** cpp:254 *)
Definition use_damping (p : hparams) : bool := negb (is0 (hbetan p)) || negb (is0 (hbetas p)) || negb (is0 (halpha p)).
(** cpp:304,314; None: 0/0 *)
Definition mbar (t : hstep) : option R :=
  if negb (dyn1 t) && dyn2 t then Some (mass (hs2 t)) else if negb (dyn2 t) && dyn1 t then Some (mass (hs1 t))
  else if is0 (mass (hs1 t) + mass (hs2 t)) then None else Some (mass (hs1 t) * mass (hs2 t) / (mass (hs1 t) + mass (hs2 t))).
(** cpp:303-317: cn, cs.  A negative mass or stiffness counts as a root of a negative number (also where two
    negative numbers are multiplied) *)
Definition damping_coefs (p : hparams) (t : hstep) : option (R * R) :=
  let uN := penetrationDepth (hg t) in
  if negb (use_damping p) then Some (0, 0)
  else match mbar t with
       | None => None
       | Some m => if ltR m 0 || ltR (kno p) 0 || ltR (kso p) 0 then None
                   else if is0 (halpha p) then Some (2 * sqrt (m * (3/2 * kno p * sqrt uN)) * hbetan p, 2 * sqrt (m * (kso p * sqrt uN)) * hbetas p)
                   else Some (halpha p * sqrt m * sqrt (sqrt uN), halpha p * sqrt m * sqrt (sqrt uN))
       end.
(** cpp:331; None: the bodies have the same centre *)
Definition incident (ratchet : bool) (t : hstep) : option vec :=
  let g := hg t in
  if ratchet && is0 (radius1 g + radius2 g - penetrationDepth g) then None else Some (getIncidentVel g (hs1 t) (hs2 t) (hshift2 t) (hshiftVel t) ratchet).
(** cpp:332,333 *)
Definition along (n v : vec) : vec := smul (dot n v) n.
Definition across (n v : vec) : vec := vsub v (along n v).
(** cpp:343-364: the normal force with its viscous part, and that part; None: 0/0 *)
Definition damp_normal (L : hlaw) (p : hparams) (n fn visc : vec) : option (vec * vec) :=
  let temp := vsub fn visc in
  if is0 (hadh p) || negb (hadhesion L) then
    if ltR (dot temp n) 0 then Some (vzero, vadd visc temp) else Some (temp, visc)
  else if ltR (dot temp n) 0 && ltR (hadh p) (norm visc) then
    if is0 (norm visc) then None
    else let visc' := smul (hadh p) (smul (/ norm visc) visc) in Some (vsub fn visc', visc')
  else Some (temp, visc).
(** cpp:394-396,410 *)
Definition shear_strength (L : hlaw) (p : hparams) (fn : vec) : R := if hadhesion L then htan p * (hadh p + norm fn) else norm fn * htan p.
(** cpp:392-421: whether it slides, viscous part, total and elastic shear force, elastic displacement *)
Definition mohr (L : hlaw) (p : hparams) (cs : R) (fn vs trial us : vec) : bool * vec * vec * vec * vec :=
  let m := shear_strength L p fn in
  if ltR (m * m) (norm2 trial) then
    let r := m / norm trial in (true, vzero, smul r trial, smul r trial, smul r us)
  else if use_damping p then (false, smul cs vs, vsub trial (smul cs vs), trial, us)
  else (false, vzero, trial, trial, us).
(** cpp:509-517 *)
Definition limit_bend (p : hparams) (fn m : vec) : vec :=
  let mm := maxBendPl p * norm fn in if ltR 0 mm then if ltR mm (norm m) then smul (mm / norm m) m else m else m.
(** cpp:444-452 *)
Definition apply_forces (L : hlaw) (t : hstep) (i1 i2 : nat) (f : vec) : list (nat * (vec * vec)) :=
  let g := hg t in
  if negb (hperiodic L) then applyForceAtContactPoint f (contactPoint g) i1 (pos (hs1 t)) i2 (pos (hs2 t))
  else [(i1, (f, smul (radius1 g - 1/2 * penetrationDepth g) (cross (normal g) f))); (i2, (vopp f, smul (radius2 g - 1/2 * penetrationDepth g) (cross (normal g) f)))].
(** cpp:239-526 *)
Definition mindlin (L : hlaw) (p : hparams) (i1 i2 : nat) (t : hstep) (s : hstate) : hresult :=
  let g := hg t in let n := normal g in let uN := penetrationDepth g in
  if ltR uN 0 then if hnever L then HKept (separated s) [] no_account else HLost
  else
    let Fn := kno p * (uN * sqrt uN) - (if hadhesion L then hadh p else 0) in
    let adh := if hadhesion L then ltR Fn 0 else isAdhesive s in
    let kn := 3/2 * kno p * sqrt uN in let ks := kso p * sqrt uN in
    match damping_coefs p t, incident (hratchet L) t with
    | Some (cn, cs), Some v =>
      let vn := along n v in let vs := across n v in
      let prevF := rotate g (sElastic s) in
      let trial := vsub prevF (smul ks (smul (hdt t) vs)) in
      match (if use_damping p then damp_normal L p n (smul Fn n) (smul cn vn) else Some (smul Fn n, nVisc s)) with
      | None => HNotNumber
      | Some (fn, visc) =>
        let prevUs := rotate g (usElastic s) in let us := vsub prevUs (smul (hdt t) vs) in
        let prevTot := rotate g (usTotal s) in let tot := vsub prevTot (smul (hdt t) vs) in
        let '(slid, sv, fs, fe, us') := mohr L p cs fn vs trial us in
        let a := if henergy L then
          mkAc (if slid then dot (vsub tot prevTot) fe else 0)
               (dot (vsub us' prevUs) (smul (1/2) (vadd fe prevF)))
               (if use_damping p then dot visc (smul (hdt t) vn) else 0)
               (if use_damping p && negb slid then dot sv (smul (hdt t) vs) else 0)
          else no_account in
        let add := apply_forces L t i1 i2 (vsub (vopp fn) fs) in
        if hmoment L then
          let rel := vsub (angVel (hs2 t)) (angVel (hs1 t)) in
          let bend := limit_bend p fn (vsub (rotate g (mBend s)) (smul (hkr p) (smul (hdt t) (across n rel)))) in
          let tw := vsub (rotate g (mTwist s)) (smul (hktw p) (smul (hdt t) (along n rel))) in
          let m := vadd tw bend in
          HKept (mkHS kn ks fn fs visc sv fe us' tot bend tw adh slid) (add ++ [(i1, (vzero, vopp m)); (i2, (vzero, m))]) a
        else HKept (mkHS kn ks fn fs visc sv fe us' tot (mBend s) (mTwist s) adh slid) add a
      end
    | _, _ => HNotNumber
    end.

(** cpp:228-231 (and 185-188): forces at the distance of the contact point from the centres *)
Definition sphere_forces (t : hstep) (i1 i2 : nat) (f : vec) : list (nat * (vec * vec)) :=
  let g := hg t in
  [(i1, (f, smul (radius1 g - 1/2 * penetrationDepth g) (cross (normal g) f))); (i2, (vopp f, smul (radius2 g - 1/2 * penetrationDepth g) (cross (normal g) f)))].
Definition with_forces (s : hstate) (fn fs : vec) : hstate :=
  mkHS (hkn s) (hks s) fn fs (nVisc s) (sVisc s) (sElastic s) (usElastic s) (usTotal s) (mBend s) (mTwist s) (isAdhesive s) (isSliding s).
(** cpp:192-233: Law2_ScGeom_MindlinPhys_HertzWithLinearShear with neverErase and nonLin *)
Definition hertz_linear (never : bool) (nonLin : Z) (p : hparams) (i1 i2 : nat) (t : hstep) (s : hstate) : hresult :=
  let g := hg t in let n := normal g in let uN := penetrationDepth g in
  if ltR uN 0 then if never then HKept (separated s) [] no_account else HLost
  else
    let Fn := kno p * (uN * sqrt uN) in
    let ks := if (0 <? nonLin)%Z then kso p * sqrt uN else kso p in
    match (if (1 <? nonLin)%Z then option_map (fun v => smul (hdt t) (across n v)) (incident (2 <? nonLin)%Z t) else Some (shearInc g)) with
    | None => HNotNumber
    | Some inc =>
      let trial := vsub (rotate g (hshear s)) (smul ks inc) in
      let max2 := Fn * Fn * (htan p * htan p) in
      let fs := if ltR max2 (norm2 trial) then smul (sqrt max2 / norm trial) trial else trial in
      HKept (with_forces s (smul Fn n) fs) (sphere_forces t i1 i2 (vsub (vopp (smul Fn n)) fs)) no_account
    end.
(** cpp:149-190: Law2_ScGeom_MindlinPhys_MindlinDeresiewitz *)
Definition deresiewitz (never : bool) (p : hparams) (i1 i2 : nat) (t : hstep) (s : hstate) : hresult :=
  let g := hg t in let n := normal g in let uN := penetrationDepth g in
  if ltR uN 0 then if never then HKept (separated s) [] no_account else HLost
  else
    let Fn := kno p * (uN * sqrt uN) in
    let s1 := with_forces s (smul Fn n) (hshear s) in
    if is0 Fn then HKept s1 [] no_account
    else
      let s2 := mkHS (hkn s) (hks s) (smul Fn n) (hshear s) (nVisc s) (sVisc s) (sElastic s) (usElastic s) (vsub (rotate g (usTotal s)) (shearInc g)) (mBend s) (mTwist s) (isAdhesive s) (isSliding s) in
      HKept s2 (sphere_forces t i1 i2 (vsub (vopp (smul Fn n)) (hshear s))) no_account.

(** ** Sums over the contacts *)
(** an interaction: whether it is real, and its physics if that is MindlinPhys, with its overlap *)
Record hinter := mkHI { h_real : bool; h_phys : option (hparams * hstate); h_depth : R }.
(** cpp:92-101; None: a null pointer is followed *)
Definition contactsAdhesive (l : list hinter) : option nat :=
  fold_left (fun n i => match n with None => None | Some k => if h_real i then match h_phys i with Some (_, s) => Some (if isAdhesive s then S k else k) | None => None end else Some k end) l (Some O).
(** cpp:104-115: sliding and all contacts; the ratio is their quotient *)
Definition slidingContacts (l : list hinter) : option (nat * nat) :=
  fold_left (fun n i => match n with None => None | Some (k, c) => if h_real i then match h_phys i with Some (_, s) => Some (if isSliding s then S k else k, S c) | None => None end else Some (k, c) end) l (Some (O, O)).
Definition ratioSlidingContacts (l : list hinter) : option R :=
  match slidingContacts l with Some (k, c) => if Nat.eqb c 0 then None else Some (INR k / INR c) | None => None end.
(** cpp:118-131; a negative overlap has no power 5/2: None *)
Definition normElast (adhesion : bool) (l : list hinter) : option R :=
  fold_left (fun e i => match e with None => None | Some x => if h_real i then match h_phys i with
    | Some (p, _) => if ltR (h_depth i) 0 then None else Some (x + (h_depth i * h_depth i * sqrt (h_depth i) * (2/5) * kno p - (if adhesion then hadh p * h_depth i else 0)))
    | None => Some x end else Some x end) l (Some 0).
