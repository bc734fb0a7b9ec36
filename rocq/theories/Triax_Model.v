(** Model of the stress and strain controller of a box: pkg/dem/TriaxialStressController.{hpp,cpp}
    and the growth of particles, pkg/dem/Shop_02.cpp.

    Simplifications
    - real numbers without rounding; [None] stands for NaN; where sizes are not positive the
      code computes with infinities and NaN, here division is that of Coq (theorems assume
      positive sizes);
    - ids are natural numbers; a force is what ForceContainer returns after sync;
    - without FlowEngine; logging is left out; contacts have normal force and stiffness only. *)
From Coq Require Import Reals List ZArith Bool Arith.
From Verif Require Import Vec_Model Law_Model.
Import ListNotations.
Local Open Scope R_scope.

(** walls: left 0, right 1, bottom 2, top 3, back 4, front 5 (hpp:31) *)
Definition axis_of (w : nat) : nat := match w with O | 1%nat => 0%nat | 2%nat | 3%nat => 1%nat | _ => 2%nat end.
Definition side (w : nat) : R := match w with O | 2%nat | 4%nat => 1 | _ => -1 end.
(** hpp:128-134 *)
Definition wall_normal (w : nat) : vec := with_comp (axis_of w) vzero (side w).
Record wallstate := mkW { wpos : vec; wvel : vec }.
Definition world := nat -> option wallstate.
Definition put (W : world) (i : nat) (s : wallstate) : world := fun j => if Nat.eqb j i then Some s else W j.
(** what is given by the user; ids of walls, which of them are activated *)
Record tconf := mkT { stiffnessUpdateInterval : Z; radiusControlInterval : Z; computeStressStrainInterval : Z; stressDamping : R; strainDamping : R;
  ids : nat -> nat; activated : nat -> bool; goal : vec; stressMask : Z; max_vel : R; internalCompaction : bool; finalMaxMultiplier : R }.
(** what changes; [first], [wall_id], [previousTranslation], [stiffness], [strain], [stress], [particlesVolume] and [porosity] are not saved *)
Record tstate := mkS { first : bool; wall_id : nat -> nat; previousTranslation : nat -> vec; stiffness : nat -> R; strain : vec; stress : nat -> vec;
  particlesVolume : R; porosity : R; thickness : R; size : vec; size0 : vec; maxMultiplier : R; previousMultiplier : option R; previousStress : R;
  meanStress : R; volumetricStrain : R; externalWork : R; updatePorosity : bool }.
Record contact := mkC { cid1 : nat; cid2 : nat; cfn : R; ckn : R }.
(** bodies as far as volumes are concerned: spheres and clumps (mass, density of the first member); others *)
Inductive solid := Ball (r : R) (dynamic member : bool) | ClumpOf (mass : R) (density : option R) (dynamic : bool) | Other (dynamic member : bool).
Record tenv := mkE { iter : Z; dt : R; force : nat -> vec; contacts : list contact; solids : list solid; bottomExtent : R }.
Inductive tresult := Done (s : tstate) (W : world) (grow : option (option R)) | UB.

(** cpp:40-76 *)
Definition touches (c : contact) (i : nat) : bool := Nat.eqb i (cid1 c) || Nat.eqb i (cid2 c).
Definition updateStiffness (l : list contact) (s : tstate) : nat -> R := fun w =>
  fold_left (fun k c => if Req_EM_T (cfn c) 0 then k else if touches c (wall_id s w) then k + ckn c else k) l 0.
(** cpp:234-270; the sizes are those computed before (cpp:122-124), walls having not moved since *)
Definition area (sz : vec) (ax : nat) : R := match ax with O => vy sz * vz sz | 1%nat => vx sz * vz sz | _ => vx sz * vy sz end.
Definition reference (x0 x : R) : R := if Req_EM_T x0 0 then x else x0.
Definition computeStressStrain (e : tenv) (s : tstate) (sz : vec) : tstate :=
  let sz0 := V (reference (vx (size0 s)) (vx sz)) (reference (vy (size0 s)) (vy sz)) (reference (vz (size0 s)) (vz sz)) in
  let eps := V (ln (vx sz / vx sz0)) (ln (vy sz / vy sz0)) (ln (vz sz / vz sz0)) in
  let sig w := smul (side w * / area sz (axis_of w)) (force e (wall_id s w)) in
  let sign w := if Nat.even w then 1 else -1 in
  let mean := fold_left (fun m w => m + dot (sig w) (smul (sign w) (wall_normal w))) [0%nat; 1%nat; 2%nat; 3%nat; 4%nat; 5%nat] 0 / 6 in
  mkS (first s) (wall_id s) (previousTranslation s) (stiffness s) eps sig (particlesVolume s) (porosity s) (thickness s) sz sz0 (maxMultiplier s) (previousMultiplier s) (previousStress s)
    mean (vx eps + vy eps + vz eps) (externalWork s) (updatePorosity s).
Definition sign (x : R) : R := if Rlt_dec x 0 then -1 else if Rlt_dec 0 x then 1 else 0.
(** cpp:84-93 *)
Definition translation (dt k vmax t : R) : R :=
  if Req_EM_T t 0 then 0
  else if Req_EM_T k 0 then vmax * sign t * dt
  else Rmin (Rabs (t / k)) (vmax * dt) * sign (t / k).
(** cpp:78-101: the new previousTranslation *)
Definition controlled (c : tconf) (e : tenv) (s : tstate) (sz : vec) (vmax : nat -> R) (w : nat) : vec :=
  let ax := axis_of w in
  let wanted := smul (side w) (with_comp ax vzero (comp ax (goal c) * area sz ax)) in
  let t := dot (wall_normal w) (vsub (force e (wall_id s w)) wanted) in
  vadd (smul ((1 - stressDamping c) * translation (dt e) (stiffness s w) (vmax ax) t) (wall_normal w)) (smul (8/10) (previousTranslation s w)).
Definition bit (m : Z) (ax : nat) : bool := Z.testbit m (Z.of_nat ax).
Definition setWork (s : tstate) (p : nat -> vec) (work : R) : tstate :=
  mkS (first s) (wall_id s) p (stiffness s) (strain s) (stress s) (particlesVolume s) (porosity s) (thickness s) (size s) (size0 s) (maxMultiplier s) (previousMultiplier s) (previousStress s) (meanStress s) (volumetricStrain s) work (updatePorosity s).
(** cpp:168-210, one wall; the work is that of the force on the cached id or on the given one *)
Definition drive (c : tconf) (e : tenv) (sz : vec) (vmax : nat -> R) (w : nat) (sW : tstate * world) : option (tstate * world) :=
  let '(s, W) := sW in
  match W (ids c w) with
  | None => None
  | Some b =>
    let ax := axis_of w in
    if activated c w then
      if bit (stressMask c) ax then
        let p := controlled c e s sz vmax w in
        Some (setWork s (fun i => if Nat.eqb i w then p else previousTranslation s i) (externalWork s + dot p (force e (wall_id s w))),
              put W (ids c w) (mkW (wpos b) (smul (/ dt e) p)))
      else
        let v := comp ax (wvel b) in
        let vel := with_comp ax (wvel b) (v + (- side w * (1/2) * comp ax (goal c) * comp ax sz - v) * (1 - strainDamping c)) in
        Some (setWork s (previousTranslation s) (externalWork s + dot vel (force e (ids c w)) * dt e),
              put W (ids c w) (mkW (wpos b) vel))
    else Some (s, put W (ids c w) (mkW (wpos b) vzero))
  end.
Definition order : list nat := [2%nat; 3%nat; 0%nat; 1%nat; 4%nat; 5%nat].
Definition driveAll (c : tconf) (e : tenv) (sz : vec) (vmax : nat -> R) (s : tstate) (W : world) : option (tstate * world) :=
  fold_left (fun r w => match r with Some x => drive c e sz vmax w x | None => None end) order (Some (s, W)).
(** cpp:131-143; None: something that is not a sphere is taken for one, or a clump without members *)
Definition volume (b : solid) : option R :=
  match b with
  | ClumpOf m (Some d) _ => Some (m / d)
  | ClumpOf _ None _ => None
  | Ball r true false => Some (13333333 / 10000000 * PI * (r * r * r))
  | Other true false => None
  | _ => Some 0
  end.
Fixpoint volumes (l : list solid) : option R :=
  match l with [] => Some 0 | b :: l' => match volume b, volumes l' with Some x, Some y => Some (x + y) | _, _ => None end end.
(** Shop_02.cpp:819-858 as called by controlInternalStress (cpp:272-276): dynamic bodies only *)
Definition grown (k : R) (b : solid) : solid :=
  match b with
  | Ball r true m => Ball (r * k) true m
  | ClumpOf m d true => ClumpOf (m * (k * k * k)) d true
  | _ => b
  end.
(** cpp:215-216; None: NaN *)
Definition isotropic (c : tconf) : option R :=
  let b ax := if bit (stressMask c) ax then 1 else 0 in
  let n := b 0%nat + b 1%nat + b 2%nat in
  if Req_EM_T n 0 then None else Some ((b 0%nat * vx (goal c) + b 1%nat * vy (goal c) + b 2%nat * vz (goal c)) / n).
(** cpp:217-226; None: NaN or infinite *)
Definition multiplier (c : tconf) (maxm mean : R) : R * option R :=
  match isotropic c with
  | None => (maxm, if Req_EM_T mean 0 then Some maxm else None)
  | Some sg =>
    let maxm := if Rle_dec (Rabs sg) (Rabs mean) then finalMaxMultiplier c else maxm in
    (maxm, if Req_EM_T mean 0 then Some maxm
           else if Req_EM_T sg 0 then None
           else if Rlt_dec sg 0 then Some (1 + (sg - mean) / sg * (maxm - 1))
           else Some (1 + (mean - sg) / sg * (maxm - 1)))
  end.
Definition setNumbers (s : tstate) (pv por th : R) (sz : vec) (fst upd : bool) (wid : nat -> nat) : tstate :=
  mkS fst wid (previousTranslation s) (stiffness s) (strain s) (stress s) pv por th sz (size0 s) (maxMultiplier s) (previousMultiplier s) (previousStress s) (meanStress s) (volumetricStrain s) (externalWork s) upd.
Definition setStiffness (s : tstate) (k : nat -> R) : tstate :=
  mkS (first s) (wall_id s) (previousTranslation s) k (strain s) (stress s) (particlesVolume s) (porosity s) (thickness s) (size s) (size0 s) (maxMultiplier s) (previousMultiplier s) (previousStress s) (meanStress s) (volumetricStrain s) (externalWork s) (updatePorosity s).
Definition setGrowth (s : tstate) (pv mm ps : R) (pm : option R) : tstate :=
  mkS (first s) (wall_id s) (previousTranslation s) (stiffness s) (strain s) (stress s) pv (porosity s) (thickness s) (size s) (size0 s) mm pm ps (meanStress s) (volumetricStrain s) (externalWork s) (updatePorosity s).
Definition where_is (c : tconf) (W : world) (w : nat) : option R := match W (ids c w) with Some b => Some (comp (axis_of w) (wpos b)) | None => None end.
(** sizes of the box inside of walls, cpp:122-124 *)
Definition sizes (c : tconf) (W : world) (th : R) : option vec :=
  match where_is c W 0, where_is c W 1, where_is c W 2, where_is c W 3, where_is c W 4, where_is c W 5 with
  | Some l, Some r, Some b, Some t, Some k, Some f => Some (V (r - l - th) (t - b - th) (f - k - th))
  | _, _, _, _, _, _ => None
  end.
(** cpp:147-149 *)
Definition max_vels (c : tconf) (sz : vec) (ax : nat) : R := 3 * comp ax sz / (vy sz + vx sz + vz sz) * max_vel c.
Definition stop_walls (c : tconf) (W : world) : option world :=
  fold_left (fun r w => match r with Some W => match W (ids c w) with Some b => Some (put W (ids c w) (mkW (wpos b) vzero)) | None => None end | None => None end) [2%nat; 3%nat; 0%nat; 1%nat; 4%nat; 5%nat] (Some W).
(** cpp:103-232; iter mod interval with interval 0 is undefined *)
Definition action (c : tconf) (e : tenv) (s : tstate) (W : world) : tresult :=
  let wid := if first s then ids c else wall_id s in
  let th := if Rlt_dec (thickness s) 0 then 2 * bottomExtent e else thickness s in
  match sizes c W th with
  | None => UB
  | Some sz =>
    let vol := vx sz * vy sz * vz sz in
    match (if first s || updatePorosity s then volumes (solids e) else Some (particlesVolume s)) with
    | None => UB
    | Some pv =>
      let s := setNumbers s pv ((vol - pv) / vol) th sz false false wid in
      if (stiffnessUpdateInterval c =? 0)%Z || (radiusControlInterval c =? 0)%Z || (computeStressStrainInterval c =? 0)%Z then UB else
      let s := if (iter e mod stiffnessUpdateInterval c =? 0)%Z || (iter e <? 100)%Z then setStiffness s (updateStiffness (contacts e) s) else s in
      let radius := (iter e mod radiusControlInterval c =? 0)%Z in
      let s := if (iter e mod computeStressStrainInterval c =? 0)%Z || (internalCompaction c && radius) then computeStressStrain e s sz else s in
      if internalCompaction c then
        match stop_walls c W with
        | None => UB
        | Some W =>
          if radius then
            let '(mm, k) := multiplier c (maxMultiplier s) (meanStress s) in
            Done (setGrowth s (match k with Some k => particlesVolume s * (k * k * k) | None => particlesVolume s end) mm (meanStress s) k) W (Some k)
          else Done s W None
        end
      else match driveAll c e sz (max_vels c sz) s W with Some (s, W) => Done s W None | None => UB end
    end
  end.
(** hpp:77-135: what is left after saving and loading: attributes; the rest is as constructed
    ([wall_id] and [particlesVolume] are not initialized, but are assigned before use) *)
Definition reload (s : tstate) (junk : R) : tstate :=
  mkS true (fun _ => 0%nat) (fun _ => vzero) (fun _ => 0) vzero (fun _ => vzero) junk 1 (thickness s) (size s) (size0 s) (maxMultiplier s) (previousMultiplier s) (previousStress s)
    (meanStress s) (volumetricStrain s) (externalWork s) (updatePorosity s).
(** cpp:30: the assertion is off in usual builds *)
Definition getStress (s : tstate) (i : Z) : option vec := if (0 <=? i)%Z && (i <=? 5)%Z then Some (stress s (Z.to_nat i)) else None.
(** cpp:32-38; sizes are those of the last step *)
Definition getStrainRate (c : tconf) (s : tstate) (W : world) : option vec :=
  let v w := match W (ids c w) with Some b => Some (comp (axis_of w) (wvel b)) | None => None end in
  match v 0%nat, v 1%nat, v 2%nat, v 3%nat, v 4%nat, v 5%nat with
  | Some l, Some r, Some b, Some t, Some k, Some f => Some (V ((r - l) / vx (size s)) ((t - b) / vy (size s)) ((f - k) / vz (size s)))
  | _, _, _, _, _, _ => None
  end.
