(** Model of the engines that control the size of the periodic cell: PeriIsoCompressor and PeriTriaxController
    (pkg/dem/PeriIsoCompressor.{hpp,cpp}); uses Cell_Model.v.

    Simplifications
    - real numbers without rounding; [None] stands for NaN in attributes that are NaN unless they are given;
    - the scene is periodic, dt and the sizes of the cell are not zero; assertions and messages are left out;
    - what is measured in the packing (Shop::totalForceInVolume, Shop::unbalancedForce) is given;
    - python hooks are shown by the flag [hook] of the outcome; the energy tracker is left out. *)
From Coq Require Import Reals List ZArith Bool.
From Verif Require Import Vec_Model.
From Verif Require Cell_Model.
Import ListNotations.
Local Open Scope R_scope.

Notation cell := Cell_Model.cell.
Definition comp (v : vec) (k : nat) : R := match k with O => vx v | 1%nat => vy v | _ => vz v end.
Definition tab (f : nat -> R) : vec := V (f 0%nat) (f 1%nat) (f 2%nat).
Definition mdiag (m : mat) : vec := V (vx (r0 m)) (vy (r1 m)) (vz (r2 m)).
Definition set_mdiag (m : mat) (v : vec) : mat := M (V (vx v) (vy (r0 m)) (vz (r0 m))) (V (vx (r1 m)) (vy v) (vz (r1 m))) (V (vx (r2 m)) (vy (r2 m)) (vz v)).
Definition with_rates (c : cell) (v : vec) : cell := Cell_Model.with_vg c (set_mdiag (Cell_Model.velGrad c) v) (Cell_Model.nextVelGrad c) (Cell_Model.velGradChanged c).
(** lib/base/Math.hpp:160 *)
Definition sign (x : R) : R := if Rlt_dec x 0 then -1 else if Rlt_dec 0 x then 1 else 0.
Definition clip (d x : R) : R := if Rlt_dec d (Rabs x) then sign x * d else x.
Definition kdiv (K : R) : R := if Rlt_dec 0 K then K else 1.
(** cpp:34, cpp:142 *)
Definition areas (s : vec) : vec := V (vy s * vz s) (vx s * vz s) (vx s * vy s).
(** bodies: none if erased, with or without bound (min, max) *)
Definition bodies := list (option (option (vec * vec))).
Definition extent (b : vec * vec) : vec := vsub (snd b) (fst b).

(** ** PeriIsoCompressor *)
Record isoconf := mkIC { stresses : list R; maxUnb : R; updateInt : Z; keepProportions : bool }.
Record iso := mkI { charLen : R; maxSpan : R; maxDispl : R; avgStiffness : R; sigma : vec; unb : R; state : nat }.
(** what is measured *)
Record sensed := mkM { sumForces : vec; stiffness : R; unbalanced : R }.
Inductive iso_out := IDone (s : iso) (c : cell) (hook : bool) | IThrows (s : iso) | Terminates | IUB.

(** cpp:25-30 *)
Definition span_of (b : bodies) (m : R) : R :=
  fold_left (fun m x => match x with Some (Some b) => Rmax (Rmax (Rmax m (vx (extent b))) (vy (extent b))) (vz (extent b)) | _ => m end) b m.
(** cpp:18-24 *)
Inductive len_out := Len (x : R) | LTerminates | LUB.
Definition char_len (b : bodies) (x : R) : len_out :=
  if Rle_dec x 0 then
    match b with
    | Some (Some b0) :: _ => let z := extent b0 in Len ((vx z + vy z + vz z) / 3)
    | Some None :: _ => LTerminates
    | _ => LUB
    end
  else Len x.
(** cpp:56, 70: is a stress out of tolerance; division by zero gives infinity or NaN *)
Definition off (goal sig : R) : bool :=
  if Req_EM_T goal 0 then (if Req_EM_T sig 0 then false else true) else if Rlt_dec (5/1000) (Rabs ((sig - goal) / goal)) then true else false.
(** cpp:65-69 *)
Definition axis_grow (goal sig area size K d span : R) : R :=
  Rmax (clip d (1/10000 * (goal - sig) * area / kdiv K)) (- (size - 21/10 * span)).
Definition predicted (K grow sig : R) : R := if Rlt_dec 0 K then sig + grow * K else sig.
(** cpp:47-51 *)
Definition vavg (v : vec) : R := (vx v + vy v + vz v) / 3.
Definition vmin (v : vec) : R := Rmin (vx v) (Rmin (vy v) (vz v)).
Definition vmax (v : vec) : R := Rmax (vx v) (Rmax (vy v) (vz v)).
Definition avg_grow (goal sigAvg avgArea maxToAvg K d : R) : R :=
  let g := 1/10000 * (goal - sigAvg) * avgArea / kdiv K in
  if Rlt_dec d (Rabs (maxToAvg * g)) then sign g * d / maxToAvg else g.
(** cpp:78-91; ok: all stresses are as wanted *)
Definition transition (cf : isoconf) (iter : Z) (m : sensed) (s : iso) (c : cell) (ok : bool) : iso_out :=
  if ok then
    let u := if (Z.rem iter (updateInt cf) =? 0)%Z then unbalanced m else unb s in
    if Rlt_dec u (maxUnb cf) then
      IDone (mkI (charLen s) (maxSpan s) (maxDispl s) (avgStiffness s) (sigma s) u (S (state s))) c (Nat.eqb (S (state s)) (length (stresses cf)))
    else IDone (mkI (charLen s) (maxSpan s) (maxDispl s) (avgStiffness s) (sigma s) u (state s)) c false
  else IDone s c false.
(** cpp:14-91 *)
Definition iso_action (cf : isoconf) (b : bodies) (iter : Z) (dt : R) (m : sensed) (s : iso) (c : cell) : iso_out :=
  if (length (stresses cf) <=? state s)%nat then IDone s c false else
  match char_len b (charLen s) with
  | LTerminates => Terminates
  | LUB => IUB
  | Len cl =>
    let span := if Rle_dec (maxSpan s) 0 then span_of b (maxSpan s) else maxSpan s in
    let d := if Rlt_dec (maxDispl s) 0 then 1/100 * cl else maxDispl s in
    let size := Cell_Model.size c in let area := areas size in
    let s1 := mkI cl span d (avgStiffness s) (sigma s) (unb s) (state s) in
    if Rlt_dec (vmin size) (21/10 * span) then IThrows s1 else
    if (updateInt cf =? 0)%Z then IUB else
    let measure := (Z.rem iter (updateInt cf) =? 0)%Z || (if Rlt_dec (avgStiffness s) 0 then true else false) ||
      (if Rlt_dec (vx (sigma s)) 0 then true else false) || (if Rlt_dec (vy (sigma s)) 0 then true else false) || (if Rlt_dec (vz (sigma s)) 0 then true else false) in
    let K := if measure then stiffness m else avgStiffness s in
    let sig := if measure then vopp (vquot (sumForces m) area) else sigma s in
    let goal := nth (state s) (stresses cf) 0 in
    if keepProportions cf then
      let maxToAvg := vmax size / vavg size in
      let g := avg_grow goal (vavg sig) (vavg area) maxToAvg K d in
      if Rlt_dec g (- (vmin size - 21/10 * span) / maxToAvg) then IThrows (mkI cl span d K sig (unb s) (state s)) else
      let sig' := if Rlt_dec 0 K then vadd sig (smul (g * K) (V 1 1 1)) else sig in
      let grow := smul (g / vavg size) size in
      transition cf iter m (mkI cl span d K sig' (unb s) (state s)) (with_rates c (tab (fun k => comp grow k / (dt * comp size k)))) (negb (off goal (predicted K g (vavg sig))))
    else
      let grow := tab (fun k => axis_grow goal (comp sig k) (comp area k) (comp size k) K d span) in
      let sig' := tab (fun k => predicted K (comp grow k) (comp sig k)) in
      transition cf iter m (mkI cl span d K sig' (unb s) (state s)) (with_rates c (tab (fun k => comp grow k / (dt * comp size k))))
        (negb (off goal (vx sig')) && negb (off goal (vy sig')) && negb (off goal (vz sig')))
  end.
(** one step: core/Scene.cpp:89, then the engine *)
Inductive iso_step_out := IStep (s : iso) (c : cell) (hook : bool) | IStops.
Definition iso_step (cf : isoconf) (b : bodies) (iter : Z) (dt : R) (m : sensed) (s : iso) (c : cell) : iso_step_out :=
  match Cell_Model.integrateAndUpdate dt c with
  | Cell_Model.Updated c' => match iso_action cf b iter dt m s c' with IDone s' c'' h => IStep s' c'' h | _ => IStops end
  | Cell_Model.Degenerate _ => IStops
  end.

(** ** PeriTriaxController *)
Record triconf := mkTC { dynCell : bool; goal : vec; stressMask : Z; maxStrainRate : vec; tMaxUnb : R; absStressTol : R; relStressTol : R; growDamping : R; globUpdate : Z }.
Record tri := mkT { maxBodySpan : vec; stressTensor : mat; stress : vec; strain : vec; strainRate : vec; stiff : vec; tUnb : option R; prevGrow : vec; tmass : option R; externalWork : R }.
(** a real contact; cellDist as real numbers *)
Record contact := mkK { normalForce : vec; shearForce : vec; normal : vec; kn : R; ks : R; pos1 : vec; pos2 : vec; cellDist : vec }.
Inductive tri_out := TDone (t : tri) (c : cell) (hook : bool) | TThrows (t : tri) | TNaN | TUB.

(** cpp:111-113 *)
Definition branch (c : cell) (k : contact) : vec := vsub (vadd (pos2 k) (mulv (Cell_Model.hSize c) (cellDist k))) (pos1 k).
Definition contact_stress (c : cell) (k : contact) : mat := outer (smul (-1) (vadd (normalForce k) (shearForce k))) (branch c k).
(** cpp:116 *)
Definition contact_stiff (k : contact) : vec := tab (fun i => Rabs (comp (normal k) i) * kn k + (1 - Rabs (comp (normal k) i)) * ks k).
(** cpp:93-134: NaN if the logarithm is not defined *)
Definition love (c : cell) (l : list contact) : mat := mscale (/ det (Cell_Model.hSize c)) (fold_left (fun m k => madd m (contact_stress c k)) l mzero).
Definition avg_stiff (dyn : bool) (l : list contact) : vec :=
  if dyn then vzero else match l with [] => vzero | _ => smul (1 / INR (length l)) (fold_left (fun v k => vadd v (contact_stiff k)) l vzero) end.
Definition log_strain (c : cell) : option vec :=
  let t := mdiag (Cell_Model.trsf c) in
  if Rlt_dec 0 (vx t) then if Rlt_dec 0 (vy t) then if Rlt_dec 0 (vz t) then Some (V (ln (vx t)) (ln (vy t)) (ln (vz t))) else None else None else None.
Definition update (cf : triconf) (c : cell) (l : list contact) (t : tri) : option tri :=
  match log_strain c with
  | Some e => let S := love c l in Some (mkT (maxBodySpan t) S (mdiag S) e (strainRate t) (avg_stiff (dynCell cf) l) (tUnb t) (prevGrow t) (tmass t) (externalWork t))
  | None => None
  end.
(** cpp:144-148 *)
Definition spans_of (size : vec) (b : bodies) (m : vec) : vec :=
  fold_left (fun m x => match x with Some (Some b) => tab (fun k => if Rlt_dec (comp (extent b) k) (comp size k) then Rmax (comp m k) (comp (extent b) k) else comp m k) | _ => m end) b m.
Definition controls_stress (cf : triconf) (k : nat) : bool := Z.testbit (stressMask cf) (Z.of_nat k).
(** cpp:163-183 *)
Definition raw_rate (cf : triconf) (t : tri) (size : vec) (dt mass g : R) (k : nat) : R :=
  let d := comp (goal cf) k - comp (stress t) k in
  if controls_stress cf k then
    if dynCell cf then g + (1 - growDamping cf * sign (g * d)) * dt * d / mass
    else 1 / dt * d * comp (areas size) k / kdiv (comp (stiff t) k)
  else (exp (comp (goal cf) k - comp (strain t) k) - 1) / dt.
(** cpp:184-188 *)
Definition rate (cf : triconf) (t : tri) (size : vec) (dt mass g : R) (k : nat) : R :=
  let raw := raw_rate cf t size dt mass g k in
  let damped := if dynCell cf then raw else (1 - growDamping cf) * raw + 8/10 * comp (prevGrow t) k in
  Rmax (clip (comp (maxStrainRate cf) k) damped) (- (comp size k - 21/10 * comp (maxBodySpan t) k) / dt).
(** cpp:193-203 *)
Definition beyond (goal rel abs curr : R) : bool :=
  (if Req_EM_T goal 0 then false else if Rlt_dec rel (Rabs ((curr - goal) / goal)) then true else false) || (if Rlt_dec abs (Rabs (curr - goal)) then true else false).
Definition axis_ok (cf : triconf) (t : tri) (strain' : vec) (k : nat) : bool :=
  if controls_stress cf k then negb (beyond (comp (goal cf) k) (relStressTol cf) (absStressTol cf) (comp (stress t) k))
  else negb (beyond (comp (goal cf) k) (1/1000000) (1/1000000) (comp strain' k)).
Definition trace (m : mat) : R := vx (r0 m) + vy (r1 m) + vz (r2 m).
(** cpp:137-232 *)
Definition tri_action (cf : triconf) (b : bodies) (l : list contact) (masses : list R) (iter : Z) (dt : R) (prevVelGrad : mat) (unbal : R) (t : tri) (c : cell) : tri_out :=
  let size := Cell_Model.size c in
  let span := if Rle_dec (vx (maxBodySpan t)) 0 then spans_of size b (maxBodySpan t) else maxBodySpan t in
  let t := mkT span (stressTensor t) (stress t) (strain t) (strainRate t) (stiff t) (tUnb t) (prevGrow t) (tmass t) (externalWork t) in
  if (if Rlt_dec (vx size) (21/10 * vx span) then true else if Rlt_dec (vy size) (21/10 * vy span) then true else if Rlt_dec (vz size) (21/10 * vz span) then true else false) then TThrows t else
  if (globUpdate cf =? 0)%Z then TUB else
  let doUpdate := (Z.rem iter (globUpdate cf) =? 0)%Z in
  match (if doUpdate || (if Rle_dec (vmin (stiff t)) 0 then true else false) || dynCell cf then update cf c l t else Some t) with
  | None => TNaN
  | Some t =>
    let mass := if dynCell cf then match tmass t with None => Some (fold_left Rplus masses 0) | m => m end else tmass t in
    let mval := match mass with Some x => x | None => 1 end in
    if dynCell cf && (if Req_EM_T mval 0 then true else false) then TNaN else
    let g := mdiag (Cell_Model.velGrad c) in
    let rates := tab (fun k => rate cf t size dt mval (comp g k) k) in
    let strain' := vadd (strain t) (smul dt rates) in
    let ok := axis_ok cf t strain' 0 && axis_ok cf t strain' 1 && axis_ok cf t strain' 2 in
    let stress' := if dynCell cf then stress t else tab (fun k => if Rlt_dec 0 (comp (stiff t) k) then comp (stress t) k + comp rates k * dt / comp size k * (comp (stiff t) k / comp (areas size) k) else comp (stress t) k) in
    let c' := with_rates c rates in
    let dW := trace (mmul (mscale (1/2) (madd prevVelGrad (Cell_Model.velGrad c'))) (stressTensor t)) * dt * det (Cell_Model.hSize c) in
    let u := if ok then if doUpdate || match tUnb t with Some x => if Rlt_dec x 0 then true else false | None => false end then Some unbal else tUnb t else tUnb t in
    let hook := ok && match u with Some x => if Rlt_dec x (tMaxUnb cf) then true else false | None => false end in
    TDone (mkT span (stressTensor t) stress' strain' rates (stiff t) u rates mass (externalWork t + dW)) c' hook
  end.
