(** Vectors, matrices and quaternions: the operations of the Eigen library used by the
    code (types Vector3r, Matrix3r, Quaternionr of lib/base/Math.hpp).

    Simplification: Real is the type of real numbers, without rounding. *)
From Coq Require Import Reals.
Local Open Scope R_scope.

Record vec := V { vx : R; vy : R; vz : R }.
Definition vzero : vec := V 0 0 0.
Definition vadd (a b : vec) : vec := V (vx a + vx b) (vy a + vy b) (vz a + vz b).
Definition vsub (a b : vec) : vec := V (vx a - vx b) (vy a - vy b) (vz a - vz b).
Definition vopp (a : vec) : vec := V (- vx a) (- vy a) (- vz a).
Definition smul (k : R) (a : vec) : vec := V (k * vx a) (k * vy a) (k * vz a).
Definition dot (a b : vec) : R := vx a * vx b + vy a * vy b + vz a * vz b.
Definition cross (a b : vec) : vec := V (vy a * vz b - vz a * vy b) (vz a * vx b - vx a * vz b) (vx a * vy b - vy a * vx b).
Definition norm2 (a : vec) : R := dot a a.
Definition norm (a : vec) : R := sqrt (norm2 a).
Definition vquot (a b : vec) : vec := V (vx a / vx b) (vy a / vy b) (vz a / vz b).
Definition vprod (a b : vec) : vec := V (vx a * vx b) (vy a * vy b) (vz a * vz b).

(** rows *)
Record mat := M { r0 : vec; r1 : vec; r2 : vec }.
Definition mzero : mat := M vzero vzero vzero.
Definition diag (a : vec) : mat := M (V (vx a) 0 0) (V 0 (vy a) 0) (V 0 0 (vz a)).
Definition mid : mat := diag (V 1 1 1).
Definition madd (A B : mat) : mat := M (vadd (r0 A) (r0 B)) (vadd (r1 A) (r1 B)) (vadd (r2 A) (r2 B)).
Definition msub (A B : mat) : mat := M (vsub (r0 A) (r0 B)) (vsub (r1 A) (r1 B)) (vsub (r2 A) (r2 B)).
Definition mscale (k : R) (A : mat) : mat := M (smul k (r0 A)) (smul k (r1 A)) (smul k (r2 A)).
Definition col0 (A : mat) : vec := V (vx (r0 A)) (vx (r1 A)) (vx (r2 A)).
Definition col1 (A : mat) : vec := V (vy (r0 A)) (vy (r1 A)) (vy (r2 A)).
Definition col2 (A : mat) : vec := V (vz (r0 A)) (vz (r1 A)) (vz (r2 A)).
Definition transpose (A : mat) : mat := M (col0 A) (col1 A) (col2 A).
Definition columns (a b c : vec) : mat := transpose (M a b c).
Definition mulv (A : mat) (v : vec) : vec := V (dot (r0 A) v) (dot (r1 A) v) (dot (r2 A) v).
Definition rowmul (a : vec) (B : mat) : vec := V (dot a (col0 B)) (dot a (col1 B)) (dot a (col2 B)).
Definition mmul (A B : mat) : mat := M (rowmul (r0 A) B) (rowmul (r1 A) B) (rowmul (r2 A) B).
Definition outer (a b : vec) : mat := M (smul (vx a) b) (smul (vy a) b) (smul (vz a) b).
Definition det (A : mat) : R := dot (r0 A) (cross (r1 A) (r2 A)).
(** inverse by cofactors, as Eigen computes it for 3x3 *)
Definition minv (A : mat) : mat :=
  mscale (/ det A) (columns (cross (r1 A) (r2 A)) (cross (r2 A) (r0 A)) (cross (r0 A) (r1 A))).

Record quat := Q { qw : R; qv : vec }.
Definition qid : quat := Q 1 vzero.
Definition qconj (q : quat) : quat := Q (qw q) (vopp (qv q)).
Definition qmul (q p : quat) : quat :=
  Q (qw q * qw p - dot (qv q) (qv p)) (vadd (vadd (smul (qw q) (qv p)) (smul (qw p) (qv q))) (cross (qv q) (qv p))).
Definition qnorm2 (q : quat) : R := qw q * qw q + norm2 (qv q).
Definition qscale (k : R) (q : quat) : quat := Q (k * qw q) (smul k (qv q)).
Definition qadd (q p : quat) : quat := Q (qw q + qw p) (vadd (qv q) (qv p)).
(** coeffs /= norm *)
Definition qnormalize (q : quat) : quat := qscale (/ sqrt (qnorm2 q)) q.
(** _transformVector: uv=2*(vec×v); v+w*uv+vec×uv *)
Definition qrot (q : quat) (v : vec) : vec :=
  let uv := smul 2 (cross (qv q) v) in vadd (vadd v (smul (qw q) uv)) (cross (qv q) uv).
(** toRotationMatrix *)
Definition qmat (q : quat) : mat :=
  let x := vx (qv q) in let y := vy (qv q) in let z := vz (qv q) in let w := qw q in
  M (V (1 - (2*y*y + 2*z*z)) (2*x*y - 2*w*z) (2*x*z + 2*w*y))
    (V (2*x*y + 2*w*z) (1 - (2*x*x + 2*z*z)) (2*y*z - 2*w*x))
    (V (2*x*z - 2*w*y) (2*y*z + 2*w*x) (1 - (2*x*x + 2*y*y))).
(** AngleAxisr(angle,axis) *)
Definition angle_axis (a : R) (ax : vec) : quat := Q (cos (a / 2)) (smul (sin (a / 2)) ax).
