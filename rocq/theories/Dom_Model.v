(** Model of the decomposition of the domain into blocks or around points:
    py/domaindecomposition.py.

    Simplifications
    - coordinates are real numbers without rounding, the factors in sideDecomposition
      rational numbers without rounding;
    - the solution of the least squares problem (lines 163-172) is written in closed form:
      the matrix is square, the residual zero and the solution 0.01/(2x), 0.01/(2y), 0.01/(2z);
      the edges are not of length zero (LinAlgError);
    - the random points are inputs. *)
From Verif Require Import Vec_Model.
From Coq Require Import Reals List ZArith QArith Qround Arith.
Import ListNotations.

(** ** sideDecomposition *)
Section Side.
Local Open Scope Z_scope.
Record decomp := mkD { xD : Q; yD : Q; zD : Q }.
(** int() of a positive number *)
Definition int (q : Q) : Z := Qfloor q.
(** domaindecomposition.py:159-176, for edges x, y, z *)
Definition first_guess (x y z : Q) : decomp := mkD (inject_Z (int (200 * x))) (inject_Z (int (200 * y))) (inject_Z (int (200 * z))).
(** :182 *)
Definition estimated (s : decomp) : Z := int (yD s) * int (xD s) * int (zD s).
(** :209-216; the index i is compared where the number j is meant *)
Definition idxOfSmallestPositiveNumber (l : list Z) : Z :=
  snd (fold_left (fun st ij => if (fst ij <? fst st) && (0 <? fst ij) then (snd ij, fst ij) else st)
         (combine (map Z.of_nat (seq 0 (length l))) l) (1000, 1000)).
Inductive outcome := Next (s : decomp) | Stop.
(** :181-202, one iteration *)
Definition iteration (n : Z) (s : decomp) : outcome :=
  let e := estimated s in
  if n <? e then Next (mkD (xD s * (99 # 100)) (yD s * (99 # 100)) (zD s * (99 # 100)))%Q
  else if e <? n then
    let remaining := n - e in
    let offAxis := [int (yD s) * int (zD s); int (xD s) * int (zD s); int (yD s) * int (xD s)] in
    let diff := map (fun o => o - remaining) offAxis in
    if forallb (fun d => 0 <? d) diff then Stop
    else let idx := idxOfSmallestPositiveNumber diff in
      if idx =? 0 then Next (mkD (inject_Z (int (xD s) + 1)) (yD s) (zD s))
      else if idx =? 1 then Next (mkD (xD s) (inject_Z (int (yD s) + 1)) (zD s))
      else if idx =? 2 then Next (mkD (xD s) (yD s) (inject_Z (int (zD s) + 1)))
      else Next s
  else Stop.
(** the loop; None = not ended after [fuel] iterations *)
Fixpoint loop (n : Z) (fuel : nat) (s : decomp) : option decomp :=
  match fuel with
  | O => None
  | S k => match iteration n s with Stop => Some s | Next s' => loop n k s' end
  end.
End Side.

(** ** grid *)
Local Open Scope R_scope.
(** :148-150: numpy.linspace(a,b,d+1)[i] *)
Definition linspace (a b : R) (d i : nat) : R := a + INR i * ((b - a) / INR d).

(** :303-317 *)
Record subdomain := mkS { points : list vec; worker : nat }.
(** :233-244: the order of the points *)
Definition corners (x x' y y' z z' : R) : list vec :=
  [V x y z; V x' y z; V x y' z; V x' y' z; V x y z'; V x' y z'; V x y' z'; V x' y' z'].

Section Grid.
Variables x y z : nat -> R.
Definition makeOneSubdomain (i j k w : nat) : list subdomain :=
  [mkS (corners (x i) (x (S i)) (y j) (y (S j)) (z k) (z (S k))) (w + 1)].
(** :247-277 *)
Definition makeTwoSubdomains (i j k w : nat) : list subdomain :=
  let h := x i + (x (S i) - x i) / 2 in
  [mkS (corners (x i) h (y j) (y (S j)) (z k) (z (S k))) (w + 1);
   mkS (corners h (x (S i)) (y j) (y (S j)) (z k) (z (S k))) (w + 2)].
(** :218-230; state: unusedWorkers, workerDomain, subdomains *)
Definition visit (st : nat * nat * list subdomain) (c : nat * nat * nat) : nat * nat * list subdomain :=
  let '(unused, w, sds) := st in let '(i, j, k) := c in
  match unused with
  | S u => (u, (w + 2)%nat, sds ++ makeTwoSubdomains i j k w)
  | O => (O, (w + 1)%nat, sds ++ makeOneSubdomain i j k w)
  end.
Definition cells (nx ny nz : nat) : list (nat * nat * nat) :=
  flat_map (fun i => flat_map (fun j => map (fun k => (i, j, k)) (seq 0 nz)) (seq 0 ny)) (seq 0 nx).
Definition partitionSubdomains (nx ny nz unused : nat) : list subdomain :=
  snd (fold_left visit (cells nx ny nz) (unused, O, [])).
End Grid.

(** :135-152 with decomposition numbers: nx, ny, nz blocks, unused workers *)
Definition blocks (mn mx : vec) (nx ny nz unused : nat) : list subdomain :=
  partitionSubdomains (linspace (vx mn) (vx mx) nx) (linspace (vy mn) (vy mx) ny) (linspace (vz mn) (vz mx) nz) nx ny nz unused.
(** given by the user; those not given are 0, and not all are 0 *)
Definition manual (mn mx : vec) (nx ny nz : nat) : list subdomain := blocks mn mx nx ny nz 0.
(** chosen by sideDecomposition for n workers, which has ended with [s]; :203-212 *)
Definition automatic (mn mx : vec) (n : Z) (s : decomp) : list subdomain :=
  blocks mn mx (Z.to_nat (int (xD s))) (Z.to_nat (int (yD s))) (Z.to_nat (int (zD s))) (Z.to_nat (n - estimated s)).

(** :281-294; sum of the distances to the points of a subdomain, the first smallest one counts *)
Definition totalDist (pts : list vec) (p : vec) : R := fold_left (fun d q => d + norm (vsub p q)) pts 0.
Definition closer (p : vec) (st : R * nat) (sd : subdomain) : R * nat :=
  if Rlt_dec (totalDist (points sd) p) (fst st) then (totalDist (points sd) p, worker sd) else st.
Definition findSubdomain (sds : list subdomain) (p : vec) : nat := snd (fold_left (closer p) sds (10000000, O)).

(** ** GlobaldomainCloud *)
(** :113-125 *)
Definition makeDomainCornerPoints (mn mx : vec) : list vec :=
  let x := Rabs (vx mx - vx mn) in let y := Rabs (vy mx - vy mn) in let z := Rabs (vz mx - vz mn) in
  corners (vx mn) (vx mn + x) (vy mn) (vy mn + y) (vz mn) (vz mn + z).
(** :78-90 *)
Definition nearestNeighborDist (pts : list vec) (p : vec) : R :=
  fold_left (fun d q => if Rlt_dec (norm (vsub p q)) d then norm (vsub p q) else d) pts 1000000.
(** :74-96; [others] = subdomainPoints, then domainCornerPoints *)
Definition findMostRemotePointNN (others : list vec) (cands : list vec) : option vec :=
  snd (fold_left (fun st i => if Rlt_dec (fst st) (nearestNeighborDist others i) then (nearestNeighborDist others i, Some i) else st) cands (0, None)).
(** :46-55; [draws]: for each worker the points that are drawn, one or more. The list pointSample is
    emptied before each draw. A point None makes later calls fail (None.vec); here: the result is None. *)
Definition pointSample (draw : list vec) : list vec := match rev draw with [] => [] | p :: _ => [p] end.
Fixpoint generateRandomCloud (cornerPts : list vec) (sub : list vec) (draws : list (list vec)) : option (list vec) :=
  match draws with
  | [] => Some sub
  | draw :: draws' => match findMostRemotePointNN (sub ++ cornerPts) (pointSample draw) with
                      | Some p => generateRandomCloud cornerPts (sub ++ [p]) draws'
                      | None => None
                      end
  end.
(** :99-111: worker i+1 has the i-th point *)
Definition findSubdomainCloud (sub : list vec) (p : vec) : nat :=
  findSubdomain (map (fun qi => mkS [fst qi] (snd qi + 1)) (combine sub (seq 0 (length sub)))) p.
