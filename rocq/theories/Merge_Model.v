(** Model of the merging of a distributed scene with one collective operation: mergeScene of py/mpf.py:420-488
    (the same in py/mpf_bisection.py:427-496).  The packing of states is that of Subd_Model.

    Simplifications
    - all processes call mergeScene with O.splitted (a process that does not would block the others);
    - MPI's Gather and Gatherv do what the standard says: they write the data of each process, at its
      displacement, in the memory of process 0; writing outside of that memory is undefined: None;
    - the engines switched off and collider.doSort at the end are not modelled. *)
From Coq Require Import List Arith Bool.
From Verif Require Import Subd_Model.
Import ListNotations.

(** what is modelled of a body besides state and bound *)
Record rest (Y : Type) := mkRest { subdomain : nat; gridNode : bool; bounded : bool; others : Y }.
Arguments mkRest {Y}. Arguments subdomain {Y}. Arguments gridNode {Y}. Arguments bounded {Y}. Arguments others {Y}.

Section Merge.
Context {D X Y : Type} (zero one : D).
Notation world := (bodies D X (rest Y)).

(** [b.id for b in O.bodies if b.subdomain==k], mpf.py:424, 471; the iterator skips erased bodies *)
Definition ids_of (w : world) (k : nat) : list nat :=
  filter (fun i => match body_at w i with Some b => subdomain (bRest b) =? k | None => false end) (seq 0 (length w)).

(** mpf.py:422-429: what a process sends; the master an array of which 0 elements are sent *)
Definition send_buff (rank : nat) (w : world) : option (list D) :=
  if rank =? 0 then Some [] else getStateBoundsValuesFromIds zero w (ids_of w rank).
Fixpoint buffers (rank : nat) (ws : list world) : option (list (list D)) :=
  match ws with
  | [] => Some []
  | w :: l => match send_buff rank w, buffers (S rank) l with Some b, Some bs => Some (b :: bs) | _, _ => None end
  end.
(** mpf.py:446-449: dspl[i] = dspl[i-1] + sizes[i-1] *)
Fixpoint displacements (at_ : nat) (sizes : list nat) : list nat :=
  match sizes with [] => [] | s :: l => at_ :: displacements (at_ + s) l end.
(** writing [b] in the array [dat] *)
Definition write (dat : list D) (pos : nat) (b : list D) : option (list D) :=
  if pos + length b <=? length dat then Some (firstn pos dat ++ b ++ skipn (pos + length b) dat) else None.
(** comm.Gatherv, mpf.py:457 *)
Fixpoint gatherv (dat : list D) (bs : list (list D)) (dspl : list nat) : option (list D) :=
  match bs, dspl with
  | [], _ => Some dat
  | b :: bs', d :: dspl' => match write dat d b with Some dat' => gatherv dat' bs' dspl' | None => None end
  | _ :: _, [] => None
  end.
(** dat[a:b] *)
Definition slice (dat : list D) (a b : nat) : list D := firstn (b - a) (skipn a dat).
(** reboundRemoteBodies, mpf.py:184-190; O.bodies[id] raises if there is no such body *)
Definition rebound1 (w : world) (id : nat) : option world :=
  match body_at w id with
  | None => None
  | Some b => let r := bRest b in Some (if gridNode r then w else update w id (mkBody (bstate b) (bound b) (mkRest (subdomain r) (gridNode r) true (others r))))
  end.
Fixpoint reboundRemoteBodies (w : world) (ids : list nat) : option world :=
  match ids with [] => Some w | id :: l => match rebound1 w id with Some w' => reboundRemoteBodies w' l | None => None end end.
(** mpf.py:464-479, for one worker *)
Definition merge_one (n : nat) (dspl : list nat) (dat : list D) (worker : nat) (w : world) : option world :=
  let ids := ids_of w worker in
  let a := nth worker dspl 0 in
  let b := if worker =? n - 1 then length dat else nth (worker + 1) dspl 0 in
  match setStateBoundsValuesFromIds w ids (slice dat a b) with Some w' => reboundRemoteBodies w' ids | None => None end.
Fixpoint merge_loop (n : nat) (dspl : list nat) (dat : list D) (workers : list nat) (w : world) : option world :=
  match workers with
  | [] => Some w
  | k :: l => match merge_one n dspl dat k w with Some w' => merge_loop n dspl dat l w' | None => None end
  end.
(** mergeScene: [ws] are the scenes of processes 0, 1, ...; the result is the scene of process 0 *)
Definition mergeScene (ws : list world) : option world :=
  match ws, buffers 0 ws with
  | w0 :: _, Some bs =>
      let sizes := map (@length D) bs in
      let dspl := displacements 0 sizes in
      match gatherv (repeat one (list_sum sizes)) bs dspl with
      | Some dat => merge_loop (length ws) dspl dat (seq 1 (length ws - 1)) w0
      | None => None
      end
  | _, _ => None
  end.
End Merge.
