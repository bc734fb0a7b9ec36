(** Vocabulary of the properties of bodies, clumps and interactions. *)
From stdpp Require Import gmap list.
From Coq Require Import ZArith.
From Verif Require Import World_Model.

(** body r is in the container *)
Definition in_container (w : world) (r : nat) : Prop := exists i, slots w !! i = Some (Some r).
(** O.bodies[i] is a body *)
Definition alive (w : world) (i : nat) : Prop := exists r b, at_id w i = Some (r, b).

(** C01: every slot is empty or holds a body whose .id is the slot number *)
Definition ids_ok (w : world) : Prop :=
  forall i r, slots w !! i = Some (Some r) -> exists b, bheap w !! r = Some b /\ bid b = Some i.

(** C02: clump membership as seen from O.bodies *)
Definition clumps_ok (w : world) : Prop :=
  forall i r b, at_id w i = Some (r, b) ->
    match clumpId b with
    | None => True                                             (* standalone *)
    | Some c =>
        if bool_decide (c = i)
        then (* a clump: its members exist and name it *)
          exists ms, members b = Some ms /\
          forall m, m ∈ ms -> m <> i /\ exists rm bm, at_id w m = Some (rm, bm) /\ clumpId bm = Some i
        else (* a member: its clump exists and lists it *)
          exists rc bc ms, at_id w c = Some (rc, bc) /\ clumpId bc = Some c /\ members bc = Some ms /\ i ∈ ms
    end.

(** what a user reads at O.bodies[i]: b.clumpId and, for a clump, b.shape.members.keys() *)
Definition view (w : world) (i : nat) : option (option nat * option (gset nat)) :=
  match at_id w i with Some (_, b) => Some (clumpId b, members b) | None => None end.

(** C02: what erase(id, eraseClumpMembers) does to the view: a standalone body goes;
    a member goes, also from its clump's list, and a clump left empty goes too; a
    clump goes, with its members or leaving them standalone; nothing else changes *)
Definition erase_view (v : nat -> option (option nat * option (gset nat))) (id : nat) (withMembers : bool) (k : nat) :
    option (option nat * option (gset nat)) :=
  match v id with
  | None => v k
  | Some (None, _) => if decide (k = id) then None else v k
  | Some (Some c, m) =>
      if decide (k = id) then None
      else if decide (c = id) then
        if bool_decide (k ∈ default ∅ m)
        then (if withMembers then None else match v k with Some (_, m') => Some (None, m') | None => None end)
        else v k
      else if decide (k = c) then
        match v c with
        | Some (_, Some mc) => if bool_decide (mc ∖ {[id]} = ∅) then None else Some (Some c, Some (mc ∖ {[id]}))
        | x => x end
      else v k
  end.

(** C02: what clump(ids) does: a new clump at the end with exactly these members, which leave their former clumps *)
Definition clump_view (v : nat -> option (option nat * option (gset nat))) (n : nat) (ids : list nat) (k : nat) :
    option (option nat * option (gset nat)) :=
  if decide (k = n) then Some (Some n, Some (list_to_set ids))
  else match v k with
       | None => None
       | Some (cl, m) =>
           if bool_decide (k ∈ ids) then Some (Some n, m)
           else if bool_decide (cl = Some k) then Some (cl, match m with Some ms => Some (ms ∖ list_to_set ids) | None => None end)
           else Some (cl, m)
       end.

(** the two ids of an interaction, in any order *)
Definition joins (x : intr) (i j : nat) : Prop := (id1 x = i /\ id2 x = j) \/ (id1 x = j /\ id2 x = i).

(** the interaction container lists an interaction q between i and j *)
Definition listed (w : world) (q i j : nat) : Prop :=
  q ∈ lin w /\ exists x, iheap w !! q = Some x /\ joins x i j.

(** everything about an interaction except its position in the array *)
Definition content (x : intr) : nat * nat * bool * bool := (id1 x, id2 x, geom x, phys x).

(** C05: array, back references and per-body maps agree *)
Definition containers_agree (w : world) : Prop :=
  (* the stored position is where it is; an interaction is listed once *)
  (forall k q, lin w !! k = Some q -> exists x, iheap w !! q = Some x /\ linIx x = Z.of_nat k) /\
  NoDup (lin w) /\
  (* lookup between two existing bodies finds exactly what iteration lists *)
  (forall i j q, alive w i -> alive w j -> i <> j -> (find w i j = Some q <-> listed w q i j)) /\
  (* and it is in both bodies' maps *)
  (forall i j q r b, at_id w i = Some (r, b) -> alive w j -> i <> j -> (intrs b !! j = Some q <-> listed w q i j)) /\
  (* at most one per pair *)
  (forall i j q q', listed w q i j -> listed w q' i j -> q = q') /\
  (* what is listed with a body that is gone is not real, and has neither geometry nor physics *)
  (forall q i j x, listed w q i j -> iheap w !! q = Some x -> ~ (alive w i) -> geom x = false /\ phys x = false).

(** C07, C08: an interaction a purge with criterion P must remove *)
Definition unwanted (P : nat -> nat -> bool) (x : intr) : bool := negb (geom x && phys x) && P (id1 x) (id2 x).

(** C07, C08: w' is w with exactly the interactions that satisfy [U] taken out of the
    container; all other interactions, all bodies and clumps are as before *)
Definition removed_exactly (U : intr -> bool) (w w' : world) : Prop :=
  (forall q, q ∈ lin w' <-> q ∈ lin w /\ forall x, iheap w !! q = Some x -> U x = false) /\
  (forall q, content <$> iheap w' !! q = content <$> iheap w !! q) /\
  slots w' = slots w /\
  (forall k, view w' k = view w k).

(** nothing in the containers remembers the id *)
Definition no_trace (w : world) (pos : nat) : Prop :=
  (forall i r b, at_id w i = Some (r, b) -> intrs b !! pos = None) /\
  (forall q x, q ∈ lin w -> iheap w !! q = Some x -> id1 x <> pos /\ id2 x <> pos).

(** conditions on the arguments of a call, for the different properties *)
Definition fresh_insert (w : world) (o : op) : Prop :=
  match o with OInsertAt r _ => ~ in_container w r | _ => True end.

Definition clump_safe (w : world) (o : op) : Prop :=
  match o with
  | OInsertAt r _ => ~ in_container w r /\ (forall b, bheap w !! r = Some b -> clumpId b = None)
  | OClump ids => forall i, i ∈ ids -> exists r b, at_id w i = Some (r, b) /\ isClump b = false
  | OAddToClump ids c => forall i, i ∈ ids -> exists r b, at_id w i = Some (r, b) /\ (clumpId b = None \/ clumpId b = Some c)
  | _ => True
  end.

Definition inter_safe (w : world) (o : op) : Prop :=
  match o with
  | OAppend r => forall b, bheap w !! r = Some b -> intrs b = ∅
  | OInsertAt r pos => ~ in_container w r /\ no_trace w pos /\ (forall b, bheap w !! r = Some b -> intrs b = ∅)
  (* two different bodies, neither of them a clump: Collider::mayCollide *)
  | OInsertI i j => i <> j /\ forall k r b, k = i \/ k = j -> at_id w k = Some (r, b) -> members b = None
  | OPurgePar _ chunks => concat chunks = seq 0 (length (lin w))
  | _ => True
  end.

(** a history all of whose calls meet a condition *)
Fixpoint along (C : world -> op -> Prop) (w : world) (l : list op) : Prop :=
  match l with
  | [] => True
  | o :: l' => C w o /\ match step w o with
                        | Ret _ w1 => along C w1 l'
                        | Exc w1 => along C w1 l'
                        | _ => True end
  end.

(** the states a user can reach by calls that meet a condition *)
Definition reachable (C : world -> op -> Prop) (w : world) : Prop :=
  exists l, along C init l /\ run init l = Some w.
Definition both (C D : world -> op -> Prop) (w : world) (o : op) : Prop := C w o /\ D w o.

(** C06: as [inter_safe], but a freed id may be reused at any time *)
Definition recycling (w : world) (o : op) : Prop :=
  match o with
  | OInsertAt r pos => ~ in_container w r /\ (forall b, bheap w !! r = Some b -> intrs b = ∅)
  | _ => inter_safe w o
  end.
(** C47: as [inter_safe], but an erased body may be appended again *)
Definition reappending (w : world) (o : op) : Prop :=
  match o with
  | OAppend r => True
  | _ => inter_safe w o
  end.
