(** Model of the body container, the clumps and the interaction container.

    Objects (Body, Interaction) live in heaps indexed by a reference, because
    python variables, the container slots, the per-body maps and the linear array
    all share them (shared_ptr).

    Simplifications
    - ids are natural numbers; the id -1 (Body::ID_NONE) is [None]; python calls
      with negative ids are out of range and not modelled;
    - of a Body only id, clumpId, the member map of its shape (when the shape is a
      Clump) and the map of interactions are kept; positions, bounds and the
      numerical part of Clump::updateProperties are left out (C37);
    - a std::map is a finite map [gmap]; the places where it is iterated have an
      effect that does not depend on the order;
    - geom and phys of an interaction are two booleans;
    - reading a slot out of range, or dereferencing a null pointer, is [UB];
      assertions are not compiled in (release build). *)
From stdpp Require Import gmap list.
From Coq Require Import ZArith.

Record body := mkBody {
  bid : option nat;            (* Body::id, None = -1 *)
  clumpId : option nat;        (* Body::clumpId *)
  members : option (gset nat); (* keys of Clump::members if the shape is a Clump *)
  intrs : gmap nat nat }.      (* Body::intrs: other id -> interaction *)

Record intr := mkIntr {
  id1 : nat; id2 : nat;
  geom : bool; phys : bool;
  linIx : Z }.

Record world := mkWorld {
  bheap : gmap nat body;
  nextb : nat;                 (* next free body reference *)
  slots : list (option nat);   (* BodyContainer::body *)
  iheap : gmap nat intr;
  nexti : nat;
  lin : list nat }.            (* InteractionContainer::linIntrs; currSize is its length *)

Definition init : world := mkWorld ∅ 0 [] ∅ 0 [].

(** Result of a call: value, C++ exception (the state may have changed), undefined
    behaviour, or exhausted recursion budget of [erase] (shown not to happen). *)
Inductive res (A : Type) :=
| Ret (a : A) (w : world)
| Exc (w : world)
| UB
| NoFuel.
Arguments Ret {A}. Arguments Exc {A}. Arguments UB {A}. Arguments NoFuel {A}.

Definition bind {A B} (r : res A) (f : A -> world -> res B) : res B :=
  match r with Ret a w => f a w | Exc w => Exc w | UB => UB | NoFuel => NoFuel end.

Definition set_bheap (w : world) (h : gmap nat body) : world :=
  mkWorld h (nextb w) (slots w) (iheap w) (nexti w) (lin w).
Definition set_body (w : world) (r : nat) (b : body) : world := set_bheap w (<[r := b]> (bheap w)).
Definition set_slots (w : world) (s : list (option nat)) : world :=
  mkWorld (bheap w) (nextb w) s (iheap w) (nexti w) (lin w).
Definition set_iheap (w : world) (h : gmap nat intr) : world :=
  mkWorld (bheap w) (nextb w) (slots w) h (nexti w) (lin w).
Definition set_lin (w : world) (l : list nat) : world :=
  mkWorld (bheap w) (nextb w) (slots w) (iheap w) (nexti w) l.

Definition with_clumpId (b : body) (c : option nat) : body := mkBody (bid b) c (members b) (intrs b).
Definition with_members (b : body) (m : gset nat) : body := mkBody (bid b) (clumpId b) (Some m) (intrs b).
Definition with_intrs (b : body) (m : gmap nat nat) : body := mkBody (bid b) (clumpId b) (members b) m.
Definition with_bid (b : body) (i : option nat) : body := mkBody i (clumpId b) (members b) (intrs b).

(** core/Body.hpp:42-46 *)
Definition isClump (b : body) : bool :=
  match clumpId b with Some c => bool_decide (bid b = Some c) | None => false end.
Definition isClumpMember (b : body) : bool :=
  match clumpId b with Some c => negb (bool_decide (bid b = Some c)) | None => false end.
Definition isStandalone (b : body) : bool :=
  match clumpId b with Some _ => false | None => true end.

(** the shared_ptr in a slot: None = out of range, Some None = null pointer *)
Definition slot (w : world) (i : nat) : option (option nat) := slots w !! i.
(** the reference and body at id i, if there is one *)
Definition at_id (w : world) (i : nat) : option (nat * body) :=
  match slot w i with
  | Some (Some r) => match bheap w !! r with Some b => Some (r, b) | None => None end
  | _ => None
  end.

(** python: Body() *)
Definition new_body (w : world) : res nat :=
  Ret (nextb w) (mkWorld (<[nextb w := mkBody None None None ∅]> (bheap w)) (S (nextb w))
                         (slots w) (iheap w) (nexti w) (lin w)).

(** core/BodyContainer.cpp:18-28 (iterBorn, timeBorn, doSort, addMaxId left out) *)
Definition bc_insert (w : world) (r : nat) : res nat :=
  match bheap w !! r with
  | None => UB
  | Some b =>
      let i := length (slots w) in
      Ret i (set_slots (set_body w r (with_bid b (Some i))) (slots w ++ [Some r]))
  end.

(** py/wrapper/yadeWrapper.cpp:87-91 *)
Definition append (w : world) (r : nat) : res nat :=
  match bheap w !! r with
  | None => UB
  | Some b => match bid b with Some _ => Exc w | None => bc_insert w r end
  end.

(** core/BodyContainer.cpp:30-39; returns None for -1 *)
Definition insertAtId (w : world) (r pos : nat) : res (option nat) :=
  match slot w pos with
  | None => UB                        (* body[candidate] is read before the range test *)
  | Some (Some _) => Ret None w
  | Some None =>
      match bheap w !! r with
      | None => UB
      | Some b => Ret (Some pos) (set_slots (set_body w r (with_bid b (Some pos))) (<[pos := Some r]> (slots w)))
      end
  end.

(** core/Interaction.cpp:25-32: reset() keeps ids, linIx *)
Definition reset_intr (x : intr) : intr := mkIntr (id1 x) (id2 x) false false (linIx x).
(** core/InteractionContainer.cpp:114-116 *)
Definition requestErase (h : gmap nat intr) (q : nat) : gmap nat intr :=
  match h !! q with Some x => <[q := reset_intr x]> h | None => h end.

(** core/Clump.cpp:20-45. [rc], [rs] are the references of clump and sub-body *)
Definition clump_add (w : world) (rc rs : nat) : res unit :=
  match bheap w !! rc, bheap w !! rs with
  | Some c, Some s =>
    match members c, bid s, bid c with
    | Some mc, Some sid, Some cid =>
      if bool_decide (sid ∈ mc) then Exc w
      else if isClumpMember s then Exc w
      else
        let r :=
          if isClump s then
            match members s with
            | None => UB
            | Some ms =>
              (* :27-35 for each member of the sub-clump *)
              foldr (fun m acc => bind acc (fun _ w =>
                match at_id w m with
                | Some (rm, bm) =>
                    let w1 := set_body w rm (with_clumpId bm (Some cid)) in
                    match bheap w1 !! rc with
                    | Some c1 => match members c1 with
                                 | Some mc1 => Ret tt (set_body w1 rc (with_members c1 ({[m]} ∪ mc1)))
                                 | None => UB end
                    | None => UB end
                | None => UB
                end)) (Ret tt w) (elements ms)
            end
          else (* :38-41 *)
            let w1 := set_body w rc (with_members c ({[sid]} ∪ mc)) in
            match bheap w1 !! rs with
            | Some s1 => Ret tt (set_body w1 rs (with_clumpId s1 (Some cid)))
            | None => UB end
        in
        bind r (fun _ w => match bheap w !! rc with
                           | Some c1 => Ret tt (set_body w rc (with_clumpId c1 (Some cid)))  (* :42 *)
                           | None => UB end)
    | _, _, _ => UB
    end
  | _, _ => UB
  end.

(** core/Clump.cpp:47-53 *)
Definition clump_del (w : world) (rc rs : nat) : res unit :=
  match bheap w !! rc, bheap w !! rs with
  | Some c, Some s =>
    match members c with
    | Some mc =>
      match bid s with
      | Some sid =>
        if bool_decide (sid ∈ mc) then
          let w1 := set_body w rc (with_members c (mc ∖ {[sid]})) in
          match bheap w1 !! rs with
          | Some s1 => Ret tt (set_body w1 rs (with_clumpId s1 None))
          | None => UB end
        else Exc w
      | None => Exc w
      end
    | None => UB
    end
  | _, _ => UB
  end.

(** core/Clump.cpp:91-93,139-140: updateProperties throws for an empty clump *)
Definition updateProperties (w : world) (rc : nat) : res unit :=
  match bheap w !! rc with
  | Some c => match members c with
              | Some mc => if bool_decide (mc = ∅) then Exc w else Ret tt w
              | None => UB end
  | None => UB
  end.

(** core/BodyContainer.cpp:68-74: the end of erase, for a body that is not a clump *)
Definition erase_tail (w : world) (id r : nat) : res bool :=
  match bheap w !! r with
  | None => UB
  | Some b =>
      let h := map_fold (fun _ q h => requestErase h q) (iheap w) (intrs b) in
      let w1 := set_body (set_iheap w h) r (with_bid b None) in
      Ret true (set_slots w1 (<[id := None]> (slots w1)))
  end.

(** core/BodyContainer.cpp:41-75 *)
Fixpoint bc_erase (fuel : nat) (w : world) (id : nat) (eraseClumpMembers : bool) : res bool :=
  match fuel with
  | O => NoFuel
  | S fuel' =>
    match slot w id with
    | None => UB
    | Some None => Ret false w
    | Some (Some r) =>
      match bheap w !! r with
      | None => UB
      | Some b =>
        (* :44-49 *)
        let after_member :=
          if isClumpMember b then
            match clumpId b with
            | None => UB
            | Some cid =>
              match at_id w cid with
              | None => UB
              | Some (rc, _) =>
                bind (clump_del w rc r) (fun _ w =>
                  match bheap w !! rc with
                  | None => UB
                  | Some c =>
                    match members c with
                    | None => UB
                    | Some mc => if bool_decide (mc = ∅)
                                 then match bid c with
                                      | Some ci => bind (bc_erase fuel' w ci false) (fun _ w => Ret tt w)
                                      | None => UB end
                                 else Ret tt w
                    end
                  end)
              end
            end
          else Ret tt w in
        bind after_member (fun _ w =>
          match bheap w !! r with
          | None => UB
          | Some b =>
            if isClump b then
              (* :51-67 *)
              match members b with
              | None => UB
              | Some ms =>
                bind (foldl (fun acc m => bind acc (fun _ w =>
                        if eraseClumpMembers then bind (bc_erase fuel' w m false) (fun _ w => Ret tt w)
                        else match at_id w m with
                             | Some (rm, bm) => Ret tt (set_body w rm (with_clumpId bm None))
                             | None => UB
                             end)) (Ret tt w) (elements ms))
                     (fun _ w => Ret true (set_slots w (<[id := None]> (slots w))))
              end
            else erase_tail w id r
          end)
      end
    end
  end.
Definition erase (w : world) (id : nat) (fl : bool) : res bool := bc_erase 4 w id fl.

(** py/wrapper/yadeWrapper.cpp:99-117 *)
Definition byId (w : world) (id : nat) : res nat :=
  match at_id w id with Some (r, _) => Ret r w | None => UB end.

Definition clump (w : world) (ids : list nat) : res nat :=
  let rc := nextb w in
  let w0 := mkWorld (<[rc := mkBody None None (Some ∅) ∅]> (bheap w)) (S (nextb w)) (slots w) (iheap w) (nexti w) (lin w) in
  bind (bc_insert w0 rc) (fun cid w =>
  bind (foldl (fun acc id => bind acc (fun _ w =>
          match at_id w id with
          | None => UB
          | Some (r, b) =>
              if isClumpMember b then
                match clumpId b with
                | Some c => match at_id w c with Some (rc', _) => clump_del w rc' r | None => UB end
                | None => UB end
              else Ret tt w
          end)) (Ret tt w) ids) (fun _ w =>
  bind (foldl (fun acc id => bind acc (fun _ w =>
          match at_id w id with
          | None => UB
          | Some (r, _) => clump_add w rc r
          end)) (Ret tt w) ids) (fun _ w =>
  bind (updateProperties w rc) (fun _ w => Ret cid w)))).

(** py/wrapper/yadeWrapper.cpp:180-203. The loop returns early (a plain return,
    without updating or erasing) on the two warnings. *)
Definition addToClump (w : world) (bids : list nat) (cid : nat) : res unit :=
  match at_id w cid with
  | None => UB
  | Some (rc, c) =>
    if negb (isClump c) then Exc w else
    let loop := foldl (fun acc b => bind acc (fun (st : option (list nat)) w =>
        match st with
        | None => Ret None w       (* already returned *)
        | Some er =>
          match at_id w b with
          | None => UB
          | Some (r, bp) =>
            if isClump bp then
              if bool_decide (r = rc) then Ret None w
              else bind (clump_add w rc r) (fun _ w => Ret (Some (er ++ [b])) w)
            else if isClumpMember bp then
              match clumpId bp with
              | None => UB
              | Some pc =>
                match at_id w pc with
                | None => UB
                | Some (rp, _) =>
                  if bool_decide (rp = rc) then Ret None w
                  else bind (clump_add w rc rp) (fun _ w => Ret (Some (er ++ [pc])) w)
                end
              end
            else bind (clump_add w rc r) (fun _ w => Ret (Some er) w)
          end
        end)) (Ret (Some []) w) bids in
    bind loop (fun st w =>
      match st with
      | None => Ret tt w
      | Some er =>
        bind (updateProperties w rc) (fun _ w =>
          foldl (fun acc b => bind acc (fun _ w => bind (erase w b false) (fun _ w => Ret tt w))) (Ret tt w) er)
      end)
  end.

(** py/wrapper/yadeWrapper.cpp:204-219 *)
Definition releaseFromClump (w : world) (b cid : nat) : res unit :=
  match at_id w b, at_id w cid with
  | Some (r, bp), Some (rc, c) =>
    if negb (isClump c) then Exc w
    else if isClumpMember bp then
      if bool_decide (clumpId bp = Some cid) then
        match members c with
        | None => UB
        | Some mc => if bool_decide (size mc = 2) then Ret tt w
                     else bind (clump_del w rc r) (fun _ w => updateProperties w rc)
        end
      else Ret tt w
    else Ret tt w
  | _, _ => UB
  end.

(** core/InteractionContainer.cpp:103-107 with 13-39: the new interaction object
    is allocated, then entered.  Body::intrs is changed in both bodies; the first
    entry stays when the second one is refused.  false = not inserted. *)
Definition ic_insert (w : world) (q : nat) (i j : nat) : res bool :=
  let a := Nat.min i j in let b := Nat.max i j in
  match at_id w a, at_id w b with
  | Some (ra, ba), Some (rb, _) =>
    match intrs ba !! b with
    | Some _ => Ret false w
    | None =>
      let w1 := set_body w ra (with_intrs ba (<[b := q]> (intrs ba))) in
      match bheap w1 !! rb with
      | None => UB
      | Some bb =>
        match intrs bb !! a with
        | Some _ => Ret false w1
        | None =>
          let w2 := set_body w1 rb (with_intrs bb (<[a := q]> (intrs bb))) in
          match iheap w2 !! q with
          | None => UB
          | Some x =>
            Ret true (set_lin (set_iheap w2 (<[q := mkIntr (id1 x) (id2 x) (geom x) (phys x) (Z.of_nat (length (lin w2)))]> (iheap w2)))
                              (lin w2 ++ [q]))
          end
        end
      end
    end
  | _, _ => UB
  end.
Definition insert_new (w : world) (i j : nat) : res bool :=
  let q := nexti w in
  ic_insert (mkWorld (bheap w) (nextb w) (slots w) (<[q := mkIntr i j false false (-1)]> (iheap w)) (S q) (lin w)) q i j.

(** core/InteractionContainer.cpp:82-87: remove position p of the linear array *)
Definition lin_remove (w : world) (p : nat) : res bool :=
  if bool_decide (p < length (lin w)) then
    match last (lin w) with
    | None => UB
    | Some z =>
      if bool_decide (p < length (lin w) - 1) then
        match iheap w !! z with
        | None => UB
        | Some x =>
          Ret true (set_lin (set_iheap w (<[z := mkIntr (id1 x) (id2 x) (geom x) (phys x) (Z.of_nat p)]> (iheap w)))
                            (take (length (lin w) - 1) (<[p := z]> (lin w))))
        end
      else Ret true (set_lin w (take (length (lin w) - 1) (lin w)))
    end
  else (* linIx >= currSize: the last element is dropped all the same; with an empty array the size underflows *)
    match lin w with [] => UB | _ => Ret true (set_lin w (take (length (lin w) - 1) (lin w))) end.

(** core/InteractionContainer.cpp:52-89; linPos is a position *)
Definition ic_erase (w : world) (i j : nat) (linPos : nat) : res bool :=
  let a := Nat.min i j in let b := Nat.max i j in
  if bool_decide (length (slots w) <= b) then Ret false w else
  match at_id w a with
  | None => lin_remove w linPos
  | Some (ra, ba) =>
    match intrs ba !! b with
    | None => lin_remove w linPos
    | Some q =>
      match iheap w !! q with
      | None => UB
      | Some x =>
        let w1 := set_body w ra (with_intrs ba (delete b (intrs ba))) in
        let w2 := match slot w1 b with
                  | Some (Some rb) =>
                      match bheap w1 !! rb with
                      | Some bb => set_body w1 rb (with_intrs bb (delete a (intrs bb)))
                      | None => w1 end
                  | _ => w1 end in
        if bool_decide (linIx x < 0)%Z then Ret false w2 else lin_remove w2 (Z.to_nat (linIx x))
      end
    end
  end.

(** core/InteractionContainer.cpp:91-101 *)
Definition find (w : world) (i j : nat) : option nat :=
  let a := Nat.min i j in let b := Nat.max i j in
  if bool_decide (length (slots w) <= b) then None
  else match at_id w a with None => None | Some (_, ba) => intrs ba !! b end.

(** core/InteractionContainer.hpp:75-86: found; None = null pointer dereferenced *)
Definition found (w : world) (i j : nat) : option bool :=
  if bool_decide (length (slots w) <= j) || bool_decide (i = j) then Some false
  else
    let a := Nat.min i j in let b := Nat.max i j in
    match at_id w a with None => None | Some (_, ba) => Some (bool_decide (is_Some (intrs ba !! b))) end.

(** core/InteractionContainer.cpp:109-112 *)
Definition requestErase2 (w : world) (i j : nat) : world :=
  match find w i j with Some q => set_iheap w (requestErase (iheap w) q) | None => w end.

(** core/InteractionContainer.cpp:41-50: only bodies in the container are cleared *)
Definition clear_intrs (w : world) : world :=
  let h := foldr (fun s h => match s with
                             | Some r => match h !! r with Some b => <[r := with_intrs b ∅]> h | None => h end
                             | None => h end) (bheap w) (slots w) in
  mkWorld h (nextb w) (slots w) (iheap w) (nexti w) [].

Definition isReal (x : intr) : bool := geom x && phys x.

(** core/InteractionContainer.hpp:115-122, one thread.  [P i j] is
    shouldBeErased.  An interaction for which [erase] returns false is looked at
    again: the fuel is an upper bound on the number of turns. *)
Fixpoint purge_seq (fuel : nat) (P : nat -> nat -> bool) (w : world) (p : nat) : res unit :=
  match fuel with
  | O => NoFuel
  | S f =>
    match lin w !! p with
    | None => Ret tt w
    | Some q =>
      match iheap w !! q with
      | None => UB
      | Some x =>
        if negb (isReal x) && P (id1 x) (id2 x)
        then bind (ic_erase w (id1 x) (id2 x) p) (fun _ w => purge_seq f P w p)
        else purge_seq f P w (S p)
      end
    end
  end.

(** core/InteractionContainer.hpp:124-140, several threads: the positions are
    split into one chunk per thread (schedule(static): contiguous, increasing);
    each thread lists what it wants erased; the erasures are then done one after
    the other, last chunk first and each chunk from its end. *)
Definition to_erase (P : nat -> nat -> bool) (w : world) (chunk : list nat) : list (nat * nat * nat) :=
  omap (fun p => match lin w !! p with
                 | Some q => match iheap w !! q with
                             | Some x => if negb (isReal x) && P (id1 x) (id2 x) then Some (id1 x, id2 x, p) else None
                             | None => None end
                 | None => None end) chunk.
Definition erase_all (w : world) (l : list (nat * nat * nat)) : res unit :=
  foldl (fun acc e => bind acc (fun _ w => bind (ic_erase w e.1.1 e.1.2 e.2) (fun _ w => Ret tt w))) (Ret tt w) l.
Definition purge_par (P : nat -> nat -> bool) (w : world) (chunks : list (list nat)) : res unit :=
  foldl (fun acc c => bind acc (fun _ w => erase_all w (reverse c))) (Ret tt w)
        (reverse (map (to_erase P w) chunks)).

(** core/InteractionContainer.cpp:122-124: BOOST_FOREACH keeps the end computed at
    the start; reading a position that was cut off is UB. [n] = remaining turns. *)
Fixpoint eraseNonReal_loop (n : nat) (w : world) (p : nat) : res unit :=
  match n with
  | O => Ret tt w
  | S n' =>
    match lin w !! p with
    | None => UB
    | Some q =>
      match iheap w !! q with
      | None => UB
      | Some x =>
        if isReal x then eraseNonReal_loop n' w (S p)
        else bind (ic_erase w (id1 x) (id2 x) (Z.to_nat (linIx x))) (fun _ w => eraseNonReal_loop n' w (S p))
      end
    end
  end.
Definition eraseNonReal (w : world) : res unit := eraseNonReal_loop (length (lin w)) w 0.

(** core/InteractionContainer.cpp:133-139: what is written to the file (in the
    order of the array; serializeSorted only reorders) *)
Definition saved (w : world) : list nat :=
  List.filter (fun q => match iheap w !! q with Some x => geom x || phys x | None => false end) (lin w).

(** core/InteractionContainer.cpp:144-156 on the list read back from the file; the
    bodies are those of the new scene.  The loop ends at the first interaction
    with a missing body. *)
Fixpoint reload_loop (w : world) (l : list nat) : res unit :=
  match l with
  | [] => Ret tt w
  | q :: l' =>
    match iheap w !! q with
    | None => UB
    | Some x =>
      match slot w (id1 x), slot w (id2 x) with
      | Some (Some _), Some (Some _) => bind (ic_insert w q (id1 x) (id2 x)) (fun _ w => reload_loop w l')
      | Some None, _ | _, Some None => Ret tt w
      | _, _ => UB
      end
    end
  end.
Definition reload (w : world) (l : list nat) : res unit := reload_loop (clear_intrs w) l.

(** InteractionLoop making the interaction between two existing bodies real, or a
    law storing geometry/physics: pkg/common/InteractionLoop.cpp:73-143 *)
Definition makeReal (w : world) (p : nat) (g ph : bool) : world :=
  match lin w !! p with
  | None => w
  | Some q =>
    match iheap w !! q with
    | None => w
    | Some x =>
      match at_id w (id1 x), at_id w (id2 x) with
      | Some _, Some _ => set_iheap w (<[q := mkIntr (id1 x) (id2 x) g ph (linIx x)]> (iheap w))
      | _, _ => set_iheap w (requestErase (iheap w) q)
      end
    end
  end.

(** InteractionLoop swaps the two ids when the functor is declared for the
    opposite order: pkg/common/InteractionLoop.cpp:108, core/Interaction.cpp:35-41.
    Throws, changing nothing, when the interaction has geom or phys. *)
Definition swapOrder (w : world) (p : nat) : res unit :=
  match lin w !! p with
  | None => Ret tt w
  | Some q =>
    match iheap w !! q with
    | None => UB
    | Some x => if geom x || phys x then Exc w
                else Ret tt (set_iheap w (<[q := mkIntr (id2 x) (id1 x) (geom x) (phys x) (linIx x)]> (iheap w)))
    end
  end.

(** the operations a user or an engine can perform *)
Inductive op :=
| ONew                                    (* Body() *)
| OAppend (r : nat)                       (* O.bodies.append(b) *)
| OInsertAt (r pos : nat)                 (* O.bodies.insertAtId(b,pos) *)
| OErase (id : nat) (fl : bool)           (* O.bodies.erase(id,eraseClumpMembers) *)
| OClump (ids : list nat)                 (* O.bodies.clump(ids) *)
| OAddToClump (ids : list nat) (cid : nat)
| ORelease (b cid : nat)                  (* O.bodies.releaseFromClump *)
| OInsertI (i j : nat)                    (* collider / utils.createInteraction *)
| OReqErase (i j : nat)                   (* O.interactions.erase(i,j) *)
| OMakeReal (p : nat) (g ph : bool)       (* InteractionLoop on array position p *)
| OSwap (p : nat)
| OPurge (P : nat -> nat -> bool)         (* collider purge, one thread *)
| OPurgePar (P : nat -> nat -> bool) (chunks : list (list nat))
| OClearI.                                (* O.interactions.clear() *)

Definition drop {A} (r : res A) : res unit := bind r (fun _ w => Ret tt w).

Definition step (w : world) (o : op) : res unit :=
  match o with
  | ONew => drop (new_body w)
  | OAppend r => drop (append w r)
  | OInsertAt r pos => drop (insertAtId w r pos)
  | OErase id fl => drop (erase w id fl)
  | OClump ids => drop (clump w ids)
  | OAddToClump ids cid => addToClump w ids cid
  | ORelease b cid => releaseFromClump w b cid
  | OInsertI i j => drop (insert_new w i j)
  | OReqErase i j => Ret tt (requestErase2 w i j)
  | OMakeReal p g ph => Ret tt (makeReal w p g ph)
  | OSwap p => swapOrder w p
  | OPurge P => purge_seq (2 * length (lin w) + 1) P w 0
  | OPurgePar P chunks => purge_par P w chunks
  | OClearI => Ret tt (clear_intrs w)
  end.

(** a history: an exception is reported to the user, who may go on; UB ends it *)
Fixpoint run (w : world) (l : list op) : option world :=
  match l with
  | [] => Some w
  | o :: l' => match step w o with
               | Ret _ w1 => run w1 l'
               | Exc w1 => run w1 l'
               | _ => None end
  end.
