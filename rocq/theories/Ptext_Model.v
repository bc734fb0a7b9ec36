(** Model of packings of spheres in text files: SpherePack::toFile and fromFile (pkg/dem/SpherePack.cpp),
    Shop::loadSpheresFromFile (pkg/dem/Shop_01.cpp).

    Simplifications
    - how numbers are written and read is any [format] (C++ streams write six significant digits); a format's parse of nothing is None;
    - the file system: a file has a text, or it cannot be opened; writing to the end always succeeds;
    - the bounding box that loadSpheresFromFile also computes is not used by fromFile. *)
From Coq Require Import Reals String Ascii ZArith Bool List.
From Verif Require Import Plot_Model Plot_Spec Vec_Model Cloud_Model Spack_Model.
Import ListNotations.
Local Open Scope string_scope.
Local Open Scope list_scope.

(** operator<< of Real and int, boost::lexical_cast to Real and int *)
Record format := mkFormat { print : R -> string; parse : string -> option R; printZ : Z -> string; parseZ : string -> option Z }.

Definition periodic_mark : string := "##PERIODIC::".
(** SpherePack.cpp:61 *)
Definition cell_row (f : format) (v : vec) : list string := [periodic_mark; print f (vx v); print f (vy v); print f (vz v)].
(** SpherePack.cpp:64 *)
Definition sphere_row (f : format) (a : sph) : list string := [print f (vx (c a)); print f (vy (c a)); print f (vz (c a)); print f (r a); printZ f (clumpId a)].
Definition rows (f : format) (s : spack) : list (list string) := (if vec_zero (cellSize s) then [] else [cell_row f (cellSize s)]) ++ map (sphere_row f) (pack s).
(** SpherePack.cpp:58-67; [None]: the file cannot be opened, exception *)
Definition toFile (f : format) (writable : bool) (s : spack) : option string :=
  if writable then Some (join "" (map (fun l => join " " l ++ newline)%string (rows f s))) else None.

(** how reading ends: the spheres and the size of the cell, or an exception and the size of the cell *)
Inductive loaded := Loaded (l : list sph) (cs : vec) | Failed (cs : vec).
Definition parse3 (f : format) (x y z : string) : option vec :=
  match parse f x, parse f y, parse f z with Some a, Some b, Some d => Some (V a b d) | _, _, _ => None end.
(** Shop_01.cpp:419-426: one line of a sphere with the number of the clump of the line before *)
Definition read_row (f : format) (toks : list string) (clump : Z) : option sph :=
  match toks with
  | [x; y; z; rad] => match parse3 f x y z, parse f rad with Some v, Some w => Some (mkSph v w clump) | _, _ => None end
  | [x; y; z; rad; k] => match parse3 f x y z, parse f rad, parseZ f k with Some v, Some w, Some n => Some (mkSph v w n) | _, _, _ => None end
  | _ => None
  end.
(** Shop_01.cpp:406-428 *)
Fixpoint load (f : format) (l : list string) (cs : vec) (clump : Z) (acc : list sph) : loaded :=
  match l with
  | [] => Loaded acc cs
  | line :: l' =>
    match words line with
    | [] => load f l' cs clump acc
    | t :: ts =>
      if String.eqb t periodic_mark then
        match ts with
        | [x; y; z] => match parse3 f x y z with Some v => load f l' v clump acc | None => Failed cs end
        | _ => Failed cs
        end
      else match read_row f (t :: ts) clump with
           | Some a => load f l' cs (clumpId a) (acc ++ [a])
           | None => Failed cs
           end
    end
  end.
(** SpherePack.cpp:51-58; [None]: the file does not exist or cannot be opened.  Lines that are empty do not matter *)
Definition fromFile (f : format) (text : option string) (s : spack) : outcome :=
  match text with
  | None => Raises s
  | Some t => match load f (lines t) (cellSize s) (-1) [] with
              | Loaded l cs => Done (mkPack l cs (appliedPsdScaling s) (isPeriodic s))
              | Failed cs => Raises (mkPack (pack s) cs (appliedPsdScaling s) (isPeriodic s))
              end
  end.
