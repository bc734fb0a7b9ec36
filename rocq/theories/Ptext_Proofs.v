(** Packings in text files: round trip. *)
From Coq Require Import Reals String Ascii ZArith Bool List Lra Lia.
From Verif Require Import Plot_Model Plot_Spec Plot_Proofs Plot_Proofs4 Vec_Model Vec_Proofs Cloud_Model Cloud_Proofs Spack_Model Ptext_Model Ptext_Spec.
Import ListNotations.
Local Open Scope string_scope.
Local Open Scope list_scope.

Lemma words_cons_blank w s : word w -> words (w ++ String " " s) = w :: words s.
Proof. intros Hw. unfold words. rewrite split_app by (exact (word_space w Hw) || reflexivity). cbn [filter]. destruct Hw as [Hne _]. destruct (String.eqb_spec w ""); [congruence|reflexivity]. Qed.
Lemma words_join l : Forall word l -> words (join " " l) = l.
Proof.
  induction l as [|w l IH]; intros F; [reflexivity|]. inversion F as [|? ? Hw Hl]; subst. destruct l as [|w2 l]; [exact (words_one w Hw)|].
  change (join " " (w :: w2 :: l)) with (w ++ String " " (join " " (w2 :: l)))%string. rewrite words_cons_blank by exact Hw. now rewrite (IH Hl).
Qed.
Lemma join_blank_ne l : l <> [] -> Forall word l -> join " " l <> "".
Proof.
  intros Hne F. destruct l as [|w l]; [congruence|]. inversion F as [|? ? [Hw _] Hl]; subst. destruct l as [|w2 l]; [exact Hw|].
  change (join " " (w :: w2 :: l)) with (w ++ " " ++ join " " (w2 :: l))%string. destruct w; [congruence|discriminate].
Qed.
Lemma lines_join rs : Forall (fun l => l <> [] /\ Forall word l) rs -> lines (join "" (map (fun l => join " " l ++ newline)%string rs)) = map (join " ") rs.
Proof.
  induction rs as [|l rs IH]; intros F; [reflexivity|]. inversion F as [|? ? [Hne Hw] Hrs]; subst.
  assert (E : join "" (map (fun l => join " " l ++ newline)%string (l :: rs)) = (join " " l ++ String (ascii_of_nat 10) (join "" (map (fun l => join " " l ++ newline)%string rs)))%string).
  { destruct rs as [|l2 rs]; [reflexivity|]. cbn [map]. change (join "" ((join " " l ++ newline)%string :: (join " " l2 ++ newline)%string :: map (fun l => join " " l ++ newline)%string rs)) with ((join " " l ++ newline) ++ "" ++ join "" ((join " " l2 ++ newline)%string :: map (fun l => join " " l ++ newline)%string rs))%string. rewrite append_assoc. reflexivity. }
  rewrite E. unfold lines. rewrite split_app; [|apply join_newline; [reflexivity|exact Hw]|reflexivity]. cbn [filter map]. destruct (String.eqb_spec (join " " l) "") as [Z|_]; [destruct (join_blank_ne l Hne Hw Z)|]. cbn [negb]. f_equal. exact (IH Hrs).
Qed.
Section Format.
Variable f : format.
Variable g : R -> R.
Hypothesis F : faithful f g.
Lemma word_mark : word periodic_mark. Proof. split; [discriminate|reflexivity]. Qed.
Lemma cell_words v : Forall word (cell_row f v).
Proof. destruct F as [A _]. unfold cell_row. repeat (constructor; [first [exact word_mark | apply A]|]). constructor. Qed.
Lemma sphere_words a : Forall word (sphere_row f a).
Proof. destruct F as (A & _ & _ & B). unfold sphere_row. repeat (constructor; [first [apply A | apply B]|]). constructor. Qed.
Lemma rows_words s : Forall (fun l => l <> [] /\ Forall word l) (rows f s).
Proof.
  unfold rows. apply Forall_app. split; [destruct (vec_zero (cellSize s)); [constructor|constructor; [split; [discriminate|apply cell_words]|constructor]]|]. apply Forall_map. apply Forall_forall. intros a _. split; [discriminate|apply sphere_words].
Qed.
Lemma parse3_print v : parse3 f (print f (vx v)) (print f (vy v)) (print f (vz v)) = Some (rounded_vec g v).
Proof. destruct F as [A _]. unfold parse3. rewrite !(proj2 (proj2 (A _))). reflexivity. Qed.
Lemma load_sphere a l cs k acc : load f (join " " (sphere_row f a) :: l) cs k acc = load f l cs (clumpId a) (acc ++ [rounded_sph g a]).
Proof.
  cbn [load]. rewrite words_join by apply sphere_words. unfold sphere_row at 1. destruct F as (A & _ & _ & B). destruct (String.eqb_spec (print f (vx (c a))) periodic_mark) as [E|_]; [destruct (proj1 (proj2 (A (vx (c a)))) E)|].
  unfold read_row. rewrite parse3_print, (proj2 (proj2 (A _))), (proj2 (B _)). reflexivity.
Qed.
Lemma load_spheres p : forall cs k acc, load f (map (join " ") (map (sphere_row f) p)) cs k acc = Loaded (acc ++ map (rounded_sph g) p) cs.
Proof.
  induction p as [|a p IH]; intros cs k acc; cbn [map]; [cbn [load]; rewrite app_nil_r; reflexivity|]. rewrite load_sphere, IH, <- app_assoc. reflexivity.
Qed.
Lemma load_rows s cs : load f (map (join " ") (rows f s)) cs (-1) [] = Loaded (map (rounded_sph g) (pack s)) (if vec_zero (cellSize s) then cs else rounded_vec g (cellSize s)).
Proof.
  unfold rows. destruct (vec_zero (cellSize s)); cbn [app map].
  - apply load_spheres.
  - cbn [load]. rewrite words_join by apply cell_words. unfold cell_row at 1. rewrite String.eqb_refl. rewrite parse3_print. apply load_spheres.
Qed.
Lemma round_trip s s0 : exists t, toFile f true s = Some t /\
  fromFile f (Some t) s0 = Done (mkPack (map (rounded_sph g) (pack s)) (if vec_zero (cellSize s) then cellSize s0 else rounded_vec g (cellSize s)) (appliedPsdScaling s0) (isPeriodic s0)).
Proof. eexists. split; [reflexivity|]. unfold fromFile. rewrite lines_join by apply rows_words. rewrite load_rows. reflexivity. Qed.
Lemma again_same p ap pe cs ap' pe' : vec_zero (rounded_vec g cs) = vec_zero cs -> toFile f true (mkPack (map (rounded_sph g) p) (rounded_vec g cs) ap pe) = toFile f true (mkPack p cs ap' pe').
Proof.
  intros Z. destruct F as (A & I & _ & B). unfold toFile. do 3 f_equal. unfold rows. cbn [cellSize pack]. rewrite Z. f_equal.
  - destruct (vec_zero cs); [reflexivity|]. unfold cell_row, rounded_vec. cbn [vx vy vz]. rewrite !I. reflexivity.
  - rewrite map_map. apply map_ext. intros a. unfold sphere_row, rounded_sph, rounded_vec. cbn [c r clumpId vx vy vz]. rewrite !I. reflexivity.
Qed.
End Format.

(** ** what fails *)
Lemma missing_file f s : fromFile f None s = Raises s. Proof. reflexivity. Qed.
Lemma failing_pack f t s s' : fromFile f t s = Raises s' -> pack s' = pack s.
Proof. unfold fromFile. destruct t as [t|]; [|intros [= <-]; reflexivity]. destruct (load f (lines t) (cellSize s) (-1) []); [discriminate|]. intros [= <-]. reflexivity. Qed.
Lemma never_undefined f t s : fromFile f t s <> Undef.
Proof. unfold fromFile. destruct t as [t|]; [|discriminate]. destruct (load f (lines t) (cellSize s) (-1) []); discriminate. Qed.
(** loading depends on the former packing by the size of the cell alone, and not on this if the file is periodic *)
Lemma load_cell f l : forall cs cs' k acc, match load f l cs k acc, load f l cs' k acc with Loaded a x, Loaded b y => a = b /\ (x = y \/ (x = cs /\ y = cs')) | Failed x, Failed y => x = y \/ (x = cs /\ y = cs') | _, _ => False end.
Proof.
  induction l as [|line l IH]; intros cs cs' k acc; cbn [load]; [auto|]. destruct (words line) as [|t ts]; [apply IH|]. destruct (String.eqb t periodic_mark).
  - destruct ts as [|x [|y [|z [|u w]]]]; try (right; split; reflexivity). destruct (parse3 f x y z) as [v|]; [|right; split; reflexivity]. specialize (IH v v k acc). destruct (load f l v k acc); auto.
  - destruct (read_row f (t :: ts) k); [apply IH|right; split; reflexivity].
Qed.
Lemma former_pack f t s1 s2 : match fromFile f t s1, fromFile f t s2 with Done a, Done b => pack a = pack b | Raises a, Raises b => pack a = pack s1 /\ pack b = pack s2 | _, _ => False end.
Proof.
  unfold fromFile. destruct t as [t|]; [|auto]. pose proof (load_cell f (lines t) (cellSize s1) (cellSize s2) (-1) []) as H. destruct (load f (lines t) (cellSize s1) (-1) []), (load f (lines t) (cellSize s2) (-1) []); try contradiction; cbn [pack]; [apply H|auto].
Qed.

(** ** words of bounded length cannot tell all numbers apart *)
Fixpoint letters (n : nat) : list ascii := match n with O => [] | S m => ascii_of_nat m :: letters m end.
Lemma letters_all a : In a (letters 256).
Proof.
  assert (L : forall n m, (m < n)%nat -> In (ascii_of_nat m) (letters n)). { induction n as [|n IH]; intros m H; [lia|]. cbn [letters]. destruct (Nat.eq_dec m n) as [->|N]; [left; reflexivity|right; apply IH; lia]. }
  rewrite <- (ascii_nat_embedding a). apply L. apply nat_ascii_bounded.
Qed.
Fixpoint texts (n : nat) : list string := match n with O => [""] | S m => "" :: flat_map (fun a => map (String a) (texts m)) (letters 256) end.
Lemma texts_all n : forall s, (String.length s <= n)%nat -> In s (texts n).
Proof.
  induction n as [|n IH]; intros s H; destruct s as [|a s]; try (left; reflexivity); [cbn [String.length] in H; lia|]. cbn [texts]. right. apply in_flat_map. exists a. split; [apply letters_all|]. apply in_map. apply IH. cbn [String.length] in H. lia.
Qed.
Lemma dup_or {A} (dec : forall x y : A, {x = y} + {x <> y}) (h : nat -> A) : forall n m, NoDup (map h (seq m n)) \/ exists i j, i <> j /\ h i = h j.
Proof.
  induction n as [|n IH]; intros m; cbn [seq map]; [left; constructor|]. destruct (IH (S m)) as [N|E]; [|right; exact E]. destruct (in_dec dec (h m) (map h (seq (S m) n))) as [I|I]; [right|left; constructor; assumption].
  apply in_map_iff in I as (j & E & Ij). apply in_seq in Ij. exists j, m. split; [lia|exact E].
Qed.
Lemma short_not_exact (p : R -> string) n : (forall x, (String.length (p x) <= n)%nat) -> exists x y, x <> y /\ p x = p y.
Proof.
  intros B. destruct (dup_or string_dec (fun i => p (INR i)) (S (List.length (texts n))) 0) as [N|(i & j & D & E)].
  - exfalso. assert (I : incl (map (fun i => p (INR i)) (seq 0 (S (List.length (texts n))))) (texts n)). { intros s Is. apply in_map_iff in Is as (i & <- & _). apply texts_all. apply B. }
    pose proof (NoDup_incl_length N I) as L. rewrite map_length, seq_length in L. lia.
  - exists (INR i), (INR j). split; [intros C; apply INR_eq in C; contradiction|exact E].
Qed.
Lemma not_restored f n : (forall x, (String.length (print f x) <= n)%nat) -> exists s1 s2 t, pack s1 <> pack s2 /\ toFile f true s1 = Some t /\ toFile f true s2 = Some t.
Proof.
  intros B. destruct (short_not_exact (print f) n B) as (x & y & D & E). exists (mkPack [mkSph vzero x (-1)] vzero 1 false), (mkPack [mkSph vzero y (-1)] vzero 1 false). eexists. split; [intros H; injection H as H; contradiction|]. split; [reflexivity|].
  unfold toFile, rows. cbn [cellSize pack map]. unfold sphere_row. cbn [c r clumpId]. rewrite E. reflexivity.
Qed.

(** ** files that are read in a strange way, for a format in which "1" is one and "7" is seven *)
Definition nl : string := newline.
Lemma carried f s : reads_one f -> exists s', fromFile f (Some ("1 1 1 1 7" ++ nl ++ "1 1 1 1" ++ nl)%string) s = Done s' /\ map clumpId (pack s') = [7; 7]%Z.
Proof.
  intros [P1 P7]. unfold fromFile. change (lines ("1 1 1 1 7" ++ nl ++ "1 1 1 1" ++ nl)%string) with ["1 1 1 1 7"; "1 1 1 1"]. cbn [load]. change (words "1 1 1 1 7") with ["1"; "1"; "1"; "1"; "7"]. change (words "1 1 1 1") with ["1"; "1"; "1"; "1"]. change (String.eqb "1" periodic_mark) with false. unfold read_row, parse3. rewrite P1, P7. eexists. split; [reflexivity|]. reflexivity.
Qed.
Lemma failed_cell f s : reads_one f -> exists s', fromFile f (Some ("##PERIODIC:: 1 1 1" ++ nl ++ "1 1" ++ nl)%string) s = Raises s' /\ cellSize s' = V 1 1 1 /\ pack s' = pack s.
Proof.
  intros [P1 P7]. unfold fromFile. change (lines ("##PERIODIC:: 1 1 1" ++ nl ++ "1 1" ++ nl)%string) with ["##PERIODIC:: 1 1 1"; "1 1"]. cbn [load]. change (words "##PERIODIC:: 1 1 1") with ["##PERIODIC::"; "1"; "1"; "1"]. change (words "1 1") with ["1"; "1"]. change (String.eqb "##PERIODIC::" periodic_mark) with true. change (String.eqb "1" periodic_mark) with false. unfold read_row, parse3. rewrite P1. eexists. split; [reflexivity|]. split; reflexivity.
Qed.
(** a format that exists: numbers 0 and 1 *)
Definition toy : format := mkFormat (fun x => if Req_EM_T x 0 then "0" else "1")
  (fun s => if String.eqb s "0" then Some 0%R else if String.eqb s "1" then Some 1%R else None)
  (fun z => DecimalString.NilEmpty.string_of_int (Z.to_int z))
  (fun s => option_map Z.of_int (DecimalString.NilEmpty.int_of_string s)).
Definition toy_round (x : R) : R := if Req_EM_T x 0 then 0%R else 1%R.
Lemma toy_one : reads_one toy. Proof. split; reflexivity. Qed.
Lemma digits_space d : all_chars (fun c => negb (is_space c) && negb (is_newline c)) (DecimalString.NilEmpty.string_of_uint d) = true.
Proof. induction d; cbn [DecimalString.NilEmpty.string_of_uint all_chars]; [reflexivity|..]; rewrite IHd; reflexivity. Qed.
Lemma toy_int z : word (printZ toy z) /\ parseZ toy (printZ toy z) = Some z.
Proof.
  assert (E : parseZ toy (printZ toy z) = Some z). { cbn [toy parseZ printZ]. rewrite DecimalString.NilEmpty.isi. cbn [option_map]. now rewrite DecimalZ.of_to. }
  split; [|exact E]. split.
  - intros N. rewrite N in E. cbn in E. injection E as <-. discriminate N.
  - cbn [toy printZ]. unfold DecimalString.NilEmpty.string_of_int. destruct (Z.to_int z); [apply digits_space|]. cbn [all_chars]. rewrite digits_space. reflexivity.
Qed.
Lemma toy_faithful : faithful toy toy_round.
Proof.
  split; [|split; [|split; [|exact toy_int]]]; intros x; unfold toy_round; cbn [toy print parse].
  - destruct (Req_EM_T x 0); (split; [split; [discriminate|reflexivity]|split; [discriminate|reflexivity]]).
  - destruct (Req_EM_T x 0) as [E|E]; [destruct (Req_EM_T 0 0); [reflexivity|congruence]|destruct (Req_EM_T 1 0); [lra|reflexivity]].
  - destruct (Req_EM_T x 0) as [E|E]; split; intros; try assumption; try reflexivity; try lra; contradiction.
Qed.
(** ** the whole round trip *)
Lemma vec_zero_spec v : vec_zero v = true <-> v = vzero.
Proof.
  destruct v as [x y z]. unfold vec_zero, vzero, is_zero. cbn [vx vy vz]. destruct (Req_EM_T x 0), (Req_EM_T y 0), (Req_EM_T z 0); cbn [andb]; split; intros H; try discriminate; try (injection H as ? ? ?; contradiction); subst; reflexivity.
Qed.
Lemma rounded_zero f g v : faithful f g -> vec_zero (rounded_vec g v) = vec_zero v.
Proof.
  intros (_ & _ & Z & _). destruct v as [x y z]. unfold rounded_vec. cbn [vx vy vz]. destruct (vec_zero (V x y z)) eqn:E.
  - apply vec_zero_spec in E. injection E as -> -> ->. rewrite !(proj2 (Z 0%R) eq_refl). apply vec_zero_spec. reflexivity.
  - destruct (vec_zero (V (g x) (g y) (g z))) eqn:D; [|reflexivity]. apply vec_zero_spec in D. injection D as X Y W. apply (proj1 (Z _)) in X, Y, W. subst. rewrite <- E. symmetry. apply vec_zero_spec. reflexivity.
Qed.
Lemma saved_loaded f g s s0 : faithful f g -> cellSize s <> vzero \/ cellSize s0 = vzero -> exists t s', toFile f true s = Some t /\ fromFile f (Some t) s0 = Done s' /\
  pack s' = map (rounded_sph g) (pack s) /\ cellSize s' = rounded_vec g (cellSize s) /\ toFile f true s' = Some t.
Proof.
  intros F C. destruct (round_trip f g F s s0) as (t & S1 & L). eexists t, _. split; [exact S1|]. split; [exact L|]. cbn [pack cellSize]. split; [reflexivity|].
  assert (E : (if vec_zero (cellSize s) then cellSize s0 else rounded_vec g (cellSize s)) = rounded_vec g (cellSize s)).
  { destruct (vec_zero (cellSize s)) eqn:Z; [|reflexivity]. apply vec_zero_spec in Z. destruct C as [C|C]; [contradiction|]. rewrite Z, C. destruct F as (_ & _ & Y & _). unfold rounded_vec, vzero. cbn [vx vy vz]. now rewrite (proj2 (Y 0%R) eq_refl). }
  split; [exact E|]. rewrite E. rewrite (again_same f g F (pack s) _ _ (cellSize s) (appliedPsdScaling s) (isPeriodic s)) by exact (rounded_zero f g _ F). destruct s. exact S1.
Qed.
Lemma stale_cell f g s s0 : faithful f g -> cellSize s = vzero -> exists t s', toFile f true s = Some t /\ fromFile f (Some t) s0 = Done s' /\ cellSize s' = cellSize s0.
Proof. intros F Z. destruct (round_trip f g F s s0) as (t & A & B). eexists t, _. split; [exact A|]. split; [exact B|]. cbn [cellSize]. rewrite (proj2 (vec_zero_spec (cellSize s)) Z). reflexivity. Qed.
Lemma stale_flag f g s s0 : faithful f g -> exists t s', toFile f true s = Some t /\ fromFile f (Some t) s0 = Done s' /\ isPeriodic s' = isPeriodic s0.
Proof. intros F. destruct (round_trip f g F s s0) as (t & A & B). eexists t, _. split; [exact A|]. split; [exact B|]. reflexivity. Qed.
(** ** which files can be read *)
Lemma parse3_some f x y z : (exists v, parse3 f x y z = Some v) <-> is_number f x /\ is_number f y /\ is_number f z.
Proof.
  unfold parse3, is_number. destruct (parse f x), (parse f y), (parse f z); split; intros H; try (destruct H as [v H]; discriminate); try (destruct H as (A & B & D); congruence); [split; [discriminate|split; discriminate]|eexists; reflexivity].
Qed.
Lemma read_row_some f t ts k : t <> periodic_mark -> (exists a, read_row f (t :: ts) k = Some a) <-> sphere_line f (t :: ts).
Proof.
  intros N. split.
  - intros [a H]. destruct ts as [|y [|z [|w [|n [|u ts]]]]]; try discriminate; cbn [read_row] in H.
    + destruct (parse3 f t y z) as [v|] eqn:E; [|discriminate]. destruct (parse f w) as [b|] eqn:W; [|discriminate]. destruct (proj1 (parse3_some f t y z) (ex_intro _ v E)) as (A & B & D). exists t, y, z, w, "". split; [left; reflexivity|]. split; [exact N|]. split; [exact A|]. split; [exact B|]. split; [exact D|]. unfold is_number. now rewrite W.
    + destruct (parse3 f t y z) as [v|] eqn:E; [|discriminate]. destruct (parse f w) as [b|] eqn:W; [|discriminate]. destruct (parseZ f n) as [m|] eqn:M; [|discriminate]. destruct (proj1 (parse3_some f t y z) (ex_intro _ v E)) as (A & B & D). exists t, y, z, w, n. split; [right; split; [reflexivity|now rewrite M]|]. split; [exact N|]. split; [exact A|]. split; [exact B|]. split; [exact D|]. unfold is_number. now rewrite W.
  - intros (x & y & z & w & n & E & _ & A & B & D & W). destruct (proj2 (parse3_some f x y z) (conj A (conj B D))) as [v P]. unfold is_number in W. destruct (parse f w) as [b|] eqn:PW; [|congruence]. destruct E as [E|[E M]]; injection E as -> ->; cbn [read_row]; rewrite P, PW; [eexists; reflexivity|]. destruct (parseZ f n); [eexists; reflexivity|congruence].
Qed.
Lemma load_readable f l : forall cs k acc, (exists a x, load f l cs k acc = Loaded a x) <-> Forall (readable f) l.
Proof.
  induction l as [|line l IH]; intros cs k acc; cbn [load]; [split; [constructor|intros _; do 2 eexists; reflexivity]|].
  assert (S1 : Forall (readable f) (line :: l) <-> readable f line /\ Forall (readable f) l) by (split; [intros H; inversion H; auto|intros []; constructor; assumption]). rewrite S1. clear S1. unfold readable at 1.
  destruct (words line) as [|t ts]; [rewrite IH; tauto|]. destruct (String.eqb_spec t periodic_mark) as [->|N].
  - assert (R1 : (periodic_mark :: ts = [] \/ cell_line f (periodic_mark :: ts) \/ sphere_line f (periodic_mark :: ts)) <-> exists x y z v, ts = [x; y; z] /\ parse3 f x y z = Some v).
    { split.
      - intros [H|[(x & y & z & E & H)|(x & y & z & w & n & E & H & _)]]; [discriminate| |destruct E as [E|[E _]]; injection E as E _; congruence]. injection E as ->. destruct (proj2 (parse3_some f x y z) H) as [v P]. eauto 6.
      - intros (x & y & z & v & -> & P). right. left. exists x, y, z. split; [reflexivity|]. apply parse3_some. eauto. }
    rewrite R1. clear R1. destruct ts as [|x [|y [|z [|u w]]]]; try (split; [intros (a & b & H); discriminate|intros ((x1 & y1 & z1 & v & E & _) & _); discriminate]).
    destruct (parse3 f x y z) as [v|] eqn:P.
    + rewrite IH. split; [intros H; split; [exists x, y, z, v; split; [reflexivity|exact P]|exact H]|intros [_ H]; exact H].
    + split; [intros (a & b & H); discriminate|]. intros ((x1 & y1 & z1 & v & E & Q) & _). injection E as -> -> ->. congruence.
  - assert (R1 : (t :: ts = [] \/ cell_line f (t :: ts) \/ sphere_line f (t :: ts)) <-> sphere_line f (t :: ts)).
    { split; [|auto]. intros [H|[(x & y & z & E & H)|H]]; [discriminate| |exact H]. injection E as E _. congruence. }
    rewrite R1, <- (read_row_some f t ts k N). destruct (read_row f (t :: ts) k) as [a|].
    + rewrite IH. split; [intros H; split; [eexists; reflexivity|exact H]|intros [_ H]; exact H].
    + split; [intros (a & b & H); discriminate|]. intros ([a H] & _). discriminate.
Qed.
Lemma reads_iff f t s : (exists s', fromFile f (Some t) s = Done s') <-> Forall (readable f) (lines t).
Proof.
  rewrite <- (load_readable f (lines t) (cellSize s) (-1) []). unfold fromFile. destruct (load f (lines t) (cellSize s) (-1) []) as [a x|x]; split.
  - intros _. do 2 eexists. reflexivity.
  - intros _. eexists. reflexivity.
  - intros [s' H]. discriminate.
  - intros (a & y & H). discriminate.
Qed.
