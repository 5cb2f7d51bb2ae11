(** FTypeModel.v -- SystemTools::FileHasSignature and DetectFileType
    (vital/kwiversys/SystemTools.cxx 4263-4293, 4295-4358).  Doubles are the exact
    binary64 numbers of GeoModel.v.  Simplifications: new does not fail, a file
    does not change while it is read, and reads are not cut short by errors. *)
From Coq Require Import ZArith.
From Flocq Require Import Core.Core IEEE754.BinarySingleNaN.
From Verif Require Import Base GeoModel.
Open Scope nat_scope.

(** What a name stands for: nothing that can be opened, a directory (which
    fopen opens for reading, but of which fread reads nothing), or bytes. *)
Inductive file := NoFile | Dir | Data (b : str).
Definition bytes (f : file) : str := match f with Data b => b | _ => [] end.
(** The bytes before the first NUL. *)
Definition cut (s : str) : str := take_while (fun c => negb (Ascii.eqb c "000")) s.
(** [strncmp(a, b, n) == 0], for arrays with at least n bytes. *)
Fixpoint strncmp_eq (n : nat) (a b : str) : bool :=
  match n, a, b with
  | 0, _, _ => true
  | S n, x :: a, y :: b => if Ascii.eqb x y then (if Ascii.eqb x "000" then true else strncmp_eq n a b) else false
  | _, _, _ => false
  end.
(** 4263-4293: FileHasSignature; fseek to a negative place fails and leaves the
    file at its start. *)
Definition file_has_signature (fs : str -> file) (filename signature : option str) (offset : Z) : bool :=
  match filename, signature with
  | Some p, Some sg =>
      match fs p with
      | NoFile => false
      | f =>
          let pos := if (offset <? 0)%Z then 0 else Z.to_nat offset in
          let sg := cut sg in
          let buffer := firstn (length sg) (skipn pos (bytes f)) in
          if Nat.eqb (length buffer) (length sg) then strncmp_eq (length sg) buffer sg else false
      end
  | _, _ => false
  end.

Inductive ftype := Unknown | Binary | Text.
(** 4335-4340: the test of one byte. *)
Definition textual (c : ascii) : bool :=
  let v := N_of_ascii c in
  ((N.leb 32 v && N.leb v 127) || N.eqb v 10 || N.eqb v 13 || N.eqb v 9)%bool.
(** 4333-4345: the counting loop. *)
Fixpoint text_count (s : str) : nat :=
  match s with [] => 0 | c :: s => if textual c then S (text_count s) else text_count s end.
(** 4295-4358: DetectFileType. *)
Definition detect_file_type (fs : str -> file) (filename : option str) (len : nat) (percent : dbl) : ftype :=
  match filename with
  | None => Unknown
  | Some p =>
      if dlt percent (dint 0) then Unknown
      else match fs p with
           | Dir | NoFile => Unknown
           | Data b =>
               let buffer := firstn len b in
               let read := length buffer in
               if Nat.eqb read 0 then Unknown
               else
                 let current := ddiv (dint (Z.of_nat (read - text_count buffer))) (dint (Z.of_nat read)) in
                 if dle percent current then Binary else Text
           end
  end.
(** SystemTools.hxx.in 699-702: the default arguments; 0.05 is the double
    7205759403792794 * 2^-57. *)
Definition default_percent : dbl := binary_normalize 53 1024 dbl_prec_gt_0 dbl_prec_lt_emax BinarySingleNaN.mode_NE 7205759403792794 (-57) false.
Definition detect_default (fs : str -> file) (filename : option str) : ftype := detect_file_type fs filename 256 default_percent.
