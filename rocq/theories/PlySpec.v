(** PlySpec.v -- vocabulary of the statements about PLY files. *)
From Coq Require Import List ZArith.
Import ListNotations.
From Verif Require Import Base Numbers Stream ParserModel TrackIoModel TrackIoSpec PlyModel.
Local Open Scope Z_scope.

(** A landmark that can be written, and what its text keeps of it. *)
Definition good_landmark {D} (good : D -> Prop) (l : landmark D) : Prop :=
  good (l_x l) /\ good (l_y l) /\ good (l_z l) /\ good (l_nx l) /\ good (l_ny l) /\ good (l_nz l) /\ good_color (l_color l) /\ 0 <= l_obs l < 2 ^ 32.
Definition round_landmark {D} (round : D -> D) (l : landmark D) : landmark D :=
  mkLm (round (l_x l)) (round (l_y l)) (round (l_z l)) (round (l_nx l)) (round (l_ny l)) (round (l_nz l)) (l_color l) (l_obs l).

(** The lines of a PLY header. *)
Definition is_vertex_decl (l : str) : Prop := exists n, words_of l = [L "element"; L "vertex"; n].
Definition declares (l nm : str) : Prop := exists ty, words_of l = [L "property"; ty; nm].
Definition property_line (l : str) : Prop := exists nm, declares l nm.
Definition nonblank (l : str) : bool := match words_of l with [] => false | _ => true end.
(** The names (in any case) that a column of x, y, ... may have. *)
Definition titles (p : vprop) : list str :=
  match p with
  | VX => [L "x"] | VY => [L "y"] | VZ => [L "z"]
  | NX => [L "nx"; L "vsfm_cnx"] | NY => [L "ny"; L "vsfm_cny"] | NZ => [L "nz"; L "vsfm_cnz"]
  | CR => [L "red"; L "diffuse_red"] | CG => [L "green"; L "diffuse_green"] | CB => [L "blue"; L "diffuse_blue"]
  | INDEX => [L "track_id"] | OBSERVATIONS => [L "observations"; L "number_of_camera_sees_this_point"]
  | Invalid_ => []
  end.
(** The last readable word in a column with one of these names; else [dflt]. *)
Definition field {V} (rd : str -> option V) (p : vprop) (words names : list str) (dflt : V) : V :=
  fold_left (fun old wn => if existsb (str_eqb (map to_lower (snd wn))) (titles p) then match rd (fst wn) with Some v => v | None => old end else old) (combine words names) dflt.
(** The words read as numbers by >> (None: left unchanged). *)
Definition reads_d {D} (scan : str -> D * bool * str) (t : str) : option D := fst (extract_d scan (open_str t)).
Definition reads_id (t : str) : option Z := fst (extract_i64 (open_str t)).
Definition reads_count (t : str) : option Z := fst (extract_u32 (open_str t)).
Definition reads_byte (t : str) : option Z := Some (match fst (extract_i32 (open_str t)) with Some z => z mod 256 | None => 0 end).
(** The landmark of a data line: position and normal 0, white, not observed, unless
    a column says otherwise. *)
Definition landmark_of {D} (zero : D) (scan : str -> D * bool * str) (ws names : list str) : landmark D :=
  mkLm (field (reads_d scan) VX ws names zero) (field (reads_d scan) VY ws names zero) (field (reads_d scan) VZ ws names zero)
       (field (reads_d scan) NX ws names zero) (field (reads_d scan) NY ws names zero) (field (reads_d scan) NZ ws names zero)
       (mkColor (field reads_byte CR ws names 255) (field reads_byte CG ws names 255) (field reads_byte CB ws names 255))
       (field reads_count OBSERVATIONS ws names 0).
(** Data line number [i] gives the landmark with its track_id, or number i. *)
Fixpoint store_vertices {D} (zero : D) (scan : str -> D * bool * str) (names : list str) (i : Z) (ls : list str) (m : lmap D) : lmap D :=
  match ls with
  | [] => m
  | l :: r => store_vertices zero scan names (i + 1) r (m_set Z.compare (field reads_id INDEX (words_of l) names i) (landmark_of zero scan (words_of l) names) m)
  end.
