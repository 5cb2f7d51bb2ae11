(** PlyModel.v -- vital/io/landmark_map_io.cxx.  Doubles are handled by the
    parameters [show] and [scan] as in TrackIoModel.  Not modelled: the checks of
    paths and the creation of directories; the file is its text. *)
From Coq Require Import List ZArith Bool.
Import ListNotations.
From Verif Require Import Base Numbers Stream ParserModel TrackIoModel.
Local Open Scope Z_scope.

Definition nl : str := ["010"%char].
Section Ply.
Variable D : Type.
Variable zero : D.
Variable show : D -> str.
Variable scan : str -> D * bool * str.
(** landmark.h 97-190 (scale and covariance left out: not written) *)
Record landmark := mkLm { l_x : D; l_y : D; l_z : D; l_nx : D; l_ny : D; l_nz : D; l_color : color; l_obs : Z }.
(** std::map< landmark_id_t, landmark_sptr > *)
Definition lmap := list (Z * landmark).
(** landmark_map_io.cxx 88-104 *)
Definition header (n : Z) : list str :=
  [L "ply"; L "format ascii 1.0"; L "comment written by VITAL"; L "element vertex " ++ dec n;
   L "property float x"; L "property float y"; L "property float z"; L "property float nx"; L "property float ny"; L "property float nz";
   L "property uchar red"; L "property uchar green"; L "property uchar blue"; L "property uint track_id"; L "property uint observations"; L "end_header"].
(** landmark_map_io.cxx 114-119 *)
Definition vertex (p : Z * landmark) : str :=
  let l := snd p in
  show (l_x l) ++ L " " ++ show (l_y l) ++ L " " ++ show (l_z l) ++ L " " ++ show (l_nx l) ++ L " " ++ show (l_ny l) ++ L " " ++ show (l_nz l) ++ L " " ++
  dec (c_r (l_color l)) ++ L " " ++ dec (c_g (l_color l)) ++ L " " ++ dec (c_b (l_color l)) ++ L " " ++ dec (fst p) ++ L " " ++ dec (l_obs l).
(** landmark_map_io.cxx 53-122; None: the exception for an empty map *)
Definition write_ply (m : lmap) : option str :=
  match m with
  | [] => None
  | _ => Some (concat (map (fun l => l ++ nl) (header (Z.of_nat (length m)) ++ map vertex m)))
  end.

(** landmark_map_io.cxx 127-136 *)
Inductive vprop := Invalid_ | VX | VY | VZ | NX | NY | NZ | CR | CG | CB | INDEX | OBSERVATIONS.
(** landmark_map_io.cxx 170-192 *)
Definition prop_map : list (str * vprop) :=
  [(L "x", VX); (L "y", VY); (L "z", VZ); (L "nx", NX); (L "ny", NY); (L "nz", NZ); (L "red", CR); (L "green", CG); (L "blue", CB);
   (L "track_id", INDEX); (L "observations", OBSERVATIONS); (L "vsfm_cnx", NX); (L "vsfm_cny", NY); (L "vsfm_cnz", NZ);
   (L "diffuse_red", CR); (L "diffuse_green", CG); (L "diffuse_blue", CB); (L "number_of_camera_sees_this_point", OBSERVATIONS)].
Fixpoint prop_find (n : str) (l : list (str * vprop)) : vprop :=
  match l with [] => Invalid_ | (k, p) :: r => if str_eqb n k then p else prop_find n r end.

(** landmark_map_io.cxx 252-259: the local variables of a vertex *)
Record vert := mkV { v_x : D; v_y : D; v_z : D; v_nx : D; v_ny : D; v_nz : D; v_color : color; v_id : Z; v_obs : Z }.
Definition vert0 (id : Z) : vert := mkV zero zero zero zero zero zero (mkColor 255 255 255) id 0.
(** >> into a variable holding [old] *)
Definition get_d (old : D) (t : str) : D := match extract_d scan (open_str t) with (Some d, _) => d | _ => old end.
Definition get_i32 (old : Z) (t : str) : Z := match extract_i32 (open_str t) with (Some z, _) => z | _ => old end.
Definition get_i64 (old : Z) (t : str) : Z := match extract_i64 (open_str t) with (Some z, _) => z | _ => old end.
Definition get_u32 (old : Z) (t : str) : Z := match extract_u32 (open_str t) with (Some z, _) => z | _ => old end.
(** landmark_map_io.cxx 260-303.  The tokens are not empty, so cvalue is always
    assigned. *)
Definition set_prop (v : vert) (p : vprop) (t : str) : vert :=
  let c := v_color v in let cv := uchar (get_i32 0 t) in
  match p with
  | VX => mkV (get_d (v_x v) t) (v_y v) (v_z v) (v_nx v) (v_ny v) (v_nz v) c (v_id v) (v_obs v)
  | VY => mkV (v_x v) (get_d (v_y v) t) (v_z v) (v_nx v) (v_ny v) (v_nz v) c (v_id v) (v_obs v)
  | VZ => mkV (v_x v) (v_y v) (get_d (v_z v) t) (v_nx v) (v_ny v) (v_nz v) c (v_id v) (v_obs v)
  | NX => mkV (v_x v) (v_y v) (v_z v) (get_d (v_nx v) t) (v_ny v) (v_nz v) c (v_id v) (v_obs v)
  | NY => mkV (v_x v) (v_y v) (v_z v) (v_nx v) (get_d (v_ny v) t) (v_nz v) c (v_id v) (v_obs v)
  | NZ => mkV (v_x v) (v_y v) (v_z v) (v_nx v) (v_ny v) (get_d (v_nz v) t) c (v_id v) (v_obs v)
  | CR => mkV (v_x v) (v_y v) (v_z v) (v_nx v) (v_ny v) (v_nz v) (mkColor cv (c_g c) (c_b c)) (v_id v) (v_obs v)
  | CG => mkV (v_x v) (v_y v) (v_z v) (v_nx v) (v_ny v) (v_nz v) (mkColor (c_r c) cv (c_b c)) (v_id v) (v_obs v)
  | CB => mkV (v_x v) (v_y v) (v_z v) (v_nx v) (v_ny v) (v_nz v) (mkColor (c_r c) (c_g c) cv) (v_id v) (v_obs v)
  | INDEX => mkV (v_x v) (v_y v) (v_z v) (v_nx v) (v_ny v) (v_nz v) c (get_i64 (v_id v) t) (v_obs v)
  | OBSERVATIONS => mkV (v_x v) (v_y v) (v_z v) (v_nx v) (v_ny v) (v_nz v) c (v_id v) (get_u32 (v_obs v) t)
  | Invalid_ => v
  end.
Fixpoint set_props (v : vert) (tokens : list str) (props : list vprop) : vert :=
  match tokens, props with
  | t :: ts, p :: ps => set_props (set_prop v p t) ts ps
  | _, _ => v
  end.
Definition lm_of (v : vert) : landmark := mkLm (v_x v) (v_y v) (v_z v) (v_nx v) (v_ny v) (v_nz v) (v_color v) (v_obs v).
Definition nth_tok (ts : list str) (i : nat) : str := nth i ts [].

(** landmark_map_io.cxx 194-318: the line loop.  unsigned int counters wrap. *)
Record rstate := mkRS { rs_header : bool; rs_parsing : bool; rs_props : list vprop; rs_num : Z; rs_count : Z; rs_map : lmap }.
Definition header_line (st : rstate) (line : str) (tokens : list str) : rstate :=
  if str_eqb line (L "end_header") then mkRS true (rs_parsing st) (rs_props st) (rs_num st) (rs_count st) (rs_map st)
  else
    let three := Nat.eqb (length tokens) 3 in
    let st1 :=
      if three && str_eqb (nth_tok tokens 0) (L "element") && str_eqb (nth_tok tokens 1) (L "vertex")
      then mkRS false true (rs_props st) (get_u32 (rs_num st) (nth_tok tokens 2)) (rs_count st) (rs_map st)
      else if str_eqb (nth_tok tokens 0) (L "element") then mkRS false false (rs_props st) (rs_num st) (rs_count st) (rs_map st)
      else st in
    if rs_parsing st1 && (three && str_eqb (nth_tok tokens 0) (L "property"))
    then mkRS false (rs_parsing st1) (rs_props st1 ++ [prop_find (map to_lower (nth_tok tokens 2)) prop_map]) (rs_num st1) (rs_count st1) (rs_map st1)
    else st1.
Fixpoint read_loop (ls : list str) (st : rstate) : lmap :=
  match ls with
  | [] => rs_map st
  | line :: rest =>
    match words_of line with
    | [] => read_loop rest st
    | tokens =>
      if negb (rs_header st) then read_loop rest (header_line st line tokens)
      else
        let v := set_props (vert0 (rs_count st)) tokens (rs_props st) in
        let count := (rs_count st + 1) mod 2 ^ 32 in
        let m := m_set Z.compare (v_id v) (lm_of v) (rs_map st) in
        if rs_num st <? count then m
        else read_loop rest (mkRS true (rs_parsing st) (rs_props st) (rs_num st) count m)
    end
  end.
(** landmark_map_io.cxx 151-321 *)
Definition read_ply (text : str) : lmap := read_loop (lines_of text) (mkRS false false [] 0 0 []).
End Ply.
Arguments mkLm {D}. Arguments l_x {D}. Arguments l_y {D}. Arguments l_z {D}. Arguments l_nx {D}. Arguments l_ny {D}. Arguments l_nz {D}.
Arguments l_color {D}. Arguments l_obs {D}. Arguments write_ply {D}. Arguments read_ply {D}. Arguments vertex {D}. Arguments read_loop {D}.
Arguments mkRS {D}. Arguments rs_header {D}. Arguments rs_parsing {D}. Arguments rs_props {D}. Arguments rs_num {D}. Arguments rs_count {D}. Arguments rs_map {D}.
Arguments mkV {D}. Arguments set_props {D}. Arguments set_prop {D}. Arguments vert0 {D}. Arguments lm_of {D}. Arguments header_line {D}. Arguments get_d {D}. Arguments v_id {D}.
