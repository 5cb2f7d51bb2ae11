(** PlyProps.v -- C48, C49. *)
From Coq Require Import List ZArith Lia Bool.
Import ListNotations.
From Verif Require Import Base Numbers Stream ParserModel TrackIoModel TrackIoSpec TrackIoProps PlyModel PlySpec PlyProofs.
Local Open Scope Z_scope.

(** C48: writing and reading back a landmark map, for any text format of
    doubles that the stream operators implement. *)
Theorem C48_landmark_file_round_trip {D} (zero : D) (show : D -> str) scan good round (m : lmap D) :
  number_format show scan good round ->
  m <> [] -> Z.of_nat (length m) < 2 ^ 32 -> m_sorted Z.compare m -> (forall id l, In (id, l) m -> int64 id /\ good_landmark good l) ->
  exists text, write_ply show m = Some text /\ read_ply zero scan text = map (fun p => (fst p, round_landmark round (snd p))) m.
Proof. intro NF. exact (ply_lemma D zero show scan good round NF m). Qed.
Print Assumptions C48_landmark_file_round_trip.
Definition demo_lms : lmap Z := [(-4, mkLm 1 2 3 0 0 1 (mkColor 255 254 0) 7); (12, mkLm (-9) 0 8 1 0 0 (mkColor 1 2 3) 0)].
Example C48_nonvacuous : demo_lms <> [] /\ m_sorted Z.compare demo_lms /\ (forall id l, In (id, l) demo_lms -> int64 id /\ good_landmark (fun _ => True) l) /\
  exists text, write_ply dec demo_lms = Some text /\ read_ply 0 zscan text = demo_lms.
Proof.
  split; [discriminate|]. split; [cbn; repeat split; auto|]. split.
  - unfold int64, good_landmark, good_color, byte. intros id l [E|[E|[]]]; injection E as <- <-; cbn; repeat split; lia.
  - eexists. split; [reflexivity|]. vm_compute. reflexivity.
Qed.
(** An empty map is refused. *)
Theorem C48_empty_map {D} (show : D -> str) : write_ply show [] = None.
Proof. reflexivity. Qed.

(** C49: which lines of a PLY file become landmarks: the first n + 1 lines that
    are not blank after the header. *)
Theorem C49_reads_first_n_plus_one {D} (zero : D) scan text pre vl n pls names post data :
  lines_of text = pre ++ vl :: pls ++ post ++ L "end_header" :: data ->
  0 <= n < 2 ^ 32 - 1 -> words_of vl = [L "element"; L "vertex"; dec n] ->
  (forall l, In l pre -> ~ is_vertex_decl l /\ l <> L "end_header") ->
  Forall2 declares pls names ->
  (forall l, In l post -> ~ is_vertex_decl l /\ ~ property_line l /\ l <> L "end_header") ->
  read_ply zero scan text = store_vertices zero scan names 0 (firstn (Z.to_nat n + 1) (filter nonblank data)) [].
Proof. exact (any_file D zero scan text pre vl n pls names post data). Qed.
Print Assumptions C49_reads_first_n_plus_one.
Definition ply_text (ls : list str) : str := concat (map (fun l => l ++ nl) ls).
(** So a file that declares one vertex and goes on with a face gives two
    landmarks: the second is made of the face line. *)
Definition face_file : str :=
  ply_text [L "ply"; L "element vertex 1"; L "property float X"; L "element face 1"; L "property list uchar int vertex_index"; L "end_header"; L "5"; L "3 0 0 0"].
Theorem C49_exactly_n_refuted : exists (text : str) l1 l2, read_ply 0 zscan text = [(0, l1); (1, l2)] /\ l_x l1 = 5 /\ l_x l2 = 3 /\
  lines_of text = [L "ply"; L "element vertex 1"; L "property float X"; L "element face 1"; L "property list uchar int vertex_index"; L "end_header"; L "5"; L "3 0 0 0"].
Proof. exists face_file. do 2 eexists. split; [vm_compute; reflexivity|]. split; [reflexivity|]. split; [reflexivity|vm_compute; reflexivity]. Qed.
Print Assumptions C49_exactly_n_refuted.
Example C49_nonvacuous : exists pre vl pls post data, lines_of face_file = pre ++ vl :: pls ++ post ++ L "end_header" :: data /\ length data = 2%nat /\
  words_of vl = [L "element"; L "vertex"; dec 1] /\ Forall2 declares pls [L "X"] /\ In (map to_lower (L "X")) (titles VX) /\
  (forall l, In l post -> ~ is_vertex_decl l /\ ~ property_line l /\ l <> L "end_header").
Proof.
  exists [L "ply"], (L "element vertex 1"), [L "property float X"], [L "element face 1"; L "property list uchar int vertex_index"], [L "5"; L "3 0 0 0"].
  split; [vm_compute; reflexivity|]. split; [reflexivity|]. split; [vm_compute; reflexivity|]. split; [repeat constructor; eexists; vm_compute; reflexivity|].
  split; [left; reflexivity|]. intros l [<-|[<-|[]]]; (split; [intros [x X]; vm_compute in X; discriminate|]); (split; [intros (x & y & X); vm_compute in X; discriminate|discriminate]).
Qed.
(** A header that ends with "\r\n" lines never ends: nothing is read and nothing
    is reported. *)
Theorem C49_no_end_header {D} (zero : D) scan text : (forall l, In l (lines_of text) -> l <> L "end_header") -> read_ply zero scan text = [].
Proof.
  unfold read_ply. generalize (lines_of text). intros ls H.
  assert (G : forall st : rstate D, rs_header st = false -> rs_map st = [] -> read_loop zero scan ls st = []).
  { induction ls as [|l ls IH]; intros st H1 H2; auto. cbn [read_loop]. destruct (words_of l) as [|w ws]; [apply IH; auto; intros; apply H; right; auto|].
    rewrite H1. cbn [negb]. assert (Hl : l <> L "end_header") by (apply H; left; auto).
    apply IH; [intros; apply H; right; auto| |]; unfold header_line; rewrite (proj2 (str_eqb_neq l _)) by auto; cbv zeta;
      repeat (match goal with |- context [if ?c then _ else _] => destruct c end; cbn [rs_header rs_map]; auto). }
  apply G; reflexivity.
Qed.
Print Assumptions C49_no_end_header.
Example C49_crlf : read_ply 0 zscan (ply_text [L "ply" ++ ["013"%char]; L "element vertex 1" ++ ["013"%char]; L "property float x" ++ ["013"%char]; L "end_header" ++ ["013"%char]; L "5" ++ ["013"%char]]) = [].
Proof. vm_compute. reflexivity. Qed.
