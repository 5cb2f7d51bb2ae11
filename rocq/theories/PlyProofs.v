(** Proofs about PLY files. *)
From Coq Require Import List ZArith Lia Bool.
Import ListNotations.
From Verif Require Import Base Numbers Stream ParserModel DocProofs TrackIoModel TrackIoSpec TrackIoProofs PlyModel PlySpec.
Local Open Scope Z_scope.
Definition column (nm : str) : vprop := prop_find (map to_lower nm) prop_map.
Fixpoint store_columns {D} (zero : D) (scan : str -> D * bool * str) (props : list vprop) (i : Z) (ls : list str) (m : lmap D) : lmap D :=
  match ls with
  | [] => m
  | l :: r =>
    let v := set_props scan (vert0 zero i) (words_of l) props in
    store_columns zero scan props (i + 1) r (m_set Z.compare (v_id v) (lm_of v) m)
  end.

Lemma m_above_all {V} (m : list (Z * V)) : m_sorted Z.compare m -> forall k v r, m = (k, v) :: r -> forall k' v', In (k', v') r -> k < k'.
Proof.
  intros H k v r -> k' v' Hin. cbn [m_sorted] in H. destruct H as [H _]. apply (m_above_in Z.compare k k' v' r H) in Hin. apply Z.compare_lt_iff. exact Hin.
Qed.
Lemma m_set_last {V} (m : list (Z * V)) k v : (forall k' v', In (k', v') m -> k' < k) -> m_set Z.compare k v m = m ++ [(k, v)].
Proof.
  induction m as [|[k1 v1] m IH]; intro H; cbn [m_set app]; auto. specialize (H k1 v1) as H1. specialize (H1 (or_introl eq_refl)).
  destruct (Z.compare_spec k k1); [lia|lia|]. rewrite IH; auto. intros; eapply H; right; eauto.
Qed.
Lemma m_sorted_app {V} (m1 m2 : list (Z * V)) : m_sorted Z.compare (m1 ++ m2) -> forall k v k' v', In (k, v) m1 -> In (k', v') m2 -> k < k'.
Proof.
  induction m1 as [|[k1 v1] m1 IH]; intros H k v k' v' H1 H2; [destruct H1|]. cbn [app m_sorted] in H. destruct H as [Ha Hs].
  destruct H1 as [E|H1]; [|eapply IH; eauto]. injection E as -> ->. apply Z.compare_lt_iff. eapply m_above_in; [exact Ha|]. apply in_or_app. eauto.
Qed.

Section Ply.
Variable D : Type.
Variable zero : D.
Variables (show : D -> str) (scan : str -> D * bool * str) (good : D -> Prop) (round : D -> D).
Hypothesis NF : number_format show scan good round.

Notation good_landmark := (good_landmark good). Notation round_landmark := (round_landmark round).
Lemma get_d_show old d : good d -> get_d scan old (show d) = round d.
Proof. intro G. unfold get_d. pose proof (extract_d_show D show scan good round NF [] d [] G eq_refl I) as E. cbn [app] in E. rewrite app_nil_r in E. rewrite E. auto. Qed.
Lemma get_i32_dec old z : byte z -> get_i32 old (dec z) = z.
Proof. intro G. unfold get_i32. pose proof (i32_byte [] z [] eq_refl I G) as E. cbn [app] in E. rewrite app_nil_r in E. rewrite E. auto. Qed.
Lemma get_i64_dec old z : int64 z -> get_i64 old (dec z) = z.
Proof.
  unfold int64. intro G. unfold get_i64, extract_i64. pose proof (extract_int_dec (- 2 ^ 63) (2 ^ 63 - 1) [] z [] eq_refl I) as E. cbn [app] in E. rewrite app_nil_r in E.
  rewrite E by lia. auto.
Qed.
Lemma get_u32_dec old z : 0 <= z < 2 ^ 32 -> get_u32 old (dec z) = z.
Proof.
  intro G. unfold get_u32, extract_u32. pose proof (extract_unsigned_dec (2 ^ 32) [] z [] eq_refl I) as E. cbn [app] in E. rewrite app_nil_r in E.
  rewrite E by lia. auto.
Qed.
Lemma words_next w r : word w -> words_of (w ++ L " " ++ r) = w :: words_of r.
Proof. intro W. rewrite words_word by (auto; reflexivity). rewrite (words_skip (L " ") r) by reflexivity. auto. Qed.
Lemma words_end w : word w -> words_of w = [w].
Proof. intro W. pose proof (words_word w [] W I) as E. rewrite app_nil_r in E. exact E. Qed.
Lemma vertex_words id l : good_landmark l -> words_of (vertex show (id, l)) =
  [show (l_x l); show (l_y l); show (l_z l); show (l_nx l); show (l_ny l); show (l_nz l); dec (c_r (l_color l)); dec (c_g (l_color l)); dec (c_b (l_color l)); dec id; dec (l_obs l)].
Proof.
  intros (G1 & G2 & G3 & G4 & G5 & G6 & _). unfold vertex. cbv zeta. cbn [fst snd].
  rewrite !words_next by (apply dec_word || (apply NF; auto)). rewrite words_end by apply dec_word. reflexivity.
Qed.
Definition std_props : list vprop := [VX; VY; VZ; NX; NY; NZ; CR; CG; CB; INDEX; OBSERVATIONS].
Lemma set_props_cons v t ts p ps : set_props scan v (t :: ts) (p :: ps) = set_props scan (set_prop scan v p t) ts ps.
Proof. reflexivity. Qed.
Lemma vertex_props id l i : int64 id -> good_landmark l ->
  let v := set_props scan (vert0 zero i) (words_of (vertex show (id, l))) std_props in v_id v = id /\ lm_of v = round_landmark l.
Proof.
  intros Hid G. rewrite vertex_words by auto. destruct G as (G1 & G2 & G3 & G4 & G5 & G6 & (C1 & C2 & C3) & G7).
  unfold std_props, vert0.
  do 11 (rewrite set_props_cons; unfold set_prop; cbn [v_x v_y v_z v_nx v_ny v_nz v_color v_id v_obs c_r c_g c_b];
    rewrite ?get_d_show, ?get_i32_dec, ?get_i64_dec, ?get_u32_dec, ?uchar_byte by auto).
  cbn [set_props]. cbv zeta. unfold lm_of, round_landmark.
  cbn [v_x v_y v_z v_nx v_ny v_nz v_color v_id v_obs c_r c_g c_b]. destruct (l_color l). auto.
Qed.
Lemma words_nonnil id l : good_landmark l -> exists w ws, words_of (vertex show (id, l)) = w :: ws.
Proof. intro G. rewrite vertex_words by auto. eauto. Qed.
Lemma read_vertices n rest : forall done, n = Z.of_nat (length (done ++ rest)) -> n < 2 ^ 32 ->
  (forall p, In p rest -> int64 (fst p) /\ good_landmark (snd p)) -> m_sorted Z.compare (done ++ rest) ->
  read_loop zero scan (map (vertex show) rest) (mkRS true true std_props n (Z.of_nat (length done)) (map (fun p => (fst p, round_landmark (snd p))) done)) =
  map (fun p => (fst p, round_landmark (snd p))) (done ++ rest).
Proof.
  induction rest as [|[id l] rest IH]; intros done Hn Hb HG HS; cbn [map read_loop].
  - rewrite app_nil_r. reflexivity.
  - destruct (HG (id, l) (or_introl eq_refl)) as [Hid Gl]. cbn [fst snd] in *.
    destruct (words_nonnil id l Gl) as (w & ws & Ew). pose proof (vertex_props id l (Z.of_nat (length done)) Hid Gl) as HV. rewrite Ew in *. cbn [rs_header negb rs_count rs_props rs_num rs_map rs_parsing].
    cbv zeta in HV |- *. destruct HV as [V1 V2]. rewrite V1, V2. rewrite app_length in Hn. cbn [length] in Hn.
    rewrite Z.mod_small by lia. destruct (Z.ltb_spec n (Z.of_nat (length done) + 1)); [lia|].
    rewrite m_set_last.
    2:{ intros k' v' Hin. apply in_map_iff in Hin as ([k'' v''] & E & Hin). cbn [fst snd] in E. injection E as -> _.
        apply (m_sorted_app done ((id, l) :: rest) HS k' v'' id l Hin). left. auto. }
    assert (Ed : map (fun p => (fst p, round_landmark (snd p))) done ++ [(id, round_landmark l)] = map (fun p => (fst p, round_landmark (snd p))) (done ++ [(id, l)])) by (rewrite map_app; reflexivity).
    rewrite Ed. assert (El : Z.of_nat (length done) + 1 = Z.of_nat (length (done ++ [(id, l)]))) by (rewrite app_length; cbn [length]; lia). rewrite El.
    assert (Ea : done ++ (id, l) :: rest = (done ++ [(id, l)]) ++ rest) by (rewrite <- app_assoc; reflexivity). rewrite Ea.
    apply IH; auto.
    + rewrite <- Ea, app_length. cbn [length]. lia.
    + intros; apply HG; right; auto.
    + rewrite <- Ea. auto.
Qed.
Lemma read_header_line l rest st w ws st' : words_of l = w :: ws -> rs_header st = false -> header_line st l (w :: ws) = st' ->
  read_loop zero scan (l :: rest) st = read_loop zero scan rest st'.
Proof. intros E H S. cbn [read_loop]. rewrite E, H. cbn [negb]. rewrite S. reflexivity. Qed.
Lemma read_header n rest : 0 <= n < 2 ^ 32 ->
  read_loop zero scan (header n ++ rest) (mkRS false false [] 0 0 []) = read_loop zero scan rest (mkRS true true std_props n 0 []).
Proof.
  intro Hn. unfold header. cbn [app].
  assert (E0 : words_of (L "element vertex " ++ dec n) = [L "element"; L "vertex"; dec n]).
  { change (L "element vertex " ++ dec n) with (L "element" ++ L " " ++ L "vertex" ++ L " " ++ dec n).
    rewrite !words_next by (split; [discriminate|reflexivity]). rewrite words_end by apply dec_word. reflexivity. }
  assert (Ne : str_eqb (L "element vertex " ++ dec n) (L "end_header") = false) by reflexivity.
  do 3 (erewrite read_header_line; [|vm_compute; reflexivity|reflexivity|vm_compute; reflexivity]).
  assert (S4 : @header_line D (mkRS false false [] 0 0 []) (L "element vertex " ++ dec n) [L "element"; L "vertex"; dec n] = mkRS false true [] n 0 []).
  { unfold header_line. rewrite Ne. cbn [nth_tok nth length Nat.eqb].
    change (str_eqb (L "element") (L "element")) with true. change (str_eqb (L "vertex") (L "vertex")) with true. change (str_eqb (L "element") (L "property")) with false.
    cbn [andb rs_parsing rs_props rs_num rs_count rs_map]. rewrite get_u32_dec by auto. reflexivity. }
  erewrite read_header_line; [|exact E0|reflexivity|exact S4]. clear.
  assert (P : forall props line name, words_of line = [L "property"; nth_tok (words_of line) 1; name] -> str_eqb line (L "end_header") = false ->
    @header_line D (mkRS false true props n 0 []) line (words_of line) = mkRS false true (props ++ [prop_find (map to_lower name) prop_map]) n 0 []).
  { intros props line name E1 E2. unfold header_line. rewrite E2, E1. cbn [nth_tok nth length Nat.eqb].
    change (str_eqb (L "property") (L "element")) with false. change (str_eqb (L "property") (L "property")) with true.
    cbn [andb rs_parsing rs_props rs_num rs_count rs_map]. reflexivity. }
  assert (Q : forall props line name w ws rest, words_of line = [L "property"; nth_tok (words_of line) 1; name] -> str_eqb line (L "end_header") = false -> words_of line = w :: ws ->
    read_loop zero scan (line :: rest) (mkRS false true props n 0 []) = read_loop zero scan rest (mkRS false true (props ++ [prop_find (map to_lower name) prop_map]) n 0 [])).
  { intros props line name w ws rest0 E1 E2 E3. eapply read_header_line; [exact E3|reflexivity|]. rewrite <- E3. apply P; auto. }
  do 11 (erewrite Q; [|vm_compute; reflexivity|vm_compute; reflexivity|vm_compute; reflexivity]).
  assert (S5 : forall props, @header_line D (mkRS false true props n 0 []) (L "end_header") [L "end_header"] = mkRS true true props n 0 []).
  { intro props. unfold header_line. change (str_eqb (L "end_header") (L "end_header")) with true. reflexivity. }
  erewrite read_header_line; [|vm_compute; reflexivity|reflexivity|apply S5].
  match goal with |- read_loop _ _ _ (mkRS _ _ ?a _ _ _) = read_loop _ _ _ (mkRS _ _ ?b _ _ _) => assert (a = b) as -> by (vm_compute; reflexivity) end. reflexivity.
Qed.
Lemma header_no_nl n l : In l (header n) -> ~ In "010"%char l.
Proof.
  unfold header. intro H. cbn [In] in H. repeat destruct H as [<-|H]; try (intro X; vm_compute in X; intuition discriminate; fail).
  - apply nl_app; [intro X; vm_compute in X; intuition discriminate|apply word_no_nl, dec_word].
Qed.
Lemma vertex_no_nl p : good_landmark (snd p) -> ~ In "010"%char (vertex show p).
Proof.
  destruct p as [id l]. cbn [snd]. intros (G1 & G2 & G3 & G4 & G5 & G6 & _). unfold vertex. cbv zeta. cbn [fst snd].
  repeat apply nl_app; try apply nl_blank; apply word_no_nl; (apply dec_word || (apply NF; auto)).
Qed.
Lemma ply_lemma m : m <> [] -> Z.of_nat (length m) < 2 ^ 32 -> m_sorted Z.compare m -> (forall id l, In (id, l) m -> int64 id /\ good_landmark l) ->
  exists text, write_ply show m = Some text /\ read_ply zero scan text = map (fun p => (fst p, round_landmark (snd p))) m.
Proof.
  intros Hne Hb HS HG. exists (concat (map (fun l => l ++ nl) (header (Z.of_nat (length m)) ++ map (vertex show) m))).
  split; [unfold write_ply; destruct m; [destruct Hne; reflexivity|reflexivity]|]. unfold read_ply.
  assert (X : forall ls : list str, (forall l, In l ls -> ~ In "010"%char l) -> lines_of (concat (map (fun l => l ++ nl) ls)) = ls).
  { induction ls as [|l ls IH]; intro HL; auto. cbn [map concat]. unfold nl. rewrite <- app_assoc. cbn [app]. rewrite lines_of_line by (apply HL; left; auto).
    fold nl. rewrite IH; auto. intros; apply HL; right; auto. }
  rewrite X.
  - rewrite read_header by lia. apply (read_vertices (Z.of_nat (length m)) m []); auto. intros [id l] Hin. cbn [fst snd]. apply HG; auto.
  - intros l Hl. apply in_app_or in Hl as [Hl|Hl]; [eapply header_no_nl; eauto|]. apply in_map_iff in Hl as ([id lm] & <- & Hin). apply vertex_no_nl. cbn [snd]. eapply HG; eauto.
Qed.
(** The vertex lines of a file. *)
Notation store_columns := (store_columns zero scan).
Lemma read_data num par props ls : 0 <= num < 2 ^ 32 - 1 -> forall i m, 0 <= i <= num ->
  read_loop zero scan ls (mkRS true par props num i m) = store_columns props i (firstn (Z.to_nat (num - i) + 1) (filter nonblank ls)) m.
Proof.
  intro Hn. induction ls as [|l ls IH]; intros i m Hi; [rewrite firstn_nil; reflexivity|]. cbn [read_loop filter].
  destruct (words_of l) as [|w ws] eqn:Ew.
  - assert (Nb : nonblank l = false) by (unfold nonblank; rewrite Ew; auto). rewrite Nb. apply IH; auto.
  - assert (Nb : nonblank l = true) by (unfold nonblank; rewrite Ew; auto). rewrite Nb. cbn [negb rs_header rs_count rs_props rs_num rs_map rs_parsing].
    cbv zeta. rewrite Nat.add_comm. cbn [Nat.add firstn store_columns]. rewrite Ew. cbv zeta. rewrite Z.mod_small by lia.
    destruct (Z.ltb_spec num (i + 1)).
    + assert (i = num) by lia. subst. rewrite Z.sub_diag. reflexivity.
    + rewrite IH by lia. replace (Z.to_nat (num - (i + 1)) + 1)%nat with (Z.to_nat (num - i)) by lia. reflexivity.
Qed.

Lemma header_lines_skip n par props rest : forall ls, (forall l, In l ls -> ~ is_vertex_decl l /\ ~ property_line l /\ l <> L "end_header") -> exists par',
  (par = false -> par' = false) /\
  read_loop zero scan (ls ++ rest) (mkRS false par props n 0 []) = read_loop zero scan rest (mkRS false par' props n 0 []).
Proof.
  intro ls. revert par. induction ls as [|l ls IH]; intros par H; [exists par; auto|].
  destruct (H l (or_introl eq_refl)) as (H1 & H2 & H3). assert (HI : forall l, In l ls -> ~ is_vertex_decl l /\ ~ property_line l /\ l <> L "end_header") by (intros; apply H; right; auto).
  cbn [app read_loop]. destruct (words_of l) as [|w ws] eqn:Ew; [apply IH; auto|]. cbn [negb rs_header].
  assert (E : exists par1, (par = false -> par1 = false) /\ @header_line D (mkRS false par props n 0 []) l (w :: ws) = mkRS false par1 props n 0 []).
  { unfold header_line. rewrite (proj2 (str_eqb_neq l _)) by auto. cbv zeta.
    destruct (Nat.eqb (length (w :: ws)) 3 && str_eqb (nth_tok (w :: ws) 0) (L "element") && str_eqb (nth_tok (w :: ws) 1) (L "vertex")) eqn:Ev.
    { exfalso. apply H1. unfold is_vertex_decl. rewrite Ew. rewrite !andb_true_iff in Ev. destruct Ev as ((E1 & E2) & E3). apply Nat.eqb_eq in E1.
      apply str_eqb_eq in E2, E3. destruct ws as [|w2 [|w3 [|]]]; try discriminate. unfold nth_tok in E2, E3. cbn [nth] in E2, E3. subst. eauto. }
    assert (Np : Nat.eqb (length (w :: ws)) 3 && str_eqb (nth_tok (w :: ws) 0) (L "property") = false).
    { apply not_true_is_false. intro X. apply H2. unfold property_line, declares. rewrite Ew. apply andb_true_iff in X as [E1 E2]. apply Nat.eqb_eq in E1. apply str_eqb_eq in E2.
      destruct ws as [|w2 [|w3 [|]]]; try discriminate. unfold nth_tok in E2. cbn [nth] in E2. subst. eauto. }
    destruct (str_eqb (nth_tok (w :: ws) 0) (L "element")); cbn [rs_parsing rs_props rs_num rs_count rs_map]; rewrite Np, andb_false_r; eauto. }
  destruct E as (par1 & P1 & ->). destruct (IH par1 HI) as (par' & P & E). exists par'. split; auto.
Qed.
Lemma header_lines_off n props rest : forall ls, (forall l, In l ls -> ~ is_vertex_decl l /\ l <> L "end_header") ->
  read_loop zero scan (ls ++ rest) (mkRS false false props n 0 []) = read_loop zero scan rest (mkRS false false props n 0 []).
Proof.
  induction ls as [|l ls IH]; intro H; auto. destruct (H l (or_introl eq_refl)) as (H1 & H3). cbn [app read_loop].
  destruct (words_of l) as [|w ws] eqn:Ew; [apply IH; intros; apply H; right; auto|]. cbn [negb rs_header].
  assert (E : @header_line D (mkRS false false props n 0 []) l (w :: ws) = mkRS false false props n 0 []).
  { unfold header_line. rewrite (proj2 (str_eqb_neq l _)) by auto. cbv zeta.
    destruct (Nat.eqb (length (w :: ws)) 3 && str_eqb (nth_tok (w :: ws) 0) (L "element") && str_eqb (nth_tok (w :: ws) 1) (L "vertex")) eqn:Ev.
    { exfalso. apply H1. unfold is_vertex_decl. rewrite Ew. rewrite !andb_true_iff in Ev. destruct Ev as ((E1 & E2) & E3). apply Nat.eqb_eq in E1.
      apply str_eqb_eq in E2, E3. destruct ws as [|w2 [|w3 [|]]]; try discriminate. unfold nth_tok in E2, E3. cbn [nth] in E2, E3. subst. eauto. }
    destruct (str_eqb (nth_tok (w :: ws) 0) (L "element")); reflexivity. }
  rewrite E. apply IH. intros; apply H; right; auto.
Qed.
Lemma header_props n rest pls names : Forall2 declares pls names -> forall props,
  read_loop zero scan (pls ++ rest) (mkRS false true props n 0 []) = read_loop zero scan rest (mkRS false true (props ++ map column names) n 0 []).
Proof.
  induction 1 as [|l nm pls names [ty Hd] HF IH]; intro props; cbn [app map]; [rewrite app_nil_r; reflexivity|].
  assert (Ne : l <> L "end_header") by (intros ->; discriminate).
  rewrite (read_header_line l (pls ++ rest) (mkRS false true props n 0 []) (L "property") [ty; nm] (mkRS false true (props ++ [column nm]) n 0 []) Hd eq_refl).
  - rewrite IH. rewrite <- app_assoc. reflexivity.
  - unfold header_line. rewrite (proj2 (str_eqb_neq l _)) by auto. cbn [nth_tok nth length Nat.eqb].
    change (str_eqb (L "property") (L "element")) with false. change (str_eqb (L "property") (L "property")) with true.
    cbn [andb rs_parsing rs_props rs_num rs_count rs_map]. reflexivity.
Qed.
Lemma any_columns text pre vl n pls names post data : lines_of text = pre ++ vl :: pls ++ post ++ L "end_header" :: data ->
  0 <= n < 2 ^ 32 - 1 -> words_of vl = [L "element"; L "vertex"; dec n] ->
  (forall l, In l pre -> ~ is_vertex_decl l /\ l <> L "end_header") ->
  Forall2 declares pls names ->
  (forall l, In l post -> ~ is_vertex_decl l /\ ~ property_line l /\ l <> L "end_header") ->
  read_ply zero scan text = store_columns (map column names) 0 (firstn (Z.to_nat n + 1) (filter nonblank data)) [].
Proof.
  intros E Hn Hv Hpre Hp Hpost. unfold read_ply. rewrite E. rewrite header_lines_off by auto.
  assert (Nv : vl <> L "end_header") by (intros ->; discriminate).
  rewrite (read_header_line vl _ (mkRS false false [] 0 0 []) (L "element") [L "vertex"; dec n] (mkRS false true [] n 0 []) Hv eq_refl).
  2:{ unfold header_line. rewrite (proj2 (str_eqb_neq vl _)) by auto. cbn [nth_tok nth length Nat.eqb].
      change (str_eqb (L "element") (L "element")) with true. change (str_eqb (L "vertex") (L "vertex")) with true. change (str_eqb (L "element") (L "property")) with false.
      cbn [andb rs_parsing rs_props rs_num rs_count rs_map]. rewrite get_u32_dec by lia. reflexivity. }
  rewrite (header_props n _ pls names Hp). destruct (header_lines_skip n true ([] ++ map column names) (L "end_header" :: data) post Hpost) as (par & _ & ->).
  rewrite (read_header_line (L "end_header") data (mkRS false par ([] ++ map column names) n 0 []) (L "end_header") [] (mkRS true par ([] ++ map column names) n 0 []) eq_refl eq_refl eq_refl).
  rewrite read_data by lia. rewrite Z.sub_0_r. reflexivity.
Qed.

Lemma titles_ok t p : p <> Invalid_ -> existsb (str_eqb t) (titles p) = true <-> prop_find t prop_map = p.
Proof.
  intros N. unfold prop_map. cbn [prop_find].
  repeat match goal with |- context [if str_eqb t ?k then _ else _] => destruct (str_eqb_spec t k) as [->|?]; [destruct p; first [congruence|vm_compute; split; congruence]|] end.
  split; [|congruence]. destruct p; cbn [titles existsb]; rewrite ?orb_true_iff; intros H; exfalso; repeat match type of H with _ \/ _ => destruct H as [H|H] end; try discriminate H; apply str_eqb_eq in H; congruence.
Qed.
Lemma field_cons {V} (rd : str -> option V) p w ws n ns d : field rd p (w :: ws) (n :: ns) d =
  field rd p ws ns (if existsb (str_eqb (map to_lower n)) (titles p) then match rd w with Some v => v | None => d end else d).
Proof. reflexivity. Qed.
Lemma titles_if {V} n p (a b : V) : p <> Invalid_ -> (if existsb (str_eqb (map to_lower n)) (titles p) then a else b) = match column n with q => if (match q, p with VX, VX | VY, VY | VZ, VZ | NX, NX | NY, NY | NZ, NZ | CR, CR | CG, CG | CB, CB | INDEX, INDEX | OBSERVATIONS, OBSERVATIONS => true | _, _ => false end) then a else b end.
Proof.
  intros N. pose proof (titles_ok (map to_lower n) p N) as T. unfold column. destruct (existsb (str_eqb (map to_lower n)) (titles p)).
  - rewrite (proj1 T eq_refl). destruct p; congruence.
  - assert (prop_find (map to_lower n) prop_map <> p) as Q by (intros Q; apply T in Q; discriminate). destruct (prop_find (map to_lower n) prop_map), p; congruence.
Qed.
Arguments v_x {D}. Arguments v_y {D}. Arguments v_z {D}. Arguments v_nx {D}. Arguments v_ny {D}. Arguments v_nz {D}. Arguments v_color {D}. Arguments v_obs {D}.
Lemma set_props_fields ws : forall names (v : vert D), let r := set_props scan v ws (map column names) in
  v_id r = field reads_id INDEX ws names (v_id v) /\
  lm_of r = mkLm (field (reads_d scan) VX ws names (v_x v)) (field (reads_d scan) VY ws names (v_y v)) (field (reads_d scan) VZ ws names (v_z v))
       (field (reads_d scan) NX ws names (v_nx v)) (field (reads_d scan) NY ws names (v_ny v)) (field (reads_d scan) NZ ws names (v_nz v))
       (mkColor (field reads_byte CR ws names (c_r (v_color v))) (field reads_byte CG ws names (c_g (v_color v))) (field reads_byte CB ws names (c_b (v_color v))))
       (field reads_count OBSERVATIONS ws names (v_obs v)).
Proof.
  induction ws as [|w ws IH]; intros names v; [destruct v as [? ? ? ? ? ? [? ? ?] ? ?]; split; reflexivity|].
  destruct names as [|n names]; [destruct v as [? ? ? ? ? ? [? ? ?] ? ?]; split; reflexivity|].
  cbn [map]. rewrite set_props_cons. cbv zeta. rewrite !field_cons, !titles_if by discriminate. destruct (IH names (set_prop scan v (column n) w)) as [E1 E2]. rewrite E1, E2. clear IH E1 E2.
  destruct v as [x y z nx ny nz [r g b] id obs].
  destruct (column n); cbn [set_prop v_x v_y v_z v_nx v_ny v_nz v_color v_id v_obs c_r c_g c_b]; unfold reads_d, reads_id, reads_count, reads_byte, get_d, get_i64, get_u32, get_i32, uchar; split; try reflexivity.
  all: try (destruct (extract_d scan (open_str w)) as [[?|] ?]; reflexivity).
  all: try (destruct (extract_i64 (open_str w)) as [[?|] ?]; reflexivity).
  all: try (destruct (extract_u32 (open_str w)) as [[?|] ?]; reflexivity).
  all: try (destruct (extract_i32 (open_str w)) as [[?|] ?]; reflexivity).
Qed.
Lemma store_same names ls : forall i m, store_columns (map column names) i ls m = store_vertices zero scan names i ls m.
Proof.
  induction ls as [|l ls IH]; intros i m; [reflexivity|]. cbn [PlyProofs.store_columns store_vertices]. destruct (set_props_fields (words_of l) names (vert0 zero i)) as [E1 E2]. cbv zeta in E1, E2. cbv zeta. rewrite E1, E2. apply IH.
Qed.
Lemma any_file text pre vl n pls names post data : lines_of text = pre ++ vl :: pls ++ post ++ L "end_header" :: data ->
  0 <= n < 2 ^ 32 - 1 -> words_of vl = [L "element"; L "vertex"; dec n] ->
  (forall l, In l pre -> ~ is_vertex_decl l /\ l <> L "end_header") ->
  Forall2 declares pls names ->
  (forall l, In l post -> ~ is_vertex_decl l /\ ~ property_line l /\ l <> L "end_header") ->
  read_ply zero scan text = store_vertices zero scan names 0 (firstn (Z.to_nat n + 1) (filter nonblank data)) [].
Proof. intros. rewrite <- store_same. eapply any_columns; eassumption. Qed.
End Ply.
