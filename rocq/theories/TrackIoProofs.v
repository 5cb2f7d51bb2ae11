(** Proofs about track files. *)
From Coq Require Import List ZArith Lia Bool.
Import ListNotations.
From Verif Require Import Base Numbers Stream ParserModel DocProofs TrackModel TrackSpec TrackProofs TrackIoModel TrackIoSpec.
Local Open Scope Z_scope.

Section Io.
Variable D : Type.
Variables (show : D -> str) (scan : str -> D * bool * str) (good : D -> Prop) (round : D -> D).
Hypothesis NF : number_format show scan good round.

Lemma extract_d_show sp d r : good d -> forallb is_space sp = true -> ends r -> extract_d scan (open_str (sp ++ show d ++ r)) = (Some (round d), open_str r).
Proof.
  intros G Hs Hr. destruct (NF d G) as [W S]. unfold extract_d, open_str. cbn [s_fail s_rest]. rewrite (skip_word sp (show d) r Hs W).
  specialize (S r Hr). destruct (word_head _ W) as (c & t & E & _). rewrite E in *. cbn [app] in *. rewrite S. reflexivity.
Qed.
Lemma repeat_space n : forallb is_space (repeat " "%char n) = true.
Proof. induction n; cbn; auto. Qed.
Lemma ends_blank r : ends (L " " ++ r).
Proof. reflexivity. Qed.
Lemma i32_byte sp z r : forallb is_space sp = true -> ends r -> byte z -> extract_i32 (open_str (sp ++ dec z ++ r)) = (Some z, open_str r).
Proof. unfold byte. intros. apply extract_int_dec; auto. lia. Qed.
Lemma uchar_byte z : byte z -> uchar z = z.
Proof. unfold byte, uchar. intro. apply Z.mod_small. lia. Qed.
Lemma extract_color_text sp c : forallb is_space sp = true -> good_color c -> extract_color (open_str (sp ++ color_text c)) = (c, open_str []).
Proof.
  intros Hs (A & B & C). unfold extract_color, color_text. rewrite (i32_byte sp) by (auto; reflexivity).
  rewrite (i32_byte (L " ")) by (auto; reflexivity).
  pose proof (i32_byte (L " ") (c_b c) [] eq_refl I C) as E. rewrite app_nil_r in E. rewrite E.
  cbn [or_else]. rewrite !uchar_byte by auto. destruct c. reflexivity.
Qed.
Definition read_back (f : feature D) : rfeature D :=
  mkR (round (f_x f)) (round (f_y f)) (Some (round (f_mag f))) (Some (round (f_scale f))) (Some (round (f_angle f))) (f_color f).
Lemma extract_feature_text f : good_feature good f -> extract_feature scan (open_str (L " " ++ feature_text show f)) = Some (read_back f, open_str []).
Proof.
  intros (G1 & G2 & G3 & G4 & G5 & G6). unfold extract_feature, feature_text, row_text, pad. cbv zeta.
  set (w := Nat.max _ _). rewrite <- !app_assoc. rewrite (app_assoc (L " ") (repeat " "%char (w - length (show (f_x f))))).
  rewrite (extract_d_show _ (f_x f)); auto; [|rewrite forallb_app, repeat_space; reflexivity|reflexivity]. cbn [s_fail open_str].
  rewrite (app_assoc (L " ") (repeat " "%char (w - length (show (f_y f))))). fold (open_str ((L " " ++ repeat " "%char (w - length (show (f_y f)))) ++
     show (f_y f) ++ L " " ++ show (f_mag f) ++ L " " ++ show (f_scale f) ++ L " " ++ show (f_angle f) ++ L " " ++ color_text (f_color f))).
  rewrite (extract_d_show _ (f_y f)); auto; [|rewrite forallb_app, repeat_space; reflexivity|reflexivity]. cbn [s_fail open_str].
  fold (open_str (L " " ++ show (f_mag f) ++ L " " ++ show (f_scale f) ++ L " " ++ show (f_angle f) ++ L " " ++ color_text (f_color f))).
  rewrite (extract_d_show (L " ") (f_mag f)); auto; [|reflexivity].
  rewrite (extract_d_show (L " ") (f_scale f)); auto; [|reflexivity].
  rewrite (extract_d_show (L " ") (f_angle f)); auto; [|reflexivity].
  rewrite extract_color_text by auto. reflexivity.
Qed.
(** The text of a line, without its end. *)
Definition line (id : Z) (fr : Z) (f : feature D) : str := dec id ++ L " " ++ dec fr ++ L " " ++ feature_text show f.
Lemma extract_line id fr f : int64 id -> int64 fr -> good_feature good f ->
  exists s1, extract_i64 (open_str (line id fr f)) = (Some id, s1) /\ exists s2, extract_i64 s1 = (Some fr, s2) /\ extract_feature scan s2 = Some (read_back f, open_str []).
Proof.
  unfold int64, line. intros Hi Hf G. exists (open_str (L " " ++ dec fr ++ L " " ++ feature_text show f)). split.
  - unfold extract_i64. change (dec id ++ L " " ++ dec fr ++ L " " ++ feature_text show f) with ([] ++ dec id ++ L " " ++ dec fr ++ L " " ++ feature_text show f).
    apply extract_int_dec; auto; [reflexivity|lia].
  - exists (open_str (L " " ++ feature_text show f)). split.
    + unfold extract_i64. apply extract_int_dec; auto; [reflexivity|lia].
    + apply extract_feature_text; auto.
Qed.
Lemma word_no_nl w : word w -> ~ In "010"%char w.
Proof. intros [_ F] H. rewrite forallb_forall in F. specialize (F _ H). discriminate. Qed.
Lemma nl_app a b : ~ In "010"%char a -> ~ In "010"%char b -> ~ In "010"%char (a ++ b).
Proof. rewrite in_app_iff. tauto. Qed.
Lemma nl_repeat n : ~ In "010"%char (repeat " "%char n).
Proof. intro H. apply repeat_spec in H. discriminate. Qed.
Lemma nl_blank : ~ In "010"%char (L " ").
Proof. intros [H|[]]. discriminate. Qed.
Lemma line_no_nl id fr f : good_feature good f -> ~ In "010"%char (line id fr f).
Proof.
  intros (G1 & G2 & G3 & G4 & G5 & G6). unfold line, feature_text, row_text, color_text, pad. cbv zeta.
  repeat apply nl_app; try apply nl_blank; try apply nl_repeat; try (apply word_no_nl; apply dec_word); apply word_no_nl; apply NF; auto.
Qed.
Lemma track_text_lines id h : (forall s, In s h -> exists f, snd s = Some f /\ good_feature good f) ->
  exists fs, map snd h = map Some fs /\ Forall (good_feature good) fs /\
  track_text show id h = Some (concat (map (fun p => line id (frame_of (fst p)) (snd p) ++ ["010"%char]) (combine h fs))).
Proof.
  induction h as [|s h IH]; intro H.
  - exists []. cbn. auto.
  - destruct IH as (fs & E1 & E2 & E3); [intros; apply H; right; auto|]. destruct (H s (or_introl eq_refl)) as (f & Ef & Gf).
    exists (f :: fs). cbn [map]. rewrite Ef, E1. split; auto. split; auto. cbn [track_text]. unfold state_line. rewrite Ef, E3.
    cbn [combine map concat fst snd]. unfold line. rewrite <- !app_assoc. reflexivity.
Qed.
Definition conv_state (p : state (option (feature D)) * feature D) : state (rfeature D) := (frame_of (fst p), read_back (snd p)).
(** Reading the rest of a track whose first states are there already. *)
Lemma read_rest id : forall h fs h1 tracks tmap rest, int64 id -> length h = length fs -> (forall s, In s h -> int64 (frame_of s)) -> Forall (good_feature good) fs ->
  m_find Z.compare id tmap = Some (length tracks) ->
  increasing (map frame_of h1 ++ map frame_of h) ->
  read_lines scan (map (fun p => line id (frame_of (fst p)) (snd p)) (combine h fs) ++ rest) (tracks ++ [mkTrack h1 id]) tmap =
  read_lines scan rest (tracks ++ [mkTrack (h1 ++ map conv_state (combine h fs)) id]) tmap.
Proof.
  induction h as [|s h IH]; intros [|f fs] h1 tracks tmap rest Hid HL Hi HG HM HO; cbn in HL; try discriminate.
  - cbn [combine map app]. rewrite app_nil_r. auto.
  - cbn [combine map app fst snd]. inversion HG as [|? ? G1 G2]. subst. cbn [read_lines].
    destruct (extract_line id (frame_of s) f Hid (Hi s (or_introl eq_refl)) G1) as (s1 & E1 & s2 & E2 & E3).
    rewrite E1, E2, E3, HM. rewrite nth_error_app2, Nat.sub_diag by lia. cbn [nth_error].
    assert (HA : append_state (mkTrack h1 id) (frame_of s, read_back f) = (mkTrack (h1 ++ [(frame_of s, read_back f)]) id, true)).
    { destruct (append_state_spec (mkTrack h1 id) (frame_of s, read_back f)) as (A & B & C).
      - unfold frames. cbn [t_history]. apply sorted_app_inv in HO. apply HO.
      - destruct (snd (append_state (mkTrack h1 id) (frame_of s, read_back f))) eqn:E.
        + destruct (B eq_refl) as (B1 & B2 & _). destruct (append_state (mkTrack h1 id) (frame_of s, read_back f)) as [[hh ii] ok]. cbn in *. subst. auto.
        + exfalso. assert (false = true); [|discriminate]. apply A. unfold frames. cbn [t_history frame_of fst]. intros g Hg.
          apply sorted_app_inv in HO as (_ & _ & HX). apply HX; auto. left; auto. }
    rewrite HA. cbn [fst].
    assert (HU : lupd (tracks ++ [mkTrack h1 id]) (length tracks) (mkTrack (h1 ++ [(frame_of s, read_back f)]) id) = tracks ++ [mkTrack (h1 ++ [(frame_of s, read_back f)]) id]).
    { clear. induction tracks; cbn; congruence. }
    rewrite HU. rewrite (IH fs (h1 ++ [(frame_of s, read_back f)]) tracks tmap rest); auto.
    + rewrite <- app_assoc. reflexivity.
    + intros; apply Hi; right; auto.
    + rewrite map_app, <- app_assoc. cbn [map app frame_of fst]. exact HO.
Qed.
Lemma read_track id h fs tracks tmap rest : h <> [] -> int64 id -> length h = length fs -> (forall s, In s h -> int64 (frame_of s)) -> Forall (good_feature good) fs ->
  m_find Z.compare id tmap = None -> increasing (map frame_of h) ->
  read_lines scan (map (fun p => line id (frame_of (fst p)) (snd p)) (combine h fs) ++ rest) tracks tmap =
  read_lines scan rest (tracks ++ [mkTrack (map conv_state (combine h fs)) id]) (m_set Z.compare id (length tracks) tmap).
Proof.
  intros Hne Hid HL Hi HG HM HO. destruct h as [|s h]; [congruence|]. destruct fs as [|f fs]; [discriminate|].
  cbn [combine map app fst snd]. inversion HG as [|? ? G1 G2]. subst. cbn [read_lines].
  destruct (extract_line id (frame_of s) f Hid (Hi s (or_introl eq_refl)) G1) as (s1 & E1 & s2 & E2 & E3).
  rewrite E1, E2, E3, HM. rewrite nth_error_app2, Nat.sub_diag by lia. cbn [nth_error].
  assert (HA : fst (append_state (mkTrack [] id) (frame_of s, read_back f)) = mkTrack [(frame_of s, read_back f)] id) by reflexivity.
  rewrite HA.
  assert (HU : lupd (tracks ++ [mkTrack [] id]) (length tracks) (mkTrack [(frame_of s, read_back f)] id) = tracks ++ [mkTrack [(frame_of s, read_back f)] id]).
  { clear. induction tracks; cbn; congruence. }
  rewrite HU. cbn in HL. rewrite (read_rest id h fs [(frame_of s, read_back f)]); auto.
  - intros; apply Hi; right; auto.
  - apply (m_find_set_eq Z.compare Zcmp_eq).
Qed.
Lemma tracks_lines ts : (forall t, In t ts -> writable good t) -> exists fss, Forall2 (fun t fs => map snd (t_history t) = map Some fs /\ Forall (good_feature good) fs) ts fss /\
  exists text, tracks_text show ts = Some text /\
  lines_of text = concat (map (fun q => map (fun p => line (t_id (fst q)) (frame_of (fst p)) (snd p)) (combine (t_history (fst q)) (snd q))) (combine ts fss)).
Proof.
  intro H.
  assert (G : exists fss, Forall2 (fun t fs => map snd (t_history t) = map Some fs /\ Forall (good_feature good) fs) ts fss /\
    tracks_text show ts = Some (concat (map (fun l => l ++ ["010"%char])
      (concat (map (fun q => map (fun p => line (t_id (fst q)) (frame_of (fst p)) (snd p)) (combine (t_history (fst q)) (snd q))) (combine ts fss)))))).
  { induction ts as [|t ts IH].
    - exists []. split; [constructor|reflexivity].
    - destruct IH as (fss & A & B); [intros; apply H; right; auto|]. destruct (H t (or_introl eq_refl)) as (_ & _ & Hs).
      destruct (track_text_lines (t_id t) (t_history t)) as (fs & E1 & E2 & E3); [intros s Hin; apply Hs; auto|].
      exists (fs :: fss). split; [constructor; auto|]. cbn [tracks_text combine map concat fst snd]. rewrite E3, B. rewrite map_app, concat_app, map_map. reflexivity. }
  destruct G as (fss & A & B). exists fss. split; auto. eexists. split; [exact B|].
  assert (X : forall ls : list str, (forall l, In l ls -> ~ In "010"%char l) -> lines_of (concat (map (fun l => l ++ ["010"%char]) ls)) = ls).
  { induction ls as [|l ls IH]; intro HL; auto. cbn [map concat]. rewrite <- app_assoc. cbn [app]. rewrite lines_of_line by (apply HL; left; auto).
    rewrite IH; auto. intros; apply HL; right; auto. }
  apply X. clear B. intros l Hl. apply in_concat in Hl as (ll & Hll & Hin). apply in_map_iff in Hll as ([t fs] & <- & Hq). cbn [fst snd] in Hin.
  apply in_map_iff in Hin as ([s f] & <- & Hp). apply line_no_nl. cbn [snd].
  assert (Hfs : In fs fss) by (eapply in_combine_r; eauto). assert (Hf : In f fs) by (eapply in_combine_r; eauto).
  clear -A Hfs Hf. induction A as [|t fs' ts fss [_ HF] A IH]; [destruct Hfs|]. destruct Hfs as [->|Hfs]; auto. rewrite Forall_forall in HF. auto.
Qed.
Lemma same_states h fs : map snd h = map Some fs -> Forall2 (same_state round) h (map conv_state (combine h fs)).
Proof.
  revert fs. induction h as [|s h IH]; intros [|f fs] E; cbn [map] in E; try discriminate; [constructor|]. injection E as E1 E2.
  cbn [combine map]. constructor; auto. split; [reflexivity|]. exists f. auto.
Qed.
Lemma read_all ts fss : Forall2 (fun t fs => map snd (t_history t) = map Some fs /\ Forall (good_feature good) fs) ts fss ->
  (forall t, In t ts -> writable good t /\ increasing (frames t)) -> NoDup (map t_id ts) ->
  forall tracks tmap, (forall t, In t ts -> m_find Z.compare (t_id t) tmap = None) ->
  exists ts', read_lines scan (concat (map (fun q => map (fun p => line (t_id (fst q)) (frame_of (fst p)) (snd p)) (combine (t_history (fst q)) (snd q))) (combine ts fss))) tracks tmap
    = Tracks (tracks ++ ts') /\ Forall2 (same_track round) ts ts'.
Proof.
  induction 1 as [|t fs ts fss [E1 E2] HF IH]; intros HW HN tracks tmap HM.
  - exists []. cbn. rewrite app_nil_r. auto.
  - cbn [combine map concat fst snd]. destruct (HW t (or_introl eq_refl)) as [(Hne & Hid & Hs) HO]. inversion HN as [|? ? N1 N2]. subst.
    rewrite read_track; auto.
    + destruct (IH) with (tracks := tracks ++ [mkTrack (map conv_state (combine (t_history t) fs)) (t_id t)]) (tmap := m_set Z.compare (t_id t) (length tracks) tmap) as (ts' & R & F); auto.
      * intros; apply HW; right; auto.
      * intros u Hu. rewrite (m_find_set_ne Z.compare Zcmp_eq Zcmp_antisym Zcmp_trans) || rewrite m_find_set_ne; try (intros; apply Zcmp_eq || apply Zcmp_antisym || eapply Zcmp_trans; eauto).
        -- apply HM. right; auto.
        -- intro E. apply N1. rewrite <- E. apply in_map; auto.
      * eexists. split; [rewrite R, <- app_assoc; reflexivity|]. cbn [app]. constructor; auto. split; auto. cbn [t_history]. apply same_states; auto.
    + apply (f_equal (@length _)) in E1. rewrite !map_length in E1. auto.
    + intros s Hin. apply Hs; auto.
    + apply HM. left; auto.
Qed.
Lemma track_file_lemma ts : ts <> [] -> (forall t, In t ts -> treachable t) -> NoDup (map t_id ts) -> (forall t, In t ts -> writable good t) ->
  exists text ts', write_tracks show ts = Written text /\ read_tracks scan text = Tracks ts' /\ Forall2 (same_track round) ts ts'.
Proof.
  intros Hne HR HN HW. destruct (tracks_lines ts HW) as (fss & A & text & E1 & E2).
  destruct (read_all ts fss A) with (tracks := @nil (track (rfeature D))) (tmap := @nil (Z * nat)) as (ts' & R & F); auto.
  { intros t Ht. split; auto. apply treachable_increasing; auto. }
  exists text, ts'. split; [unfold write_tracks; rewrite E1; destruct ts; congruence|]. split; auto. unfold read_tracks. rewrite E2, R. auto.
Qed.
End Io.
