(** PyToolProps2.v -- C110: runs of the feature tracking tool. *)
From Coq Require Import Ascii ZArith List Bool Arith Lia.
Import ListNotations.
From Verif Require Import Base ConfigModel RegexModel PyConfModel PyPathModel PyPathProps PyToolModel PyToolProps.

Section Runs.
Variables img tset : Type.
Notation event := (event img tset).
Notation ELoad := (ELoad img tset). Notation EConvert := (EConvert img tset). Notation ETrack := (ETrack img tset).
Variable o : oracle img tset.
Variable rf : refusals.
Variable empty_set : tset.
Variable tracks_text : tset -> option str.

(** ---- what a run is ---- *)
(** One frame done: the image loaded and converted, its mask too if there is
    one, and the tracks so far extended with them. *)
Inductive done (prev : tset) (i : nat) : str * option str -> tset -> list event -> Prop :=
| done_plain p a b ts : done prev i (p, None) ts [ELoad p (Some a); EConvert a (Some b); ETrack prev i b None (Some ts)]
| done_mask p mp a b c d ts : done prev i (p, Some mp) ts
    [ELoad p (Some a); EConvert a (Some b); ELoad mp (Some c); EConvert c (Some d); ETrack prev i b (Some d) (Some ts)].
(** A frame at which an algorithm raised: nothing more is asked. *)
Inductive broken (prev : tset) (i : nat) : str * option str -> list event -> Prop :=
| br_load p m : broken prev i (p, m) [ELoad p None]
| br_conv p m a : broken prev i (p, m) [ELoad p (Some a); EConvert a None]
| br_mload p mp a b : broken prev i (p, Some mp) [ELoad p (Some a); EConvert a (Some b); ELoad mp None]
| br_mconv p mp a b c : broken prev i (p, Some mp) [ELoad p (Some a); EConvert a (Some b); ELoad mp (Some c); EConvert c None]
| br_track p a b : broken prev i (p, None) [ELoad p (Some a); EConvert a (Some b); ETrack prev i b None None]
| br_mtrack p mp a b c d : broken prev i (p, Some mp)
    [ELoad p (Some a); EConvert a (Some b); ELoad mp (Some c); EConvert c (Some d); ETrack prev i b (Some d) None].
(** All frames in order, numbered from [i], each with the tracks of the one before. *)
Inductive ran : nat -> tset -> list (str * option str) -> list event -> option tset -> Prop :=
| ran_end i ts : ran i ts [] [] (Some ts)
| ran_frame i ts f l ts' e es r : done ts i f ts' e -> ran (S i) ts' l es r -> ran i ts (f :: l) (e ++ es) r
| ran_stop i ts f l e : broken ts i f e -> ran i ts (f :: l) e None.
(** Every answer is the algorithm's. *)
Definition answered (h : list event) (e : event) : Prop :=
  match e with
  | PyToolModel.ELoad _ _ p r => r = o_load _ _ o h p
  | PyToolModel.EConvert _ _ i r => r = o_convert _ _ o h i
  | PyToolModel.ETrack _ _ ts n i m r => r = o_track _ _ o h ts n i m
  end.
Definition honest (h es : list event) : Prop := forall a e b, es = a ++ e :: b -> answered (h ++ a) e.

Lemma honest_cons h e es : answered h e -> honest (h ++ [e]) es -> honest h (e :: es).
Proof.
  intros H1 H2 a x b E. destruct a as [|y a]; cbn in E; injection E as -> E; [rewrite app_nil_r; exact H1|].
  subst es. specialize (H2 a x b eq_refl). rewrite <- app_assoc in H2. exact H2.
Qed.
Lemma honest_nil h : honest h []. Proof. intros [|y a] x b E; discriminate. Qed.
Lemma honest_app h a b : honest h a -> honest (h ++ a) b -> honest h (a ++ b).
Proof.
  revert h. induction a as [|x a IH]; intros h H1 H2; cbn [app]; [rewrite app_nil_r in H2; exact H2|].
  apply honest_cons; [specialize (H1 [] x a eq_refl); rewrite app_nil_r in H1; exact H1|]. apply IH.
  - intros u y v E. specialize (H1 (x :: u) y v). cbn in H1. rewrite E in H1. specialize (H1 eq_refl). rewrite <- app_assoc. exact H1.
  - rewrite <- app_assoc. exact H2.
Qed.
Lemma frames_ran l : forall h i ts, exists es, fst (frames img tset o h i ts l) = h ++ es /\ ran i ts l es (snd (frames img tset o h i ts l)) /\ honest h es.
Proof.
  induction l as [|[p mask] l IH]; intros h i ts; cbn [frames].
  { exists []. rewrite app_nil_r. split; [reflexivity|]. split; [constructor|apply honest_nil]. }
  destruct (o_load _ _ o h p) as [a|] eqn:E1; [|exists [ELoad p None]; split; [reflexivity|split; [apply ran_stop; constructor|apply honest_cons; [symmetry; exact E1|apply honest_nil]]]].
  destruct (o_convert _ _ o (h ++ [ELoad p (Some a)]) a) as [b|] eqn:E2.
  2: { exists [ELoad p (Some a); EConvert a None]. split; [cbn [fst]; rewrite <- app_assoc; reflexivity|]. split; [apply ran_stop; constructor|]. repeat (apply honest_cons; [symmetry; assumption|]). apply honest_nil. }
  destruct mask as [mp|].
  - destruct (o_load _ _ o ((h ++ [ELoad p (Some a)]) ++ [EConvert a (Some b)]) mp) as [c|] eqn:E3.
    2: { eexists. split; [cbn [fst]; rewrite <- !app_assoc; reflexivity|]. cbn [app snd]. split; [apply ran_stop; constructor|]. repeat (apply honest_cons; [symmetry; assumption|]). apply honest_nil. }
    destruct (o_convert _ _ o (((h ++ [ELoad p (Some a)]) ++ [EConvert a (Some b)]) ++ [ELoad mp (Some c)]) c) as [d|] eqn:E4.
    2: { eexists. split; [cbn [fst]; rewrite <- !app_assoc; reflexivity|]. cbn [app snd]. split; [apply ran_stop; constructor|]. repeat (apply honest_cons; [symmetry; assumption|]). apply honest_nil. }
    destruct (o_track _ _ o ((((h ++ [ELoad p (Some a)]) ++ [EConvert a (Some b)]) ++ [ELoad mp (Some c)]) ++ [EConvert c (Some d)]) ts i b (Some d)) as [ts'|] eqn:E5.
    2: { eexists. split; [cbn [fst]; rewrite <- !app_assoc; reflexivity|]. cbn [app snd]. split; [apply ran_stop; constructor|]. repeat (apply honest_cons; [symmetry; assumption|]). apply honest_nil. }
    set (h' := (((((h ++ [ELoad p (Some a)]) ++ [EConvert a (Some b)]) ++ [ELoad mp (Some c)]) ++ [EConvert c (Some d)]) ++ [ETrack ts i b (Some d) (Some ts')])) in *.
    assert (Eh : h' = h ++ [ELoad p (Some a); EConvert a (Some b); ELoad mp (Some c); EConvert c (Some d); ETrack ts i b (Some d) (Some ts')]) by (unfold h'; rewrite <- !app_assoc; reflexivity).
    destruct (IH h' (S i) ts') as (es & H1 & H2 & H3). exists ([ELoad p (Some a); EConvert a (Some b); ELoad mp (Some c); EConvert c (Some d); ETrack ts i b (Some d) (Some ts')] ++ es).
    rewrite H1. split; [rewrite Eh, <- app_assoc; reflexivity|]. split; [eapply ran_frame; [constructor|exact H2]|].
    apply honest_app; [|rewrite <- Eh; exact H3]. repeat (apply honest_cons; [symmetry; assumption|]). apply honest_nil.
  - destruct (o_track _ _ o ((h ++ [ELoad p (Some a)]) ++ [EConvert a (Some b)]) ts i b None) as [ts'|] eqn:E5.
    2: { eexists. split; [cbn [fst]; rewrite <- !app_assoc; reflexivity|]. cbn [app snd]. split; [apply ran_stop; constructor|]. repeat (apply honest_cons; [symmetry; assumption|]). apply honest_nil. }
    set (h' := (((h ++ [ELoad p (Some a)]) ++ [EConvert a (Some b)]) ++ [ETrack ts i b None (Some ts')])) in *.
    assert (Eh : h' = h ++ [ELoad p (Some a); EConvert a (Some b); ETrack ts i b None (Some ts')]) by (unfold h'; rewrite <- !app_assoc; reflexivity).
    destruct (IH h' (S i) ts') as (es & H1 & H2 & H3). exists ([ELoad p (Some a); EConvert a (Some b); ETrack ts i b None (Some ts')] ++ es).
    rewrite H1. split; [rewrite Eh, <- app_assoc; reflexivity|]. split; [eapply ran_frame; [constructor|exact H2]|].
    apply honest_app; [|rewrite <- Eh; exact H3]. repeat (apply honest_cons; [symmetry; assumption|]). apply honest_nil.
Qed.

(** ---- track_images ---- *)
Notation run := (track_images img tset o rf empty_set tracks_text).
(** The text of a file that may be read. *)
Definition readable (w : fs) (p text : str) : Prop := sfind p w = Some (File text) /\ r_read rf p = false.
(** The lists: image names, and the mask name of each. *)
Definition lists (w : fs) (t : tool) (names : list str) (masks : list (option str)) : Prop :=
  exists text, readable w (or_empty (t_images t)) text /\ names = read_list text /\
  ((or_empty (t_masks t) = [] /\ masks = map (fun _ => None) names) \/
   (or_empty (t_masks t) <> [] /\ exists mt, readable w (or_empty (t_masks t)) mt /\ masks = map Some (read_list mt) /\ length masks = length names)).
(** The output file made, its directory with it if it was missing. *)
Definition prepared (w w' : fs) (out : str) : Prop :=
  w' = sset out (File []) w \/ (sfind (py_dirname out) w = None /\ w' = sset out (File []) (sset (py_dirname out) Dir w)).
Lemma open_read_iff w p text : open_read rf w p = Some text <-> readable w p text.
Proof.
  unfold open_read, readable. destruct (sfind p w) as [[t|]|]; try (split; [discriminate|intros [H _]; discriminate]).
  destruct (r_read rf p); split; try discriminate; [intros [_ H]; discriminate|intro H; injection H as <-; auto|intros [H _]; congruence].
Qed.
Lemma given_none p : given p = None <-> or_empty p = [].
Proof. destruct p as [[|x s]|]; cbn; split; congruence. Qed.
Lemma given_some p m : given p = Some m -> or_empty p = m /\ m <> [].
Proof. destruct p as [[|x s]|]; cbn; try discriminate. intro H; injection H as <-. split; [reflexivity|discriminate]. Qed.
(** Five ways a run ends. *)
Theorem C110_run w h t : t_out t <> None ->
  let out := or_empty (t_out t) in
  match run w h t with
  | (w', h', ReturnsNone) =>                          (* all frames done, tracks written *)
      exists names masks w1 es ts text, lists w t names masks /\ prepared w w1 out /\ h' = h ++ es /\ ran 0 empty_set (combine names masks) es (Some ts) /\ honest h es /\
        tracks_text ts = Some text /\ w' = sset out (File text) w1
  | (w', h', ReturnsFalse) => w' = w /\ h' = h        (* lists of different lengths *)
  | (w', h', Raises) =>
      h' = h /\ (w' = w \/ sfind (py_dirname out) w = None /\ w' = sset (py_dirname out) Dir w) \/
      exists names masks es r, lists w t names masks /\ prepared w w' out /\ h' = h ++ es /\ ran 0 empty_set (combine names masks) es r /\ honest h es /\
        match r with None => True | Some ts => tracks_text ts = None end
  end.
Proof.
  intro Ho. cbv zeta. unfold track_images. destruct (t_out t) as [out|] eqn:Eo; [|congruence]. clear Ho. cbn [or_empty].
  destruct (open_read rf w (or_empty (t_images t))) as [text|] eqn:E1; [|left; auto]. apply open_read_iff in E1. cbv zeta.
  assert (Go : forall masks, (match masks with Some ms => or_empty (t_masks t) <> [] /\ exists mt, readable w (or_empty (t_masks t)) mt /\ ms = read_list mt /\ length ms = length (read_list text) | None => or_empty (t_masks t) = [] end) ->
    match (match (if is_dir w (py_dirname out) then Some w else if r_mkdir rf (py_dirname out) || shas (py_dirname out) w || negb (is_dir w (py_dirname (py_dirname out))) then None else Some (sset (py_dirname out) Dir w)) with
           | None => (w, h, Raises)
           | Some w => if r_write rf out || is_dir w out then (w, h, Raises) else
             match frames img tset o h 0 empty_set (combine (read_list text) (match masks with Some ((_ :: _) as ms) => map Some ms | _ => map (fun _ => None) (read_list text) end)) with
             | (h, None) => (sset out (File []) w, h, Raises)
             | (h, Some ts) => match tracks_text ts with None => (sset out (File []) w, h, Raises) | Some text => (sset out (File text) (sset out (File []) w), h, ReturnsNone) end
             end
           end) with
    | (w', h', ReturnsNone) =>
      exists names masks w1 es ts text, lists w t names masks /\ prepared w w1 out /\ h' = h ++ es /\ ran 0 empty_set (combine names masks) es (Some ts) /\ honest h es /\
        tracks_text ts = Some text /\ w' = sset out (File text) w1
    | (w', h', ReturnsFalse) => w' = w /\ h' = h
    | (w', h', Raises) =>
      h' = h /\ (w' = w \/ sfind (py_dirname out) w = None /\ w' = sset (py_dirname out) Dir w) \/
      exists names masks es r, lists w t names masks /\ prepared w w' out /\ h' = h ++ es /\ ran 0 empty_set (combine names masks) es r /\ honest h es /\
        match r with None => True | Some ts => tracks_text ts = None end
    end).
  { intros masks HM. set (mp := match masks with Some ((_ :: _) as ms) => map Some ms | _ => map (fun _ => None) (read_list text) end).
    assert (HL : lists w t (read_list text) mp).
    { exists text. split; [exact E1|]. split; [reflexivity|]. unfold mp. destruct masks as [ms|]; [right|left; auto]. destruct HM as (N & mt & R & Em & Ln). split; [exact N|]. exists mt. split; [exact R|].
      destruct ms as [|m ms]; [|rewrite <- Em; rewrite map_length; auto]. destruct (read_list text); [|discriminate]. rewrite <- Em. auto. }
    assert (HP : forall w1, (w1 = w \/ sfind (py_dirname out) w = None /\ w1 = sset (py_dirname out) Dir w) ->
      match (if r_write rf out || is_dir w1 out then (w1, h, Raises) else
             match frames img tset o h 0 empty_set (combine (read_list text) mp) with
             | (h, None) => (sset out (File []) w1, h, Raises)
             | (h, Some ts) => match tracks_text ts with None => (sset out (File []) w1, h, Raises) | Some text => (sset out (File text) (sset out (File []) w1), h, ReturnsNone) end
             end) with
    | (w', h', ReturnsNone) =>
      exists names masks w1 es ts text, lists w t names masks /\ prepared w w1 out /\ h' = h ++ es /\ ran 0 empty_set (combine names masks) es (Some ts) /\ honest h es /\
        tracks_text ts = Some text /\ w' = sset out (File text) w1
    | (w', h', ReturnsFalse) => w' = w /\ h' = h
    | (w', h', Raises) =>
      h' = h /\ (w' = w \/ sfind (py_dirname out) w = None /\ w' = sset (py_dirname out) Dir w) \/
      exists names masks es r, lists w t names masks /\ prepared w w' out /\ h' = h ++ es /\ ran 0 empty_set (combine names masks) es r /\ honest h es /\
        match r with None => True | Some ts => tracks_text ts = None end
    end).
    { intros w1 Hw. destruct (r_write rf out || is_dir w1 out); [left; auto|].
      assert (Pw : prepared w (sset out (File []) w1) out) by (destruct Hw as [->|[N ->]]; [left; reflexivity|right; auto]).
      destruct (frames_ran (combine (read_list text) mp) h 0 empty_set) as (es & F1 & F2 & F3). destruct (frames img tset o h 0 empty_set (combine (read_list text) mp)) as [h' r]. cbn [fst snd] in *.
      destruct r as [ts|].
      - destruct (tracks_text ts) as [tx|] eqn:Et.
        + exists (read_list text), mp, (sset out (File []) w1), es, ts, tx. repeat split; auto.
        + right. exists (read_list text), mp, es, (Some ts). repeat split; auto.
      - right. exists (read_list text), mp, es, None. repeat split; auto. }
    destruct (is_dir w (py_dirname out)); [apply HP; auto|].
    destruct (r_mkdir rf (py_dirname out)); cbn [orb]; [left; auto|]. unfold shas, m_has. destruct (sfind (py_dirname out) w) eqn:Ed; unfold sfind in Ed; rewrite Ed; cbn [orb]; [left; auto|].
    destruct (negb _); [left; auto|]. apply HP. right. auto. }
  destruct (given (t_masks t)) as [m|] eqn:Em.
  - apply given_some in Em. destruct Em as [Em Nm]. destruct (open_read rf w m) as [mt|] eqn:E2; [|left; auto]. apply open_read_iff in E2.
    destruct (Nat.eqb_spec (length (read_list text)) (length (read_list mt))) as [El|El]; cbn [negb]; [|auto].
    apply (Go (Some (read_list mt))). rewrite Em. split; [exact Nm|]. exists mt. auto.
  - apply given_none in Em. apply (Go None). exact Em.
Qed.
(** Files other than the output file and its directory are left alone. *)
Theorem C110_other_files w h t w' h' r p : run w h t = (w', h', r) -> t_out t <> None -> p <> or_empty (t_out t) -> p <> py_dirname (or_empty (t_out t)) -> sfind p w' = sfind p w.
Proof.
  intros E Ho N1 N2. pose proof (C110_run w h t Ho) as H. rewrite E in H. cbv zeta in H.
  assert (P : forall w1, prepared w w1 (or_empty (t_out t)) -> sfind p w1 = sfind p w) by (intros w1 [->|[_ ->]]; rewrite !sfind_set_ne by assumption; reflexivity).
  destruct r.
  - destruct H as (na & ma & w1 & es & ts & tx & _ & H1 & _ & _ & _ & _ & ->). rewrite sfind_set_ne by assumption. auto.
  - destruct H as [-> _]. reflexivity.
  - destruct H as [[_ [->|[_ ->]]]|(na & ma & es & q & _ & H & _)]; [reflexivity|apply sfind_set_ne; assumption|auto].
Qed.
(** Lists of different lengths: nothing is touched or asked. *)
Theorem C110_different_lengths w h t text mt : readable w (or_empty (t_images t)) text -> or_empty (t_masks t) <> [] -> readable w (or_empty (t_masks t)) mt -> length (read_list text) <> length (read_list mt) ->
  run w h t = (w, h, ReturnsFalse).
Proof.
  intros H1 H2 H3 H4. apply open_read_iff in H1, H3. unfold track_images. rewrite H1. destruct (given (t_masks t)) as [m|] eqn:Em; [|apply given_none in Em; contradiction].
  apply given_some in Em. destruct Em as [<- _]. rewrite H3. apply Nat.eqb_neq in H4. rewrite H4. reflexivity.
Qed.
(** The two mask options change nothing at all. *)
Theorem C110_mask_options_refuted w h im mk out i1 m1 i2 m2 : run w h (mkTool im mk i1 m1 out) = run w h (mkTool im mk i2 m2 out).
Proof. reflexivity. Qed.
(** The old tracks are lost as soon as the first image cannot be loaded, and
    also if there is nothing to track. *)
Theorem C110_old_tracks_lost_refuted w h t names masks p l old : lists w t names masks -> t_out t <> None -> sfind (or_empty (t_out t)) w = Some (File old) -> is_dir w (py_dirname (or_empty (t_out t))) = true -> r_write rf (or_empty (t_out t)) = false ->
  (names = p :: l /\ o_load _ _ o h p = None) \/ (names = [] /\ tracks_text empty_set = None) ->
  exists h', run w h t = (sset (or_empty (t_out t)) (File []) w, h', Raises).
Proof.
  intros (text & R & En & HM) Ho Hf Hd Hw Hc. apply open_read_iff in R. unfold track_images. rewrite R. destruct (t_out t) as [out|]; [|congruence]. cbn [or_empty] in *. cbv zeta. rewrite Hd.
  assert (Nd : is_dir w out = false) by (unfold is_dir; rewrite Hf; reflexivity). rewrite Hw, Nd. cbn [orb].
  assert (F : forall mp, length mp = length names -> exists h' r, frames img tset o h 0 empty_set (combine names mp) = (h', r) /\ match r with None => True | Some ts => tracks_text ts = None end).
  { intros mp Lm. destruct Hc as [[-> Hl]|[-> Hl]].
    - destruct mp as [|m mp]; [discriminate|]. cbn [combine frames]. rewrite Hl. exists (h ++ [ELoad p None]), None. auto.
    - exists h, (Some empty_set). auto. }
  rewrite <- En. destruct HM as [[Em ->]|(Em & mt & Rm & Ems & Ln)].
  - destruct (given (t_masks t)) as [m|] eqn:G; [apply given_some in G; destruct G; congruence|]. destruct (F (map (fun _ => None) names)) as (h' & r & E & Hr); [apply map_length|]. rewrite E. destruct r as [ts|]; [rewrite Hr|]; eauto.
  - destruct (given (t_masks t)) as [m|] eqn:G; [|apply given_none in G; contradiction]. apply given_some in G. destruct G as [G _]. rewrite <- G. apply open_read_iff in Rm. rewrite Rm. subst masks. rewrite map_length in Ln. rewrite Ln, Nat.eqb_refl. cbn [negb].
    destruct (F (match read_list mt with [] => map (fun _ => None) names | _ :: _ => map Some (read_list mt) end)) as (h' & r & E & Hr); [destruct (read_list mt) eqn:Q; [apply map_length|rewrite map_length; exact Ln]|].
    destruct (read_list mt) as [|q qs]; cbv beta iota in E |- *; rewrite E; destruct r as [ts|]; try rewrite Hr; eauto.
Qed.

(** ---- the program ---- *)
Variable fhome : str -> option str.
Variable cwd : str.
Notation main := (cli_main img tset o rf empty_set tracks_text fhome cwd).
Definition configured (conf : conf_arg) (t : tool) : Prop :=
  match conf with NoConf => t = tool0 | BadConf => False | Conf s x => set_configuration fhome cwd s x tool0 = PRet t end.
(** What makes a configuration good enough. *)
Definition usable (w : fs) (t : tool) (algos_ok : bool) : Prop :=
  (exists text, sfind (or_empty (t_images t)) w = Some (File text)) /\ or_empty (t_images t) <> [] /\ or_empty (t_out t) <> [] /\
  (or_empty (t_masks t) = [] \/ exists text, sfind (or_empty (t_masks t)) w = Some (File text)) /\ algos_ok = true.
Lemma is_file_iff w p : is_file w p = true <-> exists text, sfind p w = Some (File text).
Proof. unfold is_file. destruct (sfind p w) as [[t|]|]; split; try discriminate; eauto; intros [x H]; discriminate. Qed.
Lemma validate_iff w t ok : validate w t ok = true <-> usable w t ok.
Proof.
  unfold validate, usable. destruct (given (t_images t)) as [im|] eqn:E1; [|apply given_none in E1; rewrite E1; split; [discriminate|intros (_ & N & _); congruence]].
  apply given_some in E1. destruct E1 as [E1 N1]. rewrite E1. destruct (is_file w im) eqn:F1; cbn [negb]; [|split; [discriminate|intros (H & _); apply is_file_iff in H; congruence]]. apply is_file_iff in F1.
  destruct (given (t_out t)) as [ou|] eqn:E2; [|apply given_none in E2; rewrite E2; split; [discriminate|intros (_ & _ & N & _); congruence]]. apply given_some in E2. destruct E2 as [E2 N2]. rewrite E2.
  destruct (given (t_masks t)) as [m|] eqn:E3.
  - apply given_some in E3. destruct E3 as [E3 N3]. rewrite E3. destruct (is_file w m) eqn:F3; cbn [negb].
    + apply is_file_iff in F3. split; [intros ->; auto 6|intros (_ & _ & _ & _ & H); exact H].
    + split; [discriminate|]. intros (_ & _ & _ & [H|H] & _); [congruence|apply is_file_iff in H; congruence].
  - apply given_none in E3. rewrite E3. split; [intros ->; auto 6|intros (_ & _ & _ & _ & H); exact H].
Qed.
(** The exit code: 0 only when a configuration was to be written and was. *)
Theorem C110_exit_code w conf wrote ok :
  (snd (main w conf wrote ok) = 0 <-> wrote = Some true /\ exists t, configured conf t) /\
  (snd (main w conf wrote ok) = 2 <-> wrote = None /\ exists t, configured conf t /\ usable w t ok /\ exists w' h', run w [] t = (w', h', ReturnsNone) \/ run w [] t = (w', h', ReturnsFalse)) /\
  snd (main w conf wrote ok) <= 2 /\ (wrote <> None -> fst (main w conf wrote ok) = (w, [])).
Proof.
  unfold cli_main.
  assert (C : forall t, configured conf t <-> match conf with NoConf => PRet tool0 | BadConf => PRaise NullPointer | Conf s x => set_configuration fhome cwd s x tool0 end = PRet t).
  { intro t. destruct conf; cbn [configured]; split; try congruence; try contradiction. }
  destruct (match conf with NoConf => PRet tool0 | BadConf => PRaise NullPointer | Conf s x => set_configuration fhome cwd s x tool0 end) as [t| |] eqn:E.
  2, 3: cbn [fst snd]; split; [|split; [|split; [lia|auto]]]; (split; [discriminate|]); [intros [_ [t H]]|intros (_ & t & H & _)]; apply C in H; discriminate.
  assert (U : forall t', configured conf t' -> t' = t) by (intros t' H; apply C in H; congruence). assert (Ct : configured conf t) by (apply C; reflexivity).
  destruct wrote as [[]|].
  - cbn [fst snd]. split; [split; eauto|]. split; [split; [discriminate|intros [H _]; discriminate]|]. split; [lia|auto].
  - cbn [fst snd]. split; [split; [discriminate|intros [H _]; discriminate]|]. split; [split; [discriminate|intros [H _]; discriminate]|]. split; [lia|auto].
  - destruct (validate w t ok) eqn:V.
    + apply validate_iff in V. destruct (run w [] t) as [[w' h'] r] eqn:R. destruct r; cbn [fst snd];
        (split; [split; [discriminate|intros [H _]; discriminate]|]); (split; [|split; [lia|congruence]]).
      * split; [intros _; split; [reflexivity|exists t; eauto 7]|auto].
      * split; [intros _; split; [reflexivity|exists t; eauto 8]|auto].
      * split; [discriminate|]. intros (_ & t' & H1 & _ & w2 & h2 & H2). rewrite (U t' H1), R in H2. destruct H2 as [H2|H2]; discriminate.
    + cbn [fst snd]. split; [split; [discriminate|intros [H _]; discriminate]|]. split; [|split; [lia|congruence]].
      split; [discriminate|]. intros (_ & t' & H1 & H2 & _). rewrite (U t' H1) in H2. apply validate_iff in H2. congruence.
Qed.
(** So a run that did all it should says "Tracking failed". *)
Theorem C110_success_refuted w conf ok t w' h' : configured conf t -> usable w t ok -> run w [] t = (w', h', ReturnsNone) -> main w conf None ok = (w', h', 2).
Proof.
  intros Hc Hu R. unfold cli_main.
  assert (C : match conf with NoConf => PRet tool0 | BadConf => PRaise NullPointer | Conf s x => set_configuration fhome cwd s x tool0 end = PRet t) by (destruct conf; cbn in Hc; [congruence|contradiction|exact Hc]).
  rewrite C. apply validate_iff in Hu. rewrite Hu, R. reflexivity.
Qed.
End Runs.
Print Assumptions C110_run.
Print Assumptions C110_other_files.
Print Assumptions C110_different_lengths.
Print Assumptions C110_mask_options_refuted.
Print Assumptions C110_old_tracks_lost_refuted.
Print Assumptions C110_exit_code.
Print Assumptions C110_success_refuted.
(** A run: two frames with masks; the tracker counts. *)
Definition demo_oracle : oracle nat nat := mkOracle _ _ (fun _ p => Some (length p)) (fun _ i => Some (S i)) (fun h ts _ i m => Some (ts + i)).
Definition demo_fs : fs := sset (L "/l") (File (L "aa" ++ newline :: L " b ")) (sset (L "/m") (File (L "x" ++ newline :: L "y" ++ [newline])) (sset (L "/") Dir [])).
Example C110_nonvacuous :
  track_images nat nat demo_oracle (mkRef (fun _ => false) (fun _ => false) (fun _ => false)) 0 (fun n => Some (repeat "t"%char n)) demo_fs [] (mkTool (Some (L "/l")) (Some (L "/m")) false false (Some (L "/d/o"))) =
  (sset (L "/d/o") (File (L "ttttt")) (sset (L "/d") Dir demo_fs),
   [ELoad _ _ (L "aa") (Some 2); EConvert _ _ 2 (Some 3); ELoad _ _ (L "x") (Some 1); EConvert _ _ 1 (Some 2); ETrack _ _ 0 0 3 (Some 2) (Some 3);
    ELoad _ _ (L "b") (Some 1); EConvert _ _ 1 (Some 2); ELoad _ _ (L "y") (Some 1); EConvert _ _ 1 (Some 2); ETrack _ _ 3 1 2 (Some 2) (Some 5)], ReturnsNone).
Proof. vm_compute. reflexivity. Qed.
