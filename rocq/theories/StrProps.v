(** StrProps.v -- C124: the std::string helpers. *)
From Verif Require Import Base ConfigModel StrModel StrSpec.

Lemma for_set_spec f k : forall a n, length (for_set a k f n) = length n /\
  forall i, i < length n -> nth_error (for_set a k f n) i =
     if Nat.leb a i && Nat.ltb i (a + k) then match f i with Some c => Some c | None => nth_error n i end else nth_error n i.
Proof.
  induction k as [|k IH]; intros a n.
  - split; [reflexivity|]. intros i Hi. destruct (Nat.leb_spec a i); destruct (Nat.ltb_spec i (a + 0)); try lia; reflexivity.
  - unfold for_set in *. cbn [seq fold_left].
    set (n1 := match f a with Some c => lupd n a c | None => n end).
    assert (L1 : length n1 = length n) by (unfold n1; destruct (f a); [apply lupd_length|reflexivity]).
    destruct (IH (S a) n1) as [E1 E2]. split; [congruence|]. intros i Hi. rewrite E2 by lia.
    assert (N1 : nth_error n1 i = if Nat.eqb i a then match f a with Some c => Some c | None => nth_error n i end else nth_error n i).
    { unfold n1. destruct (Nat.eqb_spec i a) as [->|Hne].
      - destruct (f a); [apply nth_lupd_eq; exact Hi|reflexivity].
      - destruct (f a); [apply nth_lupd_ne; lia|reflexivity]. }
    rewrite N1.
    destruct (Nat.leb_spec a i); destruct (Nat.leb_spec (S a) i); destruct (Nat.ltb_spec i (S a + k)); destruct (Nat.ltb_spec i (a + S k));
      destruct (Nat.eqb_spec i a); cbn [andb]; try lia; subst; try reflexivity; destruct (f _); reflexivity.
Qed.

Lemma nth_error_ext {A} (l m : list A) : length l = length m -> (forall i, i < length l -> nth_error l i = nth_error m i) -> l = m.
Proof.
  revert m; induction l as [|x l IH]; intros [|y m] Hl H; try discriminate; [reflexivity|].
  pose proof (H 0 ltac:(simpl; lia)) as E. simpl in E. injection E as ->. f_equal. apply IH; [simpl in Hl; lia|].
  intros i Hi. apply (H (S i)). simpl; lia.
Qed.
Lemma chr_nth s i : i < length s -> nth_error s i = Some (chr s i).
Proof. intro H. apply nth_error_nth'. exact H. Qed.
Lemma chr_of s i c : nth_error s i = Some c -> chr s i = c.
Proof. intro H. apply nth_error_nth. exact H. Qed.

Lemma map_for f s : for_set 0 (length s) (fun i => Some (f (chr s i))) (zeros (length s)) = map f s.
Proof.
  destruct (for_set_spec (fun i => Some (f (chr s i))) (length s) 0 (zeros (length s))) as [E1 E2].
  unfold zeros in *. rewrite repeat_length in *.
  apply nth_error_ext; [rewrite map_length; exact E1|]. rewrite E1. intros i Hi. rewrite E2 by exact Hi.
  destruct (Nat.leb_spec 0 i); [|lia]. destruct (Nat.ltb_spec i (0 + length s)); [|lia]. cbn [andb].
  rewrite (map_nth_error f i s (chr_nth s i Hi)). reflexivity.
Qed.
(** LowerCase, UpperCase, Capitalized. *)
Theorem C124_case : forall s, lower_case s = map to_lower s /\ upper_case s = map to_upper s /\
  capitalized s = match s with [] => [] | c :: r => to_upper c :: map to_lower r end.
Proof.
  intro s. split; [apply map_for|]. split; [apply map_for|].
  destruct s as [|c r]; [reflexivity|]. unfold capitalized.
  set (s := c :: r). set (n0 := lupd _ _ _).
  assert (L0 : length n0 = length s) by (unfold n0, zeros; rewrite lupd_length, repeat_length; reflexivity).
  destruct (for_set_spec (fun i => Some (to_lower (chr s i))) (length s - 1) 1 n0) as [E1 E2].
  apply nth_error_ext; [rewrite E1, L0; simpl; rewrite map_length; reflexivity|]. rewrite E1, L0. intros i Hi. rewrite E2 by lia.
  destruct i as [|i].
  - reflexivity.
  - cbn [Nat.leb]. destruct (Nat.ltb_spec (S i) (1 + (length s - 1))); [|lia]. cbn [andb nth_error].
    assert (Hr : i < length r) by (unfold s in Hi; simpl in Hi; lia).
    rewrite (map_nth_error to_lower i r (chr_nth r i Hr)). reflexivity.
Qed.

Lemma word_letter_spec s i : i < length s -> (word_letter s i = true <-> starts_word s i /\ is_alpha (chr s i) = true).
Proof.
  intro Hi. unfold word_letter. rewrite andb_true_iff, orb_true_iff, Nat.eqb_eq. unfold starts_word. split.
  - intros [Ha [->|Hs]]; split; try assumption; [left; reflexivity|].
    destruct i as [|j]; [left; reflexivity|]. right. exists j, (chr s j). split; [reflexivity|].
    split; [apply chr_nth; lia|]. replace (S j - 1) with j in Hs by lia. exact Hs.
  - intros [[->|(j & c & -> & Hj & Hc)] Ha]; split; try assumption; [left; reflexivity|]. right.
    replace (S j - 1) with j by lia. rewrite (chr_of _ _ _ Hj). exact Hc.
Qed.

(** CapitalizedWords / UnCapitalizedWords: exactly the letters that start a word
    change to upper / lower case. *)
Theorem C124_words : forall s, length (capitalized_words s) = length s /\ length (uncapitalized_words s) = length s /\
  forall i c, nth_error s i = Some c ->
   (starts_word s i -> nth_error (capitalized_words s) i = Some (to_upper c) /\ nth_error (uncapitalized_words s) i = Some (to_lower c)) /\
   (~ starts_word s i -> nth_error (capitalized_words s) i = Some c /\ nth_error (uncapitalized_words s) i = Some c).
Proof.
  intro s. unfold capitalized_words, uncapitalized_words.
  destruct (for_set_spec (fun i => if word_letter s i then Some (to_upper (chr s i)) else None) (length s) 0 s) as [E1 E2].
  destruct (for_set_spec (fun i => if word_letter s i then Some (to_lower (chr s i)) else None) (length s) 0 s) as [F1 F2].
  split; [exact E1|]. split; [exact F1|]. intros i c Hc.
  assert (Hi : i < length s) by (apply nth_error_Some; congruence).
  rewrite E2, F2 by exact Hi. destruct (Nat.leb_spec 0 i); [|lia]. destruct (Nat.ltb_spec i (0 + length s)); [|lia]. cbn [andb].
  pose proof (word_letter_spec s i Hi) as W. rewrite (chr_of _ _ _ Hc) in *.
  destruct (word_letter s i).
  - destruct (proj1 W eq_refl) as [Sw Al]. split; [auto|]. intro N; contradiction.
  - split; [|auto]. intro Sw. assert (Al : is_alpha c = false) by (destruct (is_alpha c); [destruct (proj2 W); [auto|reflexivity]|reflexivity]).
    unfold is_alpha in Al. apply orb_false_iff in Al as [A1 A2]. unfold to_upper, to_lower.
    rewrite A1, A2. rewrite Hc. split; reflexivity.
Qed.

(* ---------------- AddSpaceBetweenCapitalizedWords ---------------- *)
Definition gapb (x y : ascii) : bool := is_upper y && negb (is_space x) && negb (is_upper x).
Fixpoint add_rec (x : ascii) (s : str) : str :=
  match s with
  | [] => []
  | y :: s' => (if gapb x y then [" "%char] else []) ++ y :: add_rec y s'
  end.
Lemma add_space_rec c s : add_space_between (c :: s) = c :: add_rec c s.
Proof.
  unfold add_space_between. cbn [length]. replace (S (length s) - 1) with (length s) by lia.
  assert (G : forall s pre x n, fold_left (fun n i =>
           (if is_upper (chr (pre ++ x :: s) i) && negb (is_space (chr (pre ++ x :: s) (i - 1))) && negb (is_upper (chr (pre ++ x :: s) (i - 1)))
            then n ++ [" "%char] else n) ++ [chr (pre ++ x :: s) i]) (seq (S (length pre)) (length s)) n = n ++ add_rec x s).
  { clear. induction s as [|y s IH]; intros pre x n; [simpl; rewrite app_nil_r; reflexivity|].
    cbn [length seq fold_left add_rec]. replace (S (length pre) - 1) with (length pre) by lia.
    assert (E0 : chr (pre ++ x :: y :: s) (length pre) = x) by (unfold chr; rewrite app_nth2, Nat.sub_diag by lia; reflexivity).
    assert (E1 : chr (pre ++ x :: y :: s) (S (length pre)) = y) by (unfold chr; rewrite app_nth2 by lia; replace (S (length pre) - length pre) with 1 by lia; reflexivity).
    rewrite E0, E1. change (is_upper y && negb (is_space x) && negb (is_upper x)) with (gapb x y).
    assert (El : S (S (length pre)) = S (length (pre ++ [x]))) by (rewrite app_length; simpl; lia).
    rewrite El. pose proof (IH (pre ++ [x]) y) as IH'. rewrite <- app_assoc in IH'. cbn [app] in IH'. rewrite IH'.
    destruct (gapb x y); rewrite <- !app_assoc; reflexivity. }
  exact (G s [] c [c]).
Qed.
Lemma gapb_spec x y : gapb x y = true <-> is_upper y = true /\ is_space x = false /\ is_upper x = false.
Proof. unfold gapb. rewrite !andb_true_iff, !negb_true_iff. tauto. Qed.
Lemma add_rec_spaced s : forall c, spaced (c :: s) (c :: add_rec c s).
Proof.
  induction s as [|y s IH]; intro c; [constructor|]. cbn [add_rec]. destruct (gapb c y) eqn:G; cbn [app].
  - apply gapb_spec in G as (G1 & G2 & G3). apply sp_gap; auto.
  - apply sp_same; [|apply IH]. intro H. apply gapb_spec in H. congruence.
Qed.
Lemma spaced_fun s t : spaced s t -> forall t', spaced s t' -> t = t'.
Proof.
  induction 1 as [|c|x y s t H1 H2 H3 H IH|x y s t N H IH]; intros t' H'; inversion H'; subst; try reflexivity.
  - f_equal; f_equal. apply IH; assumption.
  - exfalso; match goal with G : ~ (_ /\ _) |- _ => apply G; auto end.
  - exfalso; apply N; auto.
  - f_equal. apply IH; assumption.
Qed.
Lemma space_not_upper : is_upper " "%char = false /\ is_space " "%char = true.
Proof. split; reflexivity. Qed.

(** AddSpaceBetweenCapitalizedWords: the blanks it puts in, and no other change;
    doing it twice adds nothing; without the blanks it is the same text. *)
Theorem C124_add_space : forall s, spaced s (add_space_between s) /\
  (forall t, spaced s t -> t = add_space_between s) /\
  add_space_between (add_space_between s) = add_space_between s /\
  filter (fun c => negb (Ascii.eqb c " ")) (add_space_between s) = filter (fun c => negb (Ascii.eqb c " ")) s.
Proof.
  intro s. assert (Sp : spaced s (add_space_between s)).
  { destruct s as [|c s]; [constructor|]. rewrite add_space_rec. apply add_rec_spaced. }
  split; [exact Sp|]. split; [intros t H; exact (spaced_fun _ _ H _ Sp)|]. split.
  - destruct s as [|c s]; [reflexivity|]. rewrite !add_space_rec. f_equal. clear Sp.
    revert c. induction s as [|y s IH]; intro c; [reflexivity|]. cbn [add_rec].
    destruct (gapb c y) eqn:G; cbn [app add_rec].
    + assert (G1 : gapb c " "%char = false) by reflexivity.
      assert (G2 : gapb " "%char y = false) by (unfold gapb; change (is_space " "%char) with true; rewrite andb_false_r; reflexivity).
      rewrite G1, G2. cbn [app]. rewrite IH. reflexivity.
    + rewrite G. cbn [app]. rewrite IH. reflexivity.
  - clear. destruct s as [|c s]; [reflexivity|]. rewrite add_space_rec. cbn [filter].
    assert (E : filter (fun c => negb (Ascii.eqb c " ")) (add_rec c s) = filter (fun c => negb (Ascii.eqb c " ")) s).
    { revert c. induction s as [|y s IH]; intro c; [reflexivity|]. cbn [add_rec]. destruct (gapb c y); cbn [app filter]; rewrite IH; reflexivity. }
    rewrite E. reflexivity.
Qed.

(* ---------------- CropString ---------------- *)
Lemma lupd_app2 {A} (a b : list A) i x : lupd (a ++ b) (length a + i) x = a ++ lupd b i x.
Proof. induction a as [|y a IH]; simpl; [reflexivity|]. rewrite IH. reflexivity. Qed.
Lemma lupd_app1 {A} (a b : list A) i x : i < length a -> lupd (a ++ b) i x = lupd a i x ++ b.
Proof. revert i; induction a as [|y a IH]; intros [|i] H; simpl in *; try lia; [reflexivity|]. rewrite IH by lia. reflexivity. Qed.

(** CropString: unchanged if it fits or the limit is 0; otherwise exactly
    [max_len] characters, and from 5 on: the beginning, three dots, the end. *)
Theorem C124_crop : forall s m,
  ((m = 0 \/ length s <= m) -> crop_string s m = s) /\
  (0 < m -> m < length s -> length (crop_string s m) = m) /\
  (5 <= m -> m < length s -> exists a b c, s = a ++ b ++ c /\ crop_string s m = a ++ L "..." ++ c /\
     length a = m / 2 - 1 /\ length c = m - m / 2 - 2).
Proof.
  intros s m. unfold crop_string.
  assert (Hd : m / 2 <= m) by (apply Nat.div_le_upper_bound; lia).
  pose proof (Nat.div_mod m 2 ltac:(lia)) as Hdm. pose proof (Nat.mod_upper_bound m 2 ltac:(lia)) as Hmb.
  split; [|split].
  - intros [->|H].
    + rewrite orb_true_r. reflexivity.
    + rewrite (proj2 (Nat.leb_le _ _) H), orb_true_r. reflexivity.
  - intros H0 H1. rewrite (proj2 (Nat.eqb_neq _ _)) by lia. rewrite (proj2 (Nat.eqb_neq _ _)) by lia. rewrite (proj2 (Nat.leb_gt _ _)) by lia. cbn [orb].
    assert (Ln : length (substr s 0 (m / 2) ++ skipn (length s - (m - m / 2)) s) = m).
    { unfold substr. rewrite app_length, firstn_length, !skipn_length. lia. }
    destruct (Nat.ltb 2 m); [|exact Ln]. destruct (Nat.ltb 3 m); [destruct (Nat.ltb 4 m)|]; rewrite ?lupd_length; exact Ln.
  - intros H5 H1. rewrite (proj2 (Nat.eqb_neq _ _)) by lia. rewrite (proj2 (Nat.eqb_neq _ _)) by lia. rewrite (proj2 (Nat.leb_gt _ _)) by lia. cbn [orb].
    rewrite !(proj2 (Nat.ltb_lt _ _)) by lia. unfold substr. cbn [skipn].
    set (k := m / 2) in *. set (q := length s - (m - k)).
    set (a := firstn (k - 1) s). set (c := skipn (q + 2) s).
    exists a, (skipn (k - 1) (firstn (q + 2) s)), c.
    assert (Ha : length a = k - 1) by (unfold a; rewrite firstn_length; lia).
    assert (Hc : length c = m - k - 2) by (unfold c, q; rewrite skipn_length; lia).
    split.
    { unfold a, c. rewrite app_assoc. replace (firstn (k - 1) s) with (firstn (k - 1) (firstn (q + 2) s)).
      - rewrite firstn_skipn, firstn_skipn. reflexivity.
      - rewrite firstn_firstn. f_equal. unfold q. lia. }
    split; [|split; assumption].
    assert (E1 : exists x, firstn k s = a ++ [x]).
    { unfold a.
      assert (El : length (skipn (k - 1) s) >= 1) by (rewrite skipn_length; lia).
      destruct (skipn (k - 1) s) as [|x r] eqn:Er; [simpl in El; lia|]. exists x.
      assert (Es : s = firstn (k - 1) s ++ x :: r) by (rewrite <- Er; symmetry; apply firstn_skipn).
      rewrite Es at 1. rewrite firstn_app, firstn_firstn, firstn_length. replace (Nat.min k (k - 1)) with (k - 1) by lia.
      replace (k - Nat.min (k - 1) (length s)) with 1 by lia. reflexivity. }
    assert (E2 : exists y z, skipn q s = y :: z :: c).
    { assert (El : length (skipn q s) = m - k) by (unfold q; rewrite skipn_length; lia).
      destruct (skipn q s) as [|y [|z r]] eqn:Er; [simpl in El; lia|simpl in El; lia|]. exists y, z. do 2 f_equal. unfold c.
      assert (Es : s = firstn q s ++ y :: z :: r) by (rewrite <- Er; symmetry; apply firstn_skipn).
      rewrite Es. rewrite skipn_app, firstn_length. replace (q + 2 - Nat.min q (length s)) with 2 by (unfold q; lia).
      rewrite skipn_all2 by (rewrite firstn_length; lia). reflexivity. }
    destruct E1 as [x E1]. destruct E2 as (y & z & E2). rewrite E1, E2.
    rewrite <- app_assoc. cbn [app]. clearbody a c q. assert (Hk : k = length a + 1) by lia. clearbody k. subst k.
    replace (length a + 1 - 1) with (length a + 0) by lia. replace (length a + 1 + 1) with (length a + 2) by lia.
    rewrite !lupd_app2. reflexivity.
Qed.

(* ---------------- EscapeChars ---------------- *)
Definition esc_one (chars : str) (esc c : ascii) : str := (if inb c chars then [esc] else []) ++ [c].
Lemma esc_scan_inb chars c esc : esc_scan chars c esc = if inb c chars then [esc] else [].
Proof. induction chars as [|p r IH]; [reflexivity|]. cbn [esc_scan inb existsb]. destruct (Ascii.eqb c p); [reflexivity|exact IH]. Qed.
Lemma escape_loop_ok chars esc s : forall n, escape_loop s chars esc n = n ++ concat (map (esc_one chars esc) s).
Proof.
  induction s as [|c s IH]; intro n; cbn [escape_loop map concat]; [rewrite app_nil_r; reflexivity|].
  rewrite IH, esc_scan_inb. unfold esc_one at 2. rewrite <- !app_assoc. reflexivity.
Qed.
Lemma inb_In c l : inb c l = true <-> In c l.
Proof.
  unfold inb. rewrite existsb_exists. split.
  - intros (x & Hx & E). apply Ascii.eqb_eq in E. congruence.
  - intro H. exists c. split; [exact H|apply Ascii.eqb_refl].
Qed.

(** EscapeChars: the escape character before each of the characters to escape
    and nowhere else; if it is one of them, taking the escapes out gives the
    string back. *)
Theorem C124_escape : forall s chars esc,
  escape_chars (Some s) (Some chars) esc = concat (map (fun c => if inb c chars then [esc; c] else [c]) s) /\
  escape_chars (Some s) None esc = s /\ escape_chars None (Some chars) esc = [] /\
  (In esc chars -> unescape esc (escape_chars (Some s) (Some chars) esc) = s).
Proof.
  intros s chars esc.
  assert (E : escape_chars (Some s) (Some chars) esc = concat (map (fun c => if inb c chars then [esc; c] else [c]) s)).
  { destruct chars as [|p r].
    - cbn [escape_chars inb existsb]. induction s as [|c s IH]; [reflexivity|]. cbn [map concat app]. rewrite <- IH. reflexivity.
    - cbn [escape_chars]. rewrite escape_loop_ok. cbn [app]. f_equal. apply map_ext. intro c. unfold esc_one. destruct (inb c (p :: r)); reflexivity. }
  split; [exact E|]. split; [reflexivity|]. split; [reflexivity|]. intro Hi. rewrite E. clear E.
  induction s as [|c s IH]; [reflexivity|]. cbn [map concat]. destruct (inb c chars) eqn:Ec; cbn [app unescape].
  - rewrite Ascii.eqb_refl, IH. reflexivity.
  - destruct (Ascii.eqb_spec c esc) as [->|_]; [apply inb_In in Hi; congruence|]. rewrite IH. reflexivity.
Qed.

(** If it is not one of them, they cannot be taken out like that. *)
Theorem C124_escape_refuted : exists s chars esc, unescape esc (escape_chars (Some s) (Some chars) esc) <> s.
Proof. exists (L "\a;"), (L ";"), "\"%char. vm_compute. discriminate. Qed.

(* ---------------- MakeCidentifier ---------------- *)
Definition fix_char (c : ascii) : ascii := if inb c permitted then c else "_"%char.
Lemma find_not_of_some s set : forall i p, find_not_of s set i = Some p -> i <= p /\ p - i < length s /\
  (forall j c, j < p - i -> nth_error s j = Some c -> inb c set = true) /\ exists c, nth_error s (p - i) = Some c /\ inb c set = false.
Proof.
  induction s as [|c s IH]; intros i p H; cbn [find_not_of] in H; [discriminate|]. destruct (inb c set) eqn:E.
  - apply IH in H as (H1 & H2 & H3 & c' & H4 & H5). replace (p - i) with (S (p - S i)) by lia. split; [lia|]. split; [simpl; lia|]. split.
    + intros [|j] d Hj Hd; simpl in Hd; [congruence|]. apply (H3 j); [lia|exact Hd].
    + exists c'. split; assumption.
  - injection H as <-. rewrite Nat.sub_diag. split; [lia|]. split; [simpl; lia|]. split; [lia|]. exists c. split; [reflexivity|exact E].
Qed.
Lemma find_not_of_none s set : forall i, find_not_of s set i = None -> forallb (fun c => inb c set) s = true.
Proof.
  induction s as [|c s IH]; intros i H; cbn [find_not_of] in H; [reflexivity|]. cbn [forallb]. destruct (inb c set); [exact (IH _ H)|discriminate].
Qed.
Lemma fix_all s : forallb (fun c => inb c permitted) s = true -> map fix_char s = s.
Proof.
  induction s as [|c s IH]; intro H; [reflexivity|]. cbn [forallb] in H. apply andb_true_iff in H as [H1 H2].
  cbn [map]. unfold fix_char at 1. rewrite H1, IH by exact H2. reflexivity.
Qed.
Lemma cident_loop_ok : forall fuel pre s, length s < fuel -> forallb (fun c => inb c permitted) pre = true ->
  cident_loop fuel (pre ++ s) (length pre) = Ok (pre ++ map fix_char s).
Proof.
  induction fuel as [|fuel IH]; intros pre s Hf Hp; [lia|]. cbn [cident_loop].
  rewrite skipn_app, skipn_all, Nat.sub_diag. cbn [app skipn].
  destruct (find_not_of s permitted (length pre)) as [p|] eqn:E.
  - apply find_not_of_some in E as (H1 & H2 & H3 & c & H4 & H5). set (k := p - length pre) in *.
    apply nth_error_split in H4 as (a & b & -> & Ha).
    replace p with (length pre + (length a + 0)) by lia. rewrite lupd_app2, lupd_app2. cbn [lupd].
    rewrite Nat.add_0_r, <- app_length, app_assoc.
    assert (Fa : forallb (fun c => inb c permitted) a = true).
    { apply forallb_forall. intros x Hx. apply In_nth_error in Hx as [j Hj]. assert (j < length a) by (apply nth_error_Some; congruence).
      apply (H3 j); [lia|]. rewrite nth_error_app1 by lia. exact Hj. }
    change ("_"%char :: b) with (L "_" ++ b).
    rewrite map_app. cbn [map]. rewrite (fix_all a Fa). unfold fix_char at 1. rewrite H5.
    destruct fuel as [|fuel']; [rewrite app_length in Hf; simpl in Hf; lia|].
    (* the underscore just written is permitted: the next search passes it *)
    assert (Eq : forall fu, cident_loop fu ((pre ++ a) ++ L "_" ++ b) (length (pre ++ a)) = cident_loop fu (((pre ++ a) ++ L "_") ++ b) (length ((pre ++ a) ++ L "_"))).
    { intros [|fu]; [reflexivity|]. cbn [cident_loop]. rewrite <- (app_assoc (pre ++ a)).
      rewrite skipn_app, skipn_all, Nat.sub_diag. cbn [app skipn].
      rewrite app_assoc. rewrite skipn_app, skipn_all, Nat.sub_diag. cbn [app skipn].
      change (L "_" ++ b) with ("_"%char :: b). cbn [find_not_of]. change (inb "_"%char permitted) with true. cbv iota.
      rewrite (app_length (pre ++ a)). cbn [length L list_ascii_of_string]. rewrite Nat.add_1_r. reflexivity. }
    rewrite Eq. rewrite IH.
    + rewrite <- !app_assoc. reflexivity.
    + rewrite app_length in Hf. simpl in Hf. lia.
    + rewrite !forallb_app, Hp, Fa. reflexivity.
  - apply find_not_of_none in E. rewrite (fix_all s E). reflexivity.
Qed.
Lemma permitted_id c : inb c permitted = id_char c.
Proof. destruct c as [[] [] [] [] [] [] [] []]; vm_compute; reflexivity. Qed.
Lemma digits_id c : inb c (L "0123456789") = is_digit c.
Proof. destruct c as [[] [] [] [] [] [] [] []]; vm_compute; reflexivity. Qed.

(** MakeCidentifier: each character that cannot be in an identifier becomes an
    underscore, one more goes before a leading digit; the result is an
    identifier, an identifier is left as it is. *)
Theorem C124_identifier : forall s, exists t, make_c_identifier s = Ok t /\
  t = (match s with c :: _ => if is_digit c then L "_" else [] | [] => [] end) ++ map (fun c => if id_char c then c else "_"%char) s /\
  (s <> [] -> c_identifier t) /\ (c_identifier s -> t = s).
Proof.
  intro s. unfold make_c_identifier.
  assert (F : forall c, fix_char c = if id_char c then c else "_"%char) by (intro c; unfold fix_char; rewrite permitted_id; reflexivity).
  assert (Fm : forall s, map fix_char s = map (fun c => if id_char c then c else "_"%char) s) by (intro s0; apply map_ext; exact F).
  assert (Fi : forall s : str, forallb id_char (map (fun c => if id_char c then c else "_"%char) s) = true).
  { induction s0 as [|c s0 IH]; [reflexivity|]. cbn [map forallb]. rewrite IH, andb_true_r. destruct (id_char c) eqn:E; [exact E|reflexivity]. }
  destruct s as [|c s].
  - exists []. split; [reflexivity|]. split; [reflexivity|]. split; [congruence|]. intros [].
  - rewrite digits_id. destruct (is_digit c) eqn:D.
    + exists (L "_" ++ map (fun c => if id_char c then c else "_"%char) (c :: s)). split.
      { pose proof (cident_loop_ok (S (length (L "_" ++ c :: s))) [] (L "_" ++ c :: s) ltac:(simpl; lia) eq_refl) as E. cbn [app] in E. change (length (@nil ascii)) with 0 in E.
        rewrite E, Fm. reflexivity. }
      split; [reflexivity|]. split.
      * intros _. split; [reflexivity|]. exact (Fi (c :: s)).
      * intros [H _]. congruence.
    + exists (map (fun c => if id_char c then c else "_"%char) (c :: s)). split.
      { pose proof (cident_loop_ok (S (length (c :: s))) [] (c :: s) ltac:(simpl; lia) eq_refl) as E. cbn [app] in E. change (length (@nil ascii)) with 0 in E.
        rewrite E, Fm. reflexivity. }
      split; [reflexivity|]. split.
      * intros _. pose proof (Fi (c :: s)) as G. cbn [map] in *. split; [|exact G]. destruct (id_char c); [exact D|reflexivity].
      * intros [_ H]. clear -H. induction (c :: s) as [|x l IH]; [reflexivity|]. cbn [forallb] in H. apply andb_true_iff in H as [H1 H2].
        cbn [map]. rewrite H1, IH by exact H2. reflexivity.
Qed.
(** "The result is an identifier": not for the empty string. *)
Theorem C124_identifier_refuted : make_c_identifier [] = Ok [] /\ ~ c_identifier [].
Proof. split; [reflexivity|intros []]. Qed.

(* ---------------- ConvertToUnixOutputPath ---------------- *)
Definition sl : ascii := "/"%char.
Lemma find_ss_some s : forall i p, find_ss s i = Some p -> i <= p /\ exists a r, s = a ++ sl :: sl :: r /\ length a = p - i /\ squeeze (a ++ [sl]) = a ++ [sl].
Proof.
  induction s as [|c s IH]; intros i p H; [discriminate|]. destruct s as [|d s]; [discriminate|]. cbn [find_ss] in H.
  destruct (Ascii.eqb c "/" && Ascii.eqb d "/") eqn:E.
  - injection H as <-. apply andb_true_iff in E as [E1 E2]. apply Ascii.eqb_eq in E1, E2. subst.
    split; [lia|]. exists [], s. rewrite Nat.sub_diag. repeat split.
  - apply IH in H as (H1 & a & r & E1 & H2 & H3). split; [lia|]. exists (c :: a), r. rewrite E1. split; [reflexivity|].
    split; [simpl; lia|]. cbn [app squeeze].
    destruct a as [|d' a]; cbn [app] in *.
    + injection E1 as -> _. unfold sl in *. rewrite E. reflexivity.
    + injection E1 as -> _. rewrite E. f_equal. exact H3.
Qed.
Lemma find_ss_none s : forall i, find_ss s i = None -> squeeze s = s.
Proof.
  induction s as [|c s IH]; intros i H; [reflexivity|]. destruct s as [|d s]; [reflexivity|].
  cbn [find_ss] in H. cbn [squeeze]. destruct (Ascii.eqb c "/" && Ascii.eqb d "/"); [discriminate|]. f_equal. exact (IH _ H).
Qed.
Lemma sq2 x y l : squeeze (x :: y :: l) = if Ascii.eqb x "/" && Ascii.eqb y "/" then squeeze (y :: l) else x :: squeeze (y :: l).
Proof. reflexivity. Qed.
Lemma squeeze_len l : length (squeeze l) <= length l.
Proof.
  induction l as [|x l IH]; [simpl; lia|]. destruct l as [|y l]; [simpl; lia|].
  rewrite sq2. destruct (Ascii.eqb x "/" && Ascii.eqb y "/"); cbn [length] in *; lia.
Qed.
Lemma sq_fix x y l : squeeze (x :: y :: l) = x :: y :: l -> Ascii.eqb x "/" && Ascii.eqb y "/" = false /\ squeeze (y :: l) = y :: l.
Proof.
  rewrite sq2. destruct (Ascii.eqb x "/" && Ascii.eqb y "/").
  - intro H. pose proof (squeeze_len (y :: l)) as G. rewrite H in G. cbn [length] in G. lia.
  - intro H. injection H as H. auto.
Qed.
Lemma squeeze_app a : forall r, squeeze (a ++ [sl]) = a ++ [sl] -> squeeze (a ++ sl :: r) = a ++ squeeze (sl :: r).
Proof.
  induction a as [|c a IH]; intros r H; [reflexivity|]. destruct a as [|d a]; cbn [app] in *.
  - apply sq_fix in H as [H _]. rewrite sq2, H. reflexivity.
  - apply sq_fix in H as [H1 H2]. rewrite sq2, H1. rewrite (IH r H2). reflexivity.
Qed.
Lemma squeeze_ss r : squeeze (sl :: sl :: r) = squeeze (sl :: r).
Proof. reflexivity. Qed.

(** The loop of erasures: everything from position [length pre] on is squeezed;
    what was passed stays passed. *)
Lemma squeeze_loop_ok : forall fuel pre s, length s < fuel ->
  squeeze_loop fuel (pre ++ s) (length pre) = Ok (pre ++ squeeze s).
Proof.
  induction fuel as [|fuel IH]; intros pre s Hf; [lia|]. cbn [squeeze_loop]. unfold find_ss_from.
  rewrite (proj2 (Nat.leb_le _ _)) by (rewrite app_length; lia).
  rewrite skipn_app, skipn_all, Nat.sub_diag. cbn [app skipn].
  destruct (find_ss s (length pre)) as [p|] eqn:E.
  - apply find_ss_some in E as (H1 & a & r & -> & Ha & Hs).
    assert (Ep : p = length (pre ++ a)) by (rewrite app_length; lia).
    assert (E1 : firstn p (pre ++ a ++ sl :: sl :: r) ++ skipn (S p) (pre ++ a ++ sl :: sl :: r) = (pre ++ a) ++ sl :: r).
    { rewrite Ep, app_assoc. rewrite firstn_app, firstn_all, Nat.sub_diag. cbn [firstn]. rewrite app_nil_r. f_equal.
      rewrite skipn_app, skipn_all2 by lia. replace (S (length (pre ++ a)) - length (pre ++ a)) with 1 by lia. reflexivity. }
    match goal with |- squeeze_loop _ ?x _ = _ => change x with (firstn p (pre ++ a ++ sl :: sl :: r) ++ skipn (S p) (pre ++ a ++ sl :: sl :: r)) end.
    rewrite E1, Ep. rewrite IH; [|rewrite app_length in Hf; simpl in *; lia].
    rewrite squeeze_app by exact Hs. rewrite squeeze_ss, app_assoc. reflexivity.
  - rewrite (find_ss_none _ _ E). reflexivity.
Qed.

Definition bs : ascii := "\"%char.
Definition sp : ascii := " "%char.
(** Putting the backslashes in, recursively. *)
Fixpoint esc_sp (last : ascii) (s : str) : str :=
  match s with
  | [] => []
  | c :: s' => (if Ascii.eqb c sp && negb (Ascii.eqb last bs) then [bs] else []) ++ c :: esc_sp c s'
  end.
Lemma esc_spaces_ok s : ~ In "000"%char s -> forall last r, esc_spaces s last r = r ++ esc_sp last s.
Proof.
  induction s as [|c s IH]; intros N last r; cbn [esc_spaces esc_sp]; [rewrite app_nil_r; reflexivity|].
  destruct (Ascii.eqb_spec c "000"%char) as [->|_]; [exfalso; apply N; left; reflexivity|].
  rewrite IH by (intro H; apply N; right; exact H). unfold sp, bs.
  destruct (Ascii.eqb c " " && negb (Ascii.eqb last "\")); rewrite <- !app_assoc; reflexivity.
Qed.
Lemma esc_sp_id s : ~ In sp s -> forall last, esc_sp last s = s.
Proof.
  induction s as [|c s IH]; intros N last; [reflexivity|]. cbn [esc_sp].
  destruct (Ascii.eqb_spec c sp) as [->|_]; [exfalso; apply N; left; reflexivity|]. cbn [andb app].
  rewrite IH by (intro H; apply N; right; exact H). reflexivity.
Qed.
Lemma esc_sp_idem s : forall last, esc_sp last (esc_sp last s) = esc_sp last s.
Proof.
  induction s as [|c s IH]; intro last; [reflexivity|]. cbn [esc_sp].
  destruct (Ascii.eqb_spec c sp) as [->|Hc]; destruct (Ascii.eqb_spec last bs) as [El|El]; cbn [andb negb app esc_sp].
  - rewrite Ascii.eqb_refl, (proj2 (Ascii.eqb_eq last bs) El). cbn [andb negb app]. rewrite IH. reflexivity.
  - change (Ascii.eqb bs sp) with false. rewrite Ascii.eqb_refl. change (Ascii.eqb bs bs) with true. cbn [andb negb app]. rewrite IH. reflexivity.
  - destruct (Ascii.eqb_spec c sp); [contradiction|]. cbn [andb app]. rewrite IH. reflexivity.
  - destruct (Ascii.eqb_spec c sp); [contradiction|]. cbn [andb app]. rewrite IH. reflexivity.
Qed.
Lemma squeeze_in c s : In c (squeeze s) -> In c s.
Proof.
  induction s as [|x s IH]; intro H; [exact H|]. destruct s as [|y s]; [exact H|]. cbn [squeeze] in H.
  destruct (Ascii.eqb x "/" && Ascii.eqb y "/"); [right; exact (IH H)|]. destruct H as [->|H]; [left; reflexivity|right; exact (IH H)].
Qed.
Lemma squeeze_head y s : exists r, squeeze (y :: s) = y :: r.
Proof.
  revert y. induction s as [|z s IHs]; intro y; [exists []; reflexivity|]. rewrite sq2.
  destruct (Ascii.eqb y "/" && Ascii.eqb z "/") eqn:E.
  - apply andb_true_iff in E as [E1 E2]. apply Ascii.eqb_eq in E1, E2. subst. apply IHs.
  - eexists; reflexivity.
Qed.
Lemma squeeze_idem s : squeeze (squeeze s) = squeeze s.
Proof.
  induction s as [|x s IH]; [reflexivity|]. destruct s as [|y s]; [reflexivity|]. rewrite sq2.
  destruct (Ascii.eqb x "/" && Ascii.eqb y "/") eqn:E; [exact IH|].
  destruct (squeeze_head y s) as [r Hr]. rewrite Hr in *. rewrite sq2, E. f_equal. exact IH.
Qed.
Lemma esc_sp_squeeze s : forall last, squeeze s = s -> squeeze (esc_sp last s) = esc_sp last s.
Proof.
  induction s as [|x s IH]; intros last H; [reflexivity|].
  assert (K : squeeze (x :: esc_sp x s) = x :: esc_sp x s).
  { destruct s as [|y s]; [reflexivity|]. apply sq_fix in H as [H1 H2]. specialize (IH x H2). cbn [esc_sp] in *.
    destruct (Ascii.eqb y sp && negb (Ascii.eqb x bs)) eqn:E; cbn [app] in *; rewrite sq2.
    - change (Ascii.eqb bs "/") with false. rewrite andb_false_r. rewrite IH. reflexivity.
    - rewrite H1. rewrite IH. reflexivity. }
  cbn [esc_sp]. destruct (Ascii.eqb x sp && negb (Ascii.eqb last bs)) eqn:E; cbn [app]; [|exact K].
  rewrite sq2. change (Ascii.eqb bs "/") with false. cbn [andb]. rewrite K. reflexivity.
Qed.

(** The slashes after the first character squeezed. *)
Definition slashes (p : str) : str := match p with [] => [] | c :: r => c :: squeeze r end.

Lemma cvt_ok p : ~ In "000"%char p -> convert_to_unix_output_path p = Ok (esc_sp "001"%char (slashes p)).
Proof.
  intro N. unfold convert_to_unix_output_path.
  assert (E : squeeze_loop (S (length p)) p 1 = Ok (slashes p)).
  { destruct p as [|c p]; [reflexivity|]. exact (squeeze_loop_ok (S (length (c :: p))) [c] p ltac:(simpl; lia)). }
  rewrite E. cbn [rbind]. f_equal. destruct (existsb (fun c => Ascii.eqb c " ") (slashes p)) eqn:Ex.
  - rewrite esc_spaces_ok; [reflexivity|]. intro H. apply N. destruct p as [|c p]; [exact H|]. destruct H as [->|H]; [left; reflexivity|right; exact (squeeze_in _ _ H)].
  - symmetry. apply esc_sp_id. intro H. assert (existsb (fun c => Ascii.eqb c " ") (slashes p) = true); [|congruence].
    apply existsb_exists. exists sp. split; [exact H|reflexivity].
Qed.

Lemma shell_esc s : ~ In bs s -> forall last w, last <> bs -> s <> [] \/ w <> None ->
  shell_words (esc_sp last s) w = [match w with Some w => w | None => [] end ++ s].
Proof.
  induction s as [|c s IH]; intros N last w Hl Hw; cbn [esc_sp].
  - destruct Hw as [Hw|Hw]; [contradiction|]. destruct w as [w|]; [|contradiction]. cbn [shell_words]. rewrite app_nil_r. reflexivity.
  - assert (Nc : c <> bs) by (intros ->; apply N; left; reflexivity).
    assert (Ns : ~ In bs s) by (intro H; apply N; right; exact H).
    destruct (Ascii.eqb_spec c sp) as [->|Hc]; cbn [andb].
    + destruct (Ascii.eqb_spec last bs); [contradiction|]. cbn [negb app shell_words]. change (Ascii.eqb bs "\") with true. cbv iota.
      rewrite IH; [|exact Ns|discriminate|right; discriminate]. rewrite <- app_assoc. reflexivity.
    + cbn [app shell_words]. destruct (Ascii.eqb_spec c "\") as [E|_]; [contradiction|]. destruct (Ascii.eqb_spec c " ") as [E|_]; [contradiction|].
      rewrite IH; [|exact Ns|exact Nc|right; discriminate]. rewrite <- app_assoc. reflexivity.
Qed.

(** ConvertToUnixOutputPath (and ConvertToOutputPath on Unix): after the first
    character no two slashes are next to each other; every blank has a backslash
    before it; applying it again changes nothing; a path without backslashes is
    one word to the shell, the path with its slashes squeezed. *)
Theorem C124_output_path : forall p, ~ In "000"%char p -> exists q, convert_to_unix_output_path p = Ok q /\
  (forall a b, q = a ++ L "//" ++ b -> a = []) /\
  (forall a b, q = a ++ " "%char :: b -> exists a', a = a' ++ ["\"%char]) /\
  convert_to_unix_output_path q = Ok q /\
  (~ In "\"%char p -> p <> [] -> shell_words q None = [slashes p]).
Proof.
  intros p N. exists (esc_sp "001"%char (slashes p)). split; [apply cvt_ok; exact N|].
  assert (Hh : forall last s, squeeze s = s -> forall a b, esc_sp last s = a ++ L "//" ++ b -> False).
  { intros last s Hs a b E. pose proof (esc_sp_squeeze s last Hs) as G. rewrite E in G. clear -G.
    induction a as [|x a IH].
    - cbn [app] in G. change (L "//" ++ b) with (sl :: sl :: b) in G. apply sq_fix in G as [G _]. discriminate G.
    - apply IH. cbn [app] in G. destruct (a ++ L "//" ++ b) as [|y l] eqn:Ey; [destruct a; discriminate Ey|].
      apply sq_fix in G as [_ G]. exact G. }
  assert (Ne : ~ In "000"%char (esc_sp "001"%char (slashes p))).
  { intro H. assert (G : forall s last, In "000"%char (esc_sp last s) -> In "000"%char s).
    { induction s as [|c s IH]; intros last Hi; [exact Hi|]. cbn [esc_sp] in Hi.
      destruct (Ascii.eqb c sp && negb (Ascii.eqb last bs)); cbn [app] in Hi.
      - destruct Hi as [Hi|[Hi|Hi]]; [discriminate|left; exact Hi|right; exact (IH _ Hi)].
      - destruct Hi as [Hi|Hi]; [left; exact Hi|right; exact (IH _ Hi)]. }
    apply G in H. apply N. destruct p as [|c p]; [exact H|]. destruct H as [H|H]; [left; exact H|right; exact (squeeze_in _ _ H)]. }
  split; [|split; [|split]].
  - intros a b E. destruct p as [|c p]; [destruct a; discriminate E|]. cbn [slashes esc_sp] in E.
    destruct a as [|x a]; [reflexivity|]. exfalso.
    destruct (Ascii.eqb c sp && negb (Ascii.eqb "001"%char bs)) eqn:Ec; cbn [app] in E.
    + injection E as _ E. destruct a as [|y a].
      * cbn [app] in E. injection E as E0 E. apply andb_true_iff in Ec as [Ec _]. apply Ascii.eqb_eq in Ec. subst. discriminate E0.
      * cbn [app] in E. injection E as _ E. exact (Hh c (squeeze p) (squeeze_idem p) a b E).
    + injection E as _ E. exact (Hh c (squeeze p) (squeeze_idem p) a b E).
  - assert (G : forall s last a b, esc_sp last s = a ++ sp :: b -> (exists a', a = a' ++ [bs]) \/ (a = [] /\ last = bs)).
    { induction s as [|c s IH]; intros last a b E; [destruct a; discriminate E|]. cbn [esc_sp] in E.
      destruct (Ascii.eqb_spec c sp) as [->|Hc]; destruct (Ascii.eqb_spec last bs) as [El|El]; cbn [andb negb app] in E.
      - destruct a as [|x a]; [right; auto|]. cbn [app] in E. injection E as <- E. apply IH in E as [[a' ->]|[-> E]]; [left; exists (sp :: a'); reflexivity|discriminate E].
      - destruct a as [|x a]; [discriminate E|]. cbn [app] in E. injection E as <- E.
        destruct a as [|y a]; [left; exists []; reflexivity|]. cbn [app] in E. injection E as <- E.
        apply IH in E as [[a' ->]|[-> E]]; [left; exists (bs :: sp :: a'); reflexivity|discriminate E].
      - destruct a as [|x a]; [cbn [app] in E; injection E as E _; contradiction|]. cbn [app] in E. injection E as <- E.
        apply IH in E as [[a' ->]|[-> E]]; [left; exists (c :: a'); reflexivity|left; exists []; subst; reflexivity].
      - destruct a as [|x a]; [cbn [app] in E; injection E as E _; contradiction|]. cbn [app] in E. injection E as <- E.
        apply IH in E as [[a' ->]|[-> E]]; [left; exists (c :: a'); reflexivity|left; exists []; subst; reflexivity]. }
    intros a b E. apply G in E as [E|[_ E]]; [exact E|discriminate E].
  - rewrite cvt_ok by exact Ne. f_equal.
    assert (Es : slashes (esc_sp "001"%char (slashes p)) = esc_sp "001"%char (slashes p)).
    { destruct p as [|c p]; [reflexivity|]. cbn [slashes esc_sp].
      pose proof (esc_sp_squeeze (squeeze p) c (squeeze_idem p)) as G.
      destruct (Ascii.eqb c sp && negb (Ascii.eqb "001"%char bs)) eqn:Ec; cbn [app slashes].
      - f_equal. apply andb_true_iff in Ec as [Ec _]. apply Ascii.eqb_eq in Ec. subst c.
        destruct (esc_sp sp (squeeze p)) as [|y l] eqn:Ey; [reflexivity|]. rewrite sq2. change (Ascii.eqb sp "/") with false. cbn [andb]. f_equal.
        exact G.
      - f_equal. exact G. }
    rewrite Es. apply esc_sp_idem.
  - intros Nb Hp. apply (shell_esc (slashes p)) with (w := None).
    + intro H. apply Nb. destruct p as [|c p]; [exact H|]. destruct H as [H|H]; [left; exact H|right; exact (squeeze_in _ _ H)].
    + discriminate.
    + left. destruct p; [contradiction|discriminate].
Qed.
(** "Escapes the spaces": a blank after an escaped backslash is left alone, and
    the shell sees two words. *)
Theorem C124_output_path_refuted : exists p, convert_to_unix_output_path p = Ok p /\ shell_words p None = [L "a\"; L "b"].
Proof. exists (L "a\\ b"). vm_compute. split; reflexivity. Qed.

(* ---------------- Split ---------------- *)
Lemma find_from_none s c : forall i, find_from s c i = None <-> ~ In c s.
Proof.
  induction s as [|x s IH]; intro i; cbn [find_from]; [split; [intros _ []|reflexivity]|].
  destruct (Ascii.eqb_spec x c) as [->|N]; [split; [discriminate|intro H; exfalso; apply H; left; reflexivity]|].
  rewrite IH. split; [intros H [E|E]; [contradiction|exact (H E)]|intros H E; apply H; right; exact E].
Qed.
Lemma find_from_app s c r : ~ In c s -> forall i, find_from (s ++ c :: r) c i = Some (i + length s).
Proof.
  induction s as [|x s IH]; intros N i; cbn [find_from app].
  - rewrite Ascii.eqb_refl. f_equal. simpl. lia.
  - destruct (Ascii.eqb_spec x c) as [->|_]; [exfalso; apply N; left; reflexivity|].
    rewrite IH by (intro H; apply N; right; exact H). f_equal. simpl. lia.
Qed.
Lemma skipn_pre {A} (pre s : list A) : skipn (length pre) (pre ++ s) = s.
Proof. rewrite skipn_app, skipn_all, Nat.sub_diag. reflexivity. Qed.
Lemma substr_pre (pre l r : str) : substr (pre ++ l ++ r) (length pre) (length pre + length l - length pre) = l.
Proof. unfold substr. rewrite skipn_pre. replace (length pre + length l - length pre) with (length l + 0) by lia. rewrite firstn_app_2. simpl. apply app_nil_r. Qed.

Lemma split_loop_ok sep ls last : Forall (fun l => ~ In sep l) (last :: ls) -> forall fuel pre acc, length ls < fuel ->
  split_loop fuel (pre ++ pieces [sep] ls last) (length pre) sep acc =
  Ok (match last with [] => true | _ => false end, acc ++ ls ++ match last with [] => [] | _ => [last] end).
Proof.
  intro F. inversion F as [|x y Fl Fs]; subst. clear F. induction Fs as [|l ls Hl Fs IH]; intros fuel pre acc Hf;
    (destruct fuel as [|fuel]; [simpl in Hf; lia|]); cbn [split_loop].
  - unfold pieces. cbn [map concat app]. destruct last as [|c last].
    + rewrite app_nil_r, Nat.ltb_irrefl. rewrite app_nil_r. reflexivity.
    + rewrite (proj2 (Nat.ltb_lt _ _)) by (rewrite app_length; simpl; lia). rewrite skipn_pre.
      rewrite (proj2 (find_from_none _ _ _) Fl). reflexivity.
  - unfold pieces. cbn [map concat]. rewrite <- !app_assoc. cbn [app].
    rewrite (proj2 (Nat.ltb_lt _ _)) by (rewrite !app_length; simpl; lia). rewrite skipn_pre.
    rewrite find_from_app by exact Hl. rewrite substr_pre.
    change (concat (map (fun l0 => l0 ++ [sep]) ls) ++ last) with (pieces [sep] ls last).
    replace (pre ++ l ++ sep :: pieces [sep] ls last) with ((pre ++ l ++ [sep]) ++ pieces [sep] ls last) by (rewrite <- !app_assoc; reflexivity).
    replace (length pre + length l + 1) with (length (pre ++ l ++ [sep])) by (rewrite !app_length; simpl; lia).
    rewrite IH by (simpl in Hf; lia). rewrite <- !app_assoc. reflexivity.
Qed.
Lemma pieces_length sep ls last : 0 < length sep -> length ls <= length (pieces sep ls last).
Proof.
  intro Hs. unfold pieces. rewrite app_length. induction ls as [|l ls IH]; simpl; [lia|]. rewrite !app_length. lia.
Qed.

(** Split at a separator: the pieces in their order, after what the vector held;
    the result says whether the text ended with the separator (or was empty). *)
Theorem C124_split : forall sep ls last acc, Forall (fun l => ~ In sep l) (last :: ls) ->
  split_sep (pieces [sep] ls last) sep acc =
  Ok (match last with [] => true | _ => false end, acc ++ ls ++ match last with [] => [] | _ => [last] end).
Proof.
  intros sep ls last acc F. apply (split_loop_ok sep ls last F _ []). apply Nat.lt_succ_r. exact (pieces_length [sep] ls last (Nat.lt_0_succ 0)).
Qed.

Definition nlc : ascii := "010"%char.
Definition crc : ascii := "013"%char.
(** A line and how it ends: LF, or CR LF. *)
Definition ended (x : str * bool) : str := fst x ++ (if snd x then [crc; nlc] else [nlc]).
(** Lines that can be told apart: none contains LF, and one ended by a bare LF does not end with CR. *)
Definition line_ok (x : str * bool) : Prop := ~ In nlc (fst x) /\ (snd x = false -> forall a, fst x <> a ++ [crc]).
Lemma split_lines_loop_ok ls last : Forall line_ok ls -> ~ In nlc last -> forall fuel pre acc, length ls < fuel ->
  split_lines_loop fuel (pre ++ concat (map ended ls) ++ last) (length pre) acc =
  Ok (match last with [] => true | _ => false end, acc ++ map fst ls ++ match last with [] => [] | _ => [last] end).
Proof.
  intros Fs Fl. induction Fs as [|x ls Hl Fs IH]; intros fuel pre acc Hf;
    (destruct fuel as [|fuel]; [simpl in Hf; lia|]); cbn [split_lines_loop].
  - cbn [map concat app]. destruct last as [|c last].
    + rewrite app_nil_r, Nat.ltb_irrefl. rewrite app_nil_r. reflexivity.
    + rewrite (proj2 (Nat.ltb_lt _ _)) by (rewrite app_length; simpl; lia). rewrite skipn_pre.
      rewrite (proj2 (find_from_none _ _ _) Fl). reflexivity.
  - destruct x as [l b]. destruct Hl as [Hn Hc]. cbn [fst snd] in *. cbn [map concat]. change (ended (l, b)) with (l ++ (if b then [crc; nlc] else [nlc])).
    set (rest := concat (map ended ls) ++ last) in *.
    assert (Lt : Nat.ltb (length pre) (length (pre ++ (l ++ (if b then [crc; nlc] else [nlc])) ++ rest)) = true).
    { apply Nat.ltb_lt. rewrite !app_length. destruct b; simpl; lia. }
    rewrite <- !app_assoc. fold rest. rewrite <- !app_assoc in Lt. rewrite Lt. rewrite skipn_pre.
    destruct b.
    + replace (l ++ [crc; nlc] ++ rest) with ((l ++ [crc]) ++ nlc :: rest) by (rewrite <- app_assoc; reflexivity).
      change (find_from ((l ++ [crc]) ++ nlc :: rest) "010"%char (length pre)) with (find_from ((l ++ [crc]) ++ nlc :: rest) nlc (length pre)).
      rewrite (find_from_app (l ++ [crc]) nlc rest) by (intro H; apply in_app_or in H as [H|[H|[]]]; [exact (Hn H)|discriminate H]).
      rewrite app_length. cbn [length]. rewrite (proj2 (Nat.ltb_lt _ _)) by lia.
      replace (length pre + (length l + 1) - 1) with (length pre + length l) by lia.
      assert (Ec : chr (pre ++ (l ++ [crc]) ++ nlc :: rest) (length pre + length l) = crc).
      { unfold chr. rewrite app_nth2 by lia. rewrite <- app_assoc, app_nth2 by lia. replace (length pre + length l - length pre - length l) with 0 by lia. reflexivity. }
      rewrite Ec. change (Ascii.eqb crc "013"%char) with true. cbn [andb].
      rewrite <- app_assoc. rewrite substr_pre.
      replace (pre ++ l ++ [crc] ++ nlc :: rest) with ((pre ++ l ++ [crc; nlc]) ++ rest) by (rewrite <- !app_assoc; reflexivity).
      replace (length pre + (length l + 1) + 1) with (length (pre ++ l ++ [crc; nlc])) by (rewrite !app_length; simpl; lia).
      rewrite IH by (simpl in Hf; lia). cbn [map fst]. rewrite <- !app_assoc. reflexivity.
    + cbn [app]. change (find_from (l ++ nlc :: rest) "010"%char (length pre)) with (find_from (l ++ nlc :: rest) nlc (length pre)).
      rewrite (find_from_app l nlc rest) by exact Hn.
      assert (En : Nat.ltb (length pre) (length pre + length l) && Ascii.eqb (chr (pre ++ l ++ nlc :: rest) (length pre + length l - 1)) "013"%char = false).
      { destruct l as [|y l']; [simpl; rewrite Nat.add_0_r, Nat.ltb_irrefl; reflexivity|].
        destruct (exists_last (l:=y :: l')) as (a & z & E); [discriminate|]. rewrite E in *. apply andb_false_iff. right.
        apply Ascii.eqb_neq. intro Ez. rewrite app_length in Ez. cbn [length] in Ez.
        unfold chr in Ez. rewrite app_nth2 in Ez by lia. rewrite <- app_assoc, app_nth2 in Ez by lia.
        replace (length pre + (length a + 1) - 1 - length pre - length a) with 0 in Ez by lia. cbn [app nth] in Ez.
        apply (Hc eq_refl a). rewrite Ez. reflexivity. }
      rewrite En. rewrite substr_pre.
      replace (pre ++ l ++ nlc :: rest) with ((pre ++ l ++ [nlc]) ++ rest) by (rewrite <- !app_assoc; reflexivity).
      replace (length pre + length l + 1) with (length (pre ++ l ++ [nlc])) by (rewrite !app_length; simpl; lia).
      rewrite IH by (simpl in Hf; lia). cbn [map fst]. rewrite <- !app_assoc. reflexivity.
Qed.
(** Split into lines: LF and CR LF both end a line and neither is kept; the last
    line without an end keeps all its characters. *)
Theorem C124_split_lines : forall ls last acc, Forall line_ok ls -> ~ In nlc last ->
  split_lines (concat (map ended ls) ++ last) acc =
  Ok (match last with [] => true | _ => false end, acc ++ map fst ls ++ match last with [] => [] | _ => [last] end).
Proof.
  intros ls last acc F N. apply (split_lines_loop_ok ls last F N _ []).
  rewrite app_length. assert (length ls <= length (concat (map ended ls))); [|lia].
  clear. induction ls as [|x ls IH]; cbn [map concat length]; [lia|]. rewrite app_length. unfold ended at 1. rewrite app_length. destruct (snd x); cbn [length]; lia.
Qed.

(* ---------------- examples ---------------- *)
Example C124_example : capitalized (L "hELLO wORLD") = L "Hello world" /\ capitalized_words (L "one two  3d x") = L "One Two  3d X" /\
  uncapitalized_words (L "One TWO") = L "one tWO" /\ add_space_between (L "EatMyShorts IEatShorts") = L "Eat My Shorts IEat Shorts" /\
  crop_string (L "abcdefghij") 7 = L "ab...ij" /\ crop_string (L "abcdefghij") 3 = L "a.j" /\
  escape_chars (Some (L "a b\c")) (Some (L " \")) "\" = L "a\ b\\c" /\
  make_c_identifier (L "3d-model") = Ok (L "_3d_model") /\
  convert_to_unix_output_path (L "//a///b c/d\ e") = Ok (L "//a/b\ c/d\ e").
Proof. vm_compute. repeat split. Qed.
Example C124_split_example : split_sep (L "a;;b;c") ";" [L "x"] = Ok (false, [L "x"; L "a"; L ""; L "b"; L "c"]) /\
  split_lines (L "a" ++ [crc; nlc] ++ L "b" ++ [nlc]) [] = Ok (true, [L "a"; L "b"]) /\
  Forall line_ok [(L "a", true); (L "b", false)].
Proof.
  split; [vm_compute; reflexivity|]. split; [vm_compute; reflexivity|].
  assert (A : forall c, c <> nlc -> c <> crc -> forall b, line_ok ([c], b)).
  { intros c H1 H2 b. split; [intros [H|[]]; congruence|]. cbn [fst]. intros _ [|x [|y a]] E; try discriminate E. injection E as ->. congruence. }
  constructor; [apply A; discriminate|]. constructor; [apply A; discriminate|constructor].
Qed.

Print Assumptions C124_case.
Print Assumptions C124_words.
Print Assumptions C124_add_space.
Print Assumptions C124_crop.
Print Assumptions C124_escape.
Print Assumptions C124_escape_refuted.
Print Assumptions C124_identifier.
Print Assumptions C124_identifier_refuted.
Print Assumptions C124_output_path.
Print Assumptions C124_output_path_refuted.
Print Assumptions C124_split.
Print Assumptions C124_split_lines.
