(** LineProps.v -- C123: reading lines from a stream. *)
From Verif Require Import Base ConfigModel LineModel LineSpec LineProofs.

(* ---------- stream steps on plain pieces ---------- *)
Lemma getline_full m p x c f : length p = m -> 0 < m -> ~ In nl p -> c <> nl ->
  is_getline (S m) (clear_fail (IStr (p ++ c :: x) false f false)) =
  (p, m, IStr (c :: x) false true false).
Proof.
  intros Hl Hm Hn Hc. rewrite is_getline_good by reflexivity. cbn [is_rest clear_fail].
  replace (S m - 1) with m by lia. rewrite gl_store_full by assumption.
  destruct (Ascii.eqb_spec c nl) as [E|_]; [contradiction|]. rewrite Hl. reflexivity.
Qed.
Lemma getline_nl m p x f : length p <= m -> ~ In nl p ->
  is_getline (S m) (clear_fail (IStr (p ++ nl :: x) false f false)) =
  (p, S (length p), IStr x false false false).
Proof.
  intros Hl Hn. rewrite is_getline_good by reflexivity. cbn [is_rest clear_fail].
  replace (S m - 1) with m by lia. rewrite gl_store_nl by assumption.
  rewrite Ascii.eqb_refl. reflexivity.
Qed.
Lemma getline_end m p f : length p <= m -> ~ In nl p ->
  is_getline (S m) (clear_fail (IStr p false f false)) =
  (p, length p, IStr [] true (Nat.eqb (length p) 0) false).
Proof.
  intros Hl Hn. rewrite is_getline_good by reflexivity. cbn [is_rest clear_fail].
  replace (S m - 1) with m by lia. rewrite gl_store_end by assumption. reflexivity.
Qed.

Lemma plain_app p r : plain (p ++ r) <-> plain p /\ plain r.
Proof.
  unfold plain. split.
  - intros [H1 H2]. split; split; intro H; [apply H1|apply H2|apply H1|apply H2]; apply in_or_app; auto.
  - intros [[H1 H2] [H3 H4]]. split; intro H; apply in_app_or in H; tauto.
Qed.

(** The budget allows [l]: no limit, or [l] is not longer. *)
Definition allows (left : Z) (l : str) : Prop := (left < 0)%Z \/ (0 < left /\ Z.of_nat (length l) <= left)%Z.

Lemma piece_out_allows left p : allows left p -> piece_out left p = drop_cr p.
Proof.
  unfold allows, piece_out. intros [H|[H1 H2]].
  - destruct (Z.ltb_spec 0 left); [lia|reflexivity].
  - destruct (Z.ltb_spec left (Z.of_nat (length p))); [lia|]. rewrite andb_false_r. reflexivity.
Qed.
Lemma left_out_allows left p r : allows left (p ++ r) -> r <> [] -> allows (left_out left p) r.
Proof.
  unfold allows, left_out. rewrite app_length. intros [H|[H1 H2]] Hr.
  - left. destruct (Z.ltb_spec 0 left); [lia|assumption].
  - right. assert (0 < length r) by (destruct r; [contradiction|simpl; lia]).
    destruct (Z.ltb_spec 0 left); [|lia]. destruct (Z.ltb_spec left (Z.of_nat (length p))); lia.
Qed.
Lemma allows_left left p r : allows left (p ++ r) -> allows left p.
Proof. unfold allows. rewrite app_length. intros [H|[H1 H2]]; [left|right]; lia. Qed.
Lemma allows_no_ub left p n : allows left p ->
  (0 <? left)%Z && (left <? Z.of_nat (length p))%Z && (Z.of_nat n <=? left - 1)%Z = false.
Proof.
  unfold allows. intros [H|[H1 H2]].
  - destruct (Z.ltb_spec 0 left); [lia|reflexivity].
  - destruct (Z.ltb_spec left (Z.of_nat (length p))); [lia|]. rewrite andb_false_r. reflexivity.
Qed.

Lemma allows_nz left l : allows left l -> (left =? 0)%Z = false.
Proof. unfold allows. intro H. apply Z.eqb_neq. lia. Qed.

(** A line ended by a newline. *)
Lemma loop_line m l ps : 0 < m -> cut m l ps -> plain l -> forall fuel f line left hd r,
  length l < fuel -> allows left l ->
  glfs_loop fuel (S m) (IStr (l ++ nl :: r) false f false) line left hd false =
  Ok (line ++ without_crs ps, true, true, fresh r).
Proof.
  intros Hm C. induction C as [|p Hp|p t ps Hp Ht C IH]; intros P fuel f line left hd r Hf Ha;
    rewrite glfs_loop_eq, (allows_nz _ _ Ha); cbn [orb].
  - rewrite getline_nl; [|simpl; lia|intros []]. cbn [Nat.eqb].
    destruct fuel as [|fuel]; [simpl in Hf; lia|].
    change (cstr []) with (@nil ascii). cbv zeta. rewrite allows_no_ub by exact Ha.
    rewrite glfs_loop_eq. cbn [length Nat.ltb Nat.leb orb]. rewrite piece_out_allows by exact Ha. reflexivity.
  - rewrite getline_nl by (try lia; apply P). cbn [Nat.eqb].
    destruct fuel as [|fuel]; [simpl in Hf; lia|].
    rewrite cstr_plain by apply P. cbv zeta. rewrite allows_no_ub by exact Ha.
    rewrite (proj2 (Nat.ltb_lt _ _)) by lia.
    rewrite glfs_loop_eq. cbn [orb]. rewrite piece_out_allows by exact Ha.
    unfold without_crs. cbn [map concat]. rewrite app_nil_r. reflexivity.
  - apply plain_app in P as [P1 P2]. destruct t as [|c t]; [contradiction|].
    rewrite <- app_assoc. cbn [app].
    rewrite getline_full; [|exact Hp|exact Hm|apply P1|].
    2:{ intro E. apply (proj1 P2). left. exact E. }
    rewrite (proj2 (Nat.eqb_neq m 0)) by lia.
    destruct fuel as [|fuel]; [simpl in Hf; lia|].
    rewrite cstr_plain by apply P1. cbv zeta.
    rewrite allows_no_ub by exact (allows_left _ _ _ Ha).
    rewrite Hp, Nat.ltb_irrefl.
    change (c :: t ++ nl :: r) with ((c :: t) ++ nl :: r).
    rewrite IH; [|exact P2| rewrite app_length in Hf; lia | apply left_out_allows with (p:=p); [exact Ha|exact Ht]].
    rewrite piece_out_allows by exact (allows_left _ _ _ Ha).
    unfold without_crs. cbn [map concat]. rewrite app_assoc. reflexivity.
Qed.

(** The unfinished last line. *)
Lemma loop_last m l ps : 0 < m -> cut m l ps -> l <> [] -> plain l -> forall fuel f line left hd,
  length l < fuel -> allows left l -> (left < 0)%Z ->
  glfs_loop fuel (S m) (IStr l false f false) line left hd false =
  Ok (line ++ without_crs ps, true, false, IStr [] true true false).
Proof.
  intros Hm C. induction C as [|p Hp|p t ps Hp Ht C IH]; intros Hne P fuel f line left hd Hf Ha Hneg;
    rewrite glfs_loop_eq, (allows_nz _ _ Ha); cbn [orb].
  - contradiction.
  - rewrite getline_end by (try lia; apply P).
    rewrite (proj2 (Nat.eqb_neq (length p) 0)) by lia.
    destruct fuel as [|fuel]; [simpl in Hf; lia|].
    rewrite cstr_plain by apply P. cbv zeta. rewrite allows_no_ub by exact Ha.
    rewrite Nat.ltb_irrefl.
    rewrite glfs_loop_eq. unfold left_out. destruct (Z.ltb_spec 0 left); [lia|].
    rewrite (allows_nz _ _ Ha). cbn [orb]. unfold is_getline. cbn [clear_fail is_good is_eof is_fail is_bad orb negb is_rest Nat.eqb].
    rewrite piece_out_allows by exact Ha. unfold without_crs. cbn [map concat]. rewrite app_nil_r. reflexivity.
  - apply plain_app in P as [P1 P2]. destruct t as [|c t]; [contradiction|].
    rewrite getline_full; [|exact Hp|exact Hm|apply P1|].
    2:{ intro E. apply (proj1 P2). left. exact E. }
    rewrite (proj2 (Nat.eqb_neq m 0)) by lia.
    destruct fuel as [|fuel]; [simpl in Hf; lia|].
    rewrite cstr_plain by apply P1. cbv zeta.
    rewrite allows_no_ub by exact (allows_left _ _ _ Ha).
    rewrite Hp, Nat.ltb_irrefl.
    assert (El : left_out left p = left) by (unfold left_out; destruct (Z.ltb_spec 0 left); [lia|reflexivity]).
    rewrite El.
    rewrite IH; [|discriminate|exact P2| rewrite app_length in Hf; lia | left; exact Hneg | exact Hneg].
    rewrite piece_out_allows by exact (allows_left _ _ _ Ha).
    unfold without_crs. cbn [map concat]. rewrite app_assoc. reflexivity.
Qed.

Lemma cut_exists m : 0 < m -> forall l, exists ps, cut m l ps.
Proof.
  intros Hm l. remember (length l) as k eqn:Ek. revert l Ek.
  induction k as [k IH] using lt_wf_ind; intros l ->.
  destruct l as [|c l]; [exists []; constructor|].
  destruct (le_lt_dec (length (c :: l)) m) as [Hle|Hgt].
  - exists [c :: l]. constructor. simpl in *. lia.
  - destruct (IH (length (skipn m (c :: l)))) with (l := skipn m (c :: l)) as [ps C].
    + rewrite skipn_length. lia.
    + reflexivity.
    + exists (firstn m (c :: l) :: ps). rewrite <- (firstn_skipn m (c :: l)) at 1. constructor.
      * rewrite firstn_length. lia.
      * intro E. assert (length (skipn m (c :: l)) = 0) by (rewrite E; reflexivity).
        rewrite skipn_length in H. lia.
      * exact C.
Qed.

Lemma cr_only_last_app p t : cr_only_last (p ++ t) -> t <> [] -> ~ In "013"%char p /\ cr_only_last t.
Proof.
  unfold cr_only_last. intros H Ht. split.
  - intro Hi. apply in_split in Hi as (a & b & ->).
    specialize (H a (b ++ t)). rewrite <- app_assoc in H. cbn [app] in H.
    specialize (H eq_refl). apply app_eq_nil in H as [_ ->]. apply Ht; reflexivity.
  - intros a b ->. apply (H (p ++ a) b). rewrite app_assoc. reflexivity.
Qed.
Lemma drop_cr_none l : ~ In "013"%char l -> drop_cr l = l.
Proof.
  intro H. destruct l as [|x l]; [reflexivity|].
  destruct (exists_last (l:=x :: l)) as (q & c & E); [discriminate|]. rewrite E in *.
  apply drop_cr_snoc. intros ->. apply H. apply in_or_app. right; left; reflexivity.
Qed.
Lemma drop_cr_app p t : t <> [] -> drop_cr (p ++ t) = p ++ drop_cr t.
Proof.
  intro Ht. destruct (exists_last Ht) as (q & c & ->). rewrite app_assoc.
  destruct (ascii_dec c cr) as [->|N].
  - rewrite !drop_cr_snoc_cr. reflexivity.
  - rewrite !drop_cr_snoc by exact N. rewrite app_assoc. reflexivity.
Qed.
Lemma without_crs_last m l ps : cut m l ps -> cr_only_last l -> without_crs ps = drop_cr l.
Proof.
  induction 1 as [|p Hp|p t ps Hp Ht C IH]; intro O.
  - reflexivity.
  - unfold without_crs. cbn [map concat]. apply app_nil_r.
  - apply cr_only_last_app in O as [O1 O2]; [|exact Ht].
    unfold without_crs in *. cbn [map concat]. rewrite IH by exact O2.
    rewrite drop_cr_none by exact O1. symmetry. apply drop_cr_app. exact Ht.
Qed.

Lemma buf : 0 < 1023. Proof. lia. Qed.
Lemma bufS : bufferSize = S 1023. Proof. reflexivity. Qed.

(** One call, the stream at the start of a line of any length that is ended by a
    newline: the line, cut into pieces of 1023 bytes and each piece without its
    trailing CR, the flag set, and the stream good at the start of the next
    line.  The same with a limit that is not shorter than the line. *)
Theorem C123_line : forall l r ps limit, plain l -> cut 1023 l ps ->
  (limit < 0 \/ 0 < limit /\ Z.of_nat (length l) <= limit)%Z ->
  get_line_from_stream (fresh (l ++ nl :: r)) limit = Ok (true, without_crs ps, true, fresh r).
Proof.
  intros l r ps limit P C H. unfold get_line_from_stream, get_line_n. cbn [is_not fresh is_fail is_bad orb is_rest].
  rewrite bufS. unfold fresh at 1.
  rewrite (loop_line 1023 l ps buf C P); [reflexivity| rewrite app_length; simpl; lia | exact H].
Qed.

(** At the last line of a file that does not end in a newline; and at the end. *)
Theorem C123_last_line : forall l ps limit, plain l -> cut 1023 l ps -> l <> [] -> (limit < 0)%Z ->
  get_line_from_stream (fresh l) limit = Ok (true, without_crs ps, false, IStr [] true true false).
Proof.
  intros l ps limit P C Hne H. unfold get_line_from_stream, get_line_n. cbn [is_not fresh is_fail is_bad orb is_rest].
  rewrite bufS. unfold fresh.
  rewrite (loop_last 1023 l ps buf C Hne P); [reflexivity| lia | left; exact H | exact H].
Qed.

Lemma at_end limit : limit <> 0%Z ->
  get_line_from_stream (fresh []) limit = Ok (false, [], false, IStr [] true true false).
Proof.
  intro H. unfold get_line_from_stream, get_line_n. cbn [is_not fresh is_fail is_bad orb is_rest].
  rewrite glfs_loop_eq. rewrite (proj2 (Z.eqb_neq limit 0) H). reflexivity.
Qed.

(** The text of a file: lines ended by newlines, and what follows the last newline. *)
Definition text (ls : list str) (last : str) : str := concat (map (fun l => l ++ [nl]) ls) ++ last.

(** The usual loop over a file without NUL bytes in whose lines a CR can only be
    the last byte: exactly its lines, each without that CR, flagged as ended by
    a newline, and what follows the last newline, flagged as not, if anything
    does; then the loop ends. *)
Theorem C123_file : forall ls last limit fuel, (limit < 0)%Z ->
  Forall (fun l => plain l /\ cr_only_last l) (last :: ls) -> length ls + 2 <= fuel ->
  read_lines fuel (fresh (text ls last)) limit =
  Ok (map (fun l => (drop_cr l, true)) ls ++ (match last with [] => [] | _ => [(drop_cr last, false)] end),
      IStr [] true true false).
Proof.
  intros ls last limit fuel Hl F. inversion F as [|x y [Pl Ol] Fl]; subst. clear F.
  revert fuel. induction Fl as [|l ls [P O] Fl IH]; intros fuel Hf.
  - destruct fuel as [|fuel]; [lia|]. cbn [read_lines]. unfold text. cbn [map concat app].
    destruct last as [|c last].
    + rewrite at_end by lia. reflexivity.
    + destruct (cut_exists 1023 buf (c :: last)) as [ps C].
      rewrite (C123_last_line _ ps) by (assumption || discriminate).
      destruct fuel as [|fuel]; [simpl in Hf; lia|]. cbn [read_lines].
      rewrite (without_crs_last _ _ _ C Ol). reflexivity.
  - destruct fuel as [|fuel]; [simpl in Hf; lia|]. cbn [read_lines].
    destruct (cut_exists 1023 buf l) as [ps C].
    unfold text. cbn [map concat]. rewrite <- !app_assoc. cbn [app].
    rewrite (C123_line l _ ps) by (try assumption; left; exact Hl).
    change (concat (map (fun l0 => l0 ++ [nl]) ls) ++ last) with (text ls last).
    rewrite IH by (simpl in Hf; lia).
    rewrite (without_crs_last _ _ _ C O). reflexivity.
Qed.

(* ---------- any stream ---------- *)
Lemma loop_any n : 2 <= n -> forall fuel s line left hd hn, length (is_rest s) < fuel ->
  exists line' hd' hn' s', glfs_loop fuel n s line left hd hn = Ok (line', hd', hn', s') /\
    (exists used, is_rest s = used ++ is_rest s' /\ (hd = false -> hd' = true -> used <> []) /\ (hd' = false -> used = [])) /\
    (hd = true -> hd' = true) /\ (hd = false -> hd' = false -> line' = line /\ hn' = hn) /\
    is_bad s' = is_bad s /\
    ((0 <= left)%Z -> (Z.of_nat (length line') <= Z.of_nat (length line) + left)%Z).
Proof.
  intros Hn fuel. induction fuel as [|fuel IH]; intros s line left hd hn Hf; [lia|].
  rewrite glfs_loop_eq.
  destruct (hn || (left =? 0)%Z) eqn:E0.
  { exists line, hd, hn, s. split; [reflexivity|]. split.
    { exists []. split; [reflexivity|]. split; [congruence|reflexivity]. }
    split; [auto|]. split; [auto|]. split; [reflexivity|lia]. }
  apply orb_false_iff in E0 as [Eh El]. apply Z.eqb_neq in El.
  destruct (is_getline n (clear_fail s)) as [[b g] s1] eqn:Eg.
  apply is_getline_props in Eg as (Hb & Hg & (used & Hu & Hul) & Hfl & Hbad).
  cbn [clear_fail is_rest is_bad] in Hu, Hbad.
  destruct (Nat.eqb_spec g 0) as [G0|G0].
  { exists line, hd, hn, s1. split; [reflexivity|]. split.
    { exists []. destruct used; [|simpl in Hul; lia]. split; [exact Hu|]. split; [congruence|reflexivity]. }
    split; [auto|]. split; [auto|]. split; [exact Hbad|lia]. }
  cbv zeta.
  pose proof (cstr_length b) as Hc.
  destruct ((0 <? left)%Z && (left <? Z.of_nat (length (cstr b)))%Z && (Z.of_nat n <=? left - 1)%Z) eqn:Eu.
  { apply andb_true_iff in Eu as [Eu1 Eu2]. apply andb_true_iff in Eu1 as [_ Eu1].
    apply Z.ltb_lt in Eu1. apply Z.leb_le in Eu2. lia. }
  destruct (IH s1 (line ++ piece_out left (cstr b)) (left_out left (cstr b)) true (Nat.ltb (length (cstr b)) g))
    as (line' & hd' & hn' & s' & E & (used' & Hu' & _ & _) & Hhd & _ & Hbad' & Hlen).
  { rewrite Hu, app_length in Hf. lia. }
  exists line', hd', hn', s'. split; [exact E|]. assert (Ht : hd' = true) by (apply Hhd; reflexivity). split.
  { exists (used ++ used'). split; [rewrite Hu, Hu', app_assoc; reflexivity|].
    split; [intros _ _ E1; apply app_eq_nil in E1 as [-> _]; simpl in Hul; lia|congruence]. }
  split; [auto|]. split; [congruence|]. split; [congruence|].
  intro Hpos. unfold left_out, piece_out in Hlen.
  destruct (Z.ltb_spec 0 left); [|lia].
  destruct (Z.ltb_spec left (Z.of_nat (length (cstr b)))); cbn [andb] in Hlen.
  - specialize (Hlen (Z.le_refl 0)). rewrite app_length, firstn_length in Hlen. lia.
  - specialize (Hlen ltac:(lia)). rewrite app_length in Hlen.
    pose proof (drop_cr_length (cstr b)). lia.
Qed.

(** Any stream and any limit: the call returns; the stream is moved forward by
    the bytes it consumed, at least one if it returns true and none if it
    returns false, when the line is empty and the flag false; a limit that is
    not negative bounds the line's length. *)
Theorem C123_any : forall s limit, exists b line has s',
  get_line_from_stream s limit = Ok (b, line, has, s') /\
  (exists used, is_rest s = used ++ is_rest s' /\ (b = true <-> used <> [])) /\
  (b = false -> line = [] /\ has = false) /\
  is_bad s' = is_bad s /\
  ((0 <= limit)%Z -> (Z.of_nat (length line) <= limit)%Z).
Proof.
  intros s limit. unfold get_line_from_stream, get_line_n. destruct (is_not s).
  - exists false, [], false, s. split; [reflexivity|]. split; [exists []; split; [reflexivity|]; split; congruence|].
    split; [auto|]. split; [reflexivity|]. simpl. lia.
  - destruct (loop_any bufferSize ltac:(rewrite bufS; lia) (S (length (is_rest s))) s [] limit false false ltac:(lia))
      as (line & hd & hn & s' & E & (used & Hu & Ha & Hb) & _ & Hf & Hbad & Hlen).
    rewrite E. exists hd, line, hn, s'. split; [reflexivity|]. split.
    { exists used. split; [exact Hu|]. split; [auto|]. intro N. destruct hd; [reflexivity|]. exfalso. apply N. auto. }
    split; [intros ->; apply Hf; reflexivity|]. split; [exact Hbad|]. simpl in Hlen. exact Hlen.
Qed.

(** The loop over any stream ends. *)
Theorem C123_ends : forall fuel s limit, length (is_rest s) < fuel ->
  exists ls s', read_lines fuel s limit = Ok (ls, s') /\ length ls <= length (is_rest s).
Proof.
  induction fuel as [|fuel IH]; intros s limit Hf; [lia|]. cbn [read_lines].
  destruct (C123_any s limit) as (b & line & has & s' & E & (used & Hu & Hb) & _).
  rewrite E. destruct b.
  - assert (used <> []) by (apply Hb; reflexivity).
    assert (Hl : length (is_rest s') < length (is_rest s)).
    { rewrite Hu, app_length. destruct used; [contradiction|simpl; lia]. }
    destruct (IH s' limit ltac:(lia)) as (ls & s'' & E2 & Hls). rewrite E2.
    exists ((line, has) :: ls), s''. split; [reflexivity|]. simpl. lia.
  - exists [], s'. split; [reflexivity|]. simpl. lia.
Qed.

(* ---------- limits shorter than the line ---------- *)
Lemma loop_full m l1 ps : 0 < m -> cut m l1 ps -> forall q, length l1 = m * q -> plain l1 ->
  forall fuel f line left hd c x, length l1 + length (c :: x) < fuel -> c <> nl -> (Z.of_nat (length l1) <= left)%Z -> (0 < left)%Z ->
  exists fuel' f' hd', length (c :: x) < fuel' /\ (0 < q -> f' = true /\ hd' = true) /\ (q = 0 -> f' = f /\ hd' = hd) /\
    glfs_loop fuel (S m) (IStr (l1 ++ c :: x) false f false) line left hd false =
    glfs_loop fuel' (S m) (IStr (c :: x) false f' false) (line ++ without_crs ps) (left - Z.of_nat (length l1)) hd' false.
Proof.
  intros Hm C. induction C as [|p Hp|p t ps Hp Ht C IH]; intros q Hq P fuel f line left hd c x Hf Hc Hl Hpos.
  - exists fuel, f, hd. assert (q = 0) by (simpl in Hq; destruct q; nia). subst q.
    split; [simpl in *; lia|]. split; [lia|]. split; [auto|].
    cbn [app length]. unfold without_crs. cbn [map concat]. rewrite app_nil_r.
    replace (left - Z.of_nat 0)%Z with left by lia. reflexivity.
  - assert (q = 1) by nia. subst q. rewrite glfs_loop_eq.
    destruct (Z.eqb_spec left 0); [lia|]. cbn [orb].
    rewrite getline_full; [|lia|exact Hm|apply P|exact Hc].
    rewrite (proj2 (Nat.eqb_neq m 0)) by lia.
    destruct fuel as [|fuel]; [lia|]. rewrite cstr_plain by apply P. cbv zeta.
    assert (A : allows left p) by (right; lia).
    rewrite allows_no_ub by exact A. replace (length p) with m by lia. rewrite Nat.ltb_irrefl.
    exists fuel, true, true. split; [lia|]. split; [auto|]. split; [lia|].
    rewrite piece_out_allows by exact A. unfold left_out.
    destruct (Z.ltb_spec 0 left); [|lia]. destruct (Z.ltb_spec left (Z.of_nat (length p))); [lia|].
    unfold without_crs. cbn [map concat]. rewrite app_nil_r. replace (length p) with m by lia. reflexivity.
  - rewrite app_length in *. apply plain_app in P as [P1 P2].
    destruct q as [|q]; [nia|].
    assert (Hq' : length t = m * q) by nia.
    assert (Htl : 0 < length t) by (destruct t; [contradiction|simpl; lia]).
    rewrite glfs_loop_eq. destruct (Z.eqb_spec left 0); [lia|]. cbn [orb].
    destruct t as [|d t]; [contradiction|]. rewrite <- app_assoc. cbn [app].
    rewrite getline_full; [|exact Hp|exact Hm|apply P1|].
    2:{ intro E. apply (proj1 P2). left. exact E. }
    rewrite (proj2 (Nat.eqb_neq m 0)) by lia.
    destruct fuel as [|fuel]; [lia|]. rewrite cstr_plain by apply P1. cbv zeta.
    assert (A : allows left p) by (right; lia).
    rewrite allows_no_ub by exact A. rewrite Hp, Nat.ltb_irrefl.
    change (d :: t ++ c :: x) with ((d :: t) ++ c :: x).
    destruct (IH q Hq' P2 fuel true (line ++ piece_out left p) (left_out left p) true c x) as (fuel' & f' & hd' & F1 & F2 & F3 & E).
    + lia.
    + exact Hc.
    + unfold left_out. destruct (Z.ltb_spec 0 left); [|lia]. destruct (Z.ltb_spec left (Z.of_nat (length p))); lia.
    + unfold left_out. destruct (Z.ltb_spec 0 left); [|lia]. destruct (Z.ltb_spec left (Z.of_nat (length p))); lia.
    + exists fuel', f', hd'. split; [exact F1|]. split.
      { intros _. destruct q; [apply F3; reflexivity|apply F2; lia]. }
      split; [lia|]. rewrite E.
      rewrite piece_out_allows by exact A. unfold left_out.
      destruct (Z.ltb_spec 0 left); [|lia]. destruct (Z.ltb_spec left (Z.of_nat (length p))); [lia|].
      unfold without_crs. cbn [map concat]. rewrite app_assoc. f_equal. lia.
Qed.

(** A line longer than the limit.  The limit is some number of whole 1023-byte
    pieces [l1] and [t] more bytes.  If [t] is 0 the line so far is returned;
    otherwise [t - 1] bytes more, one less than the limit allows, and the
    whole piece they are in is gone from the stream, with the newline if it was
    in reach.  Unless the newline was reached the stream is left failed. *)
Theorem C123_limit : forall l1 ps q l2 r t, plain (l1 ++ l2) -> cut 1023 l1 ps -> length l1 = 1023 * q ->
  t < 1023 -> t < length l2 -> 0 < 1023 * q + t ->
  get_line_from_stream (fresh ((l1 ++ l2) ++ nl :: r)) (Z.of_nat (1023 * q + t)) =
  Ok (if Nat.eqb t 0 then (true, without_crs ps, false, IStr (l2 ++ nl :: r) false true false)
      else if Nat.leb (length l2) 1023 then (true, without_crs ps ++ firstn (t - 1) l2, true, fresh r)
      else (true, without_crs ps ++ firstn (t - 1) l2, false, IStr (skipn 1023 l2 ++ nl :: r) false true false)).
Proof.
  intros l1 ps q l2 r t P C Hq Ht Htl Hpos. apply plain_app in P as [P1 P2].
  destruct l2 as [|c x]; [simpl in Htl; lia|].
  assert (Hc : c <> nl) by (intro E; apply (proj1 P2); left; exact E).
  unfold get_line_from_stream, get_line_n. cbn [is_not fresh is_fail is_bad orb is_rest].
  rewrite bufS. unfold fresh at 1. rewrite <- app_assoc. cbn [app].
  destruct (loop_full 1023 l1 ps buf C q Hq P1 (S (length (l1 ++ c :: x ++ nl :: r))) false [] (Z.of_nat (1023 * q + t)) false c (x ++ nl :: r))
    as (fuel' & f' & hd' & F1 & F2 & F3 & E).
  { rewrite app_length. lia. }
  { exact Hc. }
  { lia. } { lia. }
  rewrite E. cbn [app]. rewrite Hq. replace (Z.of_nat (1023 * q + t) - Z.of_nat (1023 * q))%Z with (Z.of_nat t) by lia.
  clear E. rewrite glfs_loop_eq. destruct (Nat.eqb_spec t 0) as [->|Ht0].
  - cbn [Z.of_nat Z.eqb orb]. destruct (F2 ltac:(lia)) as [-> ->]. reflexivity.
  - destruct (Z.eqb_spec (Z.of_nat t) 0); [lia|]. cbn [orb].
    change (c :: x ++ nl :: r) with ((c :: x) ++ nl :: r).
    destruct (Nat.leb_spec (length (c :: x)) 1023) as [Hle|Hgt].
    + rewrite getline_nl by (try exact Hle; apply P2). cbn [Nat.eqb].
      destruct fuel' as [|fuel']; [lia|]. rewrite cstr_plain by apply P2. cbv zeta.
      destruct (Z.leb_spec (Z.of_nat (S 1023)) (Z.of_nat t - 1)); [lia|]. rewrite andb_false_r.
      rewrite (proj2 (Nat.ltb_lt (length (c :: x)) (S (length (c :: x))))) by lia.
      rewrite glfs_loop_eq. cbn [orb]. unfold piece_out.
      destruct (Z.ltb_spec 0 (Z.of_nat t)); [|lia]. destruct (Z.ltb_spec (Z.of_nat t) (Z.of_nat (length (c :: x)))); [|lia].
      cbn [andb]. replace (Z.to_nat (Z.of_nat t - 1)) with (t - 1) by lia. reflexivity.
    + rewrite <- (firstn_skipn 1023 (c :: x)) at 1. rewrite <- app_assoc.
      set (p := firstn 1023 (c :: x)). set (y := skipn 1023 (c :: x)).
      assert (Hp : length p = 1023) by (unfold p; rewrite firstn_length; lia).
      assert (Hy : y <> []). { intro Ey. assert (length y = 0) by (rewrite Ey; reflexivity). unfold y in H. rewrite skipn_length in H. lia. }
      assert (Py : plain (p ++ y)) by (unfold p, y; rewrite firstn_skipn; exact P2).
      apply plain_app in Py as [Pp Py]. destruct y as [|d y']; [contradiction|]. cbn [app].
      rewrite getline_full; [|exact Hp|exact buf|apply Pp|intro E; apply (proj1 Py); left; exact E].
      change (Nat.eqb 1023 0) with false. cbv iota.
      destruct fuel' as [|fuel']; [lia|]. rewrite cstr_plain by apply Pp. cbv zeta.
      destruct (Z.leb_spec (Z.of_nat (S 1023)) (Z.of_nat t - 1)); [lia|]. rewrite andb_false_r.
      rewrite Hp, Nat.ltb_irrefl. rewrite glfs_loop_eq.
      unfold left_out, piece_out. rewrite Hp.
      destruct (Z.ltb_spec 0 (Z.of_nat t)); [|lia]. destruct (Z.ltb_spec (Z.of_nat t) (Z.of_nat 1023)); [|lia].
      cbn [andb orb]. change (0 =? 0)%Z with true. cbv iota.
      replace (Z.to_nat (Z.of_nat t - 1)) with (t - 1) by lia.
      unfold p. rewrite firstn_firstn. replace (Nat.min (t - 1) 1023) with (t - 1) by lia. reflexivity.
Qed.

(** "Reading with a limit gives the beginning of every line": after a line of
    more than 1023 bytes, the loop with a limit of up to 1023 ends, whatever
    follows in the file. *)
Theorem C123_limit_refuted : forall l r k fuel, plain l -> 1023 < length l -> (0 < k <= 1023)%Z ->
  2 <= fuel -> exists line s', read_lines fuel (fresh (l ++ nl :: r)) k = Ok ([(line, false)], s') /\
    Z.of_nat (length line) = (if (k =? 1023)%Z then Z.of_nat (length (drop_cr (firstn 1023 l))) else k - 1)%Z.
Proof.
  intros l r k fuel P Hl Hk Hf.
  destruct fuel as [|[|fuel]]; [lia|lia|].
  destruct (Z.eq_dec k 1023) as [->|Nk].
  - assert (Pl : plain (firstn 1023 l ++ skipn 1023 l)) by (rewrite firstn_skipn; exact P).
    pose proof (C123_limit (firstn 1023 l) [firstn 1023 l] 1 (skipn 1023 l) r 0 Pl) as E.
    rewrite firstn_skipn in E. change (Z.of_nat (1023 * 1 + 0)) with 1023%Z in E.
    assert (Hfl : length (firstn 1023 l) = 1023) by (rewrite firstn_length; lia).
    cbn [read_lines]. rewrite E; clear E.
    + cbn [Nat.eqb]. exists (drop_cr (firstn 1023 l)). eexists. unfold get_line_from_stream, get_line_n.
      cbn [is_not is_fail orb]. unfold without_crs. cbn [map concat]. rewrite app_nil_r. split; [reflexivity|].
      reflexivity.
    + apply cut_last. lia.
    + lia.
    + lia.
    + rewrite skipn_length. lia.
    + lia.
  - assert (Pl : plain ([] ++ l)) by exact P.
    pose proof (C123_limit [] [] 0 l r (Z.to_nat k) Pl) as E. cbn [app] in E.
    rewrite Nat.mul_0_r, Nat.add_0_l, Z2Nat.id in E by lia.
    cbn [read_lines]. rewrite E; clear E; [| apply cut_nil | reflexivity | lia | lia | lia].
    rewrite (proj2 (Nat.eqb_neq _ _)) by lia. rewrite (proj2 (Nat.leb_gt _ _)) by lia.
    unfold get_line_from_stream, get_line_n. cbn [is_not is_fail orb].
    eexists. eexists. split; [reflexivity|].
    unfold without_crs. cbn [map concat app]. rewrite firstn_length.
    destruct (Z.eqb_spec k 1023); [contradiction|]. lia.
Qed.

(** A limit of 0 looks like the end of the file. *)
Theorem C123_limit_zero_refuted : forall s, exists s', get_line_from_stream s 0 = Ok (false, [], false, s') /\ is_rest s' = is_rest s.
Proof.
  intros s. destruct (C123_any s 0) as (b & line & has & s' & E & (used & Hu & Hb) & Hf & _).
  exists s. split; [|reflexivity]. unfold get_line_from_stream, get_line_n in *.
  destruct (is_not s); reflexivity.
Qed.

(** "Everything is got": a CR at the end of a 1023-byte piece in the middle of
    a line is lost. *)
Theorem C123_cr_refuted : forall p t r, plain (p ++ t) -> length p = 1022 -> t <> [] -> plain t -> length t <= 1023 -> ~ In cr t -> ~ In cr p ->
  get_line_from_stream (fresh ((p ++ cr :: t) ++ nl :: r)) (-1) = Ok (true, p ++ t, true, fresh r).
Proof.
  intros p t r P Hp Ht Pt Htl Nt Np. apply plain_app in P as [P _].
  assert (C : cut 1023 ((p ++ [cr]) ++ t) [p ++ [cr]; t]).
  { apply cut_more; [rewrite app_length; simpl; lia|exact Ht|]. apply cut_last. destruct t; [contradiction|]. simpl in *; lia. }
  rewrite <- app_assoc in C. cbn [app] in C.
  assert (Pa : plain (p ++ cr :: t)).
  { apply plain_app. split; [exact P|]. split; intros [E|E]; try discriminate E; [exact (proj1 Pt E)|exact (proj2 Pt E)]. }
  rewrite (C123_line _ r _ (-1) Pa C (or_introl eq_refl)).
  unfold without_crs. cbn [map concat]. rewrite app_nil_r, drop_cr_snoc_cr, drop_cr_none by exact Nt. reflexivity.
Qed.

(** "has_newline is true when the line had a newline", "everything is got": a
    NUL byte ends the line, is reported as a newline, and the bytes after it up
    to the real newline are lost. *)
Theorem C123_nul_refuted : forall a b r, plain a -> ~ In nl b -> length a + length b < 1023 -> ~ In cr a ->
  get_line_from_stream (fresh (a ++ nul :: b ++ nl :: r)) (-1) = Ok (true, a, true, fresh r) /\
  get_line_from_stream (fresh (a ++ nul :: b)) (-1) = Ok (true, a, true, IStr [] true false false).
Proof.
  intros a b r Pa Nb Hl Na.
  assert (N : ~ In nl (a ++ nul :: b)).
  { intro H. apply in_app_or in H as [H|[H|H]]; [exact (proj1 Pa H)|discriminate|exact (Nb H)]. }
  assert (Hlen : length (a ++ nul :: b) <= 1023) by (rewrite app_length; simpl; lia).
  assert (Ec : cstr (a ++ nul :: b) = a).
  { clear -Pa. induction a as [|c a IH]; [reflexivity|]. cbn [app cstr].
    destruct (Ascii.eqb_spec c nul) as [->|_]; [exfalso; apply (proj2 Pa); left; reflexivity|].
    rewrite IH; [reflexivity|]. split; intro H; [apply (proj1 Pa)|apply (proj2 Pa)]; right; exact H. }
  assert (Lt : Nat.ltb (length a) (length (a ++ nul :: b)) = true) by (apply Nat.ltb_lt; rewrite app_length; simpl; lia).
  unfold get_line_from_stream, get_line_n. cbn [is_not fresh is_fail is_bad orb is_rest]. rewrite bufS. unfold fresh.
  split; rewrite glfs_loop_eq; cbn [orb Z.eqb].
  - replace (a ++ nul :: b ++ nl :: r) with ((a ++ nul :: b) ++ nl :: r) by (rewrite <- app_assoc; reflexivity).
    rewrite getline_nl by assumption. cbn [Nat.eqb]. rewrite Ec. cbv zeta. change (0 <? -1)%Z with false. cbn [andb].
    rewrite (proj2 (Nat.ltb_lt (length a) (S (length (a ++ nul :: b))))) by (rewrite app_length; simpl; lia).
    rewrite glfs_loop_eq. cbn [orb app]. unfold piece_out. change (0 <? -1)%Z with false. cbn [andb].
    rewrite drop_cr_none by exact Na. reflexivity.
  - rewrite getline_end by assumption.
    rewrite (proj2 (Nat.eqb_neq (length (a ++ nul :: b)) 0)) by (rewrite app_length; simpl; lia).
    rewrite Ec. cbv zeta. change (0 <? -1)%Z with false. cbn [andb]. rewrite Lt.
    rewrite glfs_loop_eq. cbn [orb app]. unfold piece_out. change (0 <? -1)%Z with false. cbn [andb].
    rewrite drop_cr_none by exact Na. reflexivity.
Qed.

(** A stream that has failed (a file that could not be opened). *)
Theorem C123_failed : forall s limit, is_fail s = true \/ is_bad s = true ->
  get_line_from_stream s limit = Ok (false, [], false, s).
Proof.
  intros s limit H. unfold get_line_from_stream, get_line_n, is_not.
  assert (E : is_fail s || is_bad s = true) by (apply orb_true_iff; exact H). rewrite E. reflexivity.
Qed.

(* ---------- examples ---------- *)
Lemma cr_last_only q : ~ In cr q -> cr_only_last (q ++ [cr]).
Proof.
  intros N a b H. destruct b as [|x b]; [reflexivity|]. exfalso.
  destruct (exists_last (l:=x :: b)) as (b' & z & E); [discriminate|]. rewrite E in H.
  change (cr :: b' ++ [z]) with ((cr :: b') ++ [z]) in H.
  change ("013"%char :: b' ++ [z]) with ((cr :: b') ++ [z]) in H. rewrite app_assoc in H.
  apply app_inj_tail in H as [H _]. apply N. rewrite H. apply in_or_app. right; left; reflexivity.
Qed.
Definition ex_text : str := L "ab" ++ [cr; nl; nl] ++ L "c" ++ [cr] ++ L "d" ++ [nl] ++ L "e" ++ [cr].
Example C123_file_example :
  read_lines 10 (fresh ex_text) (-1) =
  Ok ([(L "ab", true); ([], true); (L "c" ++ [cr] ++ L "d", true); (L "e", false)], IStr [] true true false).
Proof. vm_compute. reflexivity. Qed.
Example C123_file_hyps : ex_text = text [L "ab" ++ [cr]; []; L "c" ++ [cr] ++ L "d"] (L "e" ++ [cr]) /\
  Forall plain [L "e" ++ [cr]; L "ab" ++ [cr]; []; L "c" ++ [cr] ++ L "d"] /\ cr_only_last (L "ab" ++ [cr]).
Proof.
  split; [reflexivity|]. split.
  - repeat (apply Forall_cons; [split; intro H; vm_compute in H; intuition discriminate|]); apply Forall_nil.
  - apply cr_last_only. intro H; vm_compute in H; intuition discriminate.
Qed.
Example C123_limit_example :
  read_lines 10 (fresh (L "abcdef" ++ [nl] ++ L "xyz" ++ [nl] ++ L "xy" ++ [cr; nl])) 3 =
  Ok ([(L "ab", true); (L "xyz", true); (L "xy", true)], IStr [] true true false).
Proof. vm_compute. reflexivity. Qed.
Example C123_long_example : exists l, plain l /\ 1023 < length l /\ cut 1023 l [repeat "x"%char 1023; L "yz"].
Proof.
  exists (repeat "x"%char 1023 ++ L "yz"). split.
  - split; intro H; apply in_app_or in H as [H|H].
    + apply repeat_spec in H; discriminate.
    + vm_compute in H; intuition discriminate.
    + apply repeat_spec in H; discriminate.
    + vm_compute in H; intuition discriminate.
  - split; [rewrite app_length, repeat_length; simpl; lia|].
    apply cut_more; [apply repeat_length|discriminate|]. apply cut_last. simpl. lia.
Qed.

Print Assumptions C123_line.
Print Assumptions C123_last_line.
Print Assumptions C123_file.
Print Assumptions C123_any.
Print Assumptions C123_ends.
Print Assumptions C123_limit.
Print Assumptions C123_failed.
Print Assumptions C123_limit_refuted.
Print Assumptions C123_limit_zero_refuted.
Print Assumptions C123_cr_refuted.
Print Assumptions C123_nul_refuted.
