(** RegexProps3.v -- C94: the patterns of token_expander and config_parser. *)
From Coq Require Import List Ascii Bool Arith Lia.
Import ListNotations.
From Verif Require Import Base RegexModel RegexSpec RegexAst RegexGrammar RegexCompile2 RegexWays RegexMatch RegexMatch2 RegexFind RegexProps RegexProps2 ExpandModel ParserModel.

(** Greedy repetitions followed by a character outside the class. *)
Lemma wt_lst : forall (E : nat -> list ev) min i no K, (forall d, d < no -> K (i + d) = []) ->
  ways_then (map (fun '(j, _) => (j, E j)) (lst min i no)) K = if no <? min then [] else map (fun '(k, e') => (k, e' ++ E (i + no))) (K (i + no)).
Proof.
  intros E min i no K H.
  assert (Z : forall m, m < no -> ways_then (map (fun '(j, _) => (j, E j)) (lst min i m)) K = []).
  { induction m as [|m IH]; intro Hm; cbn [lst]; (destruct (_ <? min); [reflexivity|]); cbn [map]; unfold ways_then; cbn [flat_map].
    - rewrite H by lia. reflexivity.
    - rewrite H by lia. cbn [map app]. apply IH. lia. }
  destruct no as [|no]; cbn [lst]; (destruct (_ <? min); [reflexivity|]); cbn [map]; unfold ways_then; cbn [flat_map].
  - apply app_nil_r.
  - specialize (Z no ltac:(lia)). unfold ways_then in Z. rewrite Z. apply app_nil_r.
Qed.
Lemma nth_skip : forall (s : str) i k, nth_error s (i + k) = nth_error (skipn i s) k.
Proof. induction s as [|c s IH]; intros [|i] k; try reflexivity; [destruct k; reflexivity|]. cbn. apply IH. Qed.
Lemma skip_skip : forall (s : str) i k, skipn (i + k) s = skipn k (skipn i s).
Proof. induction s as [|c s IH]; intros [|i] k; cbn [skipn Nat.add]; try reflexivity; [now rewrite skipn_nil|]. apply IH. Qed.
Lemma skip_tw : forall f (l : str), skipn (length (take_while f l)) l = drop_while f l.
Proof. intros f l. induction l as [|c l IH]; [reflexivity|]. cbn [take_while drop_while]. destruct (f c); [cbn; exact IH|reflexivity]. Qed.
Lemma tw_nth : forall f (l : str) d, d < length (take_while f l) -> exists c, nth_error l d = Some c /\ f c = true.
Proof.
  intros f l. induction l as [|c l IH]; intros d H; cbn [take_while] in H; [cbn in H; lia|]. destruct (f c) eqn:E; [|cbn in H; lia]. cbn [length] in H. destruct d as [|d]; [exists c; auto|]. apply IH. lia.
Qed.
Lemma dw_hd : forall f (l : str), match drop_while f l with c :: _ => f c = false | [] => True end.
Proof. intros f l. induction l as [|c l IH]; [exact I|]. cbn [drop_while]. destruct (f c) eqn:E; [exact IH|exact E]. Qed.

Definition lower : list (ascii * ascii) := [("a", "a"); ("a", "z")]%char.
Definition letters : list (ascii * ascii) := lower ++ [("A", "A"); ("A", "Z")]%char.
Definition alnum : list (ascii * ascii) := letters ++ [("0", "0"); ("0", "9")]%char.
(** token_expander.cxx 89 *)
Definition tok_pat : str := L "\$([a-zA-Z][a-zA-Z0-9_]*)\{([a-zA-Z0-9._:]+)?\}".
Definition ty_re : re := Seq (Cls false letters) (Seq (Star (Cls false (alnum ++ [("_", "_")]%char))) Eps).
Definition nm_cls : list (ascii * ascii) := alnum ++ [(".", "."); ("_", "_"); (":", ":")]%char.
Definition tok_re : re := Seq (Chr "$") (Seq (Grp 1 ty_re) (Seq (Chr "{") (Seq (Opt (Grp 2 (Seq (Plus (Cls false nm_cls)) Eps))) (Seq (Chr "}") Eps)))).
Ltac legal := match goal with |- g_alt 1 ?e ?r ?n =>
  let v := eval vm_compute in (pa_reg (compile_fuel e) false e 1) in
  match v with COk (?l, _, _) =>
    let P := fresh in assert (P : okpass e l n) by (vm_compute; reflexivity);
    apply tree_grammar in P; [exact P|]; let H := fresh in intro H; vm_compute in H; repeat (destruct H as [H|H]; [discriminate H|]); exact H
  end end.
Lemma tok_legal : g_alt 1 tok_pat tok_re 3.
Proof. legal. Qed.
Lemma cls_letters : forall c, cls_ok false letters c = is_alpha c.
Proof. intros [[] [] [] [] [] [] [] []]; reflexivity. Qed.
Lemma cls_type : forall c, cls_ok false (alnum ++ [("_", "_")]%char) c = type_char c.
Proof. intros [[] [] [] [] [] [] [] []]; reflexivity. Qed.
Lemma cls_name : forall c, cls_ok false nm_cls c = name_char c.
Proof. intros [[] [] [] [] [] [] [] []]; reflexivity. Qed.

Section W.
Context (s : str).
Lemma one_seq : forall c r i, ways s (Seq (Chr c) r) i = match nth_error s i with Some d => if Ascii.eqb c d then ways s r (S i) else [] | None => [] end.
Proof. intros c r i. cbn [ways]. unfold one_char. destruct (nth_error s i) as [d|]; [|reflexivity]. destruct (Ascii.eqb c d); [apply wt_one|reflexivity]. Qed.
Lemma cls_seq : forall neg cs r i, ways s (Seq (Cls neg cs) r) i = match nth_error s i with Some d => if cls_ok neg cs d then ways s r (S i) else [] | None => [] end.
Proof. intros neg cs r i. cbn [ways]. unfold one_char. destruct (nth_error s i) as [d|]; [|reflexivity]. destruct (cls_ok neg cs d); [apply wt_one|reflexivity]. Qed.
Lemma star_cls : forall neg cs i, i <= length s -> ways s (Star (Cls neg cs)) i = lst 0 i (count_run (cls_ok neg cs) (skipn i s)).
Proof. intros neg cs i Hi. cbn [ways]. change (fun i0 => one_char s (cls_ok neg cs) i0) with (one_char s (cls_ok neg cs)). apply repeat_char; lia. Qed.
Lemma plus_cls : forall neg cs i, i <= length s -> ways s (Plus (Cls neg cs)) i = lst 1 i (count_run (cls_ok neg cs) (skipn i s)).
Proof.
  intros neg cs i Hi. cbn [ways]. unfold one_char at 1. destruct (nth_error s i) as [c|] eqn:E; [destruct (cls_ok neg cs c) eqn:Q|].
  - assert (i < length s) by (apply nth_error_Some; congruence). rewrite wt_one. change (fun i0 => one_char s (cls_ok neg cs) i0) with (one_char s (cls_ok neg cs)). rewrite repeat_char by lia. rewrite (count_S s (cls_ok neg cs) i c E Q). symmetry. apply lst1_S.
  - rewrite count_0 by congruence. reflexivity.
  - rewrite count_0 by congruence. reflexivity.
Qed.
Lemma lst_nil : forall min i no j e, In (j, e) (lst min i no) -> e = [].
Proof. intros min i no j e. induction no as [|no IH]; cbn [lst]; destruct (_ <? min); try (intros []; fail); intros [E|H]; try congruence; [destruct H|auto]. Qed.
Lemma map_lst : forall min i no (f : way -> way) (E : nat -> list ev), (forall j, f (j, []) = (j, E j)) -> map f (lst min i no) = map (fun '(j, _) => (j, E j)) (lst min i no).
Proof. intros min i no f E H. apply map_ext_in. intros [j e] I0. apply lst_nil in I0. subst e. apply H. Qed.
Lemma ways_ty : forall n i, i <= length s -> ways s (Grp n ty_re) i =
  match nth_error s i with Some c => if is_alpha c then map (fun '(k, _) => (k, [Leave n k; Enter n i])) (lst 0 (S i) (count_run type_char (skipn (S i) s))) else [] | None => [] end.
Proof.
  intros n i Hi. change (ways s (Grp n ty_re) i) with (map (fun '(j, e) => (j, Leave n j :: e ++ [Enter n i])) (ways s ty_re i)). unfold ty_re. rewrite cls_seq.
  destruct (nth_error s i) as [c|] eqn:E; [|reflexivity]. rewrite cls_letters. destruct (is_alpha c); [|reflexivity].
  assert (i < length s) by (apply nth_error_Some; congruence).
  change (ways s (Seq (Star (Cls false (alnum ++ [("_", "_")%char]))) Eps) (S i)) with (ways_then (ways s (Star (Cls false (alnum ++ [("_", "_")%char]))) (S i)) (fun j => [(j, [])])).
  rewrite wt_unit, star_cls by lia. rewrite (count_ext _ type_char _ cls_type). now apply map_lst.
Qed.
Lemma ways_nm : forall n i, i <= length s -> ways s (Opt (Grp n (Seq (Plus (Cls false nm_cls)) Eps))) i =
  map (fun '(k, _) => (k, [Leave n k; Enter n i])) (lst 1 i (count_run name_char (skipn i s))) ++ [(i, [])].
Proof.
  intros n i Hi. change (ways s (Opt (Grp n (Seq (Plus (Cls false nm_cls)) Eps))) i) with (map (fun '(j, e) => (j, Leave n j :: e ++ [Enter n i])) (ways_then (ways s (Plus (Cls false nm_cls)) i) (fun j => [(j, [])])) ++ [(i, [])]).
  rewrite wt_unit, plus_cls by lia. rewrite (count_ext _ name_char _ cls_name). f_equal. now apply map_lst.
Qed.
(** Where the groups of the token pattern are. *)
Definition tok_ev (i : nat) (ty nm : str) : list ev :=
  (match nm with [] => [] | _ => [Leave 2 (i + 2 + length ty + length nm); Enter 2 (i + 2 + length ty)] end) ++ [Leave 1 (i + 1 + length ty); Enter 1 (i + 1)].
Lemma ways_tok : forall i, i <= length s -> ways s tok_re i =
  match match_here (skipn i s) with None => [] | Some (ty, nm, _) => [(i + length (match_text ty nm), tok_ev i ty nm)] end.
Proof.
  intros i Hi. unfold tok_re. rewrite one_seq. destruct (nth_error s i) as [c0|] eqn:E0; [|rewrite (skipn_end s i E0); reflexivity]. rewrite (skipn_cons s i c0 E0).
  assert (L0 : i < length s) by (apply nth_error_Some; congruence).
  destruct (Ascii.eqb_spec "$" c0) as [<-|N0].
  2: { unfold match_here. destruct c0 as [[] [] [] [] [] [] [] []]; try reflexivity. now elim N0. }
  change (ways s (Seq (Grp 1 ty_re) (Seq (Chr "{") (Seq (Opt (Grp 2 (Seq (Plus (Cls false nm_cls)) Eps))) (Seq (Chr "}") Eps)))) (S i)) with
    (ways_then (ways s (Grp 1 ty_re) (S i)) (ways s (Seq (Chr "{") (Seq (Opt (Grp 2 (Seq (Plus (Cls false nm_cls)) Eps))) (Seq (Chr "}") Eps))))).
  rewrite ways_ty by lia. destruct (nth_error s (S i)) as [c1|] eqn:E1; [|rewrite (skipn_end s (S i) E1); reflexivity]. rewrite (skipn_cons s (S i) c1 E1).
  assert (L1 : S i < length s) by (apply nth_error_Some; congruence).
  cbn [match_here]. destruct (is_alpha c1); [|reflexivity]. set (r := skipn (S (S i)) s).
  set (t1 := take_while type_char r).
  set (K1 := ways s (Seq (Chr "{") (Seq (Opt (Grp 2 (Seq (Plus (Cls false nm_cls)) Eps))) (Seq (Chr "}") Eps)))).
  assert (ND : forall d, nth_error s (S (S i) + d) = nth_error r d) by (intro d; apply nth_skip).
  rewrite (wt_lst (fun k => [Leave 1 k; Enter 1 (S i)])).
  2: { intros d Hd. unfold count_run in Hd. fold t1 in Hd. destruct (tw_nth type_char r d Hd) as (c & Ec & Tc). unfold K1. rewrite one_seq, ND, Ec. destruct (Ascii.eqb_spec "{" c) as [<-|]; [discriminate Tc|reflexivity]. }
  cbn [Nat.ltb Nat.leb]. unfold count_run. fold t1. set (p := S (S i) + length t1).
  assert (SP : skipn p s = drop_while type_char r) by (unfold p; rewrite skip_skip; fold r; apply skip_tw).
  unfold K1. rewrite one_seq. destruct (nth_error s p) as [c2|] eqn:E2.
  2: { rewrite (skipn_end s p E2) in SP. rewrite <- SP. reflexivity. }
  assert (L2 : p < length s) by (apply nth_error_Some; congruence).
  rewrite (skipn_cons s p c2 E2) in SP. rewrite <- SP. destruct (Ascii.eqb_spec "{" c2) as [<-|N2].
  2: { destruct c2 as [[] [] [] [] [] [] [] []]; try reflexivity. now elim N2. }
  set (q := skipn (S p) s). set (t2 := take_while name_char q).
  change (ways s (Seq (Opt (Grp 2 (Seq (Plus (Cls false nm_cls)) Eps))) (Seq (Chr "}") Eps)) (S p)) with (ways_then (ways s (Opt (Grp 2 (Seq (Plus (Cls false nm_cls)) Eps))) (S p)) (ways s (Seq (Chr "}") Eps))).
  rewrite ways_nm by lia. rewrite wt_app, wt_one. fold q. unfold count_run. fold t2.
  assert (ND2 : forall d, nth_error s (S p + d) = nth_error q d) by (intro d; apply nth_skip).
  assert (F2 : forall d, d < length t2 -> ways s (Seq (Chr "}") Eps) (S p + d) = []).
  { intros d Hd. destruct (tw_nth name_char q d Hd) as (c & Ec & Tc). rewrite one_seq, ND2, Ec. destruct (Ascii.eqb_spec "}" c) as [<-|]; [discriminate Tc|reflexivity]. }
  rewrite (wt_lst (fun k => [Leave 2 k; Enter 2 (S p)])) by exact F2.
  assert (SQ : skipn (S p + length t2) s = drop_while name_char q) by (rewrite skip_skip; fold q; apply skip_tw).
  assert (LE2 : ways s (Seq (Chr "}") Eps) (S p + length t2) = match drop_while name_char q with "}"%char :: _ => [(S (S p + length t2), [])] | _ => [] end).
  { rewrite one_seq. destruct (nth_error s (S p + length t2)) as [c3|] eqn:E3; [|rewrite (skipn_end _ _ E3) in SQ; rewrite <- SQ; reflexivity].
    rewrite (skipn_cons _ _ c3 E3) in SQ. rewrite <- SQ. destruct (Ascii.eqb_spec "}" c3) as [<-|N3]; [reflexivity|]. destruct c3 as [[] [] [] [] [] [] [] []]; try reflexivity. now elim N3. }
  assert (LM : forall t, i + length (match_text (c1 :: t1) t) = S (S p + length t)) by (intro t; unfold match_text, p; rewrite !app_length; cbn [length L]; change (length (L "$")) with 1; change (length (L "{")) with 1; change (length (L "}")) with 1; lia).
  destruct t2 as [|c3 t2'] eqn:Et.
  - cbn [length Nat.ltb Nat.leb app map]. cbn [length] in LE2. rewrite Nat.add_0_r in LE2. rewrite LE2.
    destruct (drop_while name_char q) as [|c4 q4]; [reflexivity|]. destruct c4 as [[] [] [] [] [] [] [] []]; try reflexivity. cbn [map app]. rewrite LM. cbn [length]. rewrite Nat.add_0_r. unfold tok_ev. cbn [app]. unfold p. cbn [length]. replace (i + 1 + S (length t1)) with (S (S i) + length t1) by lia. rewrite (Nat.add_1_r i). reflexivity.
  - replace (length (c3 :: t2') <? 1) with false by (symmetry; apply Nat.ltb_ge; cbn; lia). rewrite LE2.
    assert (F0 := F2 0 ltac:(cbn; lia)). rewrite Nat.add_0_r in F0. rewrite F0. rewrite app_nil_r.
    destruct (drop_while name_char q) as [|c4 q4]; [reflexivity|]. destruct c4 as [[] [] [] [] [] [] [] []]; try reflexivity. cbn [map app]. rewrite LM. unfold tok_ev. cbn [app]. unfold p. cbn [length].
    replace (i + 1 + S (length t1)) with (S (S i) + length t1) by lia. rewrite (Nat.add_1_r i). replace (i + 2 + S (length t1)) with (S (S (S i) + length t1)) by lia. reflexivity.
Qed.
End W.

From Verif Require Import ExpandSpec ExpandProofs.
(** The matcher of ExpandModel by positions. *)
Lemma find_match_pos : forall s, match find_match s with
  | None => forall i, i <= length s -> match_here (skipn i s) = None
  | Some (pre, ty, nm, rest) => length pre <= length s /\ match_here (skipn (length pre) s) = Some (ty, nm, rest) /\ forall i, i < length pre -> match_here (skipn i s) = None
  end.
Proof.
  induction s as [|c s IH]; [intros i _; now rewrite skipn_nil|]. cbn [find_match]. destruct (match_here (c :: s)) as [[[ty nm] rest]|] eqn:E.
  - split; [cbn; lia|]. split; [exact E|]. cbn. lia.
  - destruct (find_match s) as [[[[pre ty] nm] rest]|].
    + destruct IH as (H1 & H2 & H3). split; [cbn; lia|]. split; [exact H2|]. intros [|i] Hi; [exact E|]. apply H3. cbn in Hi. lia.
    + intros [|i] Hi; [exact E|]. apply IH. cbn in Hi. lia.
Qed.
Lemma mid_text : forall (a b c : str), firstn (length a + length b - length a) (skipn (length a) (a ++ b ++ c)) = b.
Proof. intros a b c. rewrite Nat.add_comm, Nat.add_sub. rewrite skipn_app, skipn_all, Nat.sub_diag. cbn [skipn app]. rewrite firstn_app, firstn_all, Nat.sub_diag. cbn [firstn]. apply app_nil_r. Qed.
Lemma mid_at : forall (s a b c : str) i j, s = a ++ b ++ c -> i = length a -> j = length a + length b -> firstn (j - i) (skipn i s) = b.
Proof. intros s a b c i j -> -> ->. apply mid_text. Qed.
Lemma tok_text : forall s ty nm pre rest g, s = pre ++ match_text ty nm ++ rest ->
  nth 0 (g_start g) None = Some (length pre) -> nth 0 (g_end g) None = Some (length pre + length (match_text ty nm)) ->
  (forall k, 1 <= k < 10 -> nth k (g_start g) None = entered k (tok_ev (length pre) ty nm) /\ nth k (g_end g) None = left_at k (tok_ev (length pre) ty nm)) ->
  match_n s g 0 = match_text ty nm /\ match_n s g 1 = ty /\ match_n s g 2 = nm.
Proof.
  intros s ty nm pre rest g E S0 E0 K. pose proof (K 1 ltac:(lia)) as [A1 B1]. pose proof (K 2 ltac:(lia)) as [A2 B2]. unfold match_n. rewrite S0, E0, A1, B1, A2, B2. unfold tok_ev.
  split; [apply (mid_at s pre _ rest); auto|]. unfold match_text in E. change (L "$") with ["$"%char] in E. change (L "{") with ["{"%char] in E. change (L "}") with ["}"%char] in E. split.
  - assert (Q : firstn (length pre + 1 + length ty - (length pre + 1)) (skipn (length pre + 1) s) = ty).
    { apply (mid_at s (pre ++ ["$"%char]) ty (["{"%char] ++ nm ++ ["}"%char] ++ rest)); rewrite ?app_length; cbn [length]; try lia. rewrite E. rewrite <- !app_assoc. reflexivity. }
    destruct nm; exact Q.
  - destruct nm as [|c nm]; [reflexivity|].
    change (firstn (length pre + 2 + length ty + length (c :: nm) - (length pre + 2 + length ty)) (skipn (length pre + 2 + length ty) s) = c :: nm).
    apply (mid_at s (pre ++ ["$"%char] ++ ty ++ ["{"%char]) (c :: nm) (["}"%char] ++ rest)); rewrite ?app_length; cbn [length]; try lia. rewrite E. rewrite <- !app_assoc. reflexivity.
Qed.
(** The pattern of token_expander, compiled and run by RegularExpression, is
    the matcher ExpandModel uses. *)
Theorem C94_token_pattern : exists x, compile_string tok_pat = COk (Some x) /\ forall s, ~ In NUL s -> exists n0, forall n, n0 <= n -> exists g,
  match find_match s with
  | None => find_string n x s = MRes false g
  | Some (pre, ty, nm, rest) => find_string n x s = MRes true g /\ nth 0 (g_start g) None = Some (length pre) /\
      nth 0 (g_end g) None = Some (length pre + length (match_text ty nm)) /\ match_n s g 0 = match_text ty nm /\ match_n s g 1 = ty /\ match_n s g 2 = nm
  end.
Proof.
  assert (N : ~ In NUL tok_pat) by (intro H; vm_compute in H; repeat (destruct H as [H|H]; [discriminate H|]); exact H).
  destruct (C92_legal_is_accepted tok_pat tok_re 3 N tok_legal) as [x E]; [vm_compute; lia|]. exists x. split; [exact E|]. intros s Ns.
  destruct (find_found tok_pat tok_re 3 x s N tok_legal E) as [n0 F]. rewrite (c_str_id s Ns) in F. exists n0. intros n Hn. pose proof (find_match_pos s) as P.
  destruct (F n Hn) as [(g & i & j & ev & tl & M & Hi & WA & LE & S0 & E0 & GR)|(g & M & NO)]; exists g.
  - rewrite ways_tok in WA by exact Hi. destruct (match_here (skipn i s)) as [[[ty nm] r]|] eqn:MH; [|discriminate]. injection WA as <- <- <-.
    destruct (find_match s) as [[[[pre ty'] nm'] rest]|] eqn:FM; [|rewrite P in MH by exact Hi; discriminate].
    destruct P as (P1 & P2 & P3). assert (Q : length pre = i).
    { destruct (Nat.lt_trichotomy (length pre) i) as [L1|[L1|L1]]; [|exact L1|rewrite P3 in MH by exact L1; discriminate]. specialize (LE _ L1). rewrite ways_tok in LE by exact P1. rewrite P2 in LE. discriminate. }
    subst i. rewrite P2 in MH. injection MH as <- <- <-. split; [exact M|]. split; [exact S0|]. split; [exact E0|]. apply find_match_some in FM. destruct FM as (FS & _). exact (tok_text s ty' nm' pre rest g FS S0 E0 GR).
  - destruct (find_match s) as [[[[pre ty'] nm'] rest]|]; [|exact M]. destruct P as (P1 & P2 & _). specialize (NO _ P1). rewrite ways_tok in NO by exact P1. rewrite P2 in NO. discriminate.
Qed.
Print Assumptions C94_token_pattern.
(** ... in terms of the description of macro references. *)
Theorem C94_finds_references : exists x, compile_string tok_pat = COk (Some x) /\
  (forall s, ~ In NUL s -> no_ref_in s [] -> exists n0, forall n, n0 <= n -> exists g, find_string n x s = MRes false g) /\
  (forall pre t nm m rest, ~ In NUL (pre ++ m ++ rest) -> is_ref t nm m -> no_ref_in pre (m ++ rest) -> exists n0, forall n, n0 <= n -> exists g,
     find_string n x (pre ++ m ++ rest) = MRes true g /\ nth 0 (g_start g) None = Some (length pre) /\ nth 0 (g_end g) None = Some (length (pre ++ m)) /\
     match_n (pre ++ m ++ rest) g 0 = m /\ match_n (pre ++ m ++ rest) g 1 = t /\ match_n (pre ++ m ++ rest) g 2 = nm).
Proof.
  destruct C94_token_pattern as (x & E & F). exists x. split; [exact E|]. split.
  - intros s Ns H. destruct (F s Ns) as [n0 K]. exists n0. intros n Hn. destruct (K n Hn) as [g Q]. exists g. rewrite (find_match_none_complete s H) in Q. exact Q.
  - intros pre t nm m rest Ns R H. destruct (F _ Ns) as [n0 K]. exists n0. intros n Hn. destruct (K n Hn) as [g Q]. exists g. rewrite (find_match_complete pre t nm m rest R H) in Q.
    assert (MT : match_text t nm = m) by (symmetry; exact (proj1 R)). rewrite MT in Q. rewrite app_length. exact Q.
Qed.
Print Assumptions C94_finds_references.
Example C94_ex_ref : is_ref (L "ENV") (L "HOME") (L "$ENV{HOME}") /\ no_ref_in (L "a$b ") (L "$ENV{HOME}/x").
Proof.
  assert (F : find_match (L "a$b $ENV{HOME}/x") = Some (L "a$b ", L "ENV", L "HOME", L "/x")) by reflexivity.
  apply find_match_some in F. destruct F as (_ & F1 & F2). split; [exact F1|exact F2].
Qed.

(** config_parser.cxx 540-541 *)
Definition word_pat : str := L "^[a-zA-Z][-a-zA-Z0-9.:/_]+[-a-zA-Z0-9./_]".
Definition flag_pat : str := L "^\[[a-zA-Z,]+\]".
Definition wcls1 : list (ascii * ascii) := [("-", "-")]%char ++ alnum ++ [(".", "."); (":", ":"); ("/", "/"); ("_", "_")]%char.
Definition wcls2 : list (ascii * ascii) := [("-", "-")]%char ++ alnum ++ [(".", "."); ("/", "/"); ("_", "_")]%char.
Definition fcls : list (ascii * ascii) := letters ++ [(",", ",")]%char.
Definition word_re : re := Seq Bol (Seq (Cls false letters) (Seq (Plus (Cls false wcls1)) (Seq (Cls false wcls2) Eps))).
Definition flag_re : re := Seq Bol (Seq (Chr "[") (Seq (Plus (Cls false fcls)) (Seq (Chr "]") Eps))).
Lemma word_legal : g_alt 1 word_pat word_re 1. Proof. legal. Qed.
Lemma flag_legal : g_alt 1 flag_pat flag_re 1. Proof. legal. Qed.
Lemma cls_w1 : forall c, cls_ok false wcls1 c = word_char c.
Proof. intros [[] [] [] [] [] [] [] []]; reflexivity. Qed.
Lemma cls_w2 : forall c, cls_ok false wcls2 c = word_char c && negb (Ascii.eqb c ":").
Proof. intros [[] [] [] [] [] [] [] []]; reflexivity. Qed.
Lemma cls_f : forall c, cls_ok false fcls c = flag_char c.
Proof. intros [[] [] [] [] [] [] [] []]; reflexivity. Qed.
Lemma bol_seq : forall s r i, ways s (Seq Bol r) i = if i =? 0 then ways s r i else [].
Proof. intros s r i. cbn [ways]. destruct (i =? 0); [|reflexivity]. unfold ways_then. cbn [flat_map]. rewrite app_nil_r. rewrite <- map_id. apply map_ext. intros [k e]. now rewrite app_nil_r. Qed.
Lemma bo_snoc : forall t c, back_off (t ++ [c]) = if Ascii.eqb c ":" then back_off t else t ++ [c].
Proof. intros t c. unfold back_off. rewrite rev_app_distr. cbn [rev app drop_while]. destruct (Ascii.eqb c ":"); [reflexivity|]. cbn [rev]. now rewrite rev_involutive. Qed.
Lemma firstn_snoc : forall (t : str) m c, nth_error t m = Some c -> firstn (S m) t = firstn m t ++ [c].
Proof. induction t as [|d t IH]; intros [|m] c H; try discriminate; cbn in *; [congruence|]. now rewrite (IH m c H). Qed.
Lemma hd_app : forall {A} (a b : list A), hd_error (a ++ b) = match hd_error a with Some x => Some x | None => hd_error b end.
Proof. intros A [|x a] b; reflexivity. Qed.
Definition w2 (s : str) := ways s (Seq (Cls false wcls2) Eps).
Lemma back_hd : forall s i m, let t := take_while word_char (skipn i s) in m < length t ->
  hd_error (ways_then (lst 1 i m) (w2 s)) = let b := back_off (firstn (S m) t) in if 2 <=? length b then Some (i + length b, []) else None.
Proof.
  intros s i m t. subst t. induction m as [|m IH]; intro Hm.
  - cbn [lst]. cbn [Nat.ltb Nat.leb]. destruct (take_while word_char (skipn i s)) as [|c t]; [cbn in Hm; lia|]. cbn [firstn]. change [c] with ([] ++ [c]). rewrite bo_snoc. destruct (Ascii.eqb c ":"); reflexivity.
  - cbn [lst]. change (S m <? 1) with false. cbn [lst]. change ((i + S m, @nil ev) :: lst 1 i m) with ([(i + S m, @nil ev)] ++ lst 1 i m). rewrite wt_app, wt_one, hd_app, IH by lia.
    destruct (tw_nth word_char (skipn i s) (S m) Hm) as (c & Ec & Tc). unfold w2. rewrite cls_seq, nth_skip, Ec, cls_w2, Tc. cbn [andb].
    assert (Nt : nth_error (take_while word_char (skipn i s)) (S m) = Some c).
    { rewrite <- (take_drop_while word_char (skipn i s)) in Ec. rewrite nth_error_app1 in Ec by exact Hm. exact Ec. }
    cbn zeta. rewrite (firstn_snoc _ (S m) c Nt), bo_snoc. destruct (Ascii.eqb c ":"); [reflexivity|]. cbn [negb]. rewrite app_length, firstn_length. cbn [length].
    replace (Nat.min (S m) (length (take_while word_char (skipn i s))) + 1) with (S (S m)) by lia. cbn [Nat.leb ways hd_error]. replace (i + S (S m)) with (S (i + S m)) by lia. reflexivity.
Qed.
Lemma ways_word : forall s, hd_error (ways s word_re 0) = match match_word s with Some (w, _) => Some (length w, []) | None => None end.
Proof.
  intro s. unfold word_re. rewrite bol_seq. cbn [Nat.eqb]. rewrite cls_seq. destruct s as [|c r] eqn:Es; [reflexivity|]. cbn [nth_error]. rewrite cls_letters. cbn [match_word]. destruct (is_alpha c); [|reflexivity].
  change (ways (c :: r) (Seq (Plus (Cls false wcls1)) (Seq (Cls false wcls2) Eps)) 1) with (ways_then (ways (c :: r) (Plus (Cls false wcls1)) 1) (w2 (c :: r))).
  rewrite plus_cls by (cbn; lia). rewrite (count_ext _ word_char _ cls_w1). cbn [skipn]. unfold count_run.
  pose proof (back_hd (c :: r) 1) as B. cbn [skipn] in B. set (t := take_while word_char r) in *. cbn zeta in B.
  assert (TOP : w2 (c :: r) (1 + length t) = []).
  { unfold w2. rewrite cls_seq, nth_skip. cbn [skipn]. pose proof (dw_hd word_char r) as D. rewrite <- (skip_tw word_char r) in D. fold t in D.
    rewrite <- (Nat.add_0_r (length t)). rewrite nth_skip. destruct (skipn (length t) r) as [|d q]; [reflexivity|]. cbn [nth_error]. rewrite cls_w2, D. reflexivity. }
  destruct (length t) as [|m] eqn:Lt.
  - destruct t; [|discriminate]. reflexivity.
  - cbn [lst]. change (S m <? 1) with false. cbn iota. change ((1 + S m, @nil ev) :: lst 1 1 m) with ([(1 + S m, @nil ev)] ++ lst 1 1 m). rewrite wt_app, wt_one, TOP. cbn [app]. rewrite B by lia.
    rewrite <- Lt, firstn_all. destruct (2 <=? length (back_off t)); reflexivity.
Qed.
Lemma ways_flag : forall s, ways s flag_re 0 = match match_flag s with Some (w, _) => [(length w, [])] | None => [] end.
Proof.
  intro s. unfold flag_re. rewrite bol_seq. cbn [Nat.eqb]. rewrite one_seq. destruct s as [|c r]; [reflexivity|]. cbn [nth_error].
  destruct (Ascii.eqb_spec "[" c) as [<-|N0]; [|destruct c as [[] [] [] [] [] [] [] []]; try reflexivity; now elim N0].
  change (ways ("["%char :: r) (Seq (Plus (Cls false fcls)) (Seq (Chr "]") Eps)) 1) with (ways_then (ways ("["%char :: r) (Plus (Cls false fcls)) 1) (ways ("["%char :: r) (Seq (Chr "]") Eps))).
  rewrite plus_cls by (cbn; lia). rewrite (count_ext _ flag_char _ cls_f). cbn [skipn]. unfold count_run. set (t := take_while flag_char r).
  set (K := ways ("["%char :: r) (Seq (Chr "]") Eps)). rewrite <- (map_id (lst 1 1 (length t))). rewrite (map_lst 1 1 (length t) (fun x => x) (fun _ => [])) by reflexivity. rewrite wt_lst.
  2: { intros d Hd. destruct (tw_nth flag_char r d Hd) as (c & Ec & Tc). unfold K. rewrite one_seq. cbn [nth_error Nat.add]. rewrite Ec. destruct (Ascii.eqb_spec "]" c) as [<-|]; [discriminate Tc|reflexivity]. }
  unfold K. rewrite one_seq. cbn [Nat.add nth_error]. unfold match_flag. fold t. assert (ND : nth_error r (length t) = nth_error (drop_while flag_char r) 0) by (rewrite <- (Nat.add_0_r (length t)), nth_skip; unfold t; now rewrite skip_tw). rewrite ND. clear ND.
  destruct t as [|c1 t1]; [reflexivity|]. replace (length (c1 :: t1) <? 1) with false by (symmetry; apply Nat.ltb_ge; cbn; lia).
  destruct (drop_while flag_char r) as [|d q]; [reflexivity|]. cbn [nth_error]. destruct (Ascii.eqb_spec "]" d) as [<-|N1]; [|destruct d as [[] [] [] [] [] [] [] []]; try reflexivity; now elim N1].
  cbn [ways map app]. cbn [length]. rewrite app_length. cbn [length]. rewrite Nat.add_1_r. reflexivity.
Qed.
Lemma word_text : forall s w rest, match_word s = Some (w, rest) -> s = w ++ rest.
Proof.
  intros [|c r] w rest H; [discriminate|]. cbn [match_word] in H. destruct (is_alpha c); [|discriminate]. destruct (2 <=? _); [|discriminate]. injection H as <- <-. cbn [app]. f_equal.
  set (t := take_while word_char r). assert (P : exists u, t = back_off t ++ u).
  { clear. induction t as [|d t IH] using rev_ind; [exists []; reflexivity|]. rewrite bo_snoc. destruct (Ascii.eqb d ":"); [|exists []; now rewrite app_nil_r]. destruct IH as [u IH]. exists (u ++ [d]). rewrite app_assoc. now rewrite <- IH. }
  destruct P as [u P]. assert (R : r = back_off t ++ (u ++ drop_while word_char r)) by (rewrite app_assoc, <- P; symmetry; apply take_drop_while).
  clearbody t. set (b := back_off t) in *. clearbody b. rewrite R. set (v := u ++ drop_while word_char r). clearbody v. f_equal. rewrite skipn_app, skipn_all, Nat.sub_diag. reflexivity.
Qed.
Lemma flag_text : forall s w rest, match_flag s = Some (w, rest) -> s = w ++ rest.
Proof.
  intros [|c r] w rest H; [discriminate|]. unfold match_flag in H. destruct c as [[] [] [] [] [] [] [] []]; try discriminate. rewrite <- (take_drop_while flag_char r).
  destruct (take_while flag_char r); [discriminate|]. destruct (drop_while flag_char r) as [|d q]; [discriminate|]. destruct d as [[] [] [] [] [] [] [] []]; try discriminate. injection H as <- <-. cbn [app]. now rewrite <- app_assoc.
Qed.
(** An anchored pattern against its matcher. *)
Lemma anchored : forall e r ng (f : str -> option (str * str)), ~ In NUL e -> g_alt 1 e (Seq Bol r) ng -> length e <= 125 ->
  (forall s, hd_error (ways s (Seq Bol r) 0) = match f s with Some (w, _) => Some (length w, []) | None => None end) ->
  (forall s w rest, f s = Some (w, rest) -> s = w ++ rest) ->
  exists x, compile_string e = COk (Some x) /\ forall s, ~ In NUL s -> exists n0, forall n, n0 <= n -> exists g,
  match f s with
  | None => find_string n x s = MRes false g
  | Some (w, rest) => find_string n x s = MRes true g /\ match_n s g 0 = w /\ nth 0 (g_end g) None = Some (length w) /\ skipn (length w) s = rest
  end.
Proof.
  intros e r ng f N G Le W T. destruct (C92_legal_is_accepted e _ ng N G Le) as [x E]. exists x. split; [exact E|]. intros s Ns.
  destruct (find_found e _ ng x s N G E) as [n0 F]. rewrite (c_str_id s Ns) in F. exists n0. intros n Hn. specialize (W s). specialize (T s).
  destruct (F n Hn) as [(g & i & j & ev & tl & M & Hi & WA & LE & S0 & E0 & GR)|(g & M & NO)]; exists g.
  - assert (i = 0) by (rewrite bol_seq in WA; destruct (Nat.eqb_spec i 0); [assumption|discriminate]). subst i. rewrite WA in W. cbn [hd_error] in W.
    destruct (f s) as [[w rest]|]; [|discriminate]. injection W as -> ->. specialize (T w rest eq_refl). split; [exact M|]. split; [|split; [exact E0|]].
    + unfold match_n. rewrite S0, E0. exact (mid_at s [] w rest 0 (length w) T eq_refl eq_refl).
    + rewrite T, skipn_app, skipn_all, Nat.sub_diag. reflexivity.
  - rewrite (NO 0 ltac:(lia)) in W. destruct (f s) as [[w rest]|]; [discriminate|exact M].
Qed.
(** The two patterns of config_parser. *)
Theorem C94_word_pattern : exists x, compile_string word_pat = COk (Some x) /\ forall s, ~ In NUL s -> exists n0, forall n, n0 <= n -> exists g,
  match match_word s with
  | None => find_string n x s = MRes false g
  | Some (w, rest) => find_string n x s = MRes true g /\ match_n s g 0 = w /\ nth 0 (g_end g) None = Some (length w) /\ skipn (length w) s = rest
  end.
Proof.
  refine (anchored word_pat _ 1 match_word _ word_legal _ ways_word word_text).
  - intro H; vm_compute in H; repeat (destruct H as [H|H]; [discriminate H|]); exact H.
  - vm_compute; lia.
Qed.
Print Assumptions C94_word_pattern.
Theorem C94_flag_pattern : exists x, compile_string flag_pat = COk (Some x) /\ forall s, ~ In NUL s -> exists n0, forall n, n0 <= n -> exists g,
  match match_flag s with
  | None => find_string n x s = MRes false g
  | Some (w, rest) => find_string n x s = MRes true g /\ match_n s g 0 = w /\ nth 0 (g_end g) None = Some (length w) /\ skipn (length w) s = rest
  end.
Proof.
  refine (anchored flag_pat _ 1 match_flag _ flag_legal _ _ flag_text).
  - intro H; vm_compute in H; repeat (destruct H as [H|H]; [discriminate H|]); exact H.
  - vm_compute; lia.
  - intro s. rewrite ways_flag. destruct (match_flag s) as [[w rest]|]; reflexivity.
Qed.
Print Assumptions C94_flag_pattern.
Example C94_ex_word : match_word (L "foo:bar::=3") = Some (L "foo:bar", L "::=3") /\ match_flag (L "[RO,X] x") = Some (L "[RO,X]", L " x") /\ match_word (L "ab=1") = None.
Proof. repeat split; reflexivity. Qed.
