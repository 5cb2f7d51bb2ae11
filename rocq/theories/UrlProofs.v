(** UrlProofs.v -- the ways to match the URL expressions. *)
From Coq Require Import List Ascii Bool Arith Lia.
Import ListNotations.
From Verif Require Import Base RegexModel RegexSpec RegexAst RegexGrammar RegexCompile2 RegexWays RegexMatch RegexMatch2 RegexFind RegexProps RegexProps2 RegexProps3.
From Verif Require Import UrlModel UrlSpec.

Definition anc : list (ascii * ascii) := [("A", "A"); ("A", "Z"); ("a", "a"); ("a", "z"); ("0", "0"); ("0", "9")]%char.
Definition pwc : list (ascii * ascii) := [(":", ":"); ("@", "@")]%char.
Definition hoc : list (ascii * ascii) := [(":", ":"); ("@", "@"); ("/", "/")]%char.
Definition dic : list (ascii * ascii) := [("0", "0"); ("0", "9")]%char.
Definition run (n : nat) (neg : bool) (cs : list (ascii * ascii)) : re := Grp n (Seq (Plus (Cls neg cs)) Eps).
Definition sub (m : nat) (c : ascii) (n : nat) (neg : bool) (cs : list (ascii * ascii)) : re := Grp m (Seq (Chr c) (Seq (run n neg cs) Eps)).
Definition db_re : re := Seq (Opt (Grp 9 (Seq (Plus Any) Eps))) Eps.
Definition sl_re : re := Seq (Chr "/") db_re.
Definition po_re : re := Seq (Opt (sub 7 ":" 8 false dic)) sl_re.
Definition ho_re : re := Seq (run 6 true hoc) po_re.
Definition at_re : re := Seq (Opt (sub 4 ":" 5 true pwc)) (Seq (Chr "@") Eps).
Definition us_re : re := Grp 2 (Seq (run 3 false anc) at_re).
Definition af_re : re := Seq (Opt us_re) ho_re.
Definition pr_re (r : re) : re := Seq (Grp 1 (Seq (Star (Cls false alnum)) Eps)) (Seq (Chr ":") (Seq (Chr "/") (Seq (Chr "/") r))).
Definition url_re : re := pr_re af_re.
Definition glom_re : re := Seq (Grp 2 (Seq (Star Any) Eps)) Eps.
Definition purl_re : re := pr_re glom_re.
Lemma url_legal : g_alt 1 VTK_URL_REGEX url_re 10. Proof. legal. Qed.
Lemma purl_legal : g_alt 1 VTK_URL_PROTOCOL_REGEX purl_re 3. Proof. legal. Qed.

Definition an (c : ascii) : bool := is_alpha c || is_digit c.
Definition pw (c : ascii) : bool := negb (Ascii.eqb c ":") && negb (Ascii.eqb c "@").
Definition ho (c : ascii) : bool := negb (Ascii.eqb c ":") && negb (Ascii.eqb c "@") && negb (Ascii.eqb c "/").
Lemma cls_an c : cls_ok false anc c = an c. Proof. destruct c as [[] [] [] [] [] [] [] []]; reflexivity. Qed.
Lemma cls_an2 c : cls_ok false alnum c = an c. Proof. destruct c as [[] [] [] [] [] [] [] []]; reflexivity. Qed.
Lemma cls_pw c : cls_ok true pwc c = pw c. Proof. destruct c as [[] [] [] [] [] [] [] []]; reflexivity. Qed.
Lemma cls_ho c : cls_ok true hoc c = ho c. Proof. destruct c as [[] [] [] [] [] [] [] []]; reflexivity. Qed.
Lemma cls_di c : cls_ok false dic c = is_digit c. Proof. destruct c as [[] [] [] [] [] [] [] []]; reflexivity. Qed.

Definition plus_ev (E : list ev) : way -> way := fun '(k, e') => (k, e' ++ E).
Section U.
Context (s : str).
(** The repetition of a class in a group. *)
Lemma ways_run n neg cs f i : (forall c, cls_ok neg cs c = f c) -> i <= length s ->
  ways s (run n neg cs) i = map (fun '(j, _) => (j, [Leave n j; Enter n i])) (lst 1 i (length (take_while f (skipn i s)))).
Proof.
  intros F Hi. change (ways s (run n neg cs) i) with (map (fun '(j, e) => (j, Leave n j :: e ++ [Enter n i])) (ways_then (ways s (Plus (Cls neg cs)) i) (fun j => [(j, [])]))).
  rewrite wt_unit, plus_cls by lia. rewrite (count_ext _ f _ F). unfold count_run. now apply map_lst.
Qed.
Lemma run_then n neg cs f (K : nat -> list way) i : (forall c, cls_ok neg cs c = f c) -> i <= length s ->
  (forall j c, nth_error s j = Some c -> f c = true -> K j = []) ->
  ways_then (ways s (run n neg cs) i) K =
  let no := length (take_while f (skipn i s)) in if no <? 1 then [] else map (plus_ev [Leave n (i + no); Enter n i]) (K (i + no)).
Proof.
  intros F Hi H. rewrite (ways_run n neg cs f) by auto. cbn zeta. rewrite (wt_lst (fun j => [Leave n j; Enter n i])); [reflexivity|].
  intros d Hd. destruct (tw_nth f (skipn i s) d Hd) as (c & Ec & Tc). rewrite <- nth_skip in Ec. apply (H _ c Ec Tc).
Qed.
Lemma ways_sub m c n neg cs f i : (forall c, cls_ok neg cs c = f c) -> i <= length s ->
  ways s (sub m c n neg cs) i = match nth_error s i with
  | Some d => if Ascii.eqb c d then map (fun '(j, _) => (j, [Leave m j; Leave n j; Enter n (S i); Enter m i])) (lst 1 (S i) (length (take_while f (skipn (S i) s)))) else []
  | None => [] end.
Proof.
  intros F Hi. change (ways s (sub m c n neg cs) i) with (map (fun '(j, e) => (j, Leave m j :: e ++ [Enter m i])) (ways s (Seq (Chr c) (Seq (run n neg cs) Eps)) i)). rewrite one_seq.
  destruct (nth_error s i) as [d|] eqn:E; [|reflexivity]. destruct (Ascii.eqb c d); [|reflexivity]. assert (i < length s) by (apply nth_error_Some; congruence).
  change (ways s (Seq (run n neg cs) Eps) (S i)) with (ways_then (ways s (run n neg cs) (S i)) (fun j => [(j, [])])). rewrite wt_unit, (ways_run n neg cs f) by (auto; lia).
  rewrite map_map. apply map_ext. intros [j e]. reflexivity.
Qed.
Lemma sub_then m c n neg cs f (K : nat -> list way) i : (forall c, cls_ok neg cs c = f c) -> i <= length s ->
  (forall j d, nth_error s j = Some d -> f d = true -> K j = []) ->
  ways_then (ways s (sub m c n neg cs) i) K =
  match nth_error s i with
  | Some d => if Ascii.eqb c d then let no := length (take_while f (skipn (S i) s)) in if no <? 1 then [] else map (plus_ev [Leave m (S i + no); Leave n (S i + no); Enter n (S i); Enter m i]) (K (S i + no)) else []
  | None => [] end.
Proof.
  intros F Hi H. rewrite (ways_sub m c n neg cs f) by auto. destruct (nth_error s i) as [d|]; [|reflexivity]. destruct (Ascii.eqb c d); [|reflexivity]. cbn zeta.
  rewrite (wt_lst (fun j => [Leave m j; Leave n j; Enter n (S i); Enter m i])); [reflexivity|].
  intros e Hd. destruct (tw_nth f (skipn (S i) s) e Hd) as (x & Ec & Tc). rewrite <- nth_skip in Ec. apply (H _ x Ec Tc).
Qed.
Lemma opt_then r b i : ways s (Seq (Opt r) b) i = ways_then (ways s r i) (ways s b) ++ ways s b i.
Proof. change (ways s (Seq (Opt r) b) i) with (ways_then (ways s r i ++ [(i, [])]) (ways s b)). rewrite wt_app, wt_one. reflexivity. Qed.
Lemma hd_map {A B} (g : A -> B) l : hd_error (map g l) = option_map g (hd_error l). Proof. destruct l; reflexivity. Qed.
Lemma skip_run f i : skipn (i + length (take_while f (skipn i s))) s = drop_while f (skipn i s).
Proof. rewrite skip_skip. apply skip_tw. Qed.
Lemma nth_of i : nth_error s i = hd_error (skipn i s).
Proof. destruct (nth_error s i) as [c|] eqn:E; [now rewrite (skipn_cons _ _ _ E)|now rewrite (skipn_end _ _ E)]. Qed.
Lemma len_skip i : i <= length s -> i + length (skipn i s) = length s.
Proof. intro H. rewrite skipn_length. lia. Qed.
Lemma skip_next i c t : skipn i s = c :: t -> skipn (S i) s = t /\ nth_error s i = Some c /\ S i <= length s.
Proof.
  intro E. assert (N : nth_error s i = Some c) by (rewrite nth_of, E; reflexivity). rewrite (skipn_cons _ _ _ N) in E. injection E as E. split; [exact E|]. split; [exact N|].
  apply nth_error_Some. congruence.
Qed.

(** The database: all the rest. *)
Definition db_ev (i : nat) (t : str) : list ev := match t with [] => [] | _ => [Leave 9 (i + length t); Enter 9 i] end.
Lemma hd_db i : i <= length s -> hd_error (ways s db_re i) = Some (length s, db_ev i (skipn i s)).
Proof.
  intro Hi. unfold db_re. rewrite opt_then.
  change (ways s (Grp 9 (Seq (Plus Any) Eps)) i) with (map (fun '(j, e) => (j, Leave 9 j :: e ++ [Enter 9 i])) (ways_then (ways s (Plus Any) i) (fun j => [(j, [])]))).
  change (ways s Eps) with (fun j : nat => [(j, @nil ev)]). rewrite !wt_unit.
  assert (P : ways s (Plus Any) i = lst 1 i (length (skipn i s))).
  { change (ways s (Plus Any) i) with (ways_then (one_char s (fun _ => true) i) (repeat_ways (length s) (fun i => one_char s (fun _ => true) i))). unfold one_char at 1.
    destruct (nth_error s i) as [c|] eqn:E.
    - assert (i < length s) by (apply nth_error_Some; congruence). rewrite wt_one. change (fun i0 => one_char s (fun _ => true) i0) with (one_char s (fun _ : ascii => true)). rewrite repeat_char by lia. rewrite count_any. rewrite (skipn_cons s i c E). cbn [length]. rewrite skipn_length. symmetry. apply lst1_S.
    - rewrite (skipn_end s i E). reflexivity. }
  rewrite P. pose proof (len_skip i Hi) as Q. destruct (skipn i s) as [|c t]; [cbn in *; rewrite Nat.add_0_r in Q; subst; reflexivity|]. cbn [length lst]. change (S (length t) <? 1) with false. cbn iota. cbn [map hd_error app]. unfold db_ev. cbn [length] in *. rewrite Q. reflexivity.
Qed.
Lemma sl_then i : ways s sl_re i = match skipn i s with c :: t => if Ascii.eqb "/" c then ways s db_re (S i) else [] | [] => [] end.
Proof. unfold sl_re. rewrite one_seq, nth_of. destruct (skipn i s); reflexivity. Qed.
Definition port_ev (i : nat) (d : option str) : list ev := match d with None => [] | Some d => [Leave 7 (S i + length d); Leave 8 (S i + length d); Enter 8 (S i); Enter 7 i] end.
Definition portp (t : str) : option (option str * str) :=
  match t with
  | [] => None
  | c :: r => if Ascii.eqb "/" c then Some (None, r)
              else if Ascii.eqb ":" c then
                match take_while is_digit r, drop_while is_digit r with
                | _ :: _, c2 :: db => if Ascii.eqb "/" c2 then Some (Some (take_while is_digit r), db) else None
                | _, _ => None
                end
              else None
  end.
Lemma hd_port i : i <= length s -> hd_error (ways s po_re i) =
  match portp (skipn i s) with None => None | Some (d, db) => Some (length s, db_ev (i + length (port_text d) + 1) db ++ port_ev i d) end.
Proof.
  intro Hi. unfold po_re. rewrite opt_then. rewrite (sub_then 7 ":" 8 false dic is_digit). 2: exact cls_di. 2: exact Hi. 2: { intros j d E D. rewrite sl_then, (skipn_cons _ _ _ E). destruct (Ascii.eqb_spec "/" d) as [<-|]; [discriminate|reflexivity]. }
  rewrite sl_then, nth_of. destruct (skipn i s) as [|c r] eqn:E; [reflexivity|]. cbn [hd_error portp]. destruct (skip_next _ _ _ E) as (Er & _ & L1).
  destruct (Ascii.eqb_spec "/" c) as [<-|N1].
  - cbn [Ascii.eqb Bool.eqb]. change (Ascii.eqb ":" "/") with false. cbn [app port_text length port_ev]. rewrite app_nil_r, Nat.add_0_r, Nat.add_1_r. rewrite hd_db by exact L1. rewrite Er. reflexivity.
  - destruct (Ascii.eqb_spec ":" c) as [<-|N2]; [|reflexivity]. rewrite app_nil_r. cbn zeta. rewrite Er. set (d := take_while is_digit r).
    pose proof (skip_run is_digit (S i)) as SK. rewrite Er in SK. fold d in SK.
    assert (L2 : S i + length d <= length s). { pose proof (len_skip (S i) L1) as Q. rewrite Er in Q. rewrite <- (take_drop_while is_digit r) in Q. rewrite app_length in Q. fold d in Q. lia. }
    destruct d as [|x d'] eqn:Ed; [reflexivity|]. replace (length (x :: d') <? 1) with false by (symmetry; apply Nat.ltb_ge; cbn; lia). rewrite <- Ed in *. rewrite hd_map, sl_then, SK.
    destruct (drop_while is_digit r) as [|c2 db] eqn:Dd; [rewrite Ed; reflexivity|]. destruct (skip_next _ _ _ SK) as (Er2 & _ & L3). rewrite Ed at 2. rewrite <- Ed. destruct (Ascii.eqb "/" c2); [|reflexivity]. rewrite hd_db by exact L3. rewrite Er2. cbn [option_map plus_ev port_ev port_text].
    f_equal. f_equal. f_equal. f_equal. change (length (L ":" ++ d)) with (S (length d)). lia.
Qed.
Lemma po_nil j c : nth_error s j = Some c -> ho c = true -> ways s po_re j = [].
Proof.
  intros E H. assert (Hj : j <= length s) by (apply Nat.lt_le_incl, nth_error_Some; congruence). pose proof (hd_port j Hj) as P. rewrite (skipn_cons _ _ _ E) in P. cbn [portp] in P. unfold ho in H.
  destruct (Ascii.eqb_spec "/" c) as [<-|]; [discriminate|]. destruct (Ascii.eqb_spec ":" c) as [<-|]; [discriminate|]. destruct (ways s po_re j); [reflexivity|discriminate].
Qed.
Definition tailp (t : str) : option (str * option str * str) :=
  match take_while ho t with [] => None | h => match portp (drop_while ho t) with Some (d, db) => Some (h, d, db) | None => None end end.
Definition tail_ev (i : nat) (h : str) (d : option str) (db : str) : list ev :=
  (db_ev (i + length h + length (port_text d) + 1) db ++ port_ev (i + length h) d) ++ [Leave 6 (i + length h); Enter 6 i].
Lemma hd_tail i : i <= length s -> hd_error (ways s ho_re i) =
  match tailp (skipn i s) with None => None | Some (h, d, db) => Some (length s, tail_ev i h d db) end.
Proof.
  intro Hi. unfold ho_re. change (ways s (Seq (run 6 true hoc) po_re) i) with (ways_then (ways s (run 6 true hoc) i) (ways s po_re)). rewrite (run_then 6 true hoc ho). 2: exact cls_ho. 2: exact Hi. 2: exact po_nil.
  cbn zeta. unfold tailp. pose proof (skip_run ho i) as SK. set (h := take_while ho (skipn i s)) in *.
  assert (L2 : i + length h <= length s). { pose proof (len_skip i Hi) as Q. rewrite <- (take_drop_while ho (skipn i s)) in Q. rewrite app_length in Q. fold h in Q. lia. }
  destruct h as [|x h'] eqn:Eh; [reflexivity|]. replace (length (x :: h') <? 1) with false by (symmetry; apply Nat.ltb_ge; cbn; lia). rewrite hd_map, (hd_port _ L2), SK. destruct (portp (drop_while ho (skipn i s))) as [[d db]|]; reflexivity.
Qed.
(** user[:password]@ *)
Definition atp (t : str) : option (option str * str) :=
  match t with
  | [] => None
  | c :: r => if Ascii.eqb "@" c then Some (None, r)
              else if Ascii.eqb ":" c then
                match take_while pw r, drop_while pw r with
                | _ :: _, c2 :: q => if Ascii.eqb "@" c2 then Some (Some (take_while pw r), q) else None
                | _, _ => None
                end
              else None
  end.
Definition at_len (w : option str) : nat := match w with None => 1 | Some w => 2 + length w end.
Definition at_ev (i : nat) (w : option str) : list ev := match w with None => [] | Some w => [Leave 4 (S i + length w); Leave 5 (S i + length w); Enter 5 (S i); Enter 4 i] end.
Lemma ats i : ways s (Seq (Chr "@") Eps) i = match skipn i s with c :: t => if Ascii.eqb "@" c then [(S i, [])] else [] | [] => [] end.
Proof. rewrite one_seq, nth_of. destruct (skipn i s); reflexivity. Qed.
Lemma ways_at i : i <= length s -> ways s at_re i = match atp (skipn i s) with None => [] | Some (w, q) => [(i + at_len w, at_ev i w)] end.
Proof.
  intro Hi. unfold at_re. rewrite opt_then. rewrite (sub_then 4 ":" 5 true pwc pw). 2: exact cls_pw. 2: exact Hi. 2: { intros j d E D. rewrite ats, (skipn_cons _ _ _ E). destruct (Ascii.eqb_spec "@" d) as [<-|]; [discriminate|reflexivity]. }
  rewrite ats, nth_of. destruct (skipn i s) as [|c r] eqn:E; [reflexivity|]. cbn [hd_error atp]. destruct (skip_next _ _ _ E) as (Er & _ & L1).
  destruct (Ascii.eqb_spec "@" c) as [<-|N1].
  - change (Ascii.eqb ":" "@") with false. cbn [app at_len at_ev]. rewrite Nat.add_1_r. reflexivity.
  - destruct (Ascii.eqb_spec ":" c) as [<-|N2]; [|reflexivity]. rewrite app_nil_r. cbn zeta. rewrite Er. set (d := take_while pw r).
    pose proof (skip_run pw (S i)) as SK. rewrite Er in SK. fold d in SK.
    destruct d as [|x d'] eqn:Ed; [reflexivity|]. replace (length (x :: d') <? 1) with false by (symmetry; apply Nat.ltb_ge; cbn; lia). rewrite <- Ed in *. rewrite ats, SK.
    destruct (drop_while pw r) as [|c2 q] eqn:Dd; [rewrite Ed; reflexivity|]. destruct (Ascii.eqb "@" c2); [|reflexivity]. cbn [map plus_ev at_len at_ev app]. f_equal. f_equal. lia.
Qed.
Definition userp (t : str) : option (str * option str * str) :=
  match take_while an t with [] => None | u => match atp (drop_while an t) with Some (w, q) => Some (u, w, q) | None => None end end.
Definition user_ev (i : nat) (u : str) (w : option str) : list ev :=
  Leave 2 (i + length u + at_len w) :: (at_ev (i + length u) w ++ [Leave 3 (i + length u); Enter 3 i]) ++ [Enter 2 i].
Lemma ways_user i : i <= length s -> ways s us_re i = match userp (skipn i s) with None => [] | Some (u, w, q) => [(i + length u + at_len w, user_ev i u w)] end.
Proof.
  intro Hi. change (ways s us_re i) with (map (fun '(j, e) => (j, Leave 2 j :: e ++ [Enter 2 i])) (ways_then (ways s (run 3 false anc) i) (ways s at_re))).
  rewrite (run_then 3 false anc an).
  2: exact cls_an. 2: exact Hi.
  2: { intros j c E A. assert (Hj : j <= length s) by (apply Nat.lt_le_incl, nth_error_Some; congruence). rewrite (ways_at j Hj), (skipn_cons _ _ _ E). cbn [atp].
       destruct (Ascii.eqb_spec "@" c) as [<-|]; [discriminate|]. destruct (Ascii.eqb_spec ":" c) as [<-|]; [discriminate|reflexivity]. }
  cbn zeta. unfold userp. pose proof (skip_run an i) as SK. set (u := take_while an (skipn i s)) in *.
  assert (L2 : i + length u <= length s). { pose proof (len_skip i Hi) as Q. rewrite <- (take_drop_while an (skipn i s)) in Q. rewrite app_length in Q. fold u in Q. lia. }
  destruct u as [|x u'] eqn:Eu; [reflexivity|]. replace (length (x :: u') <? 1) with false by (symmetry; apply Nat.ltb_ge; cbn; lia). rewrite (ways_at _ L2), SK. destruct (atp (drop_while an (skipn i s))) as [[w q]|]; reflexivity.
Qed.
Lemma atp_text t w q : atp t = Some (w, q) -> t = match w with None => "@"%char :: q | Some w => ":"%char :: w ++ "@"%char :: q end.
Proof.
  destruct t as [|c r]; [discriminate|]. cbn [atp]. destruct (Ascii.eqb_spec "@" c) as [<-|]; [intro H; injection H as <- <-; reflexivity|]. destruct (Ascii.eqb_spec ":" c) as [<-|]; [|discriminate].
  intro H. f_equal. rewrite <- (take_drop_while pw r) at 1. destruct (take_while pw r) as [|x d]; [discriminate|]. destruct (drop_while pw r) as [|c2 q2]; [discriminate|]. destruct (Ascii.eqb_spec "@" c2) as [<-|]; [|discriminate]. injection H as <- <-. reflexivity.
Qed.
Lemma user_skip i u w q : userp (skipn i s) = Some (u, w, q) -> skipn (i + length u + at_len w) s = q /\ i + length u + at_len w <= length s.
Proof.
  unfold userp. intro H. pose proof (skip_run an i) as SK. set (v := take_while an (skipn i s)) in *. clearbody v. destruct v as [|x v]; [discriminate|]. destruct (atp (drop_while an (skipn i s))) as [[w' q']|] eqn:A; [|discriminate]. injection H as <- <- <-.
  apply atp_text in A. rewrite A in SK. rewrite skip_skip, SK.
  assert (K : forall k t, skipn k s = t -> t <> [] -> k + length t = length s). { intros k t <- N. rewrite skipn_length. destruct (le_lt_dec (length s) k) as [G|G]; [rewrite skipn_all2 in N by exact G; congruence|lia]. }
  specialize (K _ _ SK). destruct w' as [w|]; cbn [at_len].
  - split.
    + change (skipn (2 + length w) (":"%char :: w ++ "@"%char :: q')) with (skipn (S (length w)) (w ++ "@"%char :: q')). rewrite skipn_app. rewrite skipn_all2 by lia. replace (S (length w) - length w) with 1 by lia. reflexivity.
    + assert (N : ":"%char :: w ++ "@"%char :: q' <> []) by discriminate. specialize (K N). cbn [length] in K. rewrite app_length in K. cbn [length] in *. lia.
  - split; [reflexivity|]. assert (N : "@"%char :: q' <> []) by discriminate. specialize (K N). cbn [length] in *. lia.
Qed.
Definition afterp (t : str) : option (option (str * option str) * str * option str * str) :=
  match (match userp t with Some (u, w, q) => match tailp q with Some (h, d, db) => Some (Some (u, w), h, d, db) | None => None end | None => None end) with
  | Some x => Some x
  | None => match tailp t with Some (h, d, db) => Some (None, h, d, db) | None => None end
  end.
Definition after_ev (i : nat) (u : option (str * option str)) (h : str) (d : option str) (db : str) : list ev :=
  match u with
  | Some (u, w) => tail_ev (i + length u + at_len w) h d db ++ user_ev i u w
  | None => tail_ev i h d db
  end.
Lemma hd_after i : i <= length s -> hd_error (ways s af_re i) = match afterp (skipn i s) with None => None | Some (u, h, d, db) => Some (length s, after_ev i u h d db) end.
Proof.
  intro Hi. unfold af_re. rewrite opt_then, (ways_user i Hi), hd_app, (hd_tail i Hi). unfold afterp. destruct (userp (skipn i s)) as [[[u w] q]|] eqn:U.
  - destruct (user_skip _ _ _ _ U) as (SK & L1). unfold ways_then. cbn [flat_map]. rewrite app_nil_r. change (fun '(k, e') => (k, e' ++ user_ev i u w)) with (plus_ev (user_ev i u w)). pose proof (hd_tail _ L1) as HT. rewrite SK in HT. destruct (ways s ho_re (i + length u + at_len w)) as [|w0 l0]; cbn [hd_error map] in *; destruct (tailp q) as [[[h d] db]|]; try discriminate HT; [destruct (tailp (skipn i s)) as [[[h d] db]|]; reflexivity|]. injection HT as ->. reflexivity.
  - cbn [hd_error]. destruct (tailp (skipn i s)) as [[[h d] db]|]; reflexivity.
Qed.
(** protocol:// *)
Definition sep3 (t : str) : option str :=
  match t with a :: b :: c :: r => if Ascii.eqb ":" a && Ascii.eqb "/" b && Ascii.eqb "/" c then Some r else None | _ => None end.
Lemma ways_sep r i : ways s (Seq (Chr ":") (Seq (Chr "/") (Seq (Chr "/") r))) i = match sep3 (skipn i s) with Some t => ways s r (i + 3) | None => [] end.
Proof.
  rewrite one_seq, nth_of. destruct (skipn i s) as [|a t] eqn:E; [reflexivity|]. destruct (skip_next _ _ _ E) as (E1 & _ & _). cbn [hd_error]. destruct (Ascii.eqb ":" a) eqn:A.
  2: { unfold sep3. destruct t as [|b [|c t]]; try reflexivity. rewrite A. reflexivity. }
  rewrite one_seq, nth_of, E1. destruct t as [|b t]; [reflexivity|]. destruct (skip_next _ _ _ E1) as (E2 & _ & _). cbn [hd_error]. destruct (Ascii.eqb "/" b) eqn:B.
  2: { unfold sep3. destruct t as [|c t]; try reflexivity. rewrite B, andb_false_r. reflexivity. }
  rewrite one_seq, nth_of, E2. destruct t as [|c t]; [reflexivity|]. cbn [hd_error sep3]. rewrite A, B. cbn [andb]. destruct (Ascii.eqb "/" c); [|reflexivity]. replace (i + 3) with (S (S (S i))) by lia. reflexivity.
Qed.
Lemma sep_skip i t : sep3 (skipn i s) = Some t -> skipn (i + 3) s = t /\ i + 3 <= length s.
Proof.
  unfold sep3. destruct (skipn i s) as [|a [|b [|c r]]] eqn:E; try discriminate. destruct (_ && _); [|discriminate]. intro H. injection H as <-. rewrite skip_skip, E. split; [reflexivity|].
  assert (N : length (skipn i s) = S (S (S (length r)))) by (rewrite E; reflexivity). rewrite skipn_length in N. lia.
Qed.
Definition protop {A} (f : str -> option A) (t : str) : option (str * A) :=
  match sep3 (drop_while an t) with Some r => match f r with Some x => Some (take_while an t, x) | None => None end | None => None end.
Lemma hd_proto {A} r (f : str -> option A) (ev_of : nat -> A -> list ev) i :
  (forall j, j <= length s -> hd_error (ways s r j) = match f (skipn j s) with Some x => Some (length s, ev_of j x) | None => None end) -> i <= length s ->
  hd_error (ways s (pr_re r) i) = match protop f (skipn i s) with Some (p, x) => Some (length s, ev_of (i + length p + 3) x ++ [Leave 1 (i + length p); Enter 1 i]) | None => None end.
Proof.
  intros R Hi. unfold pr_re. set (K := Seq (Chr ":") (Seq (Chr "/") (Seq (Chr "/") r))).
  change (ways s (Seq (Grp 1 (Seq (Star (Cls false alnum)) Eps)) K) i) with (ways_then (map (fun '(j, e) => (j, Leave 1 j :: e ++ [Enter 1 i])) (ways_then (ways s (Star (Cls false alnum)) i) (fun j => [(j, [])]))) (ways s K)).
  rewrite wt_unit, star_cls by lia. rewrite (count_ext _ an _ cls_an2). unfold count_run. rewrite (map_lst 0 i _ _ (fun j => [Leave 1 j; Enter 1 i])) by reflexivity. rewrite wt_lst.
  2: { intros d Hd. destruct (tw_nth an (skipn i s) d Hd) as (c & Ec & Tc). rewrite <- nth_skip in Ec. unfold K. rewrite one_seq, Ec. destruct (Ascii.eqb_spec ":" c) as [<-|]; [discriminate Tc|reflexivity]. }
  cbn [Nat.ltb Nat.leb]. unfold protop. pose proof (skip_run an i) as SK. set (p := take_while an (skipn i s)) in *. unfold K. rewrite ways_sep, SK. destruct (sep3 (drop_while an (skipn i s))) as [t|] eqn:E; [|reflexivity].
  rewrite <- SK in E. destruct (sep_skip _ _ E) as (S2 & L2). change (fun '(k, e') => (k, e' ++ [Leave 1 (i + length p); Enter 1 i])) with (plus_ev [Leave 1 (i + length p); Enter 1 i]). pose proof (R _ L2) as HT. rewrite S2 in HT. destruct (ways s r (i + length p + 3)) as [|w0 l0]; cbn [hd_error map] in *; destruct (f t); try discriminate HT; [reflexivity|]. injection HT as ->. reflexivity.
Qed.
End U.
