(** UrlProps.v -- property C128: SystemTools::ParseURL and ParseURLProtocol. *)
From Coq Require Import List Ascii Bool Arith Lia.
Import ListNotations.
From Verif Require Import Base RegexModel RegexSpec RegexAst RegexGrammar RegexCompile2 RegexWays RegexMatch RegexMatch2 RegexFind RegexProps RegexProps2 RegexProps3.
From Verif Require Import UrlModel UrlSpec UrlProofs.

Lemma tw_stop (f : ascii -> bool) (a : str) c r : forallb f a = true -> f c = false -> take_while f (a ++ c :: r) = a /\ drop_while f (a ++ c :: r) = c :: r.
Proof.
  intros A C. assert (T : take_while f (a ++ c :: r) = a ++ take_while f (c :: r)) by exact (take_while_app f a (c :: r) A). assert (D : drop_while f (a ++ c :: r) = drop_while f (c :: r)) by exact (drop_while_app f a (c :: r) A).
  cbn in T, D. rewrite C in T, D. rewrite app_nil_r in T. auto.
Qed.
Lemma an_spec c : an c = true <-> alnum_char c. Proof. unfold an, alnum_char. apply orb_true_iff. Qed.
Lemma eqb_f a b : Ascii.eqb a b = false <-> a <> b. Proof. destruct (Ascii.eqb_spec a b); split; congruence. Qed.
Lemma pw_spec c : pw c = true <-> c <> ":"%char /\ c <> "@"%char.
Proof. unfold pw. rewrite andb_true_iff, !negb_true_iff, !eqb_f. reflexivity. Qed.
Lemma ho_spec c : ho c = true <-> c <> ":"%char /\ c <> "@"%char /\ c <> "/"%char.
Proof. unfold ho. rewrite !andb_true_iff, !negb_true_iff, !eqb_f. tauto. Qed.
Lemma all_an (l : str) : forallb an l = true <-> forall c, In c l -> alnum_char c.
Proof. rewrite forallb_forall. split; intros H c I; apply an_spec; auto. Qed.
Lemma all_pw (l : str) : forallb pw l = true <-> forall c, In c l -> c <> ":"%char /\ c <> "@"%char.
Proof. rewrite forallb_forall. split; intros H c I; apply pw_spec; auto. Qed.
Lemma all_ho (l : str) : forallb ho l = true <-> forall c, In c l -> c <> ":"%char /\ c <> "@"%char /\ c <> "/"%char.
Proof. rewrite forallb_forall. split; intros H c I; apply ho_spec; auto. Qed.

Definition port_ok (d : option str) : Prop := match d with None => True | Some d => d <> [] /\ forallb is_digit d = true end.
Definition pass_ok (w : option str) : Prop := match w with None => True | Some w => w <> [] /\ forallb pw w = true end.
Lemma portp_spec t d db : portp t = Some (d, db) <-> t = port_text d ++ "/"%char :: db /\ port_ok d.
Proof.
  split.
  - destruct t as [|c r]; [discriminate|]. cbn [portp]. destruct (Ascii.eqb_spec "/" c) as [<-|]; [intro H; injection H as <- <-; split; [reflexivity|exact I]|]. destruct (Ascii.eqb_spec ":" c) as [<-|]; [|discriminate].
    intro H. pose proof (take_drop_while is_digit r) as TD. pose proof (take_while_forall is_digit r) as TF. destruct (take_while is_digit r) as [|x y]; [discriminate|]. destruct (drop_while is_digit r) as [|c2 q]; [discriminate|]. destruct (Ascii.eqb_spec "/" c2) as [<-|]; [|discriminate]. injection H as <- <-. cbn [port_text port_ok]. split; [|split; [discriminate|exact TF]].
    change (":"%char :: r = (":"%char :: (x :: y)) ++ "/"%char :: q). rewrite <- TD. reflexivity.
  - intros (-> & P). destruct d as [d|]; [|reflexivity]. destruct P as (N & F). change (port_text (Some d) ++ "/"%char :: db) with (":"%char :: (d ++ "/"%char :: db)). cbn [portp]. change (Ascii.eqb "/" ":") with false. change (Ascii.eqb ":" ":") with true. cbn iota.
    destruct (tw_stop is_digit d "/" db F eq_refl) as (-> & ->). destruct d; [congruence|]. reflexivity.
Qed.
Lemma atp_spec t w q : atp t = Some (w, q) <-> t = (match w with None => "@"%char :: q | Some w => ":"%char :: w ++ "@"%char :: q end) /\ pass_ok w.
Proof.
  split.
  - intro H. split; [exact (atp_text _ _ _ H)|]. destruct w as [w|]; [|exact I]. destruct t as [|c r]; [discriminate|]. cbn [atp] in H. destruct (Ascii.eqb "@" c); [discriminate|]. destruct (Ascii.eqb ":" c); [|discriminate].
    pose proof (take_while_forall pw r) as TF. destruct (take_while pw r) as [|x y]; [discriminate|]. destruct (drop_while pw r) as [|c2 q2]; [discriminate|]. destruct (Ascii.eqb "@" c2); [|discriminate]. injection H as <- <-. split; [discriminate|exact TF].
  - intros (-> & P). destruct w as [w|]; [|reflexivity]. destruct P as (N & F). cbn [atp]. change (Ascii.eqb "@" ":") with false. change (Ascii.eqb ":" ":") with true. cbn iota.
    destruct (tw_stop pw w "@" q F eq_refl) as (-> & ->). destruct w; [congruence|]. reflexivity.
Qed.
Lemma tailp_spec t h d db : tailp t = Some (h, d, db) <-> t = h ++ port_text d ++ "/"%char :: db /\ h <> [] /\ forallb ho h = true /\ port_ok d.
Proof.
  split.
  - unfold tailp. intro H. pose proof (take_drop_while ho t) as TD. pose proof (take_while_forall ho t) as TF. destruct (take_while ho t) as [|x y]; [discriminate|]. destruct (portp (drop_while ho t)) as [[d' db']|] eqn:P; [|discriminate]. injection H as <- <- <-. apply portp_spec in P. destruct P as (P & Q). rewrite P in TD.
    split; [symmetry; exact TD|]. split; [discriminate|]. split; [exact TF|exact Q].
  - intros (-> & N & F & P). unfold tailp. assert (X : exists c r, port_text d ++ "/"%char :: db = c :: r /\ ho c = false) by (destruct d as [d|]; [exists ":"%char, (d ++ "/"%char :: db)|exists "/"%char, db]; split; reflexivity).
    destruct X as (c & r & X & C). pose proof (proj2 (portp_spec _ d db) (conj eq_refl P)) as Q. rewrite X in *. destruct (tw_stop ho h c r F C) as (-> & ->). rewrite Q. destruct h; [congruence|reflexivity].
Qed.
Lemma userp_spec t u w q : userp t = Some (u, w, q) <-> t = user_text (Some (u, w)) ++ q /\ u <> [] /\ forallb an u = true /\ pass_ok w.
Proof.
  assert (X : user_text (Some (u, w)) ++ q = u ++ match w with None => "@"%char :: q | Some w => ":"%char :: w ++ "@"%char :: q end).
  { destruct w as [w|]; cbn [user_text]; rewrite <- !app_assoc; reflexivity. }
  rewrite X. split.
  - unfold userp. intro H. pose proof (take_drop_while an t) as TD. pose proof (take_while_forall an t) as TF. destruct (take_while an t) as [|x y]; [discriminate|]. destruct (atp (drop_while an t)) as [[d' db']|] eqn:P; [|discriminate]. injection H as <- <- <-. apply atp_spec in P. destruct P as (P & Q). rewrite P in TD.
    split; [symmetry; exact TD|]. split; [discriminate|]. split; [exact TF|exact Q].
  - intros (-> & N & F & P). unfold userp. set (m := match w with None => "@"%char :: q | Some w => ":"%char :: w ++ "@"%char :: q end). assert (Y : exists c r, m = c :: r /\ an c = false) by (unfold m; destruct w as [w|]; [exists ":"%char, (w ++ "@"%char :: q)|exists "@"%char, q]; split; reflexivity).
    destruct Y as (c & r & Y & C). pose proof (proj2 (atp_spec m w q) (conj eq_refl P)) as Q. rewrite Y in *. destruct (tw_stop an u c r F C) as (-> & ->). rewrite Q. destruct u; [congruence|reflexivity].
Qed.
(** After "protocol://". *)
Definition rest_ok (t : str) (u : option (str * option str)) (h : str) (d : option str) (db : str) : Prop :=
  t = user_text u ++ h ++ port_text d ++ "/"%char :: db /\ (match u with None => True | Some (n, w) => n <> [] /\ forallb an n = true /\ pass_ok w end) /\ h <> [] /\ forallb ho h = true /\ port_ok d.
Lemma rest_user t n w h d db : rest_ok t (Some (n, w)) h d db <-> exists q, userp t = Some (n, w, q) /\ tailp q = Some (h, d, db).
Proof.
  split.
  - intros (T & (N & A & P) & H1 & H2 & H3). exists (h ++ port_text d ++ "/"%char :: db). split; [apply userp_spec; auto|apply tailp_spec; auto].
  - intros (q & U & T). apply userp_spec in U. apply tailp_spec in T. destruct U as (-> & U), T as (-> & T). split; [reflexivity|]. split; [exact U|exact T].
Qed.
Lemma rest_none t h d db : rest_ok t None h d db <-> tailp t = Some (h, d, db).
Proof. rewrite tailp_spec. unfold rest_ok. cbn [user_text app]. tauto. Qed.
Lemma afterp_sound t u h d db : afterp t = Some (u, h, d, db) -> rest_ok t u h d db /\ (u = None -> forall u' h' d' db', rest_ok t u' h' d' db' -> u' = None).
Proof.
  unfold afterp. destruct (userp t) as [[[n w] q]|] eqn:U.
  - destruct (tailp q) as [[[h1 d1] db1]|] eqn:T.
    + intro H. injection H as <- <- <- <-. split; [apply rest_user; eauto|discriminate].
    + destruct (tailp t) as [[[h1 d1] db1]|] eqn:T2; [|discriminate]. intro H. injection H as <- <- <- <-. split; [now apply rest_none|]. intros _ [[n' w']|] h' d' db' R; [|reflexivity]. apply rest_user in R. destruct R as (q' & U' & T'). rewrite U in U'. injection U' as <- <- <-. congruence.
  - destruct (tailp t) as [[[h1 d1] db1]|] eqn:T2; [|discriminate]. intro H. injection H as <- <- <- <-. split; [now apply rest_none|]. intros _ [[n' w']|] h' d' db' R; [|reflexivity]. apply rest_user in R. destruct R as (q' & U' & T'). congruence.
Qed.
Lemma afterp_complete t u h d db : rest_ok t u h d db -> exists x, afterp t = Some x.
Proof.
  intro R. unfold afterp. destruct u as [[n w]|].
  - apply rest_user in R. destruct R as (q & -> & ->). eauto.
  - apply rest_none in R. rewrite R. destruct (match userp t with Some _ => _ | None => _ end); eauto.
Qed.
Lemma rest_fun t u1 h1 d1 db1 u2 h2 d2 db2 : rest_ok t u1 h1 d1 db1 -> rest_ok t u2 h2 d2 db2 -> (u1 = None <-> u2 = None) -> (u1, h1, d1, db1) = (u2, h2, d2, db2).
Proof.
  intros A B E. destruct u1 as [[n1 w1]|], u2 as [[n2 w2]|]; try (exfalso; destruct E as [E1 E2]; (discriminate (E1 eq_refl) || discriminate (E2 eq_refl))).
  - apply rest_user in A. apply rest_user in B. destruct A as (q & A1 & A2), B as (q' & B1 & B2). rewrite A1 in B1. injection B1 as <- <- <-. rewrite A2 in B2. injection B2 as <- <- <-. reflexivity.
  - apply rest_none in A. apply rest_none in B. rewrite A in B. injection B as <- <- <-. reflexivity.
Qed.
Lemma sep_spec t r : sep3 t = Some r <-> t = L "://" ++ r.
Proof.
  split.
  - unfold sep3. destruct t as [|a [|b [|c q]]]; try discriminate. destruct (Ascii.eqb_spec ":" a) as [<-|]; [|discriminate]. destruct (Ascii.eqb_spec "/" b) as [<-|]; [|discriminate]. destruct (Ascii.eqb_spec "/" c) as [<-|]; [|discriminate]. intro H. injection H as <-. reflexivity.
  - intros ->. reflexivity.
Qed.
Lemma protop_spec {A} (f : str -> option A) t p x : protop f t = Some (p, x) <-> exists r, t = p ++ L "://" ++ r /\ forallb an p = true /\ f r = Some x.
Proof.
  unfold protop. split.
  - destruct (sep3 (drop_while an t)) as [r|] eqn:S3; [|discriminate]. destruct (f r) as [y|] eqn:F; [|discriminate]. intro H. injection H as <- <-. apply sep_spec in S3. exists r. rewrite <- S3. split; [symmetry; apply take_drop_while|]. split; [apply take_while_forall|exact F].
  - intros (r & -> & P & F). change (L "://" ++ r) with (":"%char :: L "//" ++ r). destruct (tw_stop an p ":" (L "//" ++ r) P eq_refl) as (-> & ->). change (sep3 (":"%char :: L "//" ++ r)) with (Some r). cbn iota. rewrite F. reflexivity.
Qed.

(** The places where a URL begins. *)
Definition read_at (text : str) (i : nat) : option (str * (option (str * option str) * str * option str * str)) := protop afterp (skipn i text).
Lemma valid_rest p : valid p <-> forallb an (u_protocol p) = true /\ rest_ok (user_text (u_user p) ++ u_host p ++ port_text (u_port p) ++ "/"%char :: u_database p) (u_user p) (u_host p) (u_port p) (u_database p).
Proof.
  destruct p as [pr u h d db]. unfold valid, rest_ok. cbn [u_protocol u_user u_host u_port u_database]. rewrite !all_an, all_ho.
  assert (U : valid_user u <-> match u with None => True | Some (n, w) => n <> [] /\ forallb an n = true /\ pass_ok w end).
  { destruct u as [[n [w|]]|]; cbn [valid_user pass_ok]; rewrite ?all_an, ?all_pw; tauto. }
  assert (P : (match d with None => True | Some d => d <> [] /\ forall c, In c d -> is_digit c = true end) <-> port_ok d).
  { destruct d as [d|]; cbn [port_ok]; [|tauto]. rewrite forallb_forall. tauto. }
  rewrite <- U, <- P. tauto.
Qed.
Lemma url_at text pre p : url_in text pre p <-> text = pre ++ u_protocol p ++ L "://" ++ (user_text (u_user p) ++ u_host p ++ port_text (u_port p) ++ "/"%char :: u_database p) /\ valid p.
Proof. unfold url_in, url_text. change (L "/" ++ u_database p) with ("/"%char :: u_database p). tauto. Qed.
Lemma skip_pre (pre t : str) : skipn (length pre) (pre ++ t) = t.
Proof. rewrite skipn_app, skipn_all, Nat.sub_diag. reflexivity. Qed.
Lemma url_reads text pre p : url_in text pre p -> exists u h d db, read_at text (length pre) = Some (u_protocol p, (u, h, d, db)) /\ (u = None -> u_user p = None) /\ (u_user p <> None \/ u = None -> u = u_user p /\ h = u_host p /\ d = u_port p /\ db = u_database p).
Proof.
  intro U. apply (proj1 (url_at _ _ _)) in U. destruct U as (T & V). apply valid_rest in V. destruct V as (A & R). destruct (afterp_complete _ _ _ _ _ R) as ([[[u h] d] db] & E). pose proof (afterp_sound _ _ _ _ _ E) as (R2 & NU).
  exists u, h, d, db. split; [|split].
  - unfold read_at. rewrite T, skip_pre. apply protop_spec. eexists. split; [reflexivity|]. split; [exact A|exact E].
  - intro Q. exact (NU Q _ _ _ _ R).
  - intro Q. assert (EQ : u = None <-> u_user p = None) by (split; [intro Z; exact (NU Z _ _ _ _ R)|tauto]). pose proof (rest_fun _ _ _ _ _ _ _ _ _ R2 R EQ) as Z. injection Z as <- <- <- <-. auto.
Qed.
Lemma reads_url text i pr u h d db : i <= length text -> read_at text i = Some (pr, (u, h, d, db)) ->
  url_in text (firstn i text) (Parts pr u h d db) /\ (u = None -> forall pre' p', url_in text pre' p' -> length pre' = i -> u_user p' = None).
Proof.
  intros Hi E. unfold read_at in E. apply protop_spec in E. destruct E as (r & T & A & E). destruct (afterp_sound _ _ _ _ _ E) as (R & NU). pose proof R as (Rt & _). split.
  - apply url_at. split; [|apply valid_rest; cbn [u_protocol u_user u_host u_port u_database]; rewrite <- Rt; auto]. cbn [u_protocol u_user u_host u_port u_database]. rewrite <- Rt, <- T. symmetry. apply firstn_skipn.
  - intros -> pre' p' U L1. apply (proj1 (url_at _ _ _)) in U. destruct U as (T' & V). apply valid_rest in V. destruct V as (A' & R'). rewrite <- L1, T', skip_pre in T.
    assert (Q : u_protocol p' = pr /\ (user_text (u_user p') ++ u_host p' ++ port_text (u_port p') ++ "/"%char :: u_database p') = r).
    { set (x := user_text (u_user p') ++ u_host p' ++ port_text (u_port p') ++ "/"%char :: u_database p') in *. clearbody x.
      destruct (tw_stop an pr ":" (L "//" ++ r) A eq_refl) as (T1 & T2). destruct (tw_stop an (u_protocol p') ":" (L "//" ++ x) A' eq_refl) as (T3 & T4).
      assert (Z : u_protocol p' ++ ":"%char :: L "//" ++ x = pr ++ ":"%char :: L "//" ++ r) by exact T. rewrite Z in T3, T4. split; [congruence|]. assert (Z2 : ":"%char :: L "//" ++ r = ":"%char :: L "//" ++ x) by congruence. injection Z2 as ->. reflexivity. }
    destruct Q as (_ & Q). rewrite Q in R'. exact (NU eq_refl _ _ _ _ R').
Qed.
(** The first place. *)
Lemma least (P : nat -> Prop) (D : forall i, P i \/ ~ P i) n : P n -> exists m, P m /\ m <= n /\ forall k, k < m -> ~ P k.
Proof.
  revert P D. induction n as [|n IH]; intros P D H; [exists 0; split; [exact H|split; [lia|intros; lia]]|].
  destruct (D 0) as [Z|Z]; [exists 0; split; [exact Z|split; [lia|intros; lia]]|]. destruct (IH (fun i => P (S i)) (fun i => D (S i)) H) as (m & M1 & M2 & M3). exists (S m). split; [exact M1|]. split; [lia|]. intros [|k] Hk; [exact Z|apply M3; lia].
Qed.
Theorem C128_one_reading : forall text,
  (forall pre p, url_in text pre p -> exists pre' p', preferred text pre' p') /\
  (forall pre p pre' p', preferred text pre p -> preferred text pre' p' -> pre = pre' /\ p = p').
Proof.
  intro text. split.
  - intros pre p U. destruct (url_reads _ _ _ U) as (u & h & d & db & E & _). assert (Hl : length pre <= length text) by (destruct U as (-> & _); rewrite app_length; lia).
    destruct (least (fun i => read_at text i <> None)) with (n := length pre) as (m & M1 & M2 & M3); [intro i; destruct (read_at text i); [left; discriminate|right; congruence]|congruence|].
    destruct (read_at text m) as [[pr [[[u1 h1] d1] db1]]|] eqn:E1; [|congruence]. destruct (reads_url text m pr u1 h1 d1 db1 ltac:(lia) E1) as (V & W). exists (firstn m text), (Parts pr u1 h1 d1 db1).
    assert (Lm : length (firstn m text) = m) by (rewrite firstn_length; lia). split; [exact V|]. split.
    + intros pre' p' U'. destruct (url_reads _ _ _ U') as (u' & h' & d' & db' & E' & _). rewrite Lm. destruct (le_lt_dec m (length pre')) as [|Q]; [assumption|]. exfalso. apply (M3 _ Q). rewrite E'. discriminate.
    + cbn [u_user]. intros Hu pre' p' U' Q. rewrite Lm in Q. exact (W Hu pre' p' U' Q).
  - intros pre p pre' p' (U & M & N) (U' & M' & N'). assert (Q : length pre = length pre') by (apply Nat.le_antisymm; [apply (M _ _ U')|apply (M' _ _ U)]).
    assert (E : pre = pre'). { destruct U as (T & _), U' as (T' & _). rewrite T in T'. clear - T' Q. revert pre' T' Q. induction pre as [|c pre IH]; intros [|c' pre'] T Q; try discriminate; [reflexivity|]. injection T as <- T. injection Q as Q. f_equal. exact (IH _ T Q). }
    split; [exact E|]. subst pre'.
    destruct (url_reads _ _ _ U) as (u & h & d & db & R & X & Y). destruct (url_reads _ _ _ U') as (u' & h' & d' & db' & R' & X' & Y'). rewrite R in R'. injection R' as P <- <- <- <-.
    assert (EQ : u_user p = None <-> u_user p' = None) by (split; intro Z; [apply (N Z _ _ U'); reflexivity|apply (N' Z _ _ U); reflexivity]).
    destruct (u_user p) as [x|] eqn:Eu.
    + assert (Nu' : u_user p' <> None) by (intro Z; apply EQ in Z; discriminate). assert (Nu : Some x <> None) by discriminate. destruct (Y (or_introl Nu)) as (Y1 & Y2 & Y3 & Y4). destruct (Y' (or_introl Nu')) as (Z1 & Z2 & Z3 & Z4). clear - P Eu Y1 Y2 Y3 Y4 Z1 Z2 Z3 Z4. destruct p as [a b c e f], p' as [a' b' c' e' f']. cbn [u_protocol u_user u_host u_port u_database] in *. congruence.
    + assert (Nu' : u_user p' = None) by (now apply EQ). apply (proj1 (url_at _ _ _)) in U. apply (proj1 (url_at _ _ _)) in U'. destruct U as (T & V), U' as (T' & V'). apply valid_rest in V. apply valid_rest in V'. destruct V as (_ & V), V' as (_ & V'). rewrite T, P in T'. apply app_inv_head in T'. apply app_inv_head in T'. apply app_inv_head in T'. rewrite <- T' in V'. rewrite Eu, Nu' in *.
      pose proof (rest_fun _ _ _ _ _ _ _ _ _ V V' (conj (fun x => x) (fun x => x))) as Z. clear - P Eu Nu' Z. destruct p as [a b c e f], p' as [a' b' c' e' f']. cbn [u_protocol u_user u_host u_port u_database] in *. congruence.
Qed.
Print Assumptions C128_one_reading.

(** The groups. *)
Lemma group_of text g ev k : 1 <= k < 10 -> (forall k, 1 <= k < 10 -> nth k (g_start g) None = entered k ev /\ nth k (g_end g) None = left_at k ev) ->
  match_n text g k = match entered k ev, left_at k ev with Some a, Some b => firstn (b - a) (skipn a text) | _, _ => [] end.
Proof. intros Hk G. unfold match_n. destruct (G k Hk) as (-> & ->). reflexivity. Qed.
Lemma part_at (text a b c : str) i : text = a ++ b ++ c -> i = length a -> firstn (i + length b - i) (skipn i text) = b.
Proof. intros T I. apply (mid_at text a b c); auto. Qed.
Lemma groups_of text pre p g :
  text = pre ++ url_text p -> 
  (let ev := after_ev (length pre + length (u_protocol p) + 3) (u_user p) (u_host p) (u_port p) (u_database p) ++ [Leave 1 (length pre + length (u_protocol p)); Enter 1 (length pre)] in
   forall k, 1 <= k < 10 -> nth k (g_start g) None = entered k ev /\ nth k (g_end g) None = left_at k ev) ->
  map (match_n text g) [1; 3; 5; 6; 8; 9] = outputs p.
Proof.
  intro T. cbn zeta. destruct p as [pr u h d db]. cbn [u_protocol u_user u_host u_port u_database]. unfold url_text in T. cbn [u_protocol u_user u_host u_port u_database] in T. intro G.
  unfold outputs. cbn [u_protocol u_user u_host u_port u_database map].
  set (i := length pre + length pr + 3) in *. change (L "/" ++ db) with ("/"%char :: db) in T.
  assert (T1 : text = (pre ++ pr ++ L "://") ++ (user_text u ++ h ++ port_text d ++ "/"%char :: db)) by (rewrite T, <- !app_assoc; reflexivity).
  assert (LI : length (pre ++ pr ++ L "://") = i) by (rewrite !app_length; unfold i; change (length (L "://")) with 3; lia).
  set (A := pre ++ pr ++ L "://") in *. clearbody A.
  assert (P1 : firstn (length pre + length pr - length pre) (skipn (length pre) text) = pr) by (apply (part_at text pre pr _ _ T); reflexivity).
  assert (Hh : forall j, j = length (A ++ user_text u) -> firstn (j + length h - j) (skipn j text) = h).
  { intros j J. apply (part_at text (A ++ user_text u) h (port_text d ++ "/"%char :: db)); [rewrite T1, <- !app_assoc; reflexivity|exact J]. }
  assert (Hd : forall x j, d = Some x -> j = length (A ++ user_text u) + length h -> firstn (S j + length x - S j) (skipn (S j) text) = x).
  { intros x j -> J. apply (part_at text (A ++ user_text u ++ h ++ [":"%char]) x ("/"%char :: db)); [rewrite T1, <- !app_assoc; reflexivity|]. rewrite !app_length in *. cbn [length]. lia. }
  assert (Hdb : forall j, j = length (A ++ user_text u) + length h + length (port_text d) + 1 -> firstn (j + length db - j) (skipn j text) = db).
  { intros j J. apply (part_at text (A ++ user_text u ++ h ++ port_text d ++ ["/"%char]) db []); [rewrite T1, app_nil_r, <- !app_assoc; reflexivity|]. rewrite !app_length in *. cbn [length]. lia. }
  assert (Hn : forall n w j, u = Some (n, w) -> j = i -> firstn (j + length n - j) (skipn j text) = n).
  { intros n w j -> ->. destruct w as [w|]; cbn [user_text] in T1; rewrite <- !app_assoc in T1; apply (part_at text A n _ _ T1); auto. }
  assert (Hw : forall n w j, u = Some (n, Some w) -> j = i + length n -> firstn (S j + length w - S j) (skipn (S j) text) = w).
  { intros n w j -> ->. apply (part_at text (A ++ n ++ [":"%char]) w ("@"%char :: h ++ port_text d ++ "/"%char :: db)); [rewrite T1; cbn [user_text]; rewrite <- !app_assoc; reflexivity|]. rewrite !app_length. cbn [length]. lia. }
  assert (LU : length (A ++ user_text u) = match u with None => i | Some (n, w) => i + length n + at_len w end).
  { rewrite app_length, LI. destruct u as [[n [w|]]|]; cbn [user_text at_len]; rewrite ?app_length; try change (length (L ":")) with 1; try change (length (L "@")) with 1; cbn [length]; lia. }
  assert (M : forall l1 l2 l3 l4 l5 l6 m1 m2 m3 m4 m5 m6 : str, l1 = m1 -> l2 = m2 -> l3 = m3 -> l4 = m4 -> l5 = m5 -> l6 = m6 -> [l1; l2; l3; l4; l5; l6] = [m1; m2; m3; m4; m5; m6]) by congruence.
  apply M; match goal with |- match_n text g ?k = _ => rewrite (group_of text g _ k ltac:(lia) G) end; clear G M.
  - destruct u as [[n [w|]]|], d as [d|], db as [|c db]; exact P1.
  - destruct u as [[n w]|].
    + assert (Q := Hn n w i eq_refl eq_refl). destruct w as [w|], d as [d|], db as [|c db]; exact Q.
    + destruct d as [d|], db as [|c db]; reflexivity.
  - destruct u as [[n [w|]]|].
    + assert (Q := Hw n w _ eq_refl eq_refl). destruct d as [d|], db as [|c db]; exact Q.
    + destruct d as [d|], db as [|c db]; reflexivity.
    + destruct d as [d|], db as [|c db]; reflexivity.
  - assert (Q := Hh _ (eq_sym LU)). destruct u as [[n [w|]]|], d as [d|], db as [|c db]; exact Q.
  - destruct d as [d|].
    + assert (Q := Hd d _ eq_refl eq_refl). rewrite LU in Q. destruct u as [[n [w|]]|], db as [|c db]; exact Q.
    + destruct u as [[n [w|]]|], db as [|c db]; reflexivity.
  - assert (Q := Hdb _ eq_refl). rewrite LU in Q. destruct db as [|c db].
    + destruct u as [[n [w|]]|], d as [d|]; reflexivity.
    + destruct u as [[n [w|]]|], d as [d|]; exact Q.
Qed.

Theorem C128_url : forall text, ~ In NUL text -> exists n0, forall n, n0 <= n ->
  (forall pre p, preferred text pre p -> parse_url n text = Some (true, outputs p)) /\
  ((forall pre p, ~ url_in text pre p) -> parse_url n text = Some (false, [])).
Proof.
  intros text Nt. assert (N : ~ In NUL VTK_URL_REGEX) by (intro H; vm_compute in H; repeat (destruct H as [H|H]; [discriminate H|]); exact H).
  destruct (C92_legal_is_accepted _ _ _ N url_legal) as [x E]; [vm_compute; lia|]. destruct (find_found _ _ _ x text N url_legal E) as [n0 F]. rewrite (c_str_id text Nt) in F.
  exists n0. intros n Hn. unfold parse_url, url_find. rewrite E.
  assert (HD : forall i, i <= length text -> hd_error (ways text url_re i) = match read_at text i with Some (p, (u, h, d, db)) => Some (length text, after_ev (i + length p + 3) u h d db ++ [Leave 1 (i + length p); Enter 1 i]) | None => None end).
  { intros i Hi. unfold url_re. rewrite (hd_proto text af_re afterp (fun j '(u, h, d, db) => after_ev j u h d db) i); [|intros j Hj; rewrite (hd_after text j Hj); destruct (afterp (skipn j text)) as [[[[u h] d] db]|]; reflexivity|exact Hi].
    unfold read_at. destruct (protop afterp (skipn i text)) as [[p [[[u h] d] db]]|]; reflexivity. }
  destruct (F n Hn) as [(g & i & j & ev & tl & M & Hi & WA & LE & S0 & E0 & GR)|(g & M & NO)]; rewrite M.
  - pose proof (HD i Hi) as H. rewrite WA in H. destruct (read_at text i) as [[pr [[[u h] d] db]]|] eqn:R; [|discriminate]. cbn [hd_error] in H. injection H as -> ->.
    destruct (reads_url text i pr u h d db Hi R) as (U & W). assert (Li : length (firstn i text) = i) by (rewrite firstn_length; lia).
    assert (PR : preferred text (firstn i text) (Parts pr u h d db)).
    { split; [exact U|]. rewrite Li. split; [|exact W]. intros pre' p' U'. destruct (url_reads _ _ _ U') as (u' & h' & d' & db' & E' & _). destruct (le_lt_dec i (length pre')) as [|Q]; [assumption|]. exfalso.
      assert (Q2 : length pre' <= length text) by lia. pose proof (HD _ Q2) as H. rewrite (LE _ Q), E' in H. discriminate. }
    split.
    + intros pre p P. destruct (proj2 (C128_one_reading text) _ _ _ _ P PR) as (_ & ->). f_equal. f_equal.
      apply (groups_of text (firstn i text)); [exact (proj1 U)|]. cbn [u_protocol u_user u_host u_port u_database]. rewrite Li. exact GR.
    + intro NU. exfalso. exact (NU _ _ U).
  - split; [|reflexivity]. intros pre p (U & _). destruct (url_reads _ _ _ U) as (u & h & d & db & R & _). assert (Q2 : length pre <= length text) by (destruct U as (-> & _); rewrite app_length; lia).
    pose proof (HD _ Q2) as H. rewrite (NO _ Q2), R in H. discriminate.
Qed.
Print Assumptions C128_url.

(** ParseURLProtocol *)
Lemma hd_glom (s : str) i : i <= length s -> hd_error (ways s glom_re i) = Some (length s, [Leave 2 (i + length (skipn i s)); Enter 2 i]).
Proof.
  intro Hi. unfold glom_re. change (ways s (Seq (Grp 2 (Seq (Star Any) Eps)) Eps) i) with (ways_then (map (fun '(j, e) => (j, Leave 2 j :: e ++ [Enter 2 i])) (ways_then (ways s (Star Any) i) (fun j => [(j, [])]))) (fun j => [(j, [])])).
  rewrite !wt_unit. change (ways s (Star Any) i) with (repeat_ways (length s) (one_char s (fun _ : ascii => true)) i).
  rewrite repeat_char by lia. rewrite count_any. pose proof (len_skip s i Hi) as Q. destruct (skipn i s) as [|c t]; cbn [length] in *.
  - rewrite Nat.add_0_r in *. subst i. rewrite Nat.sub_diag. cbn. rewrite Nat.add_0_r. reflexivity.
  - replace (length s - i) with (S (length t)) by lia. cbn [lst map hd_error app]. rewrite Q. reflexivity.
Qed.
Definition proto_at (text : str) (i : nat) : option (str * str) := protop (fun t => Some t) (skipn i text).
Lemma split_at (a b c d : str) : a ++ b = c ++ d -> length a <= length c -> exists e, c = a ++ e /\ b = e ++ d.
Proof.
  revert c. induction a as [|x a IH]; intros c E H; [exists c; auto|]. destruct c as [|y c]; [cbn in H; lia|]. injection E as <- E. destruct (IH c E ltac:(cbn in H; lia)) as (e & -> & ->). exists e. auto.
Qed.
Lemma in_snoc (l : str) c : In c l -> exists a b, l = a ++ c :: b. Proof. apply in_split. Qed.
Theorem C128_protocol : forall text, ~ In NUL text -> exists n0, forall n, n0 <= n ->
  (forall pre proto rest, protocol_in text pre proto rest -> parse_url_protocol n text = Some (true, [proto; rest])) /\
  ((forall a b, text <> a ++ L "://" ++ b) -> parse_url_protocol n text = Some (false, [])).
Proof.
  intros text Nt. assert (N : ~ In NUL VTK_URL_PROTOCOL_REGEX) by (intro H; vm_compute in H; repeat (destruct H as [H|H]; [discriminate H|]); exact H).
  destruct (C92_legal_is_accepted _ _ _ N purl_legal) as [x E]; [vm_compute; lia|]. destruct (find_found _ _ _ x text N purl_legal E) as [n0 F]. rewrite (c_str_id text Nt) in F.
  exists n0. intros n Hn. unfold parse_url_protocol, url_find. rewrite E.
  assert (HD : forall i, i <= length text -> hd_error (ways text purl_re i) = match proto_at text i with Some (p, t) => Some (length text, [Leave 2 (i + length p + 3 + length t); Enter 2 (i + length p + 3)] ++ [Leave 1 (i + length p); Enter 1 i]) | None => None end).
  { intros i Hi. unfold purl_re. apply (hd_proto text glom_re (fun t => Some t) (fun j t => [Leave 2 (j + length t); Enter 2 j]) i); [|exact Hi]. intros j Hj. apply (hd_glom text j Hj). }
  destruct (F n Hn) as [(g & i & j & ev & tl & M & Hi & WA & LE & S0 & E0 & GR)|(g & M & NO)]; rewrite M.
  - pose proof (HD i Hi) as H. rewrite WA in H. destruct (proto_at text i) as [[p t]|] eqn:R; [|discriminate]. cbn [hd_error] in H. injection H as -> ->.
    unfold proto_at in R. apply protop_spec in R. destruct R as (r & T & A & Q). injection Q as ->. assert (Li : length (firstn i text) = i) by (rewrite firstn_length; lia).
    assert (TX : text = firstn i text ++ p ++ L "://" ++ t) by (rewrite <- T; symmetry; apply firstn_skipn).
    split.
    + intros pre proto rest (T' & A' & ND & FI). f_equal. f_equal.
      assert (Q : pre = firstn i text /\ proto = p /\ rest = t).
      { set (a := firstn i text) in *. clearbody a.
        assert (LL : length (pre ++ proto) <= length (a ++ p)) by (apply (FI (a ++ p) t); rewrite TX, <- !app_assoc; reflexivity).
        assert (PA : proto_at text (length pre) = Some (proto, rest)).
        { unfold proto_at. rewrite T', skip_pre. apply protop_spec. exists rest. split; [reflexivity|]. split; [now apply all_an|reflexivity]. }
        assert (G1 : i <= length pre).
        { destruct (le_lt_dec i (length pre)) as [|G]; [assumption|]. exfalso. assert (Q2 : length pre <= length text) by lia. pose proof (HD _ Q2) as H. rewrite (LE _ G), PA in H. discriminate. }
        rewrite T' in TX. destruct (split_at a (p ++ L "://" ++ t) pre (proto ++ L "://" ++ rest)) as (e & Pe & Qe); [symmetry; exact TX|lia|].
        assert (EP : e ++ proto = p).
        { assert (X : length (e ++ proto) <= length p) by (rewrite Pe in LL; rewrite !app_length in *; lia). destruct (split_at (e ++ proto) (L "://" ++ rest) p (L "://" ++ t)) as (f & F1 & F2); [rewrite <- app_assoc; symmetry; exact Qe|exact X|].
          destruct f as [|c f]; [rewrite app_nil_r in F1; auto|]. exfalso. assert (c = ":"%char) by (injection F2; auto). subst c. rewrite F1, forallb_app in A. apply andb_true_iff in A. destruct A as (_ & A). discriminate A. }
        assert (E2 : e = []).
        { destruct e as [|c0 e0]; [reflexivity|]. exfalso. destruct (exists_last (l := c0 :: e0)) as (e' & c & Ee); [discriminate|]. apply (ND (a ++ e') c); [rewrite Pe, Ee, app_assoc; reflexivity|].
          apply an_spec. rewrite <- EP, Ee, !forallb_app in A. cbn [forallb] in A. rewrite andb_true_r in A. apply andb_true_iff in A. destruct A as (A & _). apply andb_true_iff in A. tauto. }
        subst e. cbn [app] in EP. rewrite app_nil_r in Pe. subst. split; [reflexivity|]. split; [reflexivity|]. cbn [app] in Qe. apply app_inv_head in Qe. apply app_inv_head in Qe. auto. }
      destruct Q as (-> & -> & ->). cbn [map]. assert (M2 : forall l1 l2 m1 m2 : str, l1 = m1 -> l2 = m2 -> [l1; l2] = [m1; m2]) by congruence. apply M2; match goal with |- match_n text g ?k = _ => rewrite (group_of text g _ k ltac:(lia) GR) end.
      * cbn. apply (part_at text (firstn i text) p (L "://" ++ t)); auto.
      * cbn [entered left_at Nat.eqb app]. apply (part_at text (firstn i text ++ p ++ L "://") t []); [rewrite app_nil_r, <- !app_assoc; exact TX|]. rewrite !app_length, Li. change (length (L "://")) with 3. lia.
    + intro NU. exfalso. apply (NU (firstn i text ++ p) t). rewrite <- app_assoc. exact TX.
  - split; [|reflexivity]. intros pre proto rest (T' & A' & _). assert (Q2 : length pre <= length text) by (rewrite T', app_length; lia). pose proof (HD _ Q2) as H. rewrite (NO _ Q2) in H.
    assert (PA : proto_at text (length pre) = Some (proto, rest)). { unfold proto_at. rewrite T', skip_pre. apply protop_spec. exists rest. split; [reflexivity|]. split; [now apply all_an|reflexivity]. }
    rewrite PA in H. discriminate.
Qed.
Print Assumptions C128_protocol.

(** The parts of a URL are got back, if no '@' after the host can be taken for
    the end of a user name and password. *)
Theorem C128_round_trip : forall p, valid p -> ~ In NUL (url_text p) -> u_user p <> None \/ ~ In "@"%char (u_database p) ->
  exists n0, forall n, n0 <= n -> parse_url n (url_text p) = Some (true, outputs p).
Proof.
  intros p V Nt H. destruct (C128_url _ Nt) as [n0 F]. exists n0. intros n Hn. apply (proj1 (F n Hn) []). split; [split; [reflexivity|exact V]|]. split; [intros; cbn; lia|].
  intros U pre' p' (T & V') Q. destruct pre' as [|c pre']; [|discriminate]. cbn [app] in T. destruct H as [H|H]; [congruence|]. destruct (u_user p') as [[nm w]|] eqn:U'; [|reflexivity]. exfalso. apply H.
  assert (I : In "@"%char (url_text p)).
  { rewrite T. unfold url_text. rewrite U'. apply in_or_app. right. apply in_or_app. right. apply in_or_app. left. destruct w as [w|]; cbn [user_text]; apply in_or_app; right; [apply in_or_app; right; apply in_or_app; right|]; now left. }
  destruct V as (V1 & _ & (_ & V3) & V4). unfold url_text in I. rewrite U in I. cbn [user_text app] in I. apply in_app_or in I. destruct I as [I|I]; [destruct (V1 _ I); discriminate|].
  change (L "://") with [":"; "/"; "/"]%char in I. do 3 (destruct I as [I|I]; [discriminate I|]). cbn [app] in I. apply in_app_or in I. destruct I as [I|I]; [destruct (V3 _ I) as (_ & X & _); congruence|]. apply in_app_or in I. destruct I as [I|I].
  { destruct (u_port p) as [d|]; [|destruct I]. destruct I as [I|I]; [discriminate I|]. destruct V4 as (_ & V4). specialize (V4 _ I). discriminate. }
  destruct I as [I|I]; [discriminate I|]. exact I.
Qed.
Print Assumptions C128_round_trip.
(** Otherwise not: host, port and path become user name, password and host. *)
Definition u1 : parts := Parts (L "http") None (L "host") (Some (L "80")) (L "a@b/c").
Definition u2 : parts := Parts (L "http") (Some (L "host", Some (L "80/a"))) (L "b") None (L "c").
Ltac all_in := let c := fresh in let I := fresh in intros c I; vm_compute in I; repeat (destruct I as [<-|I]; [vm_compute; repeat split; (discriminate || (left; reflexivity) || (right; reflexivity) || reflexivity)|]); destruct I.
Theorem C128_at_in_path_refuted : valid u1 /\ u_host u1 <> u_host u2 /\ exists n0, forall n, n0 <= n -> parse_url n (url_text u1) = Some (true, outputs u2).
Proof.
  split; [|split].
  - split; [all_in|]. split; [exact I|]. split; [split; [discriminate|all_in]|]. split; [discriminate|all_in].
  - discriminate.
  - change (url_text u1) with (url_text u2). apply C128_round_trip.
    + split; [all_in|]. split; [split; [discriminate|split; [all_in|split; [discriminate|all_in]]]|]. split; [split; [discriminate|all_in]|exact I].
    + intro I. vm_compute in I. repeat (destruct I as [I|I]; [discriminate I|]). exact I.
    + left. discriminate.
Qed.
Print Assumptions C128_at_in_path_refuted.
(** Text in front of the URL and an empty protocol are accepted. *)
Example C128_ex_junk : parse_url 400 (L "<x+http://me:pw@h.org:80/d b>") = Some (true, [L "http"; L "me"; L "pw"; L "h.org"; L "80"; L "d b>"]) /\
  parse_url 400 (L "://h/") = Some (true, [[]; []; []; L "h"; []; []]) /\ parse_url 400 (L "http://host") = Some (false, []) /\
  parse_url 400 (L "ftp://a.b@h/x") = Some (false, []) /\
  parse_url_protocol 400 (L "see http://a://b") = Some (true, [L "http"; L "a://b"]) /\ parse_url_protocol 400 (L "http:/a") = Some (false, []).
Proof. vm_compute. repeat split. Qed.
Example C128_ex_valid : valid u2 /\ u_user u2 <> None /\ protocol_in (L "see http://a://b") (L "see ") (L "http") (L "a://b").
Proof.
  split; [|split].
  - split; [all_in|]. split; [split; [discriminate|split; [all_in|split; [discriminate|all_in]]]|]. split; [split; [discriminate|all_in]|exact I].
  - discriminate.
  - split; [reflexivity|]. split; [all_in|]. split.
    + intros pre' c E. change (L "see ") with (L "see" ++ [" "%char]) in E. apply app_inj_tail in E. destruct E as (_ & <-). intros [H|H]; discriminate.
    + intros a b E. destruct (le_lt_dec (length (L "see " ++ L "http")) (length a)) as [|G]; [assumption|exfalso].
      change (length (L "see " ++ L "http")) with 8 in G. do 8 (destruct a as [|? a]; [discriminate E|injection E as _ E]). cbn [length] in G. lia.
Qed.
