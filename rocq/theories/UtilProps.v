(** UtilProps.v -- C107: timers; C108: the paths of the program. *)
From Coq Require Import List Bool Arith Ascii ZArith Lia.
Import ListNotations.
From Verif Require Import Base RegexModel RegexProps UtilModel.

(** ---- C107 ---- *)
(** The time of the last call of start before the end of the history, if any. *)
Definition last_start (ops : list tmop) (t : Z) : Prop := exists a b, ops = a ++ Start t :: b /\ forall x, ~ In (Start x) b.
Definition never_started (ops : list tmop) : Prop := forall x, ~ In (Start x) ops.
Lemma run_snoc ops o : tm_run (ops ++ [o]) = tm_step (tm_run ops) o.
Proof. unfold tm_run. rewrite fold_left_app. reflexivity. Qed.
Lemma start_of ops : (forall t, last_start ops t -> tm_start (tm_run ops) = t) /\ (never_started ops -> tm_start (tm_run ops) = 0%Z).
Proof.
  induction ops as [|o ops (A & B)] using rev_ind.
  - split; [intros t (a & b & E & _); destruct a; discriminate|reflexivity].
  - rewrite run_snoc. split.
    + intros t (a & b & E & N). destruct b as [|x b _] using rev_ind.
      * apply app_inj_tail in E as (-> & ->). reflexivity.
      * change (a ++ Start t :: b ++ [x]) with (a ++ (Start t :: b) ++ [x]) in E. rewrite app_assoc in E. apply app_inj_tail in E as (-> & ->). destruct x as [n|n]; [elim (N n); apply in_or_app; right; now left|]. cbn [tm_step tm_start]. apply A. exists a, b. split; [reflexivity|]. intros x I. apply (N x). apply in_or_app. auto.
    + intro N. destruct o as [n|n]; [elim (N n); apply in_or_app; right; now left|]. cbn. apply B. intros x I. apply (N x). apply in_or_app. auto.
Qed.
(** Running (the last call was start): the time since the last start.  Stopped:
    the time from the last start to the last stop, however often the two were
    called.  is_active tells which. *)
Theorem C107_elapsed (ops : list tmop) (now : Z) :
  (forall t, tm_active (tm_run (ops ++ [Start t])) = true /\ tm_elapsed (tm_run (ops ++ [Start t])) now = (now - t)%Z) /\
  (forall t s, last_start ops s -> tm_active (tm_run (ops ++ [Stop t])) = false /\ tm_elapsed (tm_run (ops ++ [Stop t])) now = (t - s)%Z) /\
  tm_active (tm_run []) = false /\ tm_elapsed (tm_run []) now = 0%Z.
Proof.
  split; [intro t; rewrite run_snoc; split; reflexivity|]. split; [|split; reflexivity].
  intros t s LS. rewrite run_snoc. split; [reflexivity|]. unfold tm_elapsed. cbn [tm_step tm_active tm_end tm_start]. rewrite (proj1 (start_of ops) s LS). reflexivity.
Qed.
Print Assumptions C107_elapsed.
(** With a clock that does not go back, no elapsed time is negative, and it does
    not shrink while the timer runs. *)
Fixpoint rising (from : Z) (ops : list tmop) : Prop := match ops with [] => True | Start t :: r | Stop t :: r => (from <= t)%Z /\ rising t r end.
Definition op_time (o : tmop) : Z := match o with Start t | Stop t => t end.
Lemma rising_snoc from ops o : rising from (ops ++ [o]) -> rising from ops /\ (forall x, In x ops -> (op_time x <= op_time o)%Z) /\ (from <= op_time o)%Z.
Proof.
  revert from. induction ops as [|x ops IH]; intros from H.
  - destruct o; cbn in *; (split; [exact I|]); (split; [intros ? []|tauto]).
  - assert (HH : (from <= op_time x)%Z /\ rising (op_time x) (ops ++ [o])) by (destruct x; exact H). destruct HH as (L & R). destruct (IH _ R) as (R1 & A & F). split; [destruct x; split; assumption|]. split; [intros y [<-|Y]; auto|lia].
Qed.
Theorem C107_nonnegative (ops : list tmop) (now later : Z) : rising 0 ops -> (forall x, In x ops -> (op_time x <= now)%Z) -> (0 <= now <= later)%Z ->
  (0 <= tm_elapsed (tm_run ops) now)%Z /\ (tm_elapsed (tm_run ops) now <= tm_elapsed (tm_run ops) later)%Z /\
  (tm_active (tm_run ops) = false -> tm_elapsed (tm_run ops) later = tm_elapsed (tm_run ops) now).
Proof.
  intros R N LL.
  assert (ST : (0 <= tm_start (tm_run ops))%Z /\ (forall m, (0 <= m)%Z -> (forall x, In x ops -> (op_time x <= m)%Z) -> (tm_start (tm_run ops) <= m)%Z)).
  { clear N. induction ops as [|o ops IH] using rev_ind; [split; [reflexivity|intros; cbn; lia]|]. rewrite run_snoc. destruct (rising_snoc 0 ops o R) as (R1 & A & F). destruct (IH R1) as (I1 & I2). destruct o as [t|t]; cbn [tm_step tm_start op_time] in *.
    - split; [exact F|]. intros m P M. apply (M (Start t)). apply in_or_app. right. now left.
    - split; [exact I1|]. intros m P M. apply I2; [exact P|]. intros x X. apply M. apply in_or_app. auto. }
  assert (EN : tm_active (tm_run ops) = false -> (tm_start (tm_run ops) <= tm_end (tm_run ops))%Z).
  { destruct ops as [|o ops _] using rev_ind; [intros _; reflexivity|]. rewrite run_snoc. destruct (rising_snoc 0 ops o R) as (R1 & A & F). destruct o as [t|t]; cbn [tm_step tm_active tm_start tm_end op_time] in *; [discriminate|]. intros _.
    destruct ST as (_ & ST). rewrite run_snoc in ST. cbn [tm_step tm_start] in ST. apply ST; [exact F|]. intros x X. apply in_app_or in X. destruct X as [X|[<-|[]]]; [auto|cbn; lia]. }
  destruct ST as (_ & ST). specialize (ST now ltac:(lia) N). unfold tm_elapsed. destruct (tm_active (tm_run ops)) eqn:AC; [lia|]. specialize (EN eq_refl). lia.
Qed.
Print Assumptions C107_nonnegative.
(** A timer that was stopped but never started reports the clock itself. *)
Theorem C107_never_started_refuted (ops : list tmop) (t now : Z) : never_started ops -> tm_elapsed (tm_run (ops ++ [Stop t])) now = t.
Proof. intro N. rewrite run_snoc. unfold tm_elapsed. cbn [tm_step tm_active tm_end tm_start]. rewrite (proj2 (start_of ops) N). lia. Qed.
(** When the clock is set back -- the wall clock timer uses the system clock --
    elapsed time is negative. *)
Theorem C107_clock_set_back_refuted (ops : list tmop) (t now : Z) : (now < t)%Z -> (tm_elapsed (tm_run (ops ++ [Start t])) now < 0)%Z.
Proof. intro H. rewrite run_snoc. unfold tm_elapsed. cbn. lia. Qed.
(** A scoped timer prints the time between its making and its end. *)
Theorem C107_scoped (show : Z -> str) (title : str) (made gone1 gone2 : Z) :
  scoped_text show title made gone1 gone2 = (if str_eqb title [] then [] else title ++ L " - ") ++ L "elapsed time: " ++ show (gone1 - made)%Z ++ L " sec" ++ [ascii_of_nat 10].
Proof. destruct title; reflexivity. Qed.
Print Assumptions C107_scoped.
Example ex_timer : last_start [Start 3; Stop 5; Start 10; Stop 12] 10 /\ rising 0 [Start 3; Stop 5; Start 10; Stop 12; Stop 19]%Z /\ tm_elapsed (tm_run [Start 3; Stop 5; Start 10; Stop 12; Stop 19]) 100 = 9%Z.
Proof. split; [exists [Start 3; Stop 5]%Z, [Stop 12]%Z; split; [reflexivity|intros x [H|[]]; discriminate]|]. split; [cbn; lia|reflexivity]. Qed.

(** ---- C108 ---- *)
Lemma copy_in_spec src : forall n, length src <= n -> copy_in (repeat None n) src = Some (map Some src ++ repeat None (n - length src)).
Proof.
  induction src as [|c s IH]; intros n H; cbn [copy_in length map app] in *; [rewrite Nat.sub_0_r; reflexivity|]. destruct n as [|n]; [lia|]. cbn [repeat]. rewrite IH by lia. reflexivity.
Qed.
Lemma last_slash_app b : forall i f a, last_slash i (b ++ a) f = last_slash (i + length b) a (last_slash i b f).
Proof.
  induction b as [|x b IH]; intros i f a; cbn [app length]; [rewrite Nat.add_0_r; reflexivity|]. replace (i + S (length b)) with (S i + length b) by lia.
  destruct x as [c|]; [|apply IH]. cbn [last_slash]. destruct c as [[] [] [] [] [] [] [] []]; apply IH.
Qed.
Lemma last_slash_none base : ~ In "/"%char base -> forall i f, last_slash i (map Some base) f = f.
Proof.
  induction base as [|c r IH]; intros N i f; [reflexivity|]. assert (NC : c <> "/"%char) by (intros ->; apply N; now left). assert (NR : ~ In "/"%char r) by (intro I; apply N; now right).
  cbn [map last_slash]. destruct c as [[] [] [] [] [] [] [] []]; try (apply IH; exact NR). elim NC. reflexivity.
Qed.
Lemma last_slash_split d base : ~ In "/"%char base -> last_slash 0 (map Some (d ++ "/"%char :: base)) 0 = Z.of_nat (length d).
Proof.
  intro N. rewrite map_app, last_slash_app, map_length. cbn [map Nat.add last_slash]. rewrite last_slash_none by exact N. reflexivity.
Qed.
Lemma lupd_app {A} (a : list A) x b y : lupd (a ++ x :: b) (length a) y = a ++ y :: b.
Proof. induction a as [|z a IH]; cbn; [reflexivity|]. f_equal. exact IH. Qed.
Lemma read_c_app d r : ~ In NUL d -> read_c (map Some d ++ Some NUL :: r) = Some d.
Proof.
  induction d as [|c d IH]; intro N; [reflexivity|]. cbn [map app read_c]. destruct (Ascii.eqb_spec c NUL) as [->|D]; [elim N; now left|]. rewrite IH; [reflexivity|]. intro I. apply N. now right.
Qed.
(** The directory part of a path. *)
Definition dir_of (p d : str) : Prop := exists base, p = d ++ "/"%char :: base /\ ~ In "/"%char base.
(** What realpath gives: an absolute path that fits in PATH_MAX bytes with its NUL. *)
Definition is_real (p : str) : Prop := (exists r, p = "/"%char :: r) /\ ~ In NUL p /\ length p < PATH_MAX.
Lemma firstn_repl r (b : cells) : firstn (length r) (map Some r ++ b) = map Some r.
Proof. rewrite <- (map_length Some r), firstn_app, Nat.sub_diag, firstn_all. cbn [firstn]. apply app_nil_r. Qed.
Theorem C108_executable (resolved : option str) : (forall p, resolved = Some p -> is_real p) ->
  match resolved with
  | None => get_executable_path [] resolved = Some []
  | Some p => exists d, dir_of p d /\ (forall d', dir_of p d' -> d' = d) /\ get_executable_path [] resolved = Some d
  end.
Proof.
  intro H. destruct resolved as [p|].
  - destruct (H p eq_refl) as ((r0 & SL) & NN & LT).
    assert (EX : exists d base, p = d ++ "/"%char :: base /\ ~ In "/"%char base).
    { clear - SL. revert r0 SL. induction p as [|c p IH] using rev_ind; intros r0 SL; [discriminate|]. destruct (ascii_dec c "/") as [->|D].
      - exists p, []. split; [reflexivity|intros []].
      - destruct p as [|x p]; [cbn in SL; injection SL as -> <-; elim D; reflexivity|]. cbn in SL. injection SL as -> SL. destruct (IH p eq_refl) as (d & base & E & N). exists d, (base ++ [c]). split; [rewrite E, <- app_assoc; reflexivity|]. intro I. apply in_app_or in I. destruct I as [I|[I|[]]]; [exact (N I)|exact (D I)]. }
    destruct EX as (d & base & E & N). exists d. split; [exists base; auto|].
    assert (UQ : forall d1 b1 d2 b2, d1 ++ "/"%char :: b1 = d2 ++ "/"%char :: b2 -> ~ In "/"%char b1 -> ~ In "/"%char b2 -> d1 = d2).
    { clear. induction d1 as [|x d1 IH]; intros b1 [|y d2] b2 E N1 N2; cbn in E; [reflexivity| | |].
      - injection E as _ E. elim N1. rewrite E. apply in_or_app. right. now left.
      - injection E as _ E. elim N2. rewrite <- E. apply in_or_app. right. now left.
      - injection E as -> E. f_equal. eapply IH; eauto. }
    split; [intros d' (b' & E' & N'); eapply UQ; [rewrite <- E', <- E; reflexivity|exact N'|exact N]|].
    unfold get_executable_path, wai_path. rewrite (proj2 (Nat.leb_le _ _)) by (unfold PATH_MAX in LT; lia). unfold fresh_cells. rewrite copy_in_spec by (unfold PATH_MAX in LT; lia). rewrite firstn_repl.
    set (tl := repeat None (4096 - length p)).
    pose proof (last_slash_split d base N) as LS. rewrite <- E in LS. rewrite LS.
    assert (LB : length (map Some p ++ tl) = 4096) by (unfold tl; rewrite app_length, map_length, repeat_length; unfold PATH_MAX in LT; lia).
    unfold cell_set. rewrite LB. assert (LD : length d < length p) by (rewrite E, app_length; cbn; lia).
    destruct (Z.leb_spec 0 (Z.of_nat (length d))) as [_|Q]; [|lia]. destruct (Z.ltb_spec (Z.of_nat (length d)) (Z.of_nat 4096)) as [_|Q]; [|unfold PATH_MAX in LT; lia]. cbn [andb]. rewrite Nat2Z.id. rewrite E at 1. rewrite map_app, <- app_assoc. cbn [map app].
    rewrite <- (map_length Some d) at 1. rewrite lupd_app. apply read_c_app. intro I. apply NN. rewrite E. apply in_or_app. auto.
  - reflexivity.
Qed.
Print Assumptions C108_executable.

(** Histories: the first directory that is found is returned ever after; until
    then the result is empty. *)
Definition all_real (h : list (option str)) : Prop := forall p, In (Some p) h -> is_real p.
Theorem C108_history (h : list (option str)) : all_real h ->
  exists outs, calls get_executable_path [] h = Some outs /\ length outs = length h /\
  forall i o, nth_error outs i = Some o ->
    (exists j p, j <= i /\ nth_error h j = Some (Some p) /\ dir_of p o /\ o <> [] /\ forall k p', k < j -> nth_error h k = Some (Some p') -> dir_of p' []) \/
    (o = [] /\ forall k p', k <= i -> nth_error h k = Some (Some p') -> dir_of p' []).
Proof.
  assert (CACHED : forall c d h, calls get_executable_path (c :: d) h = Some (repeat (c :: d) (length h))).
  { intros c d l. induction l as [|r l IH]; [reflexivity|]. cbn [calls get_executable_path length repeat]. rewrite IH. reflexivity. }
  induction h as [|r h IH]; intro AR.
  - exists []. split; [reflexivity|]. split; [reflexivity|]. intros i o X. destruct i; discriminate.
  - pose proof (C108_executable r) as E. specialize (E (fun p Q => AR p (or_introl Q))).
    assert (FST : exists d, get_executable_path [] r = Some d /\ (r = None -> d = []) /\ (forall p, r = Some p -> dir_of p d)).
    { destruct r as [p|]; [destruct E as (d & D & _ & G); exists d; split; [exact G|]; split; [discriminate|congruence]|]. exists []. split; [exact E|]. split; [auto|discriminate]. }
    destruct FST as (d & G & DN & DS). cbn [calls]. rewrite G. destruct d as [|c d].
    + destruct IH as (outs & C & LEN & P); [intros p I; apply AR; now right|]. rewrite C. exists ([] :: outs). split; [reflexivity|]. split; [cbn; congruence|]. intros [|i] o NE; cbn in NE.
      * right. injection NE as <-. split; [reflexivity|]. intros [|k] p' LE Q; [|lia]. injection Q as ->. apply DS. reflexivity.
      * destruct (P i o NE) as [(j & p & LJ & NJ & DJ & NN & BEF)|(-> & BEF)].
        -- left. exists (S j), p. split; [lia|]. split; [exact NJ|]. split; [exact DJ|]. split; [exact NN|]. intros [|k] p' LK Q; [injection Q as ->; apply DS; reflexivity|]. apply (BEF k p'); [lia|exact Q].
        -- right. split; [reflexivity|]. intros [|k] p' LK Q; [injection Q as ->; apply DS; reflexivity|]. apply (BEF k p'); [lia|exact Q].
    + rewrite CACHED. exists ((c :: d) :: repeat (c :: d) (length h)). split; [reflexivity|]. split; [cbn; rewrite repeat_length; reflexivity|].
      intros i o NE. left. destruct r as [p|]; [|specialize (DN eq_refl); discriminate]. exists 0, p. split; [lia|]. split; [reflexivity|].
      assert (o = c :: d) as -> by (destruct i as [|i]; cbn in NE; [congruence|apply nth_error_In in NE; apply repeat_spec in NE; exact NE]).
      split; [apply DS; reflexivity|]. split; [discriminate|]. intros k p' LK. lia.
Qed.
Print Assumptions C108_history.
(** A program in the root directory: the result is empty, not "/". *)
Theorem C108_root_refuted (base : str) : is_real ("/"%char :: base) -> ~ In "/"%char base -> get_executable_path [] (Some ("/"%char :: base)) = Some [].
Proof.
  intros R N. pose proof (C108_executable (Some ("/"%char :: base))) as E. destruct E as (d & _ & U & G); [intros p Q; injection Q as <-; exact R|].
  rewrite G. f_equal. symmetry. apply U. exists base. auto.
Qed.
(** get_module_path: undefined whatever the module path is -- also when it
    cannot be found. *)
Theorem C108_module_refuted (resolved : option str) : (forall p, resolved = Some p -> is_real p) -> get_module_path [] resolved = None.
Proof.
  intro H. unfold get_module_path, wai_path. destruct resolved as [p|]; [|reflexivity].
  destruct (H p eq_refl) as ((r0 & SL) & NN & LT). rewrite (proj2 (Nat.leb_le _ _)) by (unfold PATH_MAX in LT; lia). unfold fresh_cells. rewrite copy_in_spec by (unfold PATH_MAX in LT; lia).
  destruct (last_slash 0 _ 0 =? Z.of_nat (length (@nil ascii)))%Z; [|reflexivity].
  assert (RD : forall n, read_c (map Some p ++ repeat None n) = None).
  { intro n. clear - NN. induction p as [|c p IH]; [destruct n; reflexivity|]. cbn [map app read_c]. destruct (Ascii.eqb_spec c NUL) as [->|D]; [elim NN; now left|]. rewrite IH; [reflexivity|]. intro I. apply NN. now right. }
  apply RD.
Qed.
Print Assumptions C108_module_refuted.
Example ex_real : is_real (L "/usr/bin/prog") /\ is_real (L "/prog") /\ dir_of (L "/usr/bin/prog") (L "/usr/bin").
Proof.
  assert (R : forall s, (exists r, L s = "/"%char :: r) -> existsb (Ascii.eqb NUL) (L s) = false -> length (L s) <? 50 = true -> is_real (L s)).
  { intros s A B C. split; [exact A|]. split; [|apply Nat.ltb_lt in C; unfold PATH_MAX; lia]. intro I. assert (existsb (Ascii.eqb NUL) (L s) = true) by (apply existsb_exists; exists NUL; split; [exact I|reflexivity]). congruence. }
  split; [apply R; [eexists; reflexivity|reflexivity|reflexivity]|]. split; [apply R; [eexists; reflexivity|reflexivity|reflexivity]|].
  exists (L "prog"). split; [reflexivity|]. change (L "prog") with ["p"%char; "r"%char; "o"%char; "g"%char]. intros [H|[H|[H|[H|[]]]]]; discriminate.
Qed.
