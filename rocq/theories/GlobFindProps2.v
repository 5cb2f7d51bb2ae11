(** GlobFindProps2.v -- C96, C97: no file twice; recursive search reaches every
    directory. *)
From Coq Require Import List Ascii Bool Arith Lia.
Import ListNotations.
From Verif Require Import Base TokenizeSpec RegexModel RegexSpec PathModel GlobModel GlobSpec GlobProps GlobFindSpec GlobFind GlobFindProps.

Lemma NoDup_app_iff : forall A (a b : list A), NoDup (a ++ b) <-> NoDup a /\ NoDup b /\ forall x, In x a -> ~ In x b.
Proof.
  intros A a b. induction a as [|c a IH]; cbn [app].
  - split; [intro H; split; [constructor|split; [exact H|intros x []]]|tauto].
  - split.
    + intro H. inversion H as [|x y NI ND]; subst. apply IH in ND. destruct ND as (N1 & N2 & D). split; [constructor; [intro K; apply NI; apply in_or_app; now left|exact N1]|]. split; [exact N2|]. intros x [<-|I0] K; [apply NI; apply in_or_app; now right|exact (D x I0 K)].
    + intros (N1 & N2 & D). inversion N1 as [|x y NI ND]; subst. constructor; [intro K; apply in_app_or in K; destruct K as [K|K]; [contradiction|exact (D c (or_introl eq_refl) K)]|]. apply IH. split; [exact ND|]. split; [exact N2|]. intros x I0. apply D. now right.
Qed.
(** Each directory names its entries once, without slashes. *)
Definition wf_dirs (w : gfs) : Prop := forall node l, g_ents w node = Some l -> NoDup (map fst l) /\ forall name e, In (name, e) l -> ~ In slash name.
Definition starts (pre name path : str) : Prop := path = pre ++ name \/ exists r, path = pre ++ name ++ L "/" ++ r.
Lemma cut_unique : forall (a b : str) x y, ~ In slash a -> ~ In slash b -> a ++ slash :: x = b ++ slash :: y -> a = b.
Proof. induction a as [|c a IH]; intros [|d b] x y N M E; cbn [app] in E; [reflexivity|injection E as <- _; elim M; now left|injection E as -> _; elim N; now left|injection E as <- E; f_equal; eapply IH; eauto; intro K; [apply N|apply M]; now right]. Qed.
Lemma starts_unique : forall pre a b path, ~ In slash a -> ~ In slash b -> starts pre a path -> starts pre b path -> a = b.
Proof.
  intros pre a b path NA NB [->|[r ->]] [E|[r' E]]; apply app_inv_head in E.
  - exact E.
  - exfalso. apply NA. rewrite E. apply in_or_app. right. now left.
  - exfalso. apply NB. rewrite <- E. apply in_or_app. right. now left.
  - exact (cut_unique a b r r' NA NB E).
Qed.
Lemma each_nodup : forall f pre l outs, each f l = Some outs -> NoDup (map fst l) -> (forall name e, In (name, e) l -> ~ In slash name) ->
  (forall name e o, In (name, e) l -> f name e = Some o -> NoDup (files_of o) /\ forall path, In path (files_of o) -> starts pre name path) ->
  NoDup (files_of outs) /\ forall path, In path (files_of outs) -> exists name, In name (map fst l) /\ starts pre name path.
Proof.
  intros f pre l. induction l as [|[name e] l IH]; intros outs E ND NS H; cbn [each] in E.
  - injection E as <-. split; [constructor|intros path []].
  - cbn [map fst] in ND. inversion ND as [|a b NI ND']; subst.
    assert (IH' : forall outs, each f l = Some outs -> NoDup (files_of outs) /\ forall path, In path (files_of outs) -> exists name, In name (map fst l) /\ starts pre name path).
    { intros os Eo. apply (IH os Eo ND'); [intros n0 e0 I0; eapply NS; right; exact I0|intros n0 e0 o0 I0; apply H; now right]. }
    destruct (_ || _)%bool.
    + destruct (IH' outs E) as [A B]. split; [exact A|]. intros path I0. destruct (B path I0) as (nm & I1 & S0). exists nm. split; [now right|exact S0].
    + destruct (f name e) as [o|] eqn:F; [|discriminate]. destruct (each f l) as [os|]; [|discriminate]. injection E as <-.
      destruct (H name e o (or_introl eq_refl) F) as [A B]. destruct (IH' os eq_refl) as [A' B']. rewrite files_app. split.
      * apply NoDup_app_iff. split; [exact A|]. split; [exact A'|]. intros path I0 I1. destruct (B' path I1) as (nm & I2 & S0). assert (nm = name); [|subst nm; contradiction].
        apply in_map_iff in I2. destruct I2 as ((nm', e') & <- & I2). eapply starts_unique; [| |exact S0|exact (B path I0)]; eapply NS; [right; exact I2|now left].
      * intros path I0. apply in_app_or in I0. destruct I0 as [I0|I0]; [exists name; split; [now left|auto]|]. destruct (B' path I0) as (nm & I1 & S0). exists nm. split; [now right|exact S0].
Qed.
Lemma below : forall pre name path, (exists nm, starts (pre ++ name ++ L "/") nm path) -> exists r, path = pre ++ name ++ L "/" ++ r.
Proof. intros pre name path (nm & [->|(r & ->)]); eexists; rewrite <- !app_assoc; reflexivity. Qed.
Lemma with_dir : forall b pre name fs, NoDup (files_of fs) -> (forall path, In path (files_of fs) -> exists nm, starts (pre ++ name ++ L "/") nm path) ->
  NoDup (files_of ((if b : bool then [OFile (pre ++ name)] else []) ++ fs)) /\ forall path, In path (files_of ((if b then [OFile (pre ++ name)] else []) ++ fs)) -> starts pre name path.
Proof.
  intros b pre name fs ND H. assert (B : forall path, In path (files_of fs) -> exists r, path = pre ++ name ++ L "/" ++ r) by (intros path I0; apply below; auto).
  destruct b; cbn [app files_of flat_map].
  - fold (files_of fs). split.
    + constructor; [|exact ND]. intro I0. destruct (B _ I0) as [r E]. apply app_inv_head in E. apply (f_equal (@length ascii)) in E. rewrite !app_length in E; change (length (L "/")) with 1 in E; lia.
    + intros path [<-|I0]; [now left|right; auto].
  - fold (files_of fs). split; [exact ND|]. intros path I0. right. auto.
Qed.
Lemma file_nodup : forall n x name pre o, match hit n x name with Some true => Some [OFile (pre ++ name)] | Some false => Some [] | None => None end = Some o -> NoDup (files_of o) /\ forall path, In path (files_of o) -> starts pre name path.
Proof.
  intros n x name pre o E. destruct (hit n x name) as [[]|]; [|injection E as <-; split; [constructor|intros path []]|discriminate]. injection E as <-. split; [repeat constructor; intros []|]. intros path [<-|[]]. now left.
Qed.
Lemma recurse_nodup : forall n w o x, wf_dirs w -> forall k first dir node v outs, recurse n w o x k first dir node v = Some outs ->
  NoDup (files_of outs) /\ forall path, In path (files_of outs) -> exists name, starts (pref first dir) name path.
Proof.
  intros n w o x WD k. induction k as [|k IH]; intros first dir node v outs E; [discriminate|]. cbn [recurse] in E. destruct (g_ents w node) as [l|] eqn:GE; [|injection E as <-; split; [constructor|intros path []]].
  destruct (WD node l GE) as [ND NS]. apply (each_nodup _ (pref first dir)) in E; [destruct E as [A B]; split; [exact A|]; intros path I0; destruct (B path I0) as (nm & _ & S0); eauto|exact ND|exact NS|].
  intros name e o1 I0 F. rewrite real_pref in F. destruct e as [|d|d].
  - eapply file_nodup; exact F.
  - destruct (recurse n w o x k false (pref first dir ++ name) d v) as [fs|] eqn:R; [|discriminate]. injection F as <-. apply IH in R. cbn [pref] in R. rewrite <- app_assoc in R. apply with_dir; apply R.
  - destruct (o_links o); [|eapply file_nodup; exact F]. destruct (existsb _ v); [injection F as <-; split; [constructor|intros path []]|].
    destruct (recurse n w o x k false (pref first dir ++ name) d (v ++ [node])) as [fs|] eqn:R; [|discriminate]. injection F as <-. apply IH in R. cbn [pref] in R. rewrite <- app_assoc in R.
    exact (with_dir (o_recurse_list_dirs o) (pref first dir) name fs (proj1 R) (proj2 R)).
Qed.
Lemma process_nodup : forall n k w o, wf_dirs w -> forall xs first dir node outs, process n k w o xs first dir node = Some outs ->
  NoDup (files_of outs) /\ forall path, In path (files_of outs) -> exists name, starts (pref first dir) name path.
Proof.
  intros n k w o WD xs. induction xs as [|x xs IH]; intros first dir node outs E; cbn [process] in E; [injection E as <-; split; [constructor|intros path []]|].
  assert (LIST : match g_ents w node with None => Some [] | Some l => each (fun name e =>
          let p := real_name first dir name in
          let isdir := match e with EFile => false | _ => true end in
          match xs with
          | [] => if (negb (o_list_dirs o) && isdir)%bool then Some []
                  else match hit n x name with Some true => Some [OFile p] | Some false => Some [] | None => None end
          | _ => match e with
                 | EFile => Some []
                 | EDir d | ELink d => match hit n x name with Some true => process n k w o xs false p d | Some false => Some [] | None => None end
                 end
          end) l end = Some outs -> NoDup (files_of outs) /\ forall path, In path (files_of outs) -> exists name, starts (pref first dir) name path).
  { clear E. intro E. destruct (g_ents w node) as [l|] eqn:GE; [|injection E as <-; split; [constructor|intros path []]].
    destruct (WD node l GE) as [ND NS]. apply (each_nodup _ (pref first dir)) in E; [destruct E as [A B]; split; [exact A|]; intros path I0; destruct (B path I0) as (nm & _ & S0); eauto|exact ND|exact NS|].
    intros name e o1 I0 F. rewrite real_pref in F. cbv zeta in F.
    assert (DIR : forall d, match hit n x name with Some true => process n k w o xs false (pref first dir ++ name) d | Some false => Some [] | None => None end = Some o1 -> NoDup (files_of o1) /\ forall path, In path (files_of o1) -> starts (pref first dir) name path).
    { intros d Q. destruct (hit n x name) as [[]|]; [|injection Q as <-; split; [constructor|intros path []]|discriminate]. apply IH in Q. cbn [pref] in Q. rewrite <- app_assoc in Q. exact (with_dir false (pref first dir) name o1 (proj1 Q) (proj2 Q)). }
    destruct xs as [|x2 xs].
    - destruct (_ && _)%bool; [injection F as <-; split; [constructor|intros path []]|]. eapply file_nodup; exact F.
    - destruct e as [|d|d]; [injection F as <-; split; [constructor|intros path []]|eauto|eauto]. }
  destruct xs as [|x2 xs]; [destruct (o_recurse o)|]; [eapply recurse_nodup; eauto|apply LIST; exact E|apply LIST; exact E].
Qed.
(** No file is listed twice. *)
Theorem C96_no_duplicates : forall n w o cwd e outs, wf_dirs w -> find_files n w o cwd e = Some outs -> NoDup (files_of outs).
Proof.
  intros n w o cwd e outs WD E. unfold find_files in E. cbv zeta in E. destruct (expressions _) as [xs|]; [|discriminate]. destruct (g_open w _) as [node|]; [|injection E as <-; constructor]. eapply process_nodup; eauto.
Qed.
Print Assumptions C96_no_duplicates.

(** Recursive search: any directory that can be reached is searched. *)
Definition from (s : list (nat * str * bool)) : list nat := map (fun x => fst (fst x)) s.
Lemma trail_cut : forall w a s b, trail w a s b -> forall c, In c (from s) -> exists s1 s2, s = s1 ++ s2 /\ trail w c s2 b.
Proof.
  intros w a s b T. induction T as [a|a name d s b E T IH|a name d s b E T IH]; intros c I0; [destruct I0|..]; (destruct I0 as [<-|I0]; [exists []; eexists; split; [reflexivity|]; cbn; econstructor; eauto|destruct (IH c I0) as (s1 & s2 & -> & T2); eexists (_ :: s1), s2; split; [reflexivity|exact T2]]).
Qed.
Lemma simple_trail : forall w a s b, trail w a s b -> exists s', trail w a s' b /\ NoDup (from s') /\ (turns s = [] -> turns s' = []).
Proof.
  assert (CUT : forall w a d s s' b x, (forall T, trail w d T b -> trail w a (x :: T) b) -> fst (fst x) = a -> (turns s = [] -> turns s' = []) -> trail w d s' b -> NoDup (from s') -> exists s'', trail w a s'' b /\ NoDup (from s'') /\ (turns (x :: s) = [] -> turns s'' = [])).
  { intros w a d s s' b x ST EX OFF T ND.
    assert (TI : turns (x :: s) = [] -> turns [x] = [] /\ turns s' = []). { intro Q. change (turns (x :: s)) with (turns [x] ++ turns s) in Q || idtac. unfold turns in *. cbn [flat_map] in *. rewrite app_nil_r. apply app_eq_nil in Q. destruct Q as [Q1 Q2]. auto. }
    destruct (in_dec Nat.eq_dec a (from s')) as [I0|NI].
    - destruct (trail_cut _ _ _ _ T a I0) as (s1 & s2 & -> & T2). exists s2. split; [exact T2|]. split.
      + unfold from in ND. rewrite map_app in ND. apply NoDup_app_iff in ND. apply ND.
      + intro Q. apply TI in Q. destruct Q as [_ Q]. unfold turns in *. rewrite flat_map_app in Q. apply app_eq_nil in Q. apply Q.
    - exists (x :: s'). split; [auto|]. split; [cbn; constructor; [rewrite EX; exact NI|exact ND]|]. intro Q. apply TI in Q. destruct Q as [Q1 Q2]. unfold turns in *. cbn [flat_map] in *. rewrite app_nil_r in Q1. now rewrite Q1, Q2. }
  intros w a s b T. induction T as [a|a name d s b E T IH|a name d s b E T IH].
  - exists []. split; [constructor|]. split; [constructor|auto].
  - destruct IH as (s' & T' & ND & OFF). eapply (CUT w a d s s' b (a, name, false)); eauto. intros T0 H. eapply tr_dir; eauto.
  - destruct IH as (s' & T' & ND & OFF). eapply (CUT w a d s s' b (a, name, true)); eauto. intros T0 H. eapply tr_link; eauto.
Qed.
Lemma turns_nodup : forall s, NoDup (from s) -> NoDup (turns s).
Proof.
  induction s as [|[[a name] k] s IH]; intro ND; [constructor|]. cbn in ND. inversion ND as [|x y NI ND']; subst. destruct k; [|exact (IH ND')]. change (turns ((a, name, true) :: s)) with (a :: turns s). constructor; [|exact (IH ND')].
  intro K. apply NI. clear - K. induction s as [|[[b nm] k] s IH]; [destruct K|]. destruct k; [destruct K as [K|K]; [left; exact K|right; auto]|right; auto].
Qed.
(** Every file of the right name in a directory that can be reached (through
    links only if they are followed) is listed under some path. *)
Theorem C97_reaches_everything : forall w o p pre node s b name, o_recurse o = true -> trail w node s b -> o_links o = true \/ turns s = [] -> entry w b name EFile -> selects p name ->
  exists s', found w o [p] pre node (pre ++ trail_text s' ++ name) /\ trail w node s' b.
Proof.
  intros w o p pre node s b name RC T AL EN M. destruct (simple_trail w node s b T) as (s' & T' & ND & OFF). exists s'. split; [|exact T']. apply fo_deep; [exact RC|]. eapply fd_file; eauto.
  split; [now apply turns_nodup|]. intro K. destruct AL as [AL|AL]; [congruence|auto].
Qed.
Print Assumptions C97_reaches_everything.
(** Nothing else: each file listed is an entry with the right name (or a
    directory, when directories are listed) of a directory reached. *)
Theorem C97_listed_is_there : forall w o p pre node path, o_recurse o = true -> found w o [p] pre node path ->
  exists s b name e, path = pre ++ trail_text s ++ name /\ trail w node s b /\ entry w b name e /\ (o_links o = false -> turns s = []) /\
    (selects p name \/ (o_recurse_list_dirs o = true /\ dir_of e <> None)).
Proof.
  intros w o p pre node path RC H. inversion H as [| p0 pre0 node0 path0 _ FD|]; subst; [congruence|]. destruct FD as [s b name e T [_ OFF] EN K M|s b name k c RL T [_ OFF]].
  - exists s, b, name, e. split; [reflexivity|]. split; [exact T|]. split; [exact EN|]. split; [exact OFF|now left].
  - assert (X : trail w node s b /\ exists e, entry w b name e /\ dir_of e <> None).
    { clear OFF H. revert node T. induction s as [|[[a nm] k1] s IH]; intros node T; cbn [app] in T.
      - inversion T as [|a nm d s' b' E1 T1|a nm d s' b' E1 T1]; subst; (split; [constructor|]); eexists; (split; [exact E1|discriminate]).
      - inversion T as [|a0 nm0 d s' b' E1 T1|a0 nm0 d s' b' E1 T1]; subst; (destruct (IH _ T1) as [T2 R]; split; [econstructor; eauto|exact R]). }
    destruct X as (T' & e & EN & D). exists s, b, name, e. split; [reflexivity|]. split; [exact T'|]. split; [exact EN|]. split; [|auto].
    intro K. specialize (OFF K). unfold turns in *. rewrite flat_map_app in OFF. apply app_eq_nil in OFF. apply OFF.
Qed.
Print Assumptions C97_listed_is_there.
(** No path goes round a link cycle: links are taken at no directory twice. *)
Theorem C97_no_cycles : forall w o p pre node path, o_recurse o = true -> found w o [p] pre node path -> exists s name, path = pre ++ trail_text s ++ name /\ NoDup (turns s) /\ exists b, trail w node s b.
Proof.
  intros w o p pre node path RC H. inversion H as [| p0 pre0 node0 path0 _ FD|]; subst; [congruence|]. destruct FD as [s b name e T [ND OFF] EN K M|s b name k c RL T [ND OFF]].
  - exists s, name. eauto.
  - exists s, name. split; [reflexivity|]. split; [unfold turns in ND; rewrite flat_map_app in ND; apply NoDup_app_iff in ND; apply ND|].
    clear - T. revert node T. induction s as [|[[a nm] k1] s IH]; intros node T; cbn [app] in T; [exists node; constructor|]. inversion T; subst; (edestruct IH as [b0 R]; [eassumption|exists b0; econstructor; eauto]).
Qed.
Print Assumptions C97_no_cycles.
(** The recursive search ends, however links are laid. *)
Theorem C97_terminates : forall w o cwd e, let s := absolute cwd e in wf_names w -> o_recurse o = true -> (forall node, finite_below w node) -> hd_error s = Some slash -> ~ In NUL s ->
  (forall k l p its, fixed_part s k -> splits (fun c => c = slash) (skipn k s) l -> In p l -> glob_text p its -> glob_size its + 16 < LIMIT) ->
  exists n0 outs, forall n, n0 <= n -> find_files n w o cwd e = Some outs.
Proof.
  intros w o cwd e s WN RC FB HS NN SZ. destruct (C96_well_defined s) as (k & l & FP & SP).
  destruct (C96_find_files w o cwd e WN (fun _ => FB) HS NN k (filter nonempty l) l FP SP eq_refl) as (outs & n0 & F & _).
  - intros p its I0 G. apply filter_In in I0. eapply SZ; eauto. apply I0.
  - exists n0, outs. exact F.
Qed.
Print Assumptions C97_terminates.

(** A directory "/" with the directory d, which has a file and a link back. *)
Definition ex_fs : gfs := mkGfs (fun n => match n with 0 => Some [(L ".", EDir 0); (L "d", EDir 1); (L "x.c", EFile)] | 1 => Some [(L "y.c", EFile); (L "up", ELink 0)] | _ => None end) (fun p => if str_eqb p (L "/") then Some 0 else None).
Example C96_ex_files : let o := mkOpts false false false false in option_map files_of (find_files 60 ex_fs o (L "/") (L "/*.c")) = Some [L "/x.c"] /\ option_map files_of (find_files 60 ex_fs o (L "/") (L "/?/*.c")) = Some [L "/d/y.c"].
Proof. split; vm_compute; reflexivity. Qed.
Example C97_ex_cycle : option_map files_of (find_files 60 ex_fs (mkOpts true true false false) (L "/") (L "/*.c")) = Some [L "/d/y.c"; L "/d/up/d/y.c"; L "/d/up/x.c"; L "/x.c"].
Proof. vm_compute. reflexivity. Qed.
Example C97_ex_hypotheses : wf_names ex_fs /\ wf_dirs ex_fs /\ finite_below ex_fs 0.
Proof.
  split; [|split].
  - intros [|[|node]] l name e E I0; cbn in E; try discriminate; injection E as <-; cbn in I0; intuition (match goal with X : (_, _) = (_, _) |- _ => injection X as <- <- end; vm_compute in *; intuition discriminate).
  - intros [|[|node]] l E; cbn in E; try discriminate; injection E as <-; (split; [repeat constructor; vm_compute; intuition discriminate|]); intros name e I0; cbn in I0; intuition (match goal with X : (_, _) = (_, _) |- _ => injection X as <- <- end; vm_compute in *; intuition discriminate).
  - exists [0; 1], (fun n => 1 - n). split; [now left|]. split.
    + intros a name e d I0 (l & E & I1 & _) D. destruct I0 as [<-|[<-|[]]]; cbn in E; injection E as <-; cbn in I1; intuition (match goal with X : (_, _) = (_, _) |- _ => injection X as <- <- end; cbn in D; try discriminate; injection D as <-; cbn; auto).
    + intros a name d (l & E & I1 & N1 & _). destruct a as [|[|a]]; cbn in E; try discriminate; injection E as <-; cbn in I1; repeat (destruct I1 as [I1|I1]; [first [discriminate|injection I1 as <- <-; first [cbn; lia|now elim N1]]|]); destruct I1.
Qed.
(** Not so: that each directory is searched once. *)
Theorem C97_once_refuted : exists w o cwd e outs s1 s2 b, find_files 60 w o cwd e = Some outs /\ trail w 0 s1 b /\ trail w 0 s2 b /\ trail_text s1 <> trail_text s2 /\
  In (L "/" ++ trail_text s1 ++ L "y.c") (files_of outs) /\ In (L "/" ++ trail_text s2 ++ L "y.c") (files_of outs).
Proof.
  exists ex_fs, (mkOpts true true false false), (L "/"), (L "/*.c"). eexists. exists [(0, L "d", false)], [(0, L "d", false); (1, L "up", true); (0, L "d", false)], 1.
  assert (D : entry ex_fs 0 (L "d") (EDir 1)) by (eexists; split; [reflexivity|]; split; [cbn; auto|split; discriminate]).
  assert (U : entry ex_fs 1 (L "up") (ELink 0)) by (eexists; split; [reflexivity|]; split; [cbn; auto|split; discriminate]).
  split; [vm_compute; reflexivity|]. split; [eapply tr_dir; [exact D|constructor]|]. split; [eapply tr_dir; [exact D|]; eapply tr_link; [exact U|]; eapply tr_dir; [exact D|constructor]|]. split; [discriminate|]. split; vm_compute; auto.
Qed.
Print Assumptions C97_once_refuted.
