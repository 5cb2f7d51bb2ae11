(** GlobFind.v -- proofs about FindFiles. *)
From Coq Require Import List Ascii Bool Arith Lia.
Import ListNotations.
From Verif Require Import Base RegexModel PathModel GlobModel GlobSpec GlobFindSpec.

Definition ev (P : nat -> nat -> Prop) : Prop := exists n0, forall n k, n0 <= n -> n0 <= k -> P n k.
Lemma ev_and : forall P Q, ev P -> ev Q -> ev (fun n k => P n k /\ Q n k).
Proof. intros P Q [a A] [b B]. exists (a + b). intros n k H1 H2. split; [apply A|apply B]; lia. Qed.
Lemma ev_impl : forall (P Q : nat -> nat -> Prop), (forall n k, P n k -> Q n k) -> ev P -> ev Q.
Proof. intros P Q I0 [a A]. exists a. auto. Qed.
Lemma ev_all : forall P : nat -> nat -> Prop, (forall n k, P n k) -> ev P.
Proof. intros P H. exists 0. auto. Qed.
Lemma files_app : forall a b, files_of (a ++ b) = files_of a ++ files_of b.
Proof. intros. apply flat_map_app. Qed.
Definition dots (name : str) : bool := (str_eqb name (L ".") || str_eqb name (L ".."))%bool.
Lemma dots_iff : forall name, dots name = false <-> name <> L "." /\ name <> L "..".
Proof. intro name. unfold dots. rewrite orb_false_iff. split; intros [A B]; split; try (apply str_eqb_neq; assumption); intros ->; rewrite str_eqb_refl in *; discriminate. Qed.
Lemma each_ev : forall (f : nat -> nat -> str -> ent -> option (list out)) (Q : str -> ent -> str -> Prop) l,
  (forall name e, In (name, e) l -> dots name = false -> exists o, ev (fun n k => f n k name e = Some o) /\ forall path, In path (files_of o) <-> Q name e path) ->
  exists outs, ev (fun n k => each (f n k) l = Some outs) /\ forall path, In path (files_of outs) <-> exists name e, In (name, e) l /\ dots name = false /\ Q name e path.
Proof.
  intros f Q l. induction l as [|[name e] l IH]; intro H.
  - exists []. split; [apply ev_all; reflexivity|]. intro path. split; [intros []|intros (nm & e & [] & _)].
  - destruct IH as (outs & E & S0). { intros nm e0 I0. apply H. now right. } destruct (dots name) eqn:D.
    + exists outs. split. { revert E. apply ev_impl. intros n k E. cbn [each]. unfold dots in D. now rewrite D. } intro path. rewrite S0. split.
      * intros (nm & e0 & I0 & R). exists nm, e0. split; [now right|exact R].
      * intros (nm & e0 & [I0|I0] & D0 & R); [injection I0 as -> ->; congruence|]. exists nm, e0. auto.
    + destruct (H name e (or_introl eq_refl) D) as (o & F & T). exists (o ++ outs). split.
      * generalize (ev_and _ _ E F). apply ev_impl. intros n k [A B]. cbn [each]. unfold dots in D. now rewrite D, A, B.
      * intro path. rewrite files_app, in_app_iff, S0, T. split.
        -- intros [K|(nm & e0 & I0 & R)]; [exists name, e; split; [now left|auto]|exists nm, e0; split; [now right|exact R]].
        -- intros (nm & e0 & [I0|I0] & D0 & R); [injection I0 as <- <-; auto|right; exists nm, e0; auto].
Qed.
Definition answers (x : option regexp) (m : str -> Prop) : Prop := forall name, ~ In NUL name -> exists b, ev (fun n _ => hit n x name = Some b) /\ (b = true <-> m name).

Definition pref (first : bool) (dir : str) : str := if first then dir else dir ++ L "/".
Lemma real_pref : forall first dir name, real_name first dir name = pref first dir ++ name.
Proof. intros [] dir name; unfold real_name, pref; [reflexivity|now rewrite <- app_assoc]. Qed.

Section Deep.
Variables (w : gfs) (o : gopts) (x : option regexp) (p : str).
Hypothesis A : answers x (selects p).
Hypothesis WN : wf_names w.
Variables (dom : list nat) (rank : nat -> nat).
Hypothesis CL : forall a name e d, In a dom -> entry w a name e -> dir_of e = Some d -> In d dom.
Hypothesis RK : forall a name d, entry w a name (EDir d) -> rank d < rank a.

(** With directories at which links have been taken already. *)
Definition allowed_past (v : list nat) (s : list (nat * str * bool)) : Prop := allowed o s /\ forall a, In a v -> ~ In a (turns s).
Inductive deep (v : list nat) (pre : str) (node : nat) : str -> Prop :=
| de_file s b name e : trail w node s b -> allowed_past v s -> entry w b name e -> e = EFile \/ (o_links o = false /\ exists d, e = ELink d) -> selects p name -> deep v pre node (pre ++ trail_text s ++ name)
| de_dir s b name k c : o_recurse_list_dirs o = true -> trail w node (s ++ [(b, name, k)]) c -> allowed_past v (s ++ [(b, name, k)]) -> deep v pre node (pre ++ trail_text s ++ name).
Lemma allowed_nil : forall v, allowed_past v [].
Proof. intro v. split; [split; [constructor|reflexivity]|intros a _ []]. Qed.
Lemma allowed_dir : forall v a name s, allowed_past v ((a, name, false) :: s) <-> allowed_past v s.
Proof. intros. reflexivity. Qed.
Lemma allowed_link : forall v a name s, allowed_past v ((a, name, true) :: s) <-> o_links o = true /\ ~ In a v /\ allowed_past (v ++ [a]) s.
Proof.
  intros v a name s. unfold allowed_past, allowed. change (turns ((a, name, true) :: s)) with (a :: turns s). split.
  - intros ((ND & OFF) & V). inversion ND; subst. destruct (o_links o) eqn:K; [|discriminate (OFF eq_refl)]. split; [reflexivity|]. split; [intro I0; apply (V a I0); now left|]. split; [split; [assumption|discriminate]|].
    intros b I0 I1. apply in_app_or in I0. destruct I0 as [I0|[<-|[]]]; [apply (V b I0); now right|contradiction].
  - intros (K & NV & (ND & _) & V). split; [split; [constructor; [apply V; apply in_or_app; right; now left|exact ND]|intro K0; congruence]|].
    intros b I0 [<-|I1]; [contradiction|]. apply (V b); [apply in_or_app; now left|exact I1].
Qed.
(** What one entry contributes. *)
Definition part (v : list nat) (pre : str) (node : nat) (name : str) (e : ent) (path : str) : Prop :=
  match e with
  | EFile => selects p name /\ path = pre ++ name
  | EDir d => (o_recurse_list_dirs o = true /\ path = pre ++ name) \/ deep v (pre ++ name ++ L "/") d path
  | ELink d => if o_links o then ~ In node v /\ ((o_recurse_list_dirs o = true /\ path = pre ++ name) \/ deep (v ++ [node]) (pre ++ name ++ L "/") d path)
               else selects p name /\ path = pre ++ name
  end.
Lemma text_cons : forall a name k s, trail_text ((a, name, k) :: s) = name ++ L "/" ++ trail_text s.
Proof. intros. unfold trail_text. cbn [flat_map fst snd]. now rewrite <- app_assoc. Qed.
Lemma deep_parts : forall v pre node path, deep v pre node path <-> exists name e, entry w node name e /\ part v pre node name e path.
Proof.
  intros v pre node path. split.
  - intro H. destruct H as [s b name e T AL EN K M|s b name k c RL T AL].
    + inversion T as [a Ea Es Eb|a nm d s' b' E1 T1 Ea Es Eb|a nm d s' b' E1 T1 Ea Es Eb]; subst.
      * exists name, e. split; [exact EN|]. destruct K as [->|(OFF & d & ->)]; cbn [part]; [auto|]. rewrite OFF. auto.
      * exists nm, (EDir d). split; [exact E1|]. right. rewrite text_cons. replace (pre ++ (nm ++ L "/" ++ trail_text s') ++ name) with ((pre ++ nm ++ L "/") ++ trail_text s' ++ name) by (now rewrite <- !app_assoc). eapply de_file; eauto.
      * exists nm, (ELink d). split; [exact E1|]. apply allowed_link in AL. destruct AL as (ON & NV & AL). cbn [part]. rewrite ON. split; [exact NV|]. right. rewrite text_cons. replace (pre ++ (nm ++ L "/" ++ trail_text s') ++ name) with ((pre ++ nm ++ L "/") ++ trail_text s' ++ name) by (now rewrite <- !app_assoc). eapply de_file; eauto.
    + destruct s as [|[[a nm] k1] s]; cbn [app] in T, AL.
      * inversion T as [a Ea Es Eb|a nm d s' b' E1 T1 Ea Es Eb|a nm d s' b' E1 T1 Ea Es Eb]; subst; inversion T1; subst.
        -- exists name, (EDir c). split; [exact E1|]. left. auto.
        -- exists name, (ELink c). split; [exact E1|]. apply allowed_link in AL. destruct AL as (ON & NV & AL). cbn [part]. rewrite ON. auto.
      * inversion T as [a0 Ea Es Eb|a0 nm0 d s' b' E1 T1 Ea Es Eb|a0 nm0 d s' b' E1 T1 Ea Es Eb]; subst.
        -- exists nm, (EDir d). split; [exact E1|]. right. rewrite text_cons. replace (pre ++ (nm ++ L "/" ++ trail_text s) ++ name) with ((pre ++ nm ++ L "/") ++ trail_text s ++ name) by (now rewrite <- !app_assoc). eapply de_dir; eauto.
        -- exists nm, (ELink d). split; [exact E1|]. apply allowed_link in AL. destruct AL as (ON & NV & AL). cbn [part]. rewrite ON. split; [exact NV|]. right. rewrite text_cons. replace (pre ++ (nm ++ L "/" ++ trail_text s) ++ name) with ((pre ++ nm ++ L "/") ++ trail_text s ++ name) by (now rewrite <- !app_assoc). eapply de_dir; eauto.
  - assert (LEAF : forall name e, entry w node name e -> e = EFile \/ (o_links o = false /\ exists d, e = ELink d) -> selects p name -> deep v pre node (pre ++ name)).
    { intros name e EN K M. apply (de_file v pre node [] node name e); auto; [constructor|apply allowed_nil]. }
    intros (name & e & EN & P). destruct e as [|d|d]; cbn [part] in P.
    + destruct P as [M ->]. eauto.
    + destruct P as [(RL & ->)|H].
      * apply (de_dir v pre node [] node name false d); auto; [eapply tr_dir; [exact EN|constructor]|apply allowed_nil].
      * destruct H as [s b nm e T AL EN2 K M|s b nm k c RL T AL].
        -- replace ((pre ++ name ++ L "/") ++ trail_text s ++ nm) with (pre ++ trail_text ((node, name, false) :: s) ++ nm) by (rewrite text_cons; now rewrite <- !app_assoc). eapply de_file; eauto. eapply tr_dir; eauto.
        -- replace ((pre ++ name ++ L "/") ++ trail_text s ++ nm) with (pre ++ trail_text ((node, name, false) :: s) ++ nm) by (rewrite text_cons; now rewrite <- !app_assoc). eapply de_dir; [exact RL| |].
           ++ cbn [app]. eapply tr_dir; eauto.
           ++ cbn [app]. exact AL.
    + revert P. case_eq (o_links o); intros ON P; [|destruct P as [M ->]; apply (LEAF name (ELink d)); [exact EN|right; split; [exact ON|eauto]|exact M]]. destruct P as [NV [(RL & ->)|H]].
      * apply (de_dir v pre node [] node name true d); auto; [eapply tr_link; [exact EN|constructor]|]. apply allowed_link. split; [exact ON|]. split; [exact NV|apply allowed_nil].
      * destruct H as [s b nm e T AL EN2 K M|s b nm k c RL T AL].
        -- replace ((pre ++ name ++ L "/") ++ trail_text s ++ nm) with (pre ++ trail_text ((node, name, true) :: s) ++ nm) by (rewrite text_cons; now rewrite <- !app_assoc). eapply de_file; eauto; [eapply tr_link; eauto|]. apply allowed_link. auto.
        -- replace ((pre ++ name ++ L "/") ++ trail_text s ++ nm) with (pre ++ trail_text ((node, name, true) :: s) ++ nm) by (rewrite text_cons; now rewrite <- !app_assoc). eapply de_dir; [exact RL| |].
           ++ cbn [app]. eapply tr_link; eauto.
           ++ cbn [app]. apply allowed_link. auto.
Qed.
Definition measure (v : list nat) (node : nat) : nat := (length dom - length v) * S (list_max (map rank dom)) + rank node.
Lemma rank_max : forall a, In a dom -> rank a <= list_max (map rank dom).
Proof. intros a I0. pose proof (proj1 (list_max_le (map rank dom) _) (le_n _)) as F. rewrite Forall_forall in F. apply F. now apply in_map. Qed.
Lemma file_ev : forall name pth, ~ In NUL name -> exists out, ev (fun n _ => match hit n x name with Some true => Some [OFile pth] | Some false => Some [] | None => None end = Some out) /\ forall path, In path (files_of out) <-> selects p name /\ path = pth.
Proof.
  intros name pth N. destruct (A name N) as (b & E & B). destruct b.
  - exists [OFile pth]. split; [revert E; apply ev_impl; now intros n _ ->|]. intro path. cbn. split; [intros [<-|[]]; split; [now apply B|reflexivity]|intros [_ ->]; auto].
  - exists []. split; [revert E; apply ev_impl; now intros n _ ->|]. intro path. cbn. split; [intros []|intros [M _]; apply B in M; discriminate].
Qed.
Lemma recurse_ev : forall N v node first dir, measure v node < N -> In node dom -> NoDup v -> incl v dom ->
  exists outs, ev (fun n k => recurse n w o x k first dir node v = Some outs) /\ forall path, In path (files_of outs) <-> deep v (pref first dir) node path.
Proof.
  induction N as [|N IH]; intros v node first dir HM HD ND IV; [lia|].
  assert (SH : forall (P : nat -> nat -> Prop), ev P -> ev (fun n k => exists k', k = S k' /\ P n k')).
  { intros P [n0 H]. exists (S n0). intros n [|k] H1 H2; [lia|]. exists k. split; [reflexivity|]. apply H; lia. }
  destruct (g_ents w node) as [l|] eqn:GE.
  2:{ exists []. split. { exists 1. intros n [|k] _ H; [lia|]. cbn [recurse]. now rewrite GE. } intro path. split; [intros []|]. intro D. apply deep_parts in D. destruct D as (name & e & (l & E & _) & _). congruence. }
  pose (f := fun (n k : nat) (name : str) (e : ent) =>
        let pth := real_name first dir name in
        let file := match hit n x name with Some true => Some [OFile pth] | Some false => Some [] | None => None end in
        match e with
        | EFile => file
        | EDir d =>
          match recurse n w o x k false pth d v with
          | Some fs => Some ((if o_recurse_list_dirs o then [OFile pth] else []) ++ fs)
          | None => None
          end
        | ELink d =>
          if o_links o then
            if existsb (Nat.eqb node) v then Some [OFollow; OCycle]
            else match recurse n w o x k false pth d (v ++ [node]) with
                 | Some fs => Some ([OFollow] ++ (if o_recurse_list_dirs o then [OFile pth] else []) ++ fs)
                 | None => None
                 end
          else file
        end).
  destruct (each_ev f (fun name e path => part v (pref first dir) node name e path) l) as (outs & E & S0).
  { intros name e I0 D. assert (NN : ~ In NUL name) by (eapply WN; eauto). assert (EN : entry w node name e). { exists l. apply dots_iff in D. tauto. }
    destruct e as [|d|d]; unfold f; rewrite real_pref; cbn [part].
    - apply file_ev. exact NN.
    - destruct (IH v d false (pref first dir ++ name)) as (fs & F & T); [|eapply CL; eauto; reflexivity|exact ND|exact IV|].
      { unfold measure in *. specialize (RK _ _ _ EN). lia. }
      exists ((if o_recurse_list_dirs o then [OFile (pref first dir ++ name)] else []) ++ fs). split; [revert F; apply ev_impl; now intros n k ->|].
      intro path. rewrite files_app, in_app_iff, T. cbn [pref]. rewrite <- app_assoc. destruct (o_recurse_list_dirs o); cbn; intuition (try congruence; subst; auto).
    - destruct (o_links o) eqn:ON; [|apply file_ev; exact NN]. destruct (existsb (Nat.eqb node) v) eqn:V.
      + exists [OFollow; OCycle]. split; [apply ev_all; reflexivity|]. intro path. split; [intros []|]. intros [NV _]. exfalso. apply NV. apply existsb_exists in V. destruct V as (a & I1 & Q). apply Nat.eqb_eq in Q. now subst a.
      + assert (NV : ~ In node v). { intro I1. assert (existsb (Nat.eqb node) v = true) by (apply existsb_exists; exists node; split; [exact I1|apply Nat.eqb_refl]). congruence. }
        assert (ND' : NoDup (v ++ [node])). { apply NoDup_rev in ND. rewrite <- (rev_involutive (v ++ [node])). apply NoDup_rev. rewrite rev_app_distr. cbn. constructor; [rewrite <- in_rev; exact NV|exact ND]. }
        assert (IV' : incl (v ++ [node]) dom). { intros a I1. apply in_app_or in I1. destruct I1 as [I1|[<-|[]]]; auto. }
        assert (DD : In d dom) by (eapply CL; eauto; reflexivity).
        destruct (IH (v ++ [node]) d false (pref first dir ++ name)) as (fs & F & T); [|exact DD|exact ND'|exact IV'|].
        { pose proof (NoDup_incl_length ND' IV') as LL. rewrite app_length in LL. cbn [length] in LL. unfold measure in *. rewrite app_length. cbn [length]. pose proof (rank_max d DD) as R1. set (R := list_max (map rank dom)) in *.
          replace (length dom - length v) with (S (length dom - (length v + 1))) in HM by lia. cbn [Nat.mul] in HM. lia. }
        exists ([OFollow] ++ (if o_recurse_list_dirs o then [OFile (pref first dir ++ name)] else []) ++ fs). split; [revert F; apply ev_impl; now intros n k ->|].
        intro path. rewrite !files_app, !in_app_iff, T. cbn [pref]. rewrite <- app_assoc. destruct (o_recurse_list_dirs o); cbn; intuition (try congruence; subst; auto). }
  exists outs. split.
  - apply SH in E. revert E. apply ev_impl. intros n k (k' & -> & E). cbn [recurse]. rewrite GE. exact E.
  - intro path. rewrite S0, deep_parts. split.
    + intros (name & e & I0 & D & P). exists name, e. split; [|exact P]. exists l. apply dots_iff in D. tauto.
    + intros (name & e & (l' & GE' & I0 & N1 & N2) & P). assert (l' = l) by congruence. subst l'. exists name, e. split; [exact I0|]. split; [now apply dots_iff|exact P].
Qed.
End Deep.
Lemma deep_found : forall w o p pre node path, deep w o p [] pre node path <-> found_deep w o p pre node path.
Proof.
  intros. split; intro H; destruct H as [s b nm e T AL EN2 K M|s b nm k c RL T AL].
  - destruct AL as [AL _]. eapply fd_file; eauto.
  - destruct AL as [AL _]. eapply fd_dir; eauto.
  - eapply de_file; eauto. split; [exact AL|intros a []].
  - eapply de_dir; eauto. split; [exact AL|intros a []].
Qed.

(** All that FindFiles needs to know below a directory. *)
Lemma process_ev : forall w o, wf_names w -> (o_recurse o = true -> forall node, finite_below w node) ->
  forall ps xs, Forall2 (fun p x => answers x (selects p)) ps xs -> forall first dir node,
  exists outs, ev (fun n k => process n k w o xs first dir node = Some outs) /\ forall path, In path (files_of outs) <-> found w o ps (pref first dir) node path.
Proof.
  intros w o WN FB ps xs F. induction F as [|p x ps xs A F IH]; intros first dir node.
  - exists []. split; [apply ev_all; reflexivity|]. intro path. split; [intros []|intro H; inversion H].
  - assert (LIST : (xs <> [] \/ o_recurse o = false) -> exists outs, ev (fun n k => match g_ents w node with None => Some [] | Some l => each (fun name e =>
          let p := real_name first dir name in
          let isdir := match e with EFile => false | _ => true end in
          match xs with
          | [] => if (negb (o_list_dirs o) && isdir)%bool then Some []
                  else match hit n x name with Some true => Some [OFile p] | Some false => Some [] | None => None end
          | _ => match e with
                 | EFile => Some []
                 | EDir d | ELink d => match hit n x name with Some true => process n k w o xs false p d | Some false => Some [] | None => None end
                 end
          end) l end = Some outs) /\ forall path, In path (files_of outs) <-> found w o (p :: ps) (pref first dir) node path).
    { intro NR. destruct (g_ents w node) as [l|] eqn:GE.
      2:{ exists []. split; [apply ev_all; reflexivity|]. intro path. split; [intros []|]. intro H. inversion H; subst; try match goal with X : entry _ _ _ _ |- _ => destruct X as (l & E & _); congruence end. exfalso. inversion F; subst. destruct NR; congruence. }
      destruct xs as [|x2 xs].
      - inversion F; subst. destruct NR as [NR|NR]; [congruence|].
        edestruct (each_ev (fun n (_ : nat) name e => if (negb (o_list_dirs o) && match e with EFile => false | _ => true end)%bool then Some [] else match hit n x name with Some true => Some [OFile (real_name first dir name)] | Some false => Some [] | None => None end)
          (fun name e path => (o_list_dirs o = true \/ e = EFile) /\ selects p name /\ path = pref first dir ++ name) l) as (outs & E & S0).
        { intros name e I0 D. assert (NN : ~ In NUL name) by (eapply WN; eauto). rewrite real_pref. destruct (file_ev x p A name (pref first dir ++ name) NN) as (o1 & E1 & T1).
          destruct (o_list_dirs o) eqn:LD; cbn [negb andb].
          - exists o1. split; [exact E1|]. intro path. rewrite T1. tauto.
          - destruct e as [|d|d]; [exists o1; split; [exact E1|]; intro path; rewrite T1; tauto|exists []; split; [apply ev_all; reflexivity|]; intro path; split; [intros []|intros [[X|X] _]; discriminate]..]. }
        exists outs. split; [exact E|]. intro path. rewrite S0. split.
        + intros (name & e & I0 & D & LD & M & ->). eapply fo_last; eauto. exists l. apply dots_iff in D. tauto.
        + intro H. inversion H; subst; [|congruence]. match goal with X : entry _ _ _ _ |- _ => destruct X as (l' & E' & I0 & N1 & N2) end. assert (l' = l) by congruence. subst l'. exists name, e. split; [exact I0|]. split; [now apply dots_iff|auto].
      - destruct ps as [|q ps]; [inversion F|].
        edestruct (each_ev (fun n k name e => match e with EFile => Some [] | EDir d | ELink d => match hit n x name with Some true => process n k w o (x2 :: xs) false (real_name first dir name) d | Some false => Some [] | None => None end end)
          (fun name e path => exists d, dir_of e = Some d /\ selects p name /\ found w o (q :: ps) (pref first dir ++ name ++ L "/") d path) l) as (outs & E & S0).
        { intros name e I0 D. assert (NN : ~ In NUL name) by (eapply WN; eauto). rewrite real_pref. destruct (A name NN) as (b & Eb & B).
          assert (DIR : forall d, exists out, ev (fun n k => match hit n x name with Some true => process n k w o (x2 :: xs) false (pref first dir ++ name) d | Some false => Some [] | None => None end = Some out) /\ forall path, In path (files_of out) <-> selects p name /\ found w o (q :: ps) (pref first dir ++ name ++ L "/") d path).
          { intro d. destruct b.
            - destruct (IH false (pref first dir ++ name) d) as (o1 & E1 & T1). exists o1. split; [generalize (ev_and _ _ Eb E1); apply ev_impl; intros n k [-> ->]; reflexivity|]. intro path. rewrite T1. cbn [pref]. rewrite <- app_assoc. split; [intro H; split; [now apply B|exact H]|tauto].
            - exists []. split; [revert Eb; apply ev_impl; now intros n k ->|]. intro path. split; [intros []|]. intros [M _]. apply B in M. discriminate. }
          destruct e as [|d|d].
          - exists []. split; [apply ev_all; reflexivity|]. intro path. split; [intros []|intros (d & X & _); discriminate].
          - destruct (DIR d) as (o1 & E1 & T1). exists o1. split; [exact E1|]. intro path. rewrite T1. split; [intro H; exists d; auto|intros (d' & X & H); cbn in X; injection X as <-; exact H].
          - destruct (DIR d) as (o1 & E1 & T1). exists o1. split; [exact E1|]. intro path. rewrite T1. split; [intro H; exists d; auto|intros (d' & X & H); cbn in X; injection X as <-; exact H]. }
        exists outs. split; [exact E|]. intro path. rewrite S0. split.
        + intros (name & e & I0 & D & d & DE & M & H). eapply fo_more; eauto. exists l. apply dots_iff in D. tauto.
        + intro H. inversion H; subst. match goal with X : entry _ _ _ _ |- _ => destruct X as (l' & E' & I0 & N1 & N2) end. assert (l' = l) by congruence. subst l'. exists name, e. split; [exact I0|]. split; [now apply dots_iff|eauto]. }
    destruct xs as [|x2 xs].
    + inversion F; subst. destruct (o_recurse o) eqn:RC.
      * destruct (FB eq_refl node) as (dom & rank & ID & CL & RK).
        destruct (recurse_ev w o x p A WN dom rank CL RK (S (measure dom rank [] node)) [] node first dir (le_n _) ID (NoDup_nil _) ltac:(intros a [])) as (outs & E & T).
        exists outs. split; [revert E; apply ev_impl; intros n k E; cbn [process]; rewrite RC; exact E|]. intro path. rewrite T, deep_found. split; [intro H; now apply fo_deep|intro H; inversion H; subst; [congruence|assumption]].
      * destruct (LIST (or_intror eq_refl)) as (outs & E & T). exists outs. split; [|exact T]. revert E. apply ev_impl. intros n k E. cbn [process]. rewrite RC. exact E.
    + assert (NE : x2 :: xs <> []) by discriminate. destruct (LIST (or_introl NE)) as (outs & E & T). exists outs. split; [|exact T]. revert E. apply ev_impl. intros n k E. cbn [process]. exact E.
Qed.
