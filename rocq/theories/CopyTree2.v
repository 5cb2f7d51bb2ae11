(** CopyTree2.v -- CopyADirectory: one entry, then all of them. *)
From Coq Require Import Ascii String List Bool Arith Lia.
Import ListNotations.
From Verif Require Import Base PathModel PathProofs TreeModel TreeSpec TreeProofs TransModel TransProofs CopyModel CopySpec CopyProofs CopyProofs2 CopyTree.

Section Entries.
Variable e : penv.
Variable k : disk.
Variable cwd : place.
Variable always : bool.
Hypothesis acc : forall l, deny k CAccess l = false.
Hypothesis opn : forall l, deny k COpen l = false.
Hypothesis rd : forall l, rerr k l = None.
Definition allowed : Prop := (forall c l, deny k c l = false) /\ forall l, werr k l = None.

Lemma dir_text f l : WF f -> names_ok l -> at_place f l = Some KDir -> file_is_directory f cwd (text l) = true.
Proof. intros W H D. apply dir_spec; [apply text_nobs, H|]. exists l. split; [apply resolve_text; assumption|exact D]. Qed.
Lemma not_dir_text f l (x : str) : WF f -> names_ok (l ++ [x]) -> at_place f l = Some KDir -> (forall t, at_place f (l ++ [x]) <> Some (KLink t)) -> at_place f (l ++ [x]) <> Some KDir -> file_is_directory f cwd (text (l ++ [x])) = false.
Proof.
  intros W H D NL ND. destruct (file_is_directory f cwd (text (l ++ [x]))) eqn:FD; [|reflexivity]. pose proof (proj1 (dir_spec f cwd _ (text_nobs _ H)) FD) as (m & R & A). rewrite resolve_in in R by assumption. injection R as <-. congruence.
Qed.
Lemma name_text l (x : str) : ~ In slash x -> get_filename_name (text (l ++ [x])) = x.
Proof.
  intros N. rewrite (text_body (l ++ [x]) (snoc_ne l x)), body_snoc. apply (last_part_unique (body l ++ slash :: x)); [apply name_last_part|]. split; [exact N|right; exists (body l); reflexivity].
Qed.
(** A file into a directory. *)
Lemma copy_entry f (S : place) (x : str) (D : place) (d : str) : WF f -> S <> [] -> D <> [] -> names_ok (S ++ [x]) -> names_ok D -> at_place f S = Some KDir -> at_place f D = Some KDir -> at_place f (S ++ [x]) = Some (KFile d) ->
  (at_place f (D ++ [x]) = None \/ exists b, at_place f (D ++ [x]) = Some (KFile b)) -> S ++ [x] <> D ++ [x] ->
  exists f' b, copy_a_file e k cwd f (text (S ++ [x])) (text D) always = Some (f', b) /\ WF f' /\ (forall y, y <> D ++ [x] -> at_place f' y = at_place f y) /\
    (b = true -> at_place f' (D ++ [x]) = Some (KFile d)) /\ (allowed -> b = true).
Proof.
  intros W NS ND HS HD DS DD As AD Ne. assert (Px : proper x /\ ~ In backslash x) by (apply names_ok_app in HS as [_ HS]; apply (HS x (or_introl eq_refl))). assert (Nx : ~ In slash x) by apply Px.
  assert (HDx : names_ok (D ++ [x])) by (apply names_ok_app; split; [exact HD|intros n [<-|[]]; exact Px]).
  assert (NLS : forall t, at_place f (S ++ [x]) <> Some (KLink t)) by (intros t; congruence). assert (NLD : forall t, at_place f (D ++ [x]) <> Some (KLink t)) by (intros t; destruct AD as [->|[b ->]]; congruence). assert (NDD : at_place f (D ++ [x]) <> Some KDir) by (destruct AD as [->|[b ->]]; congruence).
  assert (Rs : resolve f cwd true (text (S ++ [x])) = inl (S ++ [x])) by (apply resolve_in; assumption). assert (Rd : resolve f cwd true (text D) = inl D) by (apply resolve_text; assumption).
  pose proof (dir_text f D W HD DD) as FD.
  assert (AL : exists f' b, copy_file_always e k cwd f (text (S ++ [x])) (text D) = Some (f', b) /\ WF f' /\ (forall y, y <> D ++ [x] -> at_place f' y = at_place f y) /\ (b = true -> at_place f' (D ++ [x]) = Some (KFile d)) /\ (allowed -> b = true)).
  { unfold copy_file_always. assert (same_file cwd f (text (S ++ [x])) (text D) = false) as ->. { unfold same_file. rewrite Rs, Rd, As. destruct (place_dec (S ++ [x]) D) as [E|]; [rewrite E in As; congruence|reflexivity]. }
    rewrite not_dir_text by (assumption || congruence). assert (TG : target e k cwd f (text (S ++ [x])) (text D) = Some (text (D ++ [x]), text D)).
    { unfold target, file_exists. rewrite Rd, DD, acc, FD, convert_text, (name_text S x Nx) by exact HD. cbn [negb andb]. change (text D ++ slash :: x) with (text D ++ [slash] ++ x). rewrite text_snoc by exact ND. reflexivity. }
    rewrite TG. assert (MD : make_directory e k cwd f (text D) = Some (f, true)). { unfold make_directory, file_exists. rewrite Rd, DD, acc, FD. reflexivity. }
    rewrite MD. assert (OI : open_in k cwd f (text (S ++ [x])) = if deny k CRead (S ++ [x]) then None else Some (S ++ [x], d)) by (unfold open_in; rewrite Rs, As, rd; reflexivity). rewrite OI.
    destruct (deny k CRead (S ++ [x])) eqn:DR. { exists f, false. split; [reflexivity|]. split; [exact W|]. split; [reflexivity|]. split; [discriminate|]. intros [Al _]. rewrite Al in DR. discriminate. }
    assert (C : at_place f ([] : place) = Some KDir) by reflexivity.
    assert (RWD : forall g fo p, (exists r, p = slash :: r) -> resolve g cwd fo p = resolve g [] fo p) by (intros g fo p (r & ->); reflexivity).
    assert (AB : exists r, text (D ++ [x]) = slash :: r) by (rewrite text_body by apply snoc_ne; destruct D as [|n D']; [congruence|]; eexists; reflexivity).
    assert (RM : rm_file k cwd f (text (D ++ [x])) = rm_file k [] f (text (D ++ [x]))) by (unfold rm_file, remove_file, sys_unlink; rewrite (RWD f false _ AB); reflexivity).
    assert (OO : forall g, open_out k cwd g (text (D ++ [x])) = open_out k [] g (text (D ++ [x]))) by (intros g; unfold open_out; rewrite (RWD g true _ AB); reflexivity).
    rewrite RM, OO. pose proof (write_stage k [] f (text (D ++ [x])) (S ++ [x]) d W C As) as WS. cbv zeta in WS.
    set (f2 := rm_file k [] f (text (D ++ [x]))) in *.
    assert (Rf : resolve f [] false (text (D ++ [x])) = inl (D ++ [x])) by (apply resolve_in; assumption).
    destruct (open_out k [] f2 (text (D ++ [x]))) as [[[f3 w] old]|] eqn:OUT.
    - destruct WS as (Ew & Nw & Old & Fin).
      assert (Ww : w = D ++ [x]). { destruct (Fin ([] : str)) as (W4 & R4 & A4). assert (Rx : resolve (put f3 w (KFile [])) [] true (text (D ++ [x])) = inl (D ++ [x])). { apply resolve_in; [exact W4|exact HDx| |]; [|intros t]; rewrite A4; destruct (place_dec _ w) as [E|]; try congruence; try discriminate. } rewrite Rx in R4. injection R4 as ->. reflexivity. }
      subst w. assert (SN : (if place_dec (S ++ [x]) (D ++ [x]) then true else false) = false) by (destruct (place_dec (S ++ [x]) (D ++ [x])); congruence). cbv zeta. rewrite SN, andb_false_r. rewrite copy_loop_all by lia. cbn [app].
      destruct (Fin (limit (werr k (D ++ [x])) d)) as (W4 & R4 & A4). set (f4 := put f3 (D ++ [x]) (KFile (limit (werr k (D ++ [x])) d))) in *.
      assert (FR : forall y, y <> D ++ [x] -> at_place f4 y = at_place f y) by (intros y Ny; rewrite A4; destruct (place_dec y (D ++ [x])); congruence).
      destruct (length (limit (werr k (D ++ [x])) d) <? length d) eqn:Le.
      + exists f4, false. split; [reflexivity|]. split; [exact W4|]. split; [exact FR|]. split; [discriminate|]. intros [_ Al]. rewrite Al in Le. cbn [limit] in Le. rewrite Nat.ltb_irrefl in Le. discriminate.
      + eexists f4, _. split; [reflexivity|]. split; [exact W4|]. split; [exact FR|]. split.
        * intros _. rewrite A4. destruct (place_dec (D ++ [x]) (D ++ [x])); [|congruence]. rewrite (limit_full _ _ Le). reflexivity.
        * intros [Al _]. destruct (sys_stat k cwd f (text (S ++ [x]))); [|reflexivity]. unfold set_permissions. rewrite (RWD f4 true _ AB), R4, A4. destruct (place_dec (D ++ [x]) (D ++ [x])); [|congruence]. rewrite Al. reflexivity.
    - destruct WS as (W2 & F2). exists f2, false. split; [reflexivity|]. split; [exact W2|]. split; [|split; [discriminate|]].
      + intros y Ny. destruct F2 as [->|(r & Rr & _ & ->)]; [reflexivity|]. rewrite Rf in Rr. injection Rr as <-. rewrite at_drop by apply snoc_ne. destruct (place_dec y (D ++ [x])); congruence.
      + intros [Al _]. exfalso. unfold open_out in OUT. assert (Rx : resolve f2 [] true (text (D ++ [x])) = inl (D ++ [x]) /\ (at_place f2 (D ++ [x]) = None \/ exists b, at_place f2 (D ++ [x]) = Some (KFile b))).
        { destruct F2 as [->|(r & Rr & _ & E2)]; [split; [apply resolve_in; assumption|exact AD]|]. rewrite Rf in Rr. injection Rr as <-. rewrite E2 in W2 |- *. assert (A2 : at_place (drop f (D ++ [x])) (D ++ [x]) = None) by (rewrite at_drop by apply snoc_ne; destruct (place_dec (D ++ [x]) (D ++ [x])); congruence). split; [|left; exact A2].
          apply resolve_in; [exact W2|exact HDx| |rewrite A2; discriminate]. rewrite at_drop by apply snoc_ne. destruct (place_dec D (D ++ [x])) as [E|]; [rewrite <- E in NDD; congruence|exact DD]. }
        destruct Rx as [Rx [A2|[b A2]]]; rewrite Rx, A2, Al in OUT; discriminate. }
  unfold copy_a_file. destruct always; [exact AL|]. unfold copy_file_if_different. rewrite FD, convert_text, (name_text S x Nx) by exact HD. change (text D ++ slash :: x) with (text D ++ [slash] ++ x). rewrite text_snoc by exact ND.
  destruct (files_differ k cwd f (text (S ++ [x])) (text (D ++ [x]))) eqn:DF; [exact AL|]. exists f, true. split; [reflexivity|]. split; [exact W|]. split; [reflexivity|]. split; [|reflexivity]. intros _.
  assert (Rdx : resolve f cwd true (text (D ++ [x])) = inl (D ++ [x])) by (apply resolve_in; assumption).
  assert (DZ : forall l, resolve f cwd true (text (S ++ [x])) = inl l \/ resolve f cwd true (text (D ++ [x])) = inl l -> at_place f l = Some KDir -> dsize k l <> 0) by (intros l [R|R]; [rewrite Rs in R|rewrite Rdx in R]; injection R as <-; congruence). destruct (differ_false k cwd f _ _ DZ DF) as (d' & (l1 & R1 & A1) & (l2 & R2 & A2)). rewrite Rs in R1. injection R1 as <-. rewrite As in A1. injection A1 as <-. rewrite Rdx in R2. injection R2 as <-. exact A2.
Qed.

Definition result (fuel : nat) (f : fsys) (A B : place) (f' : fsys) (b : bool) : Prop :=
  copy_a_directory e k cwd fuel f (text A) (text B) always = Some (f', b) /\ WF f' /\
  (forall y, ~ below B y -> at_place f' y = at_place f y \/ (at_place f y = None /\ at_place f' y = Some KDir /\ below y B)) /\
  (forall r, at_place f (A ++ r) = None -> at_place f' (B ++ r) = at_place f (B ++ r)) /\
  (b = true -> forall r v, at_place f (A ++ r) = Some v -> at_place f' (B ++ r) = Some v) /\ (allowed -> b = true).
Lemma apply_cons (B : place) (x : str) r : B ++ x :: r = (B ++ [x]) ++ r. Proof. rewrite <- app_assoc. reflexivity. Qed.
Lemma tree : forall fuel f A B, WF f -> A <> [] -> B <> [] -> (forall r, at_place f (A ++ r) <> None -> names_ok (A ++ r)) -> names_ok B -> at_place f A = Some KDir -> ~ below A B -> ~ below B A ->
  open_way f B -> fits f A B -> (forall r, at_place f (A ++ r) <> None -> length r < fuel) -> exists f' b, result fuel f A B f' b.
Proof.
  induction fuel as [|n IH]; intros f A B W NA NB HA HB DA NAB NBA O F Dp. { specialize (Dp []). rewrite app_nil_r in Dp. specialize (Dp ltac:(congruence)). cbn in Dp. lia. }
  assert (HA0 : names_ok A) by (specialize (HA []); rewrite app_nil_r in HA; apply HA; congruence).
  unfold result. cbn [copy_a_directory]. assert (LD : load (fun _ l => deny k COpen l) cwd f (text A) = [L "."; L ".."] ++ names_in f A) by (unfold load; rewrite (resolve_text f cwd true A W HA0 DA), DA, opn; reflexivity). rewrite LD.
  destruct (make_directory_text e k cwd f B W HB NB O) as (f1 & b1 & -> & W1 & P1 & D1 & Al1).
  assert (PB : forall x r, at_place f1 (B ++ x :: r) = at_place f (B ++ x :: r)). { intros x r. destruct (P1 (B ++ x :: r)) as [E|(_ & _ & (t & E))]; [exact E|]. apply (f_equal (@List.length _)) in E. rewrite !app_length in E. cbn [length] in E. lia. }
  assert (PA : forall r, at_place f1 (A ++ r) = at_place f (A ++ r)). { intros r. destruct (P1 (A ++ r)) as [E|(_ & _ & (t & E))]; [exact E|]. elim NAB. exists (r ++ t). rewrite app_assoc. exact E. }
  destruct b1.
  2:{ exists f1, false. split; [reflexivity|]. split; [exact W1|]. split; [intros y _; apply P1|]. split; [|split; [discriminate|intros [Al _]; apply Al1; intros; apply Al]]. intros [|x r] N; [rewrite app_nil_r in N; congruence|apply PB]. }
  specialize (D1 eq_refl).
  set (entries := fix entries (f0 : fsys) (files : list str) {struct files} : option (fsys * bool) := _).
  assert (LOOP : forall files g, NoDup files -> (forall x, In x files -> In x (names_in f A)) -> WF g -> at_place g B = Some KDir -> (forall y, ~ below B y -> at_place g y = at_place f1 y) -> (forall x r, In x files -> at_place g (B ++ x :: r) = at_place f (B ++ x :: r)) ->
    exists g' b, entries g files = Some (g', b) /\ WF g' /\ (forall y, (forall x, In x files -> ~ below (B ++ [x]) y) -> at_place g' y = at_place g y) /\
      (forall x r, In x files -> at_place f (A ++ x :: r) = None -> at_place g' (B ++ x :: r) = at_place f (B ++ x :: r)) /\
      (b = true -> forall x r v, In x files -> at_place f (A ++ x :: r) = Some v -> at_place g' (B ++ x :: r) = Some v) /\ (allowed -> b = true)).
  { induction files as [|x rest IHl]; intros g ND Sub Wg DB Fr Eq.
    - exists g, true. split; [reflexivity|]. split; [exact Wg|]. split; [reflexivity|]. split; [intros x r []|]. split; [intros _ x r v []|reflexivity].
    - inversion ND as [|a b Nx NDr]; subst. assert (Ix : In x (names_in f A)) by (apply Sub; left; reflexivity). pose proof (names_proper f A x W Ix) as Px. destruct (proper_stays x Px) as [SX DX]. unfold stays in SX. apply orb_false_iff in SX as [_ SX].
      cbn [entries]. fold entries. unfold entries at 1. fold entries. rewrite SX, DX. cbn [orb]. cbv zeta. assert (GA : forall r, at_place g (A ++ r) = at_place f (A ++ r)). { intros r. rewrite Fr; [apply PA|]. intros (t & E). exact (apart A B r t NAB NBA E). }
      change (text A ++ slash :: x) with (text A ++ [slash] ++ x). rewrite (text_snoc A x NA). change (text B ++ slash :: x) with (text B ++ [slash] ++ x). rewrite (text_snoc B x NB).
      assert (Ax : at_place f (A ++ [x]) <> None) by (apply (names_in_look f A x W), Ix). assert (HAx : names_ok (A ++ [x])) by (apply HA, Ax). assert (HBx : names_ok (B ++ [x])) by (apply names_ok_app; split; [exact HB|]; apply names_ok_app in HAx; apply HAx).
      assert (DAg : at_place g A = Some KDir) by (specialize (GA []); rewrite app_nil_r in GA; congruence).
      assert (PRE : forall p, below p B -> at_place g p = Some KDir). { intros p (t & E). destruct t as [|u t]; [rewrite app_nil_r in E; subst p; exact DB|]. refine (deep_parent g p Wg (u :: t) _ _); [rewrite <- E, DB; discriminate|discriminate]. }
      assert (ONE : exists g1 b0, (if file_is_directory g cwd (text (A ++ [x])) then copy_a_directory e k cwd n g (text (A ++ [x])) (text (B ++ [x])) always else copy_a_file e k cwd g (text (A ++ [x])) (text B) always) = Some (g1, b0) /\ WF g1 /\
        (forall y, ~ below (B ++ [x]) y -> at_place g1 y = at_place g y) /\ (forall r, at_place f (A ++ x :: r) = None -> at_place g1 (B ++ x :: r) = at_place f (B ++ x :: r)) /\ (b0 = true -> forall r v, at_place f (A ++ x :: r) = Some v -> at_place g1 (B ++ x :: r) = Some v) /\ (allowed -> b0 = true)).
      { pose proof (F [x]) as Fx. destruct (at_place f (A ++ [x])) as [[|d|t]|] eqn:Ex; [| |destruct Fx|congruence].
        - rewrite (dir_text g (A ++ [x]) Wg HAx) by (rewrite GA; exact Ex).
          destruct (IH g (A ++ [x]) (B ++ [x])) as (g1 & b0 & C0 & W0 & Fr0 & K0 & T0 & Al0).
          + exact Wg.
          + apply snoc_ne.
          + apply snoc_ne.
          + intros r N. rewrite <- apply_cons in N |- *. rewrite GA in N. apply HA, N.
          + exact HBx.
          + rewrite GA. exact Ex.
          + intros (t & E). rewrite <- apply_cons in E. symmetry in E. exact (apart A B _ _ NAB NBA E).
          + intros (t & E). rewrite <- apply_cons in E. exact (apart A B _ _ NAB NBA E).
          + intros p t E. destruct t as [|u t _] using rev_ind; [rewrite app_nil_r in E; subst p; pose proof (Eq x [] (or_introl eq_refl)) as E2; rewrite E2; exact Fx|]. rewrite app_assoc in E. apply app_inj_tail in E as [E _]. right. apply PRE. exists t. exact E.
          + intros r. rewrite <- !apply_cons. rewrite GA, (Eq x r (or_introl eq_refl)). apply F.
          + intros r N. rewrite <- apply_cons, GA in N. specialize (Dp _ N). cbn [length] in Dp. lia.
          + exists g1, b0. split; [exact C0|]. split; [exact W0|]. split; [|split; [|split; [|exact Al0]]].
            * intros y Ny. destruct (Fr0 y Ny) as [E|(E1 & _ & (t & E2))]; [exact E|]. exfalso. destruct t as [|u t _] using rev_ind; [rewrite app_nil_r in E2; subst y; apply Ny, below_refl|]. rewrite app_assoc in E2. apply app_inj_tail in E2 as [E2 _]. rewrite PRE in E1; [discriminate|exists t; exact E2].
            * intros r N. pose proof (K0 r) as K. rewrite <- !apply_cons in K. rewrite GA, (Eq x r (or_introl eq_refl)) in K. exact (K N).
            * intros Tb r v E. pose proof (T0 Tb r v) as K. rewrite <- !apply_cons in K. rewrite GA in K. exact (K E).
        - assert (Exg : at_place g (A ++ [x]) = Some (KFile d)) by (rewrite GA; exact Ex). rewrite (not_dir_text g A x Wg HAx DAg) by (intros; congruence).
          assert (LEAF : forall r, r <> [] -> at_place f (A ++ x :: r) = None) by (intros r Nr; rewrite apply_cons; eapply not_dir_leaf; [exact W|exact Ex|discriminate|exact Nr]).
          destruct (copy_entry g A x B d Wg NA NB HAx HB DAg DB Exg) as (g1 & b0 & C0 & W0 & Fr0 & T0 & Al0); [pose proof (Eq x [] (or_introl eq_refl)) as E2; rewrite E2; exact Fx|apply apart; assumption|].
          exists g1, b0. split; [exact C0|]. split; [exact W0|]. split; [intros y Ny; apply Fr0; intros ->; apply Ny, below_refl|]. split; [|split; [|exact Al0]].
          + intros r N. destruct r as [|u r]; [congruence|]. rewrite Fr0; [apply Eq; left; reflexivity|]. intros E. apply (f_equal (@List.length _)) in E. rewrite !app_length in E. cbn [length] in E. lia.
          + intros Tb r v E. destruct r as [|u r]; [rewrite Ex in E; injection E as <-; exact (T0 Tb)|]. rewrite LEAF in E by discriminate. discriminate. }
      destruct ONE as (g1 & b0 & C0 & W0 & Fr0 & K0 & T0 & Al0). match goal with |- exists g' b, match ?t with _ => _ end = _ /\ _ => assert (t = Some (g1, b0)) as -> by exact C0 end.
      assert (SELF : forall x', In x' (x :: rest) -> ~ below (B ++ [x']) B) by (intros x' _ (t & E); apply (f_equal (@List.length _)) in E; rewrite !app_length in E; cbn [length] in E; lia).
      destruct b0.
      + destruct (IHl g1 NDr (fun y I => Sub y (or_intror I)) W0) as (g' & b & C1 & W1' & Fr1 & K1 & T1 & Al1').
        * rewrite Fr0; [exact DB|apply (SELF x); left; reflexivity].
        * intros y Ny. rewrite Fr0; [apply Fr, Ny|]. intros Bl. apply Ny. eapply below_app. exact Bl.
        * intros x' r I. rewrite Fr0; [apply Eq; right; exact I|]. intros Bl. apply Nx. assert (x = x') as ->; [|exact I]. apply (below_cons_inv B x x' (B ++ x' :: r) Bl). exists r. rewrite <- app_assoc. reflexivity.
        * assert (OTHER : forall r x', In x' rest -> ~ below (B ++ [x']) (B ++ x :: r)). { intros r x' I Bl. apply Nx. assert (x' = x) as <-; [|exact I]. apply (below_cons_inv B x' x (B ++ x :: r) Bl). exists r. rewrite <- app_assoc. reflexivity. }
          exists g', b. split; [exact C1|]. split; [exact W1'|]. split; [intros y Hy; rewrite Fr1 by (intros x' I; apply Hy; right; exact I); apply Fr0, Hy; left; reflexivity|]. split; [|split; [|exact Al1']].
          -- intros x' r [<-|I] N; [rewrite Fr1 by apply OTHER; apply K0, N|apply K1; assumption].
          -- intros Tb x' r v [<-|I] E; [rewrite Fr1 by apply OTHER; apply T0; [reflexivity|exact E]|apply T1; assumption].
      + exists g1, false. split; [reflexivity|]. split; [exact W0|]. split; [intros y Hy; apply Fr0, Hy; left; reflexivity|]. split; [|split; [discriminate|intros Al; discriminate (Al0 Al)]].
        intros x' r [<-|I] N; [apply K0, N|]. rewrite Fr0; [apply Eq; right; exact I|]. intros Bl. apply Nx. assert (x = x') as ->; [|exact I]. apply (below_cons_inv B x x' (B ++ x' :: r) Bl). exists r. rewrite <- app_assoc. reflexivity. }
  assert (DOTS : entries f1 ([L "."; L ".."] ++ names_in f A) = entries f1 (names_in f A)) by reflexivity. rewrite DOTS.
  destruct (LOOP (names_in f A) f1) as (g' & b & C1 & Wg & Fr1 & K1 & T1 & Al1'); [apply names_nodup, (wf_nodup f W)|auto|exact W1|exact D1|reflexivity|intros x r _; apply PB|].
  exists g', b. split; [exact C1|]. split; [exact Wg|]. split; [|split; [|split; [|exact Al1']]].
  - intros y Ny. rewrite Fr1; [apply P1|]. intros x _ Bl. apply Ny. eapply below_app. exact Bl.
  - intros [|x r] N; [rewrite app_nil_r in N; congruence|]. destruct (in_dec str_dec x (names_in f A)) as [I|I]; [apply K1; assumption|]. rewrite Fr1; [apply PB|]. intros x' I' Bl. apply I. assert (x' = x) as <-; [|exact I']. apply (below_cons_inv B x' x (B ++ x :: r) Bl). exists r. rewrite <- app_assoc. reflexivity.
  - intros Tb [|x r] v E.
    + rewrite app_nil_r in E |- *. rewrite Fr1; [congruence|]. intros x' _ (t & E'). apply (f_equal (@List.length _)) in E'. rewrite !app_length in E'. cbn [length] in E'. lia.
    + apply T1; [exact Tb| |exact E]. apply (names_in_look f A x W). destruct r as [|u r]; [congruence|]. rewrite apply_cons in E. assert (Q : at_place f (A ++ [x]) = Some KDir) by (refine (deep_parent f (A ++ [x]) W (u :: r) _ _); [congruence|discriminate]). congruence.
Qed.
End Entries.
