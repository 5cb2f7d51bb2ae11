(** TokenProps.v -- C105: the token expander object. *)
From Coq Require Import List Bool Arith Ascii Lia.
Import ListNotations.
From Verif Require Import Base ExpandModel ExpandSpec ExpandProofs RegexModel RegexProps TokenModel.

(** ---- specification: what a history of calls means ---- *)
(** The objects made so far, in order. *)
Fixpoint made (ops : list top) : list (str * kind) :=
  match ops with [] => [] | TNew n k :: r => (match k with KSym _ => n | KEnv => L "ENV" | KSysenv => L "SYSENV" | KConfig _ => L "CONFIG" end, k) :: made r | _ :: r => made r end.
Definition name_is (ops : list top) (id : nat) (n : str) : Prop := exists k, nth_error (made ops) id = Some (n, k).
(** [id] is the object most recently added under the type name [t]. *)
Definition current (ops : list top) (t : str) (id : nat) : Prop :=
  name_is ops id t /\ exists a b, ops = a ++ TAdd id :: b /\ forall id', In (TAdd id') b -> ~ name_is ops id' t.
(** The symbol [key] of table [id] has the value [v] / has none. *)
Definition symbol (ops : list top) (id : nat) (key v : str) : Prop :=
  exists a b, ops = a ++ TEntry id key v :: b /\ (forall v', ~ In (TEntry id key v') b) /\ ~ In (TRem id key) b.
(** An object may be added once; a symbol table may be changed until another
    type of its name has taken its place. *)
Inductive used_well : list top -> Prop :=
| uw_nil : used_well []
| uw_new ops n k : used_well ops -> used_well (ops ++ [TNew n k])
| uw_add ops id : used_well ops -> id < length (made ops) -> ~ In (TAdd id) ops -> used_well (ops ++ [TAdd id])
| uw_entry ops id n t key v : used_well ops -> nth_error (made ops) id = Some (n, KSym t) -> (In (TAdd id) ops -> current ops n id) -> used_well (ops ++ [TEntry id key v])
| uw_rem ops id n t key : used_well ops -> nth_error (made ops) id = Some (n, KSym t) -> (In (TAdd id) ops -> current ops n id) -> used_well (ops ++ [TRem id key]).
(** What the environment of the system is asked for. *)
Definition system_names : list str := map L ["cwd"; "numproc"; "totalvirtualmemory"; "availablevirtualmemory"; "totalphysicalmemory"; "availablephysicalmemory"; "hostname"; "domainname"; "osname"; "osdescription"; "osplatform"; "osversion"; "is64bits"; "iswindows"; "islinux"; "isapple"]%string.
(** What object [id] answers for [name]. *)
Definition answers (w : outside) (ops : list top) (id : nat) (name a : str) : Prop :=
  match nth_error (made ops) id with
  | Some (_, KSym _) => symbol ops id name a \/ ((forall v, ~ symbol ops id name v) /\ a = [])
  | Some (_, KEnv) => a = match o_env w name with Some v => v | None => [] end
  | Some (_, KSysenv) => (In name system_names /\ a = o_sys w name) \/ (~ In name system_names /\ a = [])
  | Some (_, KConfig b) => a = match o_cfg w b name with Some v => v | None => [] end
  | None => False
  end.

(** ---- proofs ---- *)
Lemma made_app a b : made (a ++ b) = made a ++ made b.
Proof. induction a as [|o a IH]; [reflexivity|]. destruct o; cbn; rewrite ?IH; reflexivity. Qed.
Lemma snoc_split (ops : list top) o a x b : ops ++ [o] = a ++ x :: b -> (b = [] /\ a = ops /\ x = o) \/ exists b', b = b' ++ [o] /\ ops = a ++ x :: b'.
Proof.
  intro E. destruct b as [|y b0] using rev_ind; [|clear IHb0].
  - left. apply app_inj_tail in E. destruct E as [-> ->]. auto.
  - right. change (a ++ x :: b0 ++ [y]) with (a ++ (x :: b0) ++ [y]) in E. rewrite app_assoc in E. apply app_inj_tail in E. destruct E as [-> ->]. eauto.
Qed.
Definition adds_ok (ops : list top) : Prop := forall id, In (TAdd id) ops -> id < length (made ops).
Lemma name_is_lt ops id n : name_is ops id n -> id < length (made ops).
Proof. intros (k & E). eapply nth_error_lt; exact E. Qed.
Lemma name_is_app ops o id n : id < length (made ops) -> (name_is (ops ++ o) id n <-> name_is ops id n).
Proof. intro H. unfold name_is. rewrite made_app, nth_error_app1 by exact H. tauto. Qed.
Lemma name_is_fun ops id n n' : name_is ops id n -> name_is ops id n' -> n = n'.
Proof. intros (k & E) (k' & E'). congruence. Qed.
Lemma current_other ops o t id : adds_ok ops -> (forall i, o <> TAdd i) -> (current (ops ++ [o]) t id <-> current ops t id).
Proof.
  intros AO NA. split.
  - intros (N & a & b & E & F). destruct (snoc_split _ _ _ _ _ E) as [(_ & _ & X)|(b' & -> & ->)]; [elim (NA id); auto|].
    assert (LT : forall i, In (TAdd i) (a ++ TAdd id :: b') -> i < length (made (a ++ TAdd id :: b'))) by exact AO.
    split; [rewrite name_is_app in N; [exact N|apply LT; apply in_or_app; right; now left]|]. exists a, b'. split; [reflexivity|]. intros i I. specialize (F i). rewrite name_is_app in F by (apply LT; apply in_or_app; right; now right). apply F. apply in_or_app. auto.
  - intros (N & a & b & -> & F). split; [rewrite name_is_app; [exact N|eapply name_is_lt; exact N]|]. exists a, (b ++ [o]). split; [rewrite <- app_assoc; reflexivity|]. intros i I. apply in_app_or in I. destruct I as [I|[I|[]]]; [|elim (NA i); exact I].
    rewrite name_is_app by (apply AO; apply in_or_app; right; now right). apply F. exact I.
Qed.
Lemma current_add ops x n t id : adds_ok ops -> name_is ops x n -> (current (ops ++ [TAdd x]) t id <-> if str_eqb n t then id = x else current ops t id).
Proof.
  intros AO NX. assert (NM : forall i m, name_is (ops ++ [TAdd x]) i m <-> name_is ops i m) by (intros; unfold name_is; rewrite made_app; cbn [made]; rewrite app_nil_r; tauto).
  unfold current. setoid_rewrite NM. split.
  - intros (N & a & b & E & F). destruct (snoc_split _ _ _ _ _ E) as [(-> & -> & X)|(b' & -> & ->)].
    + injection X as ->. rewrite (name_is_fun _ _ _ _ NX N), str_eqb_refl. reflexivity.
    + destruct (str_eqb_spec n t) as [->|NE].
      * elim (F x); [apply in_or_app; right; now left|exact NX].
      * split; [exact N|]. exists a, b'. split; [reflexivity|]. intros i I. apply F. apply in_or_app. auto.
  - destruct (str_eqb_spec n t) as [->|NE].
    + intros ->. split; [exact NX|]. exists ops, []. split; [reflexivity|]. intros ? [].
    + intros (N & a & b & -> & F). split; [exact N|]. exists a, (b ++ [TAdd x]). split; [rewrite <- app_assoc; reflexivity|]. intros i I. apply in_app_or in I. destruct I as [I|[I|[]]]; [auto|]. injection I as <-. intro Q. apply NE. eapply name_is_fun; eauto.
Qed.
Lemma symbol_other ops o id key v : (forall v', o <> TEntry id key v') -> o <> TRem id key -> (symbol (ops ++ [o]) id key v <-> symbol ops id key v).
Proof.
  intros N1 N2. split.
  - intros (a & b & E & F & G). destruct (snoc_split _ _ _ _ _ E) as [(_ & _ & X)|(b' & -> & ->)]; [elim (N1 v); auto|]. exists a, b'. split; [reflexivity|]. split; [intros v' I; apply (F v'); apply in_or_app; auto|intro I; apply G; apply in_or_app; auto].
  - intros (a & b & -> & F & G). exists a, (b ++ [o]). split; [rewrite <- app_assoc; reflexivity|]. split; [intros v' I|intro I]; apply in_app_or in I; destruct I as [I|[I|[]]]; [exact (F v' I)|exact (N1 v' I)|exact (G I)|exact (N2 I)].
Qed.
Lemma symbol_entry ops id key v v' : symbol (ops ++ [TEntry id key v]) id key v' <-> v' = v.
Proof.
  split.
  - intros (a & b & E & F & G). destruct (snoc_split _ _ _ _ _ E) as [(_ & _ & X)|(b' & -> & ->)]; [congruence|]. elim (F v). apply in_or_app. right. now left.
  - intros ->. exists ops, []. split; [reflexivity|]. split; [intros ? []|intros []].
Qed.
Lemma symbol_rem ops id key v : ~ symbol (ops ++ [TRem id key]) id key v.
Proof.
  intros (a & b & E & F & G). destruct (snoc_split _ _ _ _ _ E) as [(_ & _ & X)|(b' & -> & ->)]; [congruence|]. elim G. apply in_or_app. right. now left.
Qed.
Definition kind_ok (ops : list top) (id : nat) (k k' : kind) : Prop :=
  match k with
  | KSym _ => exists t, k' = KSym t /\ ssorted t /\ forall key v, sfind key t = Some v <-> symbol ops id key v
  | _ => k' = k
  end.
Record tinv (ops : list top) (s : tstate) : Prop := {
  ti_adds : adds_ok ops;
  ti_syms : forall id key v, In (TEntry id key v) ops -> id < length (made ops);
  ti_len : length (t_heap s) = length (made ops);
  ti_obj : forall id n k, nth_error (made ops) id = Some (n, k) -> (In (TAdd id) ops -> current ops n id) -> exists k', tobj_at s id = Some (mkT n k') /\ kind_ok ops id k k';
  ti_types : forall t id, sfind t (t_types s) = Some id <-> current ops t id }.
Lemma tobj_upd s ty id x i : id < length (t_heap s) -> tobj_at (mkTS (lupd (t_heap s) id x) ty) i = if i =? id then x else tobj_at s i.
Proof.
  intro H. unfold tobj_at. cbn [t_heap]. destruct (Nat.eqb_spec i id) as [->|N].
  - apply nth_error_nth. apply nth_lupd_eq. exact H.
  - destruct (le_lt_dec (length (t_heap s)) i) as [G|G]; [rewrite !nth_overflow by (rewrite ?lupd_length; exact G); reflexivity|].
    erewrite (nth_error_nth (lupd _ _ _)); [reflexivity|]. rewrite nth_lupd_ne by congruence. rewrite (nth_error_nth' _ None G). reflexivity.
Qed.
Lemma kind_ok_ext ops o id k k' : (forall key v, o <> TEntry id key v) -> (forall key, o <> TRem id key) -> kind_ok ops id k k' -> kind_ok (ops ++ [o]) id k k'.
Proof.
  intros N1 N2. destruct k; cbn [kind_ok]; auto. intros (t & -> & SO & SY). exists t. split; [reflexivity|]. split; [exact SO|]. intros key v. rewrite symbol_other by auto. apply SY.
Qed.
Lemma run_snoc ops o : trun (ops ++ [o]) = match trun ops with Some s => tstep s o | None => None end.
Proof. unfold trun. rewrite fold_left_app. reflexivity. Qed.
Lemma made_snoc_len ops o : length (made ops) <= length (made (ops ++ [o])).
Proof. rewrite made_app, app_length. lia. Qed.
Lemma obj_len ops s id ob : tinv ops s -> tobj_at s id = Some ob -> id < length (t_heap s).
Proof. intros V H. destruct (le_lt_dec (length (t_heap s)) id) as [G|G]; [|exact G]. unfold tobj_at in H. rewrite nth_overflow in H by exact G. discriminate. Qed.
Lemma made_noNew ops o : (forall n k, o <> TNew n k) -> made (ops ++ [o]) = made ops.
Proof. intro H. rewrite made_app. destruct o; try (cbn [made]; apply app_nil_r). elim (H name k eq_refl). Qed.
Lemma used_well_inv ops : used_well ops -> exists s, trun ops = Some s /\ tinv ops s.
Proof.
  induction 1 as [|ops n k U (s & E & V)|ops id U (s & E & V) LT NI|ops id n t key v U (s & E & V) MK AL|ops id n t key U (s & E & V) MK AL].
  - exists tstate0. split; [reflexivity|]. constructor.
    + intros id [].
    + intros id key v [].
    + reflexivity.
    + intros id n k H. destruct id; discriminate.
    + intros t id. split; [discriminate|]. intros (_ & a & b & Q & _). destruct a; discriminate.
  - rewrite run_snoc, E. cbn [tstep]. eexists. split; [reflexivity|]. pose proof (ti_adds ops s V) as AO. constructor.
    + intros id I. rewrite made_app, app_length. apply in_app_or in I. destruct I as [I|[I|[]]]; [apply AO in I; lia|discriminate].
    + intros id key v I. rewrite made_app, app_length. apply in_app_or in I. destruct I as [I|[I|[]]]; [apply (ti_syms ops s V) in I; lia|discriminate].
    + cbn [t_heap]. rewrite made_app, !app_length, (ti_len ops s V). reflexivity.
    + intros id n' k' MK AL. rewrite made_app in MK. destruct (lt_dec id (length (made ops))) as [LT|GE].
      * rewrite nth_error_app1 in MK by exact LT. destruct (ti_obj ops s V id n' k' MK) as (k2 & OB & KO).
        { intro I. apply current_other in AL; [exact AL|exact AO|discriminate|apply in_or_app; auto]. }
        exists k2. split; [|apply kind_ok_ext; [discriminate|discriminate|exact KO]]. unfold tobj_at in *. cbn [t_heap]. rewrite app_nth1 by (rewrite (ti_len ops s V); exact LT). exact OB.
      * rewrite nth_error_app2 in MK by lia. cbn [made] in MK. destruct (id - length (made ops)) as [|d] eqn:D; [|destruct d; discriminate]. injection MK as <- <-. assert (id = length (made ops)) by lia. subst id.
        unfold tobj_at. cbn [t_heap]. rewrite app_nth2, (ti_len ops s V), Nat.sub_diag by (rewrite (ti_len ops s V); lia). exists (new_kind k). split; [destruct k; reflexivity|]. destruct k; cbn [kind_ok new_kind]; auto. exists []. split; [reflexivity|]. split; [exact I|]. intros key v. split; [discriminate|].
        intro SY. apply symbol_other in SY; [|discriminate|discriminate]. exfalso. destruct SY as (a & b & Q & _).
        assert (IN : In (TEntry (length (made ops)) key v) ops) by (rewrite Q at 2; apply in_or_app; right; now left). apply (ti_syms ops s V) in IN. lia.
    + intros t id. cbn [t_types]. rewrite current_other by (auto; discriminate). apply (ti_types ops s V).
  - pose proof (ti_adds ops s V) as AO. destruct (nth_error (made ops) id) as [[n k]|] eqn:MK; [|apply nth_error_None in MK; lia].
    assert (NX : name_is ops id n) by (exists k; exact MK).
    destruct (ti_obj ops s V id n k MK) as (k' & OB & KO); [intro I; contradiction|].
    assert (AO' : adds_ok (ops ++ [TAdd id])).
    { intros i I. rewrite made_noNew by discriminate. apply in_app_or in I. destruct I as [I|[I|[]]]; [exact (AO i I)|]. injection I as <-. exact LT. }
    assert (SY' : forall i key v, In (TEntry i key v) (ops ++ [TAdd id]) -> i < length (made (ops ++ [TAdd id]))).
    { intros i key v I. rewrite made_noNew by discriminate. apply in_app_or in I. destruct I as [I|[I|[]]]; [exact (ti_syms ops s V i key v I)|discriminate]. }
    assert (ALIVE : forall i m q, nth_error (made ops) i = Some (m, q) -> (In (TAdd i) (ops ++ [TAdd id]) -> current (ops ++ [TAdd id]) m i) ->
              (exists q', tobj_at s i = Some (mkT m q') /\ kind_ok ops i q q') /\ (m = n -> i = id \/ ~ In (TAdd i) ops)).
    { intros i m q MI CI. destruct (Nat.eq_dec i id) as [->|NE].
      - split; [|auto]. rewrite MK in MI. injection MI as <- <-. eauto.
      - assert (CI' : In (TAdd i) ops -> n <> m /\ current ops m i).
        { intro I. specialize (CI (in_or_app _ _ _ (or_introl I))). apply (current_add ops id n m i AO NX) in CI. destruct (str_eqb_spec n m) as [->|D]; [contradiction|]. auto. }
        split; [apply (ti_obj ops s V i m q MI); intro I; exact (proj2 (CI' I))|]. intros ->. right. intro I. elim (proj1 (CI' I)). reflexivity. }
    assert (TY : forall t i, sfind t (sset n id (t_types s)) = Some i <-> current (ops ++ [TAdd id]) t i).
    { intros t i. rewrite (current_add ops id n t i AO NX). destruct (str_eqb_spec n t) as [->|D].
      - rewrite sfind_set_eq. split; congruence.
      - rewrite sfind_set_ne by congruence. apply (ti_types ops s V). }
    rewrite run_snoc, E. cbn [tstep]. rewrite OB. cbn [t_name]. destruct (sfind n (t_types s)) as [old|] eqn:F.
    + pose proof (proj1 (ti_types ops s V n old) F) as CO. destruct CO as (NO & a & b & EQ & FO). assert (IO : In (TAdd old) ops) by (rewrite EQ; apply in_or_app; right; now left).
      destruct NO as (ko & MO). destruct (ti_obj ops s V old n ko MO) as (ko' & OO & _); [intros _; apply (ti_types ops s V); exact F|]. rewrite OO.
      eexists. split; [reflexivity|]. constructor.
      * exact AO'.
      * exact SY'.
      * cbn [t_heap]. rewrite lupd_length, made_noNew by discriminate. apply (ti_len ops s V).
      * intros i m q MI CI. rewrite made_noNew in MI by discriminate. destruct (ALIVE i m q MI CI) as ((q' & OI & KI) & NI').
        rewrite tobj_upd by (eapply obj_len; eauto). destruct (Nat.eqb_spec i old) as [->|D].
        { exfalso. rewrite MO in MI. injection MI as <- <-. destruct (NI' eq_refl) as [-> |Z]; contradiction. }
        exists q'. split; [exact OI|]. apply kind_ok_ext; [discriminate|discriminate|exact KI].
      * exact TY.
    + eexists. split; [reflexivity|]. constructor.
      * exact AO'.
      * exact SY'.
      * cbn [t_heap]. rewrite made_noNew by discriminate. apply (ti_len ops s V).
      * intros i m q MI CI. rewrite made_noNew in MI by discriminate. destruct (ALIVE i m q MI CI) as ((q' & OI & KI) & _).
        exists q'. split; [exact OI|]. apply kind_ok_ext; [discriminate|discriminate|exact KI].
      * exact TY.
  - pose proof (ti_adds ops s V) as AO. destruct (ti_obj ops s V id n (KSym t) MK AL) as (k' & OB & (tb & -> & SO & SF)). assert (LT : id < length (made ops)) by (eapply nth_error_lt; exact MK).
    rewrite run_snoc, E. cbn [tstep]. rewrite OB. eexists. split; [reflexivity|]. constructor.
    + intros i I. rewrite made_noNew by discriminate. apply in_app_or in I. destruct I as [I|[I|[]]]; [exact (AO i I)|discriminate].
    + intros i key' v' I. rewrite made_noNew by discriminate. apply in_app_or in I. destruct I as [I|[I|[]]]; [exact (ti_syms ops s V i key' v' I)|]. injection I as <- _ _. exact LT.
    + cbn [t_heap]. rewrite lupd_length, made_noNew by discriminate. apply (ti_len ops s V).
    + intros i m q MI CI. rewrite made_noNew in MI by discriminate. destruct (ti_obj ops s V i m q MI) as (q' & OI & KI).
      { intro I. apply (current_other ops (TEntry id key v) m i AO ltac:(discriminate)). apply CI, in_or_app. auto. }
      rewrite tobj_upd by (eapply obj_len; eauto). destruct (Nat.eqb_spec i id) as [->|D].
      * rewrite MK in MI. injection MI as <- <-. eexists. split; [reflexivity|]. eexists. split; [reflexivity|]. split; [apply sset_sorted; exact SO|].
        intros key' v'. destruct (str_dec key key') as [<-|NE]; [rewrite sfind_set_eq, symbol_entry; split; congruence|]. rewrite sfind_set_ne by congruence. rewrite symbol_other by congruence. apply SF.
      * exists q'. split; [exact OI|]. apply kind_ok_ext; [congruence|discriminate|exact KI].
    + intros t' i. cbn [t_types]. rewrite current_other by (auto; discriminate). apply (ti_types ops s V).
  - pose proof (ti_adds ops s V) as AO. destruct (ti_obj ops s V id n (KSym t) MK AL) as (k' & OB & (tb & -> & SO & SF)).
    rewrite run_snoc, E. cbn [tstep]. rewrite OB. eexists. split; [reflexivity|]. constructor.
    + intros i I. rewrite made_noNew by discriminate. apply in_app_or in I. destruct I as [I|[I|[]]]; [exact (AO i I)|discriminate].
    + intros i key' v' I. rewrite made_noNew by discriminate. apply in_app_or in I. destruct I as [I|[I|[]]]; [exact (ti_syms ops s V i key' v' I)|discriminate].
    + cbn [t_heap]. rewrite lupd_length, made_noNew by discriminate. apply (ti_len ops s V).
    + intros i m q MI CI. rewrite made_noNew in MI by discriminate. destruct (ti_obj ops s V i m q MI) as (q' & OI & KI).
      { intro I. apply (current_other ops (TRem id key) m i AO ltac:(discriminate)). apply CI, in_or_app. auto. }
      rewrite tobj_upd by (eapply obj_len; eauto). destruct (Nat.eqb_spec i id) as [->|D].
      * rewrite MK in MI. injection MI as <- <-. eexists. split; [reflexivity|]. eexists. split; [reflexivity|]. split; [apply serase_sorted; exact SO|].
        intros key' v'. destruct (str_dec key key') as [<-|NE]; [rewrite sfind_erase_eq by exact SO; split; [discriminate|intro Q; elim (symbol_rem _ _ _ _ Q)]|]. rewrite sfind_erase_ne by congruence. rewrite symbol_other by congruence. apply SF.
      * exists q'. split; [exact OI|]. apply kind_ok_ext; [discriminate|congruence|exact KI].
    + intros t' i. cbn [t_types]. rewrite current_other by (auto; discriminate). apply (ti_types ops s V).
Qed.

(** The function the expander uses. *)
Definition known_of (s : tstate) (w : outside) (t : str) : option (str -> str) :=
  match sfind t (t_types s) with
  | Some id => match tobj_at s id with Some ob => Some (fun nm => snd (lookup_entry w ob nm [])) | None => None end
  | None => None
  end.
Lemma c_str_split text : exists tl, text = c_str text ++ tl /\ (tl = [] \/ exists r, tl = NUL :: r).
Proof.
  unfold c_str. induction text as [|c r (tl & E & T)]; [exists []; auto|]. cbn [take_while]. destruct (Ascii.eqb_spec c NUL) as [->|N]; cbn [negb].
  - exists (NUL :: r). split; [reflexivity|eauto].
  - exists tl. split; [cbn; congruence|exact T].
Qed.
Lemma c_str_app a tl : ~ In NUL a -> (tl = [] \/ exists r, tl = NUL :: r) -> c_str (a ++ tl) = a.
Proof.
  intros N T. unfold c_str. induction a as [|c a IH].
  - destruct T as [->|(r & ->)]; [reflexivity|]. cbn [app take_while]. rewrite Ascii.eqb_refl. reflexivity.
  - cbn [app take_while]. destruct (Ascii.eqb_spec c NUL) as [->|D]; [elim N; now left|]. cbn [negb]. f_equal. apply IH. intro I. apply N. now right.
Qed.
Lemma c_str_nonul s : ~ In NUL (c_str s).
Proof.
  unfold c_str. induction s as [|c r IH]; [intros []|]. cbn [take_while]. destruct (Ascii.eqb_spec c NUL) as [->|D]; cbn [negb]; [intros []|]. intros [Q|I]; [congruence|auto].
Qed.
Lemma expand_obj_spec s w tl : (tl = [] \/ exists r, tl = NUL :: r) -> (forall t id, sfind t (t_types s) = Some id -> tobj_at s id <> None) ->
  forall n a, ~ In NUL a -> expand_obj n s w (a ++ tl) = option_map (fun o => o ++ tl) (expand_f n (known_of s w) a).
Proof.
  intros T AL. induction n as [|n IH]; intros a N; [reflexivity|]. cbn [expand_obj expand_f]. rewrite c_str_app by assumption.
  destruct (find_match a) as [[[[pre t] nm] rest]|] eqn:F; [|reflexivity].
  pose proof (find_match_some _ _ _ _ _ F) as (E & _ & _). unfold match_text in *.
  set (m := L "$" ++ t ++ L "{" ++ nm ++ L "}") in *. clearbody m.
  assert (NR : ~ In NUL rest) by (intro I; apply N; rewrite E; apply in_or_app; right; apply in_or_app; right; exact I).
  replace (skipn (length pre + length m) (a ++ tl)) with (rest ++ tl).
  2: { rewrite E, <- app_length, <- !app_assoc, (app_assoc pre m), skipn_app, Nat.sub_diag, skipn_all. reflexivity. }
  rewrite (IH rest NR). assert (KT : known_of s w t = match sfind t (t_types s) with Some id => match tobj_at s id with Some ob => Some (fun nm => snd (lookup_entry w ob nm [])) | None => None end | None => None end) by reflexivity. rewrite KT. clear KT. destruct (sfind t (t_types s)) as [id|] eqn:FT.
  - pose proof (AL t id FT) as A. destruct (tobj_at s id) as [ob|]; [|contradiction]. destruct (expand_f n (known_of s w) rest); [|reflexivity]. cbn [option_map]. f_equal. rewrite <- ?app_assoc. reflexivity.
  - destruct (expand_f n (known_of s w) rest); [|reflexivity]. cbn [option_map]. f_equal. rewrite <- ?app_assoc. reflexivity.
Qed.

(** C105.  For every history of well used calls, every text and whatever the
    environment, the system and the configuration blocks answer at the time:
    nothing undefined happens, and the result is the single left to right pass
    over the part of the text before its first NUL, in which each reference
    $T{n} to a type that was added is replaced by what the object most recently
    added under that name answers now -- nothing, if it has no such entry --
    references to other types are kept, and so is what follows the NUL. *)
Theorem C105_expander (ops : list top) : used_well ops ->
  exists s, trun ops = Some s /\
  forall (w : outside) (text : str), exists known out rest,
    (forall t, known t = None <-> forall id, ~ current ops t id) /\
    (forall t f, known t = Some f -> exists id, current ops t id /\ forall n, ~ In NUL n -> answers w ops id n (f n)) /\
    text = c_str text ++ rest /\ ~ In NUL (c_str text) /\ (rest = [] \/ exists r, rest = NUL :: r) /\
    expands known (c_str text) out /\ expand_token s w text = Some (out ++ rest).
Proof.
  intro U. destruct (used_well_inv ops U) as (s & E & V). exists s. split; [exact E|]. intros w text.
  assert (AL : forall t id, sfind t (t_types s) = Some id -> exists k k', nth_error (made ops) id = Some (t, k) /\ tobj_at s id = Some (mkT t k') /\ kind_ok ops id k k').
  { intros t id F. apply (ti_types ops s V) in F. pose proof F as ((k & MK) & _). destruct (ti_obj ops s V id t k MK (fun _ => F)) as (k' & OB & KO). eauto. }
  destruct (c_str_split text) as (tl & ET & TT).
  destruct (expand_f_sound (known_of s w) (S (length text)) (c_str text)) as (o & EF & HX). { rewrite ET at 2. rewrite app_length. lia. }
  exists (known_of s w), o, tl. split; [|split; [|split; [|split; [|split; [|split]]]]].
  - intro t. unfold known_of. split.
    + intros K id C. apply (ti_types ops s V) in C. rewrite C in K. destruct (AL t id C) as (k & k' & _ & OB & _). rewrite OB in K. discriminate.
    + intro NC. destruct (sfind t (t_types s)) as [id|] eqn:F; [|reflexivity]. apply (ti_types ops s V) in F. elim (NC id F).
  - intros t f K. unfold known_of in K. destruct (sfind t (t_types s)) as [id|] eqn:F; [|discriminate]. destruct (AL t id F) as (k & k' & MK & OB & KO). rewrite OB in K. injection K as <-.
    exists id. split; [apply (ti_types ops s V); exact F|]. intros n NN. unfold answers. rewrite MK. unfold lookup_entry. cbn [t_kind]. destruct k as [tb0| | |b]; cbn [kind_ok] in KO.
    + destruct KO as (tb & -> & _ & SF). destruct (sfind n tb) as [v|] eqn:FN; cbn [snd].
      * left. apply SF. exact FN.
      * right. split; [|reflexivity]. intros v Q. apply SF in Q. congruence.
    + subst k'. rewrite c_str_id by exact NN. destruct (o_env w n); reflexivity.
    + subst k'. destruct (existsb (str_eqb n) sysenv_names) eqn:X; cbn [snd].
      * left. split; [|reflexivity]. apply existsb_exists in X as (y & I & Q). apply str_eqb_eq in Q. subst y. exact I.
      * right. split; [|reflexivity]. intro I. assert (existsb (str_eqb n) sysenv_names = true) by (apply existsb_exists; exists n; split; [exact I|apply str_eqb_refl]). congruence.
    + subst k'. destruct (o_cfg w b n); reflexivity.
  - exact ET.
  - apply c_str_nonul.
  - exact TT.
  - exact HX.
  - unfold expand_token. rewrite ET at 2. rewrite (expand_obj_spec s w tl TT).
    + rewrite EF. reflexivity.
    + intros t id F. destruct (AL t id F) as (k & k' & _ & OB & _). congruence.
    + apply c_str_nonul.
Qed.
Print Assumptions C105_expander.

(** The rule "an object may be added once" is needed: adding one twice deletes
    it while it is registered, and the next reference to it uses it. *)
Theorem C105_add_twice_refuted (name key v : str) (w : outside) :
  exists s, trun [TNew name (KSym []); TAdd 0; TEntry 0 key v; TAdd 0] = Some s /\
  (exists id, sfind name (t_types s) = Some id /\ tobj_at s id = None) /\
  (forall n, is_ref name n (match_text name n) -> expand_token s w (match_text name n) = None) /\
  (forall o, In o [TAdd 0; TEntry 0 key v; TRem 0 key] -> tstep s o = None).
Proof.
  set (tb := sset key v []). 
  set (h1 := [Some (mkT name (KSym []))]). set (h2 := [Some (mkT name (KSym tb))]).
  assert (S4 : tstep (mkTS h2 (sset name 0 [])) (TAdd 0) = Some (mkTS [None] (sset name 0 (sset name 0 [])))).
  { unfold tstep, tobj_at. cbn [t_heap nth h2 t_name t_types]. rewrite sfind_set_eq. reflexivity. }
  assert (R3 : trun [TNew name (KSym []); TAdd 0; TEntry 0 key v] = Some (mkTS h2 (sset name 0 []))) by reflexivity.
  exists (mkTS [None] (sset name 0 (sset name 0 []))). split; [change [TNew name (KSym []); TAdd 0; TEntry 0 key v; TAdd 0] with ([TNew name (KSym []); TAdd 0; TEntry 0 key v] ++ [TAdd 0]); rewrite run_snoc, R3; exact S4|].
  split; [exists 0; cbn [t_types]; rewrite !sfind_set_eq; split; reflexivity|]. split.
  - intros n R. unfold expand_token. cbn [expand_obj].
    assert (NN : ~ In NUL (match_text name n)).
    { destruct R as (_ & (c & r & -> & A & B) & D). unfold match_text. change (L "$") with ["$"%char]. change (L "{") with ["{"%char]. change (L "}") with ["}"%char]. cbn [app]. intro I.
      destruct I as [I|[I|I]]; [discriminate|subst c; discriminate A|].
      apply in_app_or in I. destruct I as [I|I]; [destruct (B _ I) as [Q|[Q|Q]]; discriminate|].
      destruct I as [I|I]; [discriminate|]. apply in_app_or in I. destruct I as [I|[I|[]]]; [|discriminate].
      destruct (D _ I) as [Q|[Q|[Q|[Q|Q]]]]; discriminate. }
    rewrite c_str_id by exact NN.
    replace (find_match (match_text name n)) with (Some (@nil ascii, name, n, @nil ascii)).
    2: { symmetry. rewrite <- (app_nil_r (match_text name n)). apply (find_match_complete [] name n (match_text name n) []); [exact R|]. intros a b Q NB. symmetry in Q. apply app_eq_nil in Q. destruct Q as (_ & ->). contradiction. }
    cbn [t_types]. rewrite !sfind_set_eq. reflexivity.
  - intros o [<-|[<-|[<-|[]]]]; reflexivity.
Qed.
Print Assumptions C105_add_twice_refuted.

(** When a lookup fails the return code says so; a caller that looks at the text
    instead is right for a symbol table or the environment, but not for the
    others, which leave the text as it was. *)
Theorem C105_failed_lookup (w : outside) (o : tobj) (name res : str) : fst (lookup_entry w o name res) = false ->
  snd (lookup_entry w o name res) = match t_kind o with KSym _ | KEnv => [] | KSysenv | KConfig _ => res end.
Proof.
  unfold lookup_entry. destruct (t_kind o) as [t| | |b].
  - destruct (sfind name t); cbn; congruence.
  - destruct (o_env w (c_str name)); cbn; congruence.
  - destruct (existsb (str_eqb name) sysenv_names); cbn; congruence.
  - destruct (o_cfg w b name); cbn; congruence.
Qed.
Theorem C105_good_lookup (w : outside) (o : tobj) (name res res' : str) :
  (fst (lookup_entry w o name res) = true -> lookup_entry w o name res' = lookup_entry w o name res) /\ fst (lookup_entry w o name res') = fst (lookup_entry w o name res).
Proof.
  unfold lookup_entry. destruct (t_kind o) as [t| | |b].
  - destruct (sfind name t); cbn; split; congruence.
  - destruct (o_env w (c_str name)); cbn; split; congruence.
  - destruct (existsb (str_eqb name) sysenv_names); cbn; split; congruence.
  - destruct (o_cfg w b name); cbn; split; congruence.
Qed.
(** The return code says whether there is an entry: in the table, in the environment (the
    name is cut at its first NUL), among the sixteen names of SYSENV, in the block. *)
Theorem C105_return_code (w : outside) (o : tobj) (name res : str) : fst (lookup_entry w o name res) = true <->
  match t_kind o with
  | KSym t => exists v, sfind name t = Some v
  | KEnv => exists v, o_env w (c_str name) = Some v
  | KSysenv => In name sysenv_names
  | KConfig b => exists v, o_cfg w b name = Some v
  end.
Proof.
  unfold lookup_entry. destruct (t_kind o) as [t| | |b].
  - destruct (sfind name t) as [v|]; cbn; [|split; [discriminate|intros [v V]; discriminate]]. split; [eauto|auto].
  - destruct (o_env w (c_str name)) as [v|]; cbn; [|split; [discriminate|intros [v V]; discriminate]]. split; [eauto|auto].
  - destruct (existsb (str_eqb name) sysenv_names) eqn:E.
    + apply existsb_exists in E. destruct E as (x & I & Q). apply str_eqb_eq in Q. subst x. cbn [fst]. split; auto.
    + cbn [fst]. split; [discriminate|]. intro I. assert (existsb (str_eqb name) sysenv_names = true) by (apply existsb_exists; exists name; split; [exact I|apply str_eqb_refl]). congruence.
  - destruct (o_cfg w b name) as [v|]; cbn; [|split; [discriminate|intros [v V]; discriminate]]. split; [eauto|auto].
Qed.
Print Assumptions C105_return_code.
Print Assumptions C105_failed_lookup.
Print Assumptions C105_good_lookup.

(** A history that meets the hypotheses: a table replaced by another of its
    name, the environment, a block; a text with a NUL. *)
Definition ex_ops : list top :=
  [TNew (L "LOCAL") (KSym []); TNew (L "x") KEnv; TEntry 0 (L "a") (L "old"); TAdd 0; TAdd 1; TNew (L "LOCAL") (KSym []); TNew [] (KConfig 7);
   TEntry 2 (L "a") (L "new"); TEntry 2 (L "b") (L "gone"); TAdd 2; TRem 2 (L "b"); TAdd 3].
Example ex_used_well : used_well ex_ops.
Proof.
  assert (C : current [TNew (L "LOCAL") (KSym []); TNew (L "x") KEnv; TEntry 0 (L "a") (L "old"); TAdd 0; TAdd 1; TNew (L "LOCAL") (KSym []); TNew [] (KConfig 7); TEntry 2 (L "a") (L "new"); TEntry 2 (L "b") (L "gone"); TAdd 2] (L "LOCAL") 2).
  { split; [eexists; reflexivity|]. exists [TNew (L "LOCAL") (KSym []); TNew (L "x") KEnv; TEntry 0 (L "a") (L "old"); TAdd 0; TAdd 1; TNew (L "LOCAL") (KSym []); TNew [] (KConfig 7); TEntry 2 (L "a") (L "new"); TEntry 2 (L "b") (L "gone")], []. split; [reflexivity|]. intros i []. }
  apply (uw_add [_; _; _; _; _; _; _; _; _; _; _] 3); [|cbn; lia|cbn; intuition discriminate].
  eapply (uw_rem [_; _; _; _; _; _; _; _; _; _] 2); [|reflexivity|intros _; exact C].
  apply (uw_add [_; _; _; _; _; _; _; _; _] 2); [|cbn; lia|cbn; intuition discriminate].
  eapply (uw_entry [_; _; _; _; _; _; _; _] 2); [|reflexivity|intro I; cbn in I; intuition discriminate].
  eapply (uw_entry [_; _; _; _; _; _; _] 2); [|reflexivity|intro I; cbn in I; intuition discriminate].
  apply (uw_new [_; _; _; _; _; _]). apply (uw_new [_; _; _; _; _]).
  apply (uw_add [_; _; _; _] 1); [|cbn; lia|cbn; intuition discriminate].
  apply (uw_add [_; _; _] 0); [|cbn; lia|cbn; intuition discriminate].
  eapply (uw_entry [_; _] 0); [|reflexivity|intro I; cbn in I; intuition discriminate].
  apply (uw_new [_]). apply (uw_new []). constructor.
Qed.
Example ex_expanded : exists s, trun ex_ops = Some s /\
  expand_token s (mkOut (fun n => if str_eqb n (L "HOME") then Some (L "/root") else None) (fun _ => []) (fun b n => if str_eqb n (L "k:l") then Some (L "$ENV{HOME}") else None))
    (L "<$LOCAL{a}$LOCAL{b}|$ENV{HOME}$ENV{NO}|$CONFIG{k:l}$CONFIG{m}$NOPE{z}>" ++ [NUL] ++ L "$LOCAL{a}") =
  Some (L "<new|/root|$ENV{HOME}$NOPE{z}>" ++ [NUL] ++ L "$LOCAL{a}").
Proof. eexists. split; reflexivity. Qed.
