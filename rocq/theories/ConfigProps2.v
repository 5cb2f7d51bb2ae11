(** C10 and C12 stated as the exact behaviour of the code. *)
From Verif Require Import Base ConfigModel ConfigSpec ConfigProofs ConfigProofs2 ConfigProofs3 ConfigProofs4 ConfigProps.

Lemma resolves_self h id r p : resolves h id r p -> resolves h r r [].
Proof. induction 1 as [id b H1 H2|]; auto. eapply resolves_root; eauto. Qed.

(** C10, specification.  What a handle with the enclosing views [path]
    (outermost first) lists, given what is stored in its root block: a view
    named n shows "n:k" as k, and a key that starts with "_global:" (and not
    with "n:") as it is. *)
Inductive listed (stored : str -> Prop) : list str -> str -> Prop :=
| listed_root k : stored k -> listed stored [] k
| listed_below p n k : listed stored p (n ++ L ":" ++ k) -> listed stored (p ++ [n]) k
| listed_global p n k : listed stored p k -> is_prefix (L "_global:") k = true -> is_prefix (n ++ L ":") k = false -> listed stored (p ++ [n]) k.
Lemma listed_snoc stored p n k : listed stored (p ++ [n]) k <->
  listed stored p (n ++ L ":" ++ k) \/ (listed stored p k /\ is_prefix (L "_global:") k = true /\ is_prefix (n ++ L ":") k = false).
Proof.
  split.
  - intro H. inversion H as [k' H1 E|p' n' k' H1 E|p' n' k' H1 H2 H3 E]; subst.
    + destruct p; discriminate.
    + apply app_inj_tail in E as [-> ->]. auto.
    + apply app_inj_tail in E as [-> ->]. auto.
  - intros [H|(H1 & H2 & H3)]; [apply listed_below|apply listed_global]; auto.
Qed.
Lemma listed_nil stored k : listed stored [] k <-> stored k.
Proof. split; [intro H; inversion H as [k' H1 E|p' n' k' H1 E|p' n' k' H1 H2 H3 E]; subst; auto; destruct p'; discriminate|apply listed_root]. Qed.

(** C10: exactly what every block and view lists. *)
Theorem C10_view_listing h id r p : reachable h -> resolves h id r p ->
  exists keys, available_values h id = Ok keys /\
    forall k, In k keys <-> listed (fun K => has_value h r K = Ok true) p k.
Proof.
  intros Hre Hres. destruct (reachable_R _ Hre) as [f HR]. rewrite (avail_at h f id r p HR Hres).
  destruct (resolves_flat _ _ _ _ _ HR Hres) as (o & ro & Ho & Er & Ep & Hfr & _). rewrite Hfr.
  assert (Hh : forall k, has_value h r k = Ok true <-> In k (skeys (f_table ro))).
  { intro k. rewrite (has_at h f HR r r [] (resolves_self _ _ _ _ Hres)), sfind_keys, abs_key_nil. unfold fentry. rewrite Hfr. destruct (sfind k (f_table ro)); split; congruence. }
  eexists. split; [reflexivity|]. clear - Hh. induction p as [|n p IH] using rev_ind; intro k.
  - cbn [fold_left]. rewrite listed_nil, Hh. tauto.
  - rewrite fold_left_app. cbn [fold_left]. rewrite in_below, !IH, listed_snoc. reflexivity.
Qed.
Print Assumptions C10_view_listing.

(** C10: for views whose names do not start with "_global" this is: the keys
    stored below the view, which are exactly the readable ones, and the
    "_global:" keys of every enclosing block. *)
Lemma global_other n k : global_key k = true -> global_name n = false -> is_prefix (n ++ L ":") k = false.
Proof.
  intros Hk Hn. destruct (is_prefix (n ++ L ":") k) eqn:E; auto. apply is_prefix_app in E as [s ->].
  rewrite <- app_assoc in Hk. apply global_key_name in Hk. congruence.
Qed.
Theorem C10_view_keys h id r p : reachable h -> resolves h id r p -> (forall n, In n p -> global_name n = false) ->
  exists keys, available_values h id = Ok keys /\
    (forall k, In k keys <-> has_value h id k = Ok true \/
       (global_key k = true /\ exists p1 n p2, p = p1 ++ n :: p2 /\ has_value h r (abs_key p1 k) = Ok true)) /\
    (forall k, In k keys -> global_key k = false -> has_value h id k = Ok true).
Proof.
  intros Hre Hres Hg. destruct (C10_view_listing h id r p Hre Hres) as (keys & E & K). exists keys. split; auto.
  destruct (reachable_R _ Hre) as [f HR].
  assert (Hh : forall k, has_value h id k = Ok true <-> has_value h r (abs_key p k) = Ok true).
  { intro k. rewrite (has_at h f HR id r p Hres), (has_at h f HR r r [] (resolves_self _ _ _ _ Hres)), abs_key_nil. tauto. }
  assert (P : forall k, listed (fun K => has_value h r K = Ok true) p k <-> has_value h r (abs_key p k) = Ok true \/
       (global_key k = true /\ exists p1 n p2, p = p1 ++ n :: p2 /\ has_value h r (abs_key p1 k) = Ok true)).
  { clear K Hh E Hres. induction p as [|n p IH] using rev_ind; intro k.
    - rewrite listed_nil, abs_key_nil. split; auto. intros [H|(_ & p1 & n & p2 & E & _)]; auto. destruct p1; discriminate.
    - assert (Hg' : forall m, In m p -> global_name m = false) by (intros m Hm; apply Hg, in_or_app; auto). assert (Hn : global_name n = false) by (apply Hg, in_or_app; simpl; auto).
      rewrite listed_snoc, !(IH Hg'), abs_key_snoc. split.
      + intros [[H|(Hk & _)]|([H|(Hk & p1 & m & p2 & E & H)] & Hk' & _)]; auto.
        * apply global_key_name in Hk. congruence.
        * right. split; auto. exists p, n, []. auto.
        * right. split; auto. exists p1, m, (p2 ++ [n]). rewrite E, <- app_assoc. auto.
      + intros [H|(Hk & p1 & m & p2 & E & H)]; auto. right. split; [|split; [exact Hk|apply global_other; auto]].
        destruct (rev_case p2) as [->|[c [t ->]]].
        * apply app_inj_tail in E as [-> ->]. auto.
        * rewrite app_comm_cons, app_assoc in E. apply app_inj_tail in E as [-> ->]. right. split; auto. exists p1, m, t. auto. }
  split; [intro k; rewrite K, P, Hh; tauto|]. intros k Hin Hk. apply K, P in Hin. destruct Hin as [H|(H & _)]; [apply Hh; auto|congruence].
Qed.
Print Assumptions C10_view_keys.

(** C10: printing a block or view works exactly when every listed key is
    readable through it; otherwise it throws for the first one that is not. *)
Lemma print_loop_spec h id r p : reachable h -> resolves h id r p -> forall keys,
  ((exists out, print_loop h id keys = Ok out /\ map (fun x => fst (fst (fst x))) out = keys) <-> forall k, In k keys -> has_value h id k = Ok true) /\
  (forall ks k rest, keys = ks ++ k :: rest -> (forall x, In x ks -> has_value h id x = Ok true) -> has_value h id k <> Ok true -> print_loop h id keys = Throw (NoSuchValue k)).
Proof.
  intros Hre Hres. destruct (reachable_R _ Hre) as [f HR]. destruct (resolves_some _ _ _ _ Hres) as [b Hb].
  assert (G : forall k, (has_value h id k = Ok true /\ exists v, get_string h id k = Ok v) \/ (has_value h id k = Ok false /\ get_string h id k = Throw (NoSuchValue k))).
  { intro k. rewrite (has_at h f HR id r p Hres), (get_at h f HR id r p Hres). destruct (fentry f r (abs_key p k)) as [[v d]|]; eauto. }
  assert (E1 : forall k, is_read_only h id k = Ok (is_read_only_b b k)) by (intro; unfold is_read_only; rewrite Hb; auto).
  assert (E2 : forall k, get_location h id k = Ok (sfind k (b_loc b))) by (intro; unfold get_location; rewrite Hb; auto).
  induction keys as [|k keys (IH1 & IH2)].
  - split; [split; [intros _ k []|intros _; exists []; auto]|]. intros ks k rest E. destruct ks; discriminate.
  - cbn [print_loop]. destruct (G k) as [(Hk & v & Gv)|(Hk & Gv)]; rewrite Gv; cbn [rbind].
    + rewrite E1, E2. cbn [rbind]. split.
      * split.
        -- intros (out & E & M) x [<-|Hx]; auto. apply IH1; auto. destruct (print_loop h id keys) as [o| | |]; try discriminate. cbn [rbind] in E. injection E as <-. cbn [map fst] in M. injection M as M. eauto.
        -- intro A. destruct (proj2 IH1) as (o & E & M); [intros; apply A; right; auto|]. rewrite E. cbn [rbind]. eexists. split; [reflexivity|]. cbn [map fst]. rewrite M. reflexivity.
      * intros [|k0 ks] x rest E A N; injection E as -> E; [congruence|]. rewrite (IH2 ks x rest E); auto. intros y Hy. apply A. right. auto.
    + split; [split; [intros (out & E & _); discriminate|intro A; rewrite (A k) in Hk by (left; auto); discriminate]|].
      intros [|k0 ks] x rest E A N; injection E as -> E; auto. rewrite (A k0) in Hk by (left; auto). discriminate.
Qed.
Theorem C10_print h id r p : reachable h -> resolves h id r p -> exists keys, available_values h id = Ok keys /\
  ((exists out, print h id = Ok out /\ map (fun x => fst (fst (fst x))) out = keys) <-> forall k, In k keys -> has_value h id k = Ok true) /\
  (forall ks k rest, keys = ks ++ k :: rest -> (forall x, In x ks -> has_value h id x = Ok true) -> has_value h id k <> Ok true -> print h id = Throw (NoSuchValue k)).
Proof.
  intros Hre Hres. destruct (C10_view_listing h id r p Hre Hres) as (keys & E & _). exists keys. split; auto. unfold print. rewrite E. cbn [rbind]. exact (print_loop_spec h id r p Hre Hres keys).
Qed.
Print Assumptions C10_print.
Example C10_exact_nonvacuous : (forall n, In n [L "aa"; L "bb"] -> global_name n = false) /\ available_values demo 2 = Ok [L "_global:g"; L "key"] /\ has_value demo 0 (L "_global:g") = Ok true.
Proof. split; [intros n [<-|[<-|[]]]; reflexivity|]. split; vm_compute; reflexivity. Qed.

(** C12: whether an entry is protected is decided by the marks made on its root
    block alone, whatever handle is used to change it. *)
Theorem C12_protected h id r p k : reachable h -> resolves h id r p ->
  (forall v d, is_read_only h r (abs_key p k) = Ok true <-> exists cur, i_set_value h id k v d = (h, Throw (SetOnReadOnly (abs_key p k) cur v))) /\
  (is_read_only h r (abs_key p k) = Ok true <-> exists cur, unset_value h id k = (h, Throw (UnsetOnReadOnly (abs_key p k) cur))) /\
  (forall v d, is_read_only h r (abs_key p k) = Ok false <-> snd (i_set_value h id k v d) = Ok tt).
Proof.
  intros Hre Hres. refine (conj _ (conj _ _)).
  - intros v d. destruct (set_outcome h id k v d r p Hre Hres) as [(A & B)|(A & cur & B)]; rewrite A; split; intro H; eauto; try discriminate. destruct H as (cur & H). rewrite H in B. discriminate.
  - destruct (unset_lemma h id r p k Hre Hres) as [(A & B1 & cur & B2)|[(A & B)|(A & B)]]; rewrite A.
    + split; auto. intros _. exists cur. rewrite <- B1 at 2. rewrite <- B2. apply surjective_pairing.
    + split; [discriminate|]. intros (cur & H). rewrite H in B. destruct B as (_ & _ & B). discriminate.
    + split; [discriminate|]. intros (cur & H). rewrite H in B. destruct B as (_ & B & _). discriminate.
  - intros v d. destruct (set_outcome h id k v d r p Hre Hres) as [(A & B)|(A & cur & B)]; rewrite A; split; intro H; auto; try discriminate. rewrite B in H. discriminate.
Qed.
(** C12: a mark is seen through the handle that made it and no other. *)
Theorem C12_mark_local h id k : id < length h ->
  let h1 := fst (mark_read_only h id k) in
  snd (mark_read_only h id k) = Ok tt /\ length h1 = length h /\
  forall j k', is_read_only h1 j k' = if (Nat.eqb j id && str_eqb k' k)%bool then Ok true else is_read_only h j k'.
Proof.
  intros Hid h1. unfold h1, mark_read_only. destruct (nth_error h id) as [b|] eqn:E; [|apply nth_error_None in E; lia].
  cbn [fst snd]. split; auto. split; [apply lupd_length|]. intros j k'. unfold is_read_only, upd. destruct (Nat.eqb_spec j id) as [->|N].
  - rewrite nth_lupd_eq by auto. unfold is_read_only_b. cbn [b_ro andb]. rewrite E, !shas_find. destruct (str_eqb_spec k' k) as [->|N]; [rewrite sfind_set_eq; auto|rewrite sfind_set_ne by auto; auto].
  - rewrite nth_lupd_ne by auto. reflexivity.
Qed.
(** C12: so a mark made through a view protects nothing: every later
    modification, through any handle, has the outcome it would have had. *)
Theorem C12_view_mark_protects_nothing h id r p k : reachable h -> resolves h id r p -> p <> [] ->
  let h1 := fst (mark_read_only h id k) in
  is_read_only h1 id k = Ok true /\
  forall j key, j < length h ->
    has_value h1 j key = has_value h j key /\ get_string h1 j key = get_string h j key /\
    (forall v d, (snd (i_set_value h1 j key v d) = Ok tt <-> snd (i_set_value h j key v d) = Ok tt)) /\
    (snd (unset_value h1 j key) = Ok tt <-> snd (unset_value h j key) = Ok tt).
Proof.
  intros Hre Hres Np h1. destruct (resolves_some _ _ _ _ Hres) as [b Hb]. assert (Hid := nth_error_lt _ _ _ Hb).
  destruct (C12_mark_local h id k Hid) as (_ & Len & RO). fold h1 in Len, RO.
  split; [rewrite RO, Nat.eqb_refl, str_eqb_refl; reflexivity|].
  assert (Hre1 : reachable h1) by (exact (reachable_step h (OMarkRO id k) Hre)).
  assert (SH : same_shape h h1) by (exact (step_shape h (OMarkRO id k))).
  intros j key Hj. destruct (resolves_total h j Hre Hj) as (rj & pj & Rj). assert (Rj1 := same_shape_resolves _ _ _ _ _ SH Rj).
  assert (Nr : rj <> id). { intro E. subst rj. destruct (resolves_det _ _ _ _ (resolves_self _ _ _ _ Rj) _ _ Hres) as (_ & E). congruence. }
  assert (ROr : forall K, is_read_only h1 rj K = is_read_only h rj K). { intro K. rewrite RO. destruct (Nat.eqb_spec rj id); [contradiction|]. reflexivity. }
  assert (E1 : nth_error h1 rj = nth_error h rj). { unfold h1, mark_read_only. rewrite Hb. cbn [fst]. apply nth_lupd_ne. auto. }
  assert (FE : forall f f1, R h f -> R h1 f1 -> fentry f1 rj (abs_key pj key) = fentry f rj (abs_key pj key)).
  { intros f f1 HR HR1. destruct (resolves_flat _ _ _ _ _ HR Rj) as (o & ro & _ & _ & _ & Hfr & _). destruct (resolves_flat _ _ _ _ _ HR1 Rj1) as (o1 & ro1 & _ & _ & _ & Hfr1 & _).
    destruct (R_some _ _ _ _ HR Hfr) as [rb Hrb]. assert (Hrb1 := Hrb). rewrite <- E1 in Hrb1. destruct (proj2 HR _ _ _ Hrb Hfr) as [C _]. destruct (proj2 HR1 _ _ _ Hrb1 Hfr1) as [C1 _].
    unfold fentry. rewrite Hfr, Hfr1. assert (A := rc_store _ _ C). rewrite (rc_store _ _ C1) in A. assert (B := rc_descr _ _ C). rewrite (rc_descr _ _ C1) in B.
    assert (V : sfind (abs_key pj key) (vals (f_table ro1)) = sfind (abs_key pj key) (vals (f_table ro))) by (rewrite A; auto). assert (D : sfind (abs_key pj key) (descs (f_table ro1)) = sfind (abs_key pj key) (descs (f_table ro))) by (rewrite B; auto).
    rewrite !sfind_vals in V. rewrite !sfind_descs in D. destruct (sfind _ (f_table ro1)) as [[v1 d1]|], (sfind _ (f_table ro)) as [[v2 d2]|]; cbn in V, D; congruence. }
  destruct (reachable_R _ Hre) as [f HR]. destruct (reachable_R _ Hre1) as [f1 HR1]. specialize (FE f f1 HR HR1).
  assert (HV : has_value h1 j key = has_value h j key) by (rewrite (has_at _ _ HR _ _ _ Rj), (has_at _ _ HR1 _ _ _ Rj1), FE; reflexivity).
  refine (conj HV (conj _ (conj _ _))).
  - rewrite (get_at _ _ HR _ _ _ Rj), (get_at _ _ HR1 _ _ _ Rj1), FE. reflexivity.
  - intros v d. rewrite <- (proj2 (proj2 (C12_protected h j rj pj key Hre Rj)) v d), <- (proj2 (proj2 (C12_protected h1 j rj pj key Hre1 Rj1)) v d), ROr. tauto.
  - destruct (unset_lemma h j rj pj key Hre Rj) as [(A & _ & cur & B)|[(A & H & _ & B)|(A & H & B & _)]]; destruct (unset_lemma h1 j rj pj key Hre1 Rj1) as [(A1 & _ & cur1 & B1)|[(A1 & H1 & _ & B1)|(A1 & H1 & B1 & _)]]; rewrite B, B1; rewrite ?ROr, ?HV in *; try congruence; split; auto; discriminate.
Qed.
(** C12: a mark on the root block protects at once, through every handle. *)
Theorem C12_root_mark_protects h r k : reachable h -> resolves h r r [] ->
  let h1 := fst (mark_read_only h r k) in
  forall id p k', resolves h id r p -> abs_key p k' = k ->
    (forall v d, exists cur, i_set_value h1 id k' v d = (h1, Throw (SetOnReadOnly k cur v))) /\
    exists cur, unset_value h1 id k' = (h1, Throw (UnsetOnReadOnly k cur)).
Proof.
  intros Hre Hres h1 id p k' Ri E. destruct (resolves_some _ _ _ _ Hres) as [b Hb]. assert (Hid := nth_error_lt _ _ _ Hb).
  destruct (C12_mark_local h r k Hid) as (_ & Len & RO). fold h1 in Len, RO.
  assert (Hre1 : reachable h1) by (exact (reachable_step h (OMarkRO r k) Hre)).
  assert (Ri1 := same_shape_resolves _ _ _ _ _ (step_shape h (OMarkRO r k)) Ri). change (fst (step h (OMarkRO r k))) with h1 in Ri1.
  assert (Q : is_read_only h1 r (abs_key p k') = Ok true) by (rewrite E, RO, Nat.eqb_refl, str_eqb_refl; reflexivity).
  destruct (C12_protected h1 id r p k' Hre1 Ri1) as (P1 & P2 & _). rewrite <- E. split; [intros v d; apply P1; auto|apply P2; auto].
Qed.
Print Assumptions C12_protected.
Print Assumptions C12_mark_local.
Print Assumptions C12_view_mark_protects_nothing.
Print Assumptions C12_root_mark_protects.
Example C12_exact_nonvacuous : resolves demo 1 0 [L "aa"] /\ reachable demo.
Proof.
  split; [|exact demo_reachable]. change [L "aa"] with ([] ++ [L "aa"]).
  apply (resolves_view demo 1 (new_block (L "aa") (Some 0)) 0 0 []); [reflexivity|reflexivity|]. apply demo_resolves.
Qed.
