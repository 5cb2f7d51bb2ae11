(** TreeProofs3.v -- RemoveADirectory removes all of an ordinary tree. *)
From Coq Require Import Ascii String List Bool Arith Lia.
Import ListNotations.
From Verif Require Import Base PathModel TreeModel TreeSpec TreeProofs TreeProofs2.

Definition without (f : fsys) (l : place) : fsys := filter (fun e => negb (belowb l (fst e))) f.
Definition without_all (f : fsys) (l : place) (names : list str) : fsys := filter (fun e => negb (existsb (fun x => belowb (l ++ [x]) (fst e)) names)) f.

Lemma filter_filter {A} (p q : A -> bool) l : filter p (filter q l) = filter (fun x => (q x && p x)%bool) l.
Proof. induction l as [|x l IH]; [reflexivity|]. cbn [filter]. destruct (q x); cbn [andb filter]; [destruct (p x)|]; rewrite IH; reflexivity. Qed.
Lemma at_filter p f l : NoDup (map fst f) -> at_place (filter p f) l = match l with [] => Some KDir | _ => match look f l with Some k => if p (l, k) then Some k else None | None => None end end.
Proof. intros N. destruct l; [reflexivity|]. unfold at_place. apply look_filter, N. Qed.
Lemma at_emptied f l x : NoDup (map fst f) -> (belowb l x = false \/ x = l) -> at_place (emptied f l) x = at_place f x.
Proof.
  intros N H. unfold emptied. rewrite at_filter by exact N. destruct x as [|a x]; [reflexivity|]. unfold at_place. destruct (look f (a :: x)); [|reflexivity]. cbn [fst]. destruct H as [-> | ->]; [reflexivity|]. destruct (place_dec l l); [rewrite orb_true_r; reflexivity|congruence].
Qed.
Lemma emptied_none f l x : NoDup (map fst f) -> belowb l x = true -> x <> l -> at_place (emptied f l) x = None.
Proof.
  intros N H Ne. unfold emptied. rewrite at_filter by exact N. destruct x as [|a x]; [destruct l; [congruence|discriminate]|]. destruct (look f (a :: x)); [|reflexivity]. cbn [fst]. rewrite H. destruct (place_dec (a :: x) l); [congruence|reflexivity].
Qed.
Lemma at_without_all f l names x : NoDup (map fst f) -> at_place (without_all f l names) x = if existsb (fun y => belowb (l ++ [y]) x) names then None else at_place f x.
Proof.
  intros N. unfold without_all. rewrite at_filter by exact N. destruct x as [|a x].
  - assert (existsb (fun y => belowb (l ++ [y]) []) names = false) as ->; [|reflexivity]. induction names as [|y names IH]; [reflexivity|]. cbn [existsb]. rewrite IH. destruct l; reflexivity.
  - unfold at_place. destruct (look f (a :: x)); cbn [fst]; destruct (existsb _ names); reflexivity.
Qed.
Lemma nodup_filter p (f : fsys) : NoDup (map fst f) -> NoDup (map fst (filter p f)).
Proof.
  induction f as [|e f IH]; intros N; [constructor|]. inversion N as [|a b Na Nf]; subst. cbn [filter]. specialize (IH Nf). destruct (p e); [|exact IH]. cbn [map]. constructor; [|exact IH]. intros I. apply Na. apply in_map_iff in I as (e' & <- & I). apply filter_In in I as [I _]. apply in_map, I.
Qed.
(** More is found than with the directory empty. *)
Lemma emptied_sub f l names : NoDup (map fst f) -> Sub (emptied f l) (without_all f l names).
Proof.
  intros N x. rewrite at_without_all by exact N. destruct (existsb (fun y => belowb (l ++ [y]) x) names) eqn:E; [|].
  - right. apply existsb_exists in E as (y & _ & B). apply belowb_spec in B as [t ->]. apply emptied_none; [exact N|apply belowb_spec; exists ([y] ++ t); rewrite app_assoc; reflexivity|]. intros Q. apply (f_equal (@length str)) in Q. rewrite !app_length in Q. cbn in Q. lia.
  - destruct (belowb l x) eqn:B; [|left; apply at_emptied; auto]. destruct (place_dec x l) as [->|]; [left; apply at_emptied; auto|right; apply emptied_none; assumption].
Qed.
Lemma emptied_sub_inner f l names x : NoDup (map fst f) -> Sub (emptied f l) (emptied (without_all f l names) (l ++ [x])).
Proof.
  intros N y. set (f1 := without_all f l names). assert (NoDup (map fst f1)) as N1 by apply nodup_filter, N. destruct (belowb (l ++ [x]) y) eqn:B.
  - right. apply belowb_spec in B as [t ->]. apply emptied_none; [exact N|apply belowb_spec; exists ([x] ++ t); rewrite app_assoc; reflexivity|]. intros Q. apply (f_equal (@length str)) in Q. rewrite !app_length in Q. cbn in Q. lia.
  - rewrite (at_emptied f1) by auto. apply emptied_sub, N.
Qed.

(** ---- names ---- *)
Lemma chop_entry s x : x <> [] -> ~ In slash x -> ~ ends_backslash x -> chop (s ++ [slash] ++ x) = s ++ [slash] ++ x.
Proof.
  intros Ne Ns Nb. destruct (exists_last Ne) as (y & c & ->). unfold chop. rewrite !rev_app_distr. cbn [rev app].
  assert (Ascii.eqb c slash = false) as Cs by (apply Ascii.eqb_neq; intros ->; apply Ns, in_or_app; right; left; reflexivity). assert (Ascii.eqb c backslash = false) as Cb by (apply Ascii.eqb_neq; intros ->; apply Nb; exists y; reflexivity).
  rewrite Cs, Cb. cbn [orb andb]. destruct (rev y ++ [slash]) as [|d r] eqn:Q; [destruct (rev y); discriminate|]. cbn [app]. reflexivity.
Qed.
Lemma last_name_entry s x : ~ In slash x -> last_name (s ++ [slash] ++ x) = x.
Proof. intros N. unfold last_name. rewrite cut_app by exact N. apply last_last. Qed.
Lemma no_trailing_id p : last_name p <> [] -> no_trailing p = p.
Proof.
  intros N. unfold no_trailing. destruct (rev p) as [|c r] eqn:E; [apply (f_equal (@rev ascii)) in E; rewrite rev_involutive in E; subst; reflexivity|]. assert (p = rev r ++ [c]) as -> by (rewrite <- (rev_involutive p), E; reflexivity).
  cbn [strip_slashes]. destruct (Ascii.eqb_spec c slash) as [->|]; [|reflexivity]. elim N. rewrite <- (app_nil_r [slash]) . apply (last_name_entry (rev r) []). intros [].
Qed.

Section All.
Variable deny : call -> place -> bool.
Variable cwd : place.
Notation rad := (remove_a_directory deny cwd).
Definition Permitted (l : place) : Prop := forall c x, below l x -> deny c x = false.
Definition Plain (f : fsys) (l : place) : Prop := forall t x, at_place f (l ++ t ++ [x]) <> None -> ~ ends_backslash x.
Lemma all d : forall n f source l, WF f -> Dep d f -> d + 2 <= n + length l -> l <> [] -> at_place f l = Some KDir -> proper (last_name source) ->
  resolve (emptied f l) cwd false source = inl l -> Permitted l -> Plain f l -> rad n f source = Some (without f l, true).
Proof.
  induction n as [|n IH]; intros f source l Wf Df Hn Nl Dl Pn R0 Pm Pl; [apply Df in Dl; lia|]. pose proof (wf_nodup f Wf) as Nd.
  assert (forall g, Sub (emptied f l) g -> resolve g cwd false source = inl l /\ at_place g l = Some KDir /\ resolve g cwd true source = inl l) as Lead.
  { intros g Sg. assert (at_place (emptied f l) l = Some KDir) as A by (rewrite at_emptied by auto; exact Dl). pose proof (resolve_sub _ _ _ _ _ _ Sg R0 ltac:(congruence)) as Rg. pose proof (Sub_some _ _ _ _ Sg A) as Ag. split; [exact Rg|]. split; [exact Ag|]. apply resolve_follow; [exact Rg|intros t; congruence]. }
  assert (source <> []) as Ns by (intros ->; discriminate R0). rewrite rad_S. assert (load deny cwd f source = [L "."; L ".."] ++ names_in f l) as ->.
  { assert (Sub (emptied f l) f) as Sf. { pose proof (emptied_sub f l [] Nd) as Q. replace (without_all f l []) with f in Q; [exact Q|]. unfold without_all. cbn [existsb negb]. clear. induction f as [|e f IH]; [reflexivity|]. cbn [filter]. rewrite <- IH. reflexivity. }
    unfold load. destruct (Lead f Sf) as (_ & _ & ->). rewrite Dl, Pm by apply below_refl. reflexivity. }
  change (entries deny cwd (rad n) source f ([L "."; L ".."] ++ names_in f l)) with (entries deny cwd (rad n) source f (names_in f l)).
  assert (forall rest done, names_in f l = done ++ rest -> WF (without_all f l done) -> entries deny cwd (rad n) source (without_all f l done) rest = Some (without f l, true)) as G.
  2:{ replace f with (without_all f l []) at 1. - apply G; [reflexivity|]. replace (without_all f l []) with f; [exact Wf|]. symmetry. unfold without_all. cbn [existsb negb]. clear. induction f as [|e f IH]; [reflexivity|]. cbn [filter]. rewrite IH. reflexivity.
      - unfold without_all. cbn [existsb negb]. clear. induction f as [|e f IH]; [reflexivity|]. cbn [filter]. rewrite IH. reflexivity. }
  pose proof (names_nodup f l Nd) as Nn.
  induction rest as [|x rest IHr]; intros done Ed Wf1; set (f1 := without_all f l done) in *; destruct (Lead f1 (emptied_sub f l done Nd)) as (Rf & D1 & Rt); cbn [entries].
  - (* the directory is empty *)
    rewrite app_nil_r in Ed. assert (names_in f1 l = []) as E0.
    { destruct (names_in f1 l) as [|y ys] eqn:Q; [reflexivity|]. exfalso. assert (In y (names_in f1 l)) as I by (rewrite Q; left; reflexivity). apply (names_in_look f1 l y Wf1) in I. unfold f1 in I. rewrite at_without_all in I by exact Nd.
      destruct (existsb (fun z => belowb (l ++ [z]) (l ++ [y])) done) eqn:Ex; [congruence|]. apply (names_in_look f l y Wf) in I. rewrite Ed in I. assert (existsb (fun z => belowb (l ++ [z]) (l ++ [y])) done = true) as Ex'; [|congruence]. apply existsb_exists. exists y. split; [exact I|apply belowb_spec, below_refl]. }
    unfold sys_rmdir. rewrite no_trailing_id by apply Pn. assert (str_eqb (last_name source) (L ".") = false) as -> by (apply str_eqb_neq, Pn). assert (str_eqb (last_name source) (L "..") = false) as -> by (apply str_eqb_neq, Pn). cbn [orb]. rewrite Rf, D1. destruct l as [|a l]; [congruence|]. rewrite E0. rewrite Pm by apply below_refl. do 2 f_equal.
    unfold f1, drop, without_all, without. rewrite filter_filter. apply filter_ext_in. intros [y k] I. cbn [fst]. destruct (place_dec y (a :: l)) as [->|Ne].
    + rewrite andb_false_r. symmetry. apply negb_false_iff. apply belowb_spec, below_refl.
    + rewrite andb_true_r. f_equal. destruct (belowb (a :: l) y) eqn:B.
      * apply existsb_exists. apply belowb_spec in B as [t ->]. destruct t as [|z t]; [rewrite app_nil_r in Ne; congruence|]. exists z. split; [|apply belowb_spec; exists t; rewrite <- app_assoc; reflexivity]. rewrite <- Ed. apply (names_in_look f _ z Wf).
        assert (at_place f ((a :: l) ++ z :: t) <> None) as A by (change ((a :: l) ++ z :: t) with (a :: l ++ z :: t) in *; unfold at_place; rewrite (in_look _ _ _ Nd I); discriminate). destruct t as [|w t]; [exact A|]. replace ((a :: l) ++ z :: w :: t) with (((a :: l) ++ [z]) ++ (w :: t)) in A by (rewrite <- app_assoc; reflexivity). rewrite (deep_parent f _ Wf _ A); discriminate.
      * destruct (existsb _ done) eqn:Ex; [|reflexivity]. apply existsb_exists in Ex as (z & _ & Bz). apply belowb_spec in Bz. apply below_app in Bz. apply belowb_spec in Bz. congruence.
  - (* one entry *)
    assert (In x (names_in f l)) as Ix by (rewrite Ed; apply in_or_app; right; left; reflexivity). pose proof (names_proper f l x Wf Ix) as Px. destruct Px as (P1 & P2 & P3 & P4). pose proof (conj P1 (conj P2 (conj P3 P4))) as Px.
    assert (str_eqb x (L ".") = false) as -> by (apply str_eqb_neq, P2). assert (str_eqb x (L "..") = false) as -> by (apply str_eqb_neq, P3). cbn [orb]. cbn zeta. set (full := source ++ [slash] ++ x).
    assert (resolve f1 cwd false full = inl (l ++ [x])) as Re. { pose proof (resolve_entry f1 cwd source x Px Ns) as K. rewrite Rt in K. apply K, D1. }
    assert (at_place f1 (l ++ [x]) = at_place f (l ++ [x])) as Ax. { unfold f1. rewrite at_without_all by exact Nd. destruct (existsb (fun z => belowb (l ++ [z]) (l ++ [x])) done) eqn:Ex; [|reflexivity]. exfalso. apply existsb_exists in Ex as (z & Iz & B). apply belowb_spec in B. pose proof (below_cons_inv _ _ _ _ B (below_refl _)) as ->. rewrite Ed in Nn. apply NoDup_remove_2 in Nn. apply Nn, in_or_app. left. exact Iz. }
    apply (names_in_look f l x Wf) in Ix. assert (~ ends_backslash x) as Nb by (apply (Pl []); exact Ix). assert (chop full = full) as Ch by (apply chop_entry; assumption).
    assert (forall f2, f2 = without f1 (l ++ [x]) -> WF f2 -> entries deny cwd (rad n) source f2 rest = Some (without f l, true)) as Next.
    { intros f2 -> W2. assert (without f1 (l ++ [x]) = without_all f l (done ++ [x])) as Q. { unfold f1, without, without_all. rewrite filter_filter. apply filter_ext. intros e. rewrite existsb_app. cbn [existsb]. rewrite orb_false_r, negb_orb. reflexivity. }
      rewrite Q in *. apply IHr; [rewrite <- app_assoc; exact Ed|exact W2]. }
    assert (full <> []) as Nf by (unfold full; destruct source; discriminate).
    destruct (at_place f (l ++ [x])) as [k|] eqn:Ak; [|congruence]. destruct (match k with KDir => true | _ => false end) eqn:Kd.
    + destruct k; try discriminate. assert (resolve f1 cwd true full = inl (l ++ [x])) as Ret by (apply resolve_follow; [exact Re|intros t; congruence]).
      assert (file_is_directory f1 cwd full = true) as ->. { unfold file_is_directory. destruct full as [|c fl] eqn:Ef; [congruence|]. rewrite <- Ef in *. rewrite Ch. unfold stat_at. rewrite Ret, Ax. reflexivity. }
      assert (file_is_symlink f1 cwd full = false) as -> by (unfold file_is_symlink, stat_at; rewrite Re, Ax; reflexivity). cbn [andb negb].
      assert (rad n f1 full = Some (without f1 (l ++ [x]), true)) as Rec.
      { apply IH; [exact Wf1| | |apply snoc_ne|exact Ax|unfold full; rewrite last_name_entry by exact P4; exact Px| | |].
        - intros y j A. unfold f1 in A. rewrite at_without_all in A by exact Nd. destruct (existsb _ done); [discriminate|]. exact (Df y j A).
        - rewrite app_length. cbn [length]. lia.
        - destruct (Lead _ (emptied_sub_inner f l done x Nd)) as (_ & Dg & Rg). fold f1 in Dg, Rg. pose proof (resolve_entry (emptied f1 (l ++ [x])) cwd source x Px Ns) as K. rewrite Rg in K. apply K, Dg.
        - intros c y By. apply Pm. exact (below_app _ _ _ By).
        - intros t y A. apply (Pl ([x] ++ t)). intros A0. apply A. unfold f1. rewrite at_without_all by exact Nd. destruct (existsb _ done); [reflexivity|]. rewrite <- app_assoc in *. exact A0. }
      rewrite Rec. apply Next; [reflexivity|]. apply (safe deny cwd n f1 full _ _ Wf1 Rec).
    + assert ((file_is_directory f1 cwd full && negb (file_is_symlink f1 cwd full))%bool = false) as ->.
      { destruct k as [|dt|tg]; [discriminate| |].
        - assert (resolve f1 cwd true full = inl (l ++ [x])) as Ret by (apply resolve_follow; [exact Re|intros t; congruence]). unfold file_is_directory. destruct full as [|c fl] eqn:Ef; [congruence|]. rewrite <- Ef in *. rewrite Ch. unfold stat_at. rewrite Ret, Ax. reflexivity.
        - apply andb_false_iff. right. unfold file_is_symlink, stat_at. rewrite Re, Ax. reflexivity. }
      assert (deny CUnlink (l ++ [x]) = false) as Dn by (apply Pm; exists [x]; reflexivity).
      assert (k <> KDir) as Nk by (intros ->; discriminate). pose proof (not_dir_leaf f1 (l ++ [x]) k Wf1 Ax Nk) as Leaf.
      assert (remove_file deny cwd f1 full = (drop f1 (l ++ [x]), true)) as -> by (unfold remove_file, sys_unlink; rewrite Re, Ax; destruct k; [congruence|rewrite Dn; reflexivity..]).
      apply Next; [|apply drop_WF; [exact Wf1|apply snoc_ne|exact Leaf]].
      unfold drop, without. apply filter_ext_in. intros [y j] I. cbn [fst]. destruct (place_dec y (l ++ [x])) as [->|Ne]; [symmetry; apply negb_false_iff, belowb_spec, below_refl|]. symmetry. apply negb_true_iff. destruct (belowb (l ++ [x]) y) eqn:B; [|reflexivity]. exfalso. apply belowb_spec in B as [t ->]. assert (t <> []) as Nt by (intros ->; rewrite app_nil_r in Ne; congruence).
      specialize (Leaf t Nt). unfold at_place in Leaf. destruct ((l ++ [x]) ++ t) eqn:Q; [discriminate|]. rewrite (in_look _ _ _ (wf_nodup f1 Wf1) I) in Leaf. discriminate.
Qed.
End All.
