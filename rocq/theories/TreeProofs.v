(** TreeProofs.v -- facts about TreeModel. *)
From Coq Require Import Ascii String List Bool Arith Lia.
Import ListNotations.
From Verif Require Import Base PathModel TreeModel TreeSpec.

(** ---- places ---- *)
Lemma below_refl l : below l l. Proof. exists []. rewrite app_nil_r. reflexivity. Qed.
Lemma below_app l n x : below (l ++ n) x -> below l x.
Proof. intros [t ->]. exists (n ++ t). rewrite app_assoc. reflexivity. Qed.
Lemma below_cons_inv l n m x : below (l ++ [n]) x -> below (l ++ [m]) x -> n = m.
Proof. intros [t ->] [u E]. rewrite <- !app_assoc in E. apply app_inv_head in E. injection E. auto. Qed.
Lemma belowb_spec l : forall x, belowb l x = true <-> below l x.
Proof.
  induction l as [|a l IH]; intros x; cbn [belowb]; [split; [exists x; reflexivity|reflexivity]|]. destruct x as [|b x]; [split; [discriminate|intros [t E]; discriminate]|].
  rewrite andb_true_iff, str_eqb_eq, IH. split; [intros [-> [t ->]]; exists t; reflexivity|intros [t E]; injection E as -> ->; split; [reflexivity|exists t; reflexivity]].
Qed.
Lemma removelast_snoc {A} (l : list A) x : removelast (l ++ [x]) = l. Proof. apply removelast_last. Qed.
Lemma snoc_ne {A} (l : list A) x : l ++ [x] <> []. Proof. destruct l; discriminate. Qed.

(** ---- lookups ---- *)
Lemma at_snoc f l x : at_place f (l ++ [x]) = look f (l ++ [x]).
Proof. unfold at_place. destruct (l ++ [x]) eqn:E; [destruct (snoc_ne l x E)|reflexivity]. Qed.
Lemma look_filter p f l : NoDup (map fst f) -> look (filter p f) l = match look f l with Some k => if p (l, k) then Some k else None | None => None end.
Proof.
  induction f as [|[x k] f IH]; intros N; [reflexivity|]. inversion N as [|a b Na Nf]; subst. specialize (IH Nf). cbn [filter look]. destruct (place_dec x l) as [->|Ne].
  - destruct (p (l, k)) eqn:P; cbn [look]; [destruct (place_dec l l); [reflexivity|congruence]|]. rewrite IH. replace (look f l) with (@None kind); [reflexivity|]. symmetry. clear IH Nf N P. induction f as [|[y j] f IHf]; [reflexivity|]. cbn [look map fst] in *. destruct (place_dec y l) as [->|]; [elim Na; left; reflexivity|]. apply IHf. intros I. apply Na. right. exact I.
  - destruct (p (x, k)); cbn [look]; [destruct (place_dec x l); [congruence|]|]; exact IH.
Qed.
Lemma look_drop f l x : look (drop f l) x = if place_dec x l then None else look f x.
Proof.
  unfold drop. induction f as [|[y k] f IH]; [destruct (place_dec x l); reflexivity|]. cbn [filter fst look]. destruct (place_dec y l) as [->|Ne].
  - rewrite IH. destruct (place_dec x l) as [->|]; [reflexivity|]. destruct (place_dec l x); [congruence|reflexivity].
  - cbn [look]. destruct (place_dec y x) as [->|]; [destruct (place_dec x l); [congruence|reflexivity]|exact IH].
Qed.
Lemma look_in f x k : look f x = Some k -> In (x, k) f.
Proof. induction f as [|[y j] f IH]; [discriminate|]. cbn [look]. destruct (place_dec y x) as [->|]; [intros E; injection E as ->; left; reflexivity|right; auto]. Qed.
Lemma in_look f x k : NoDup (map fst f) -> In (x, k) f -> look f x = Some k.
Proof.
  induction f as [|[y j] f IH]; [intros _ []|]. intros N I. inversion N; subst. cbn [look]. destruct I as [E|I]; [injection E as -> ->; destruct (place_dec x x); congruence|]. destruct (place_dec y x) as [->|]; [|auto]. elim H1. apply (in_map fst) in I. exact I.
Qed.

(** f' holds a part of what f holds. *)
Definition Sub (f' f : fsys) : Prop := forall l, at_place f' l = at_place f l \/ at_place f' l = None.
Lemma Sub_refl f : Sub f f. Proof. left. reflexivity. Qed.
Lemma Sub_trans a b c : Sub a b -> Sub b c -> Sub a c.
Proof. intros A B l. destruct (A l) as [->|E]; [apply B|right; exact E]. Qed.
Lemma Sub_some f' f l k : Sub f' f -> at_place f' l = Some k -> at_place f l = Some k.
Proof. intros S0 E. destruct (S0 l) as [E'|E']; congruence. Qed.

(** ---- walks ---- *)
Lemma walk_nil f fo n cur : walk f fo n [] cur = inl cur. Proof. destruct n; reflexivity. Qed.
Lemma walk_cons f fo n x rest cur : walk f fo n (x :: rest) cur =
  match at_place f cur with
  | None => inr ENOENT
  | Some KDir =>
      if stays x then walk f fo n rest cur
      else if str_eqb x (L "..") then walk f fo n rest (removelast cur)
      else match at_place f (cur ++ [x]) with
           | Some (KLink t) =>
               if match rest with [] => negb fo | _ => false end then inl (cur ++ [x])
               else match n with
                    | O => inr ELOOP
                    | S n' => match t with [] => inr ENOENT | _ => walk f fo n' (cut [] t ++ rest) (if is_abs t then [] else cur) end
                    end
           | _ => walk f fo n rest (cur ++ [x])
           end
  | Some _ => inr ENOTDIR
  end.
Proof. destruct n; reflexivity. Qed.
Lemma walk_gone f fo n todo cur l : at_place f cur = None -> walk f fo n todo cur = inl l -> at_place f l = None.
Proof. intros N. destruct todo; [rewrite walk_nil; intros E; injection E as <-; exact N|]. rewrite walk_cons, N. discriminate. Qed.
(** What is found with fewer entries is found with more, at the same place. *)
Lemma walk_sub f' f fo : Sub f' f -> forall n todo cur l, walk f' fo n todo cur = inl l -> at_place f' l <> None -> walk f fo n todo cur = inl l.
Proof.
  intros HS. induction n as [n IHn] using lt_wf_ind. induction todo as [|x rest IH]; intros cur l E N; [rewrite walk_nil in *; exact E|]. rewrite walk_cons in E |- *.
  destruct (at_place f' cur) as [k|] eqn:C; [|discriminate]. rewrite (Sub_some _ _ _ _ HS C). destruct k; [|discriminate..]. destruct (stays x); [apply IH; assumption|]. destruct (str_eqb x (L "..")); [apply IH; assumption|].
  destruct (HS (cur ++ [x])) as [Q|Q].
  - rewrite <- Q. destruct (at_place f' (cur ++ [x])) as [[|d|t]|]; try (apply IH; assumption). destruct (match rest with [] => negb fo | _ => false end); [exact E|]. destruct n as [|n]; [discriminate|]. destruct t; [discriminate|]. apply IHn; [lia|exact E|exact N].
  - rewrite Q in E. elim N. exact (walk_gone _ _ _ _ _ _ Q E).
Qed.
(** A walk that ends at something other than a link does not depend on [follow]. *)
Lemma walk_follow f : forall n todo cur l, walk f false n todo cur = inl l -> (forall t, at_place f l <> Some (KLink t)) -> walk f true n todo cur = inl l.
Proof.
  induction n as [n IHn] using lt_wf_ind. induction todo as [|x rest IH]; intros cur l E N; [rewrite walk_nil in *; exact E|]. rewrite walk_cons in E |- *.
  destruct (at_place f cur) as [[|d|t]|]; try discriminate. destruct (stays x); [apply IH; assumption|]. destruct (str_eqb x (L "..")); [apply IH; assumption|].
  destruct (at_place f (cur ++ [x])) as [[|d|t]|] eqn:Q; try (apply IH; assumption). destruct rest as [|y rest']; cbn [negb] in *.
  - injection E as <-. elim (N t). exact Q.
  - destruct n as [|n]; [discriminate|]. destruct t; [discriminate|]. apply IHn; [lia|exact E|exact N].
Qed.
(** ... and one that fails, fails either way, or ends at a link. *)
Lemma walk_follow_err f e : forall n todo cur, walk f false n todo cur = inr e -> exists e', walk f true n todo cur = inr e'.
Proof.
  induction n as [n IHn] using lt_wf_ind. induction todo as [|x rest IH]; intros cur E; [rewrite walk_nil in E; discriminate|]. rewrite walk_cons in E |- *.
  destruct (at_place f cur) as [[|d|t]|]; try (eexists; reflexivity). destruct (stays x); [apply IH; assumption|]. destruct (str_eqb x (L "..")); [apply IH; assumption|].
  destruct (at_place f (cur ++ [x])) as [[|d|t]|] eqn:Q; try (apply IH; assumption). destruct rest as [|y rest']; cbn [negb] in *; [discriminate|].
  destruct n as [|n]; [eexists; reflexivity|]. destruct t; [eexists; reflexivity|]. apply (IHn n); [lia|exact E].
Qed.
(** A walk in two parts. *)
Lemma walk_app f fo y b : forall n a cur,
  match walk f true n a cur with
  | inl l => exists n', n' <= n /\ walk f fo n (a ++ y :: b) cur = walk f fo n' (y :: b) l
  | inr e => walk f fo n (a ++ y :: b) cur = inr e
  end.
Proof.
  induction n as [n IHn] using lt_wf_ind. induction a as [|x rest IH]; intros cur; [rewrite walk_nil; exists n; split; [lia|reflexivity]|]. rewrite (walk_cons f true). cbn [app]. rewrite (walk_cons f fo n x).
  destruct (at_place f cur) as [[|d|t]|]; try reflexivity. destruct (stays x); [apply IH|]. destruct (str_eqb x (L "..")); [apply IH|].
  destruct (at_place f (cur ++ [x])) as [[|d|t]|] eqn:Q; try (apply IH).
  assert ((match rest ++ y :: b with [] => negb fo | _ => false end) = false) as -> by (destruct rest; reflexivity). assert ((match rest with [] => negb true | _ => false end) = false) as -> by (destruct rest; reflexivity).
  destruct n as [|n]; [reflexivity|]. destruct t as [|c t]; [reflexivity|]. rewrite app_assoc. pose proof (IHn n (Nat.lt_succ_diag_r n) (cut [] (c :: t) ++ rest) (if is_abs (c :: t) then [] else cur)) as K.
  destruct (walk f true n _ _); [|exact K]. destruct K as (n' & Le & K). exists n'. split; [lia|exact K].
Qed.
(** Dots and empty names at the end change nothing in a directory. *)
Lemma proper_stays x : proper x -> stays x = false /\ str_eqb x (L "..") = false.
Proof. intros (A & B & C & _). unfold stays. apply str_eqb_neq in A, B, C. rewrite A, B, C. split; reflexivity. Qed.
Lemma walk_one f n x cur : proper x -> at_place f cur = Some KDir -> walk f false n [x] cur = inl (cur ++ [x]).
Proof. intros P D. destruct (proper_stays x P) as [A B]. rewrite walk_cons, D, A, B. destruct (at_place f (cur ++ [x])) as [[|d|t]|]; cbn [negb]; rewrite ?walk_nil; reflexivity. Qed.

(** ---- paths ---- *)
Lemma cut_noslash x : ~ In slash x -> forall cur, cut cur x = [cur ++ x].
Proof.
  induction x as [|c x IH]; intros N cur; cbn [cut]; [rewrite app_nil_r; reflexivity|]. destruct (Ascii.eqb_spec c slash) as [->|]; [elim N; left; reflexivity|]. rewrite IH by (intros I; apply N; right; exact I). rewrite <- app_assoc. reflexivity.
Qed.
Lemma cut_app s x : ~ In slash x -> forall cur, cut cur (s ++ [slash] ++ x) = cut cur s ++ [x].
Proof.
  intros N. induction s as [|c s IH]; intros cur; cbn [app cut].
  - change (Ascii.eqb slash slash) with true. cbn iota. rewrite cut_noslash by exact N. reflexivity.
  - destruct (Ascii.eqb c slash); [|apply IH]. cbn [app] in IH. rewrite IH. reflexivity.
Qed.
Lemma is_abs_app s t : s <> [] -> is_abs (s ++ t) = is_abs s. Proof. destruct s; [congruence|reflexivity]. Qed.
(** The name of an entry of the directory that [source] leads to. *)
Lemma resolve_entry f cwd source x : proper x -> source <> [] ->
  match resolve f cwd true source with
  | inl l => (at_place f l = Some KDir -> resolve f cwd false (source ++ [slash] ++ x) = inl (l ++ [x])) /\
             (at_place f l <> Some KDir -> forall fo, exists e, resolve f cwd fo (source ++ [slash] ++ x) = inr e)
  | inr e => forall fo, resolve f cwd fo (source ++ [slash] ++ x) = inr e
  end.
Proof.
  intros P Ne. assert (forall fo, resolve f cwd fo (source ++ [slash] ++ x) = walk f fo MAXLINKS (cut [] source ++ [x]) (if is_abs source then [] else cwd)) as R.
  { intros fo. unfold resolve. rewrite is_abs_app by exact Ne. destruct (source ++ [slash] ++ x) eqn:E; [destruct source; discriminate|]. rewrite <- E, cut_app by apply P. reflexivity. }
  assert (resolve f cwd true source = walk f true MAXLINKS (cut [] source) (if is_abs source then [] else cwd)) as -> by (unfold resolve; destruct source; [congruence|reflexivity]).
  destruct (walk f true MAXLINKS (cut [] source) (if is_abs source then [] else cwd)) as [l|e] eqn:W.
  - split; [intros D; rewrite R|intros D fo; rewrite R].
    + pose proof (walk_app f false x [] MAXLINKS (cut [] source) (if is_abs source then [] else cwd)) as K. rewrite W in K. destruct K as (n' & _ & ->). apply walk_one; assumption.
    + pose proof (walk_app f fo x [] MAXLINKS (cut [] source) (if is_abs source then [] else cwd)) as K. rewrite W in K. destruct K as (n' & _ & ->). rewrite walk_cons. destruct (at_place f l) as [[|d|t]|]; [congruence|eexists; reflexivity..].
  - intros fo. rewrite R. pose proof (walk_app f fo x [] MAXLINKS (cut [] source) (if is_abs source then [] else cwd)) as K. rewrite W in K. exact K.
Qed.
Lemma resolve_sub f' f cwd fo p l : Sub f' f -> resolve f' cwd fo p = inl l -> at_place f' l <> None -> resolve f cwd fo p = inl l.
Proof. intros HS. unfold resolve. destruct p; [discriminate|]. apply walk_sub. exact HS. Qed.
Lemma resolve_follow f cwd p l : resolve f cwd false p = inl l -> (forall t, at_place f l <> Some (KLink t)) -> resolve f cwd true p = inl l.
Proof. unfold resolve. destruct p; [discriminate|]. apply walk_follow. Qed.
Lemma resolve_follow_err f cwd p e : resolve f cwd false p = inr e -> exists e', resolve f cwd true p = inr e'.
Proof. unfold resolve. destruct p; [eexists; reflexivity|]. apply walk_follow_err. Qed.
(** Slashes at the end of a path to a directory. *)
Lemma walk_empties f fo n l : at_place f l = Some KDir -> forall k, walk f fo n (repeat [] k) l = inl l.
Proof. intros D. induction k as [|k IH]; [apply walk_nil|]. cbn [repeat]. rewrite walk_cons, D. exact IH. Qed.
Lemma strip_split r : exists k, r = repeat slash k ++ strip_slashes r /\ (forall c s, strip_slashes r = c :: s -> c <> slash).
Proof.
  induction r as [|c r (k & E & N)]; [exists 0; split; [reflexivity|discriminate]|]. cbn [strip_slashes]. destruct (Ascii.eqb_spec c slash) as [->|Ne]; [exists (S k); cbn [repeat app]; rewrite <- E; split; [reflexivity|exact N]|]. exists 0. split; [reflexivity|]. intros d s Q. injection Q as <- _. exact Ne.
Qed.
Lemma rev_repeat {A} (a : A) k : rev (repeat a k) = repeat a k.
Proof. induction k as [|k IH]; [reflexivity|]. cbn [repeat rev]. rewrite IH. clear IH. induction k; cbn; [reflexivity|]. rewrite IHk. reflexivity. Qed.
Lemma no_trailing_split p : exists k, p = no_trailing p ++ repeat slash k.
Proof. unfold no_trailing. destruct (strip_split (rev p)) as (k & E & _). exists k. apply (f_equal (@rev ascii)) in E. rewrite rev_involutive, rev_app_distr, rev_repeat in E. exact E. Qed.
Lemma cut_repeat k : forall cur q, cut cur (q ++ repeat slash k) = cut cur q ++ repeat [] k.
Proof.
  induction k as [|k IH]; intros cur q; cbn [repeat]; [rewrite !app_nil_r; reflexivity|]. replace (q ++ slash :: repeat slash k) with ((q ++ [slash]) ++ repeat slash k) by (rewrite <- app_assoc; reflexivity).
  rewrite IH. pose proof (cut_app q [] (fun H => H) cur) as C. rewrite app_nil_r in C. rewrite C, <- app_assoc. reflexivity.
Qed.
Lemma resolve_trailing f cwd p l : resolve f cwd false (no_trailing p) = inl l -> at_place f l = Some KDir -> resolve f cwd true p = inl l.
Proof.
  intros R D. apply resolve_follow in R; [|intros t; congruence]. destruct (no_trailing_split p) as [k E]. set (q := no_trailing p) in *. clearbody q. subst p. unfold resolve in *. destruct q as [|c q]; [discriminate|]. change (walk f true MAXLINKS (cut [] ((c :: q) ++ repeat slash k)) (if is_abs ((c :: q) ++ repeat slash k) then [] else cwd) = inl l). rewrite cut_repeat, is_abs_app by discriminate.
  destruct k as [|k]; [cbn [repeat]; rewrite app_nil_r; exact R|]. change (repeat (@nil ascii) (S k)) with (@nil ascii :: repeat [] k). pose proof (walk_app f true [] (repeat [] k) MAXLINKS (cut [] (c :: q)) (if is_abs (c :: q) then [] else cwd)) as K. rewrite R in K. destruct K as (n' & _ & K). refine (eq_trans K _). apply (walk_empties f true n' l D (S k)).
Qed.

(** ---- well-formed file systems ---- *)
Lemma names_in_spec f l x : In x (names_in f l) <-> exists p k, In (p, k) f /\ p <> [] /\ removelast p = l /\ List.last p [] = x.
Proof.
  unfold names_in. rewrite in_flat_map. split.
  - intros ([p k] & I & J). cbn [fst] in J. destruct p as [|a p]; [destruct J|]. destruct (place_dec (removelast (a :: p)) l) as [E|]; [|destruct J]. destruct J as [<-|[]]. exists (a :: p), k. repeat split; [exact I|discriminate|exact E].
  - intros (p & k & I & N & <- & <-). exists (p, k). split; [exact I|]. cbn [fst]. destruct p as [|a p]; [congruence|]. destruct (place_dec (removelast (a :: p)) (removelast (a :: p))); [left; reflexivity|congruence].
Qed.
Lemma names_in_look f l x : WF f -> (In x (names_in f l) <-> at_place f (l ++ [x]) <> None).
Proof.
  intros Wf. rewrite names_in_spec, at_snoc. split.
  - intros (p & k & I & N & <- & <-). rewrite <- (app_removelast_last ([] : str) N). rewrite (in_look _ _ _ (wf_nodup f Wf) I). discriminate.
  - destruct (look f (l ++ [x])) as [k|] eqn:E; [|congruence]. intros _. exists (l ++ [x]), k. rewrite removelast_snoc, last_last. split; [apply look_in, E|]. split; [apply snoc_ne|auto].
Qed.
Lemma names_proper f l x : WF f -> In x (names_in f l) -> proper x.
Proof. intros Wf I. apply names_in_spec in I as (p & k & I & _ & _ & <-). apply (wf_name f Wf _ _ I). Qed.
Lemma names_nodup f l : NoDup (map fst f) -> NoDup (names_in f l).
Proof.
  induction f as [|[p k] f IH]; intros N; [constructor|]. inversion N as [|a b Na Nf]; subst. unfold names_in. cbn [flat_map fst]. fold (names_in f l). specialize (IH Nf). destruct p as [|a p]; [exact IH|]. destruct (place_dec (removelast (a :: p)) l) as [E|]; [|exact IH].
  cbn [app]. constructor; [|exact IH]. intros I. apply names_in_spec in I as (q & j & I & Nq & El & Eq). apply Na. assert (q = a :: p) as <-; [|apply (in_map fst) in I; exact I].
  rewrite (app_removelast_last ([] : str) Nq), El, Eq, <- E. symmetry. apply (@app_removelast_last str). discriminate.
Qed.
(** Nothing at or below a place: nothing deeper. *)
Lemma look_parent f l x : WF f -> at_place f (l ++ [x]) <> None -> at_place f l = Some KDir.
Proof. intros Wf N. rewrite at_snoc in N. destruct (look f (l ++ [x])) as [k|] eqn:E; [|congruence]. apply look_in, (wf_name f Wf) in E as (_ & _ & E). rewrite removelast_snoc in E. exact E. Qed.
Lemma deep_parent f l : WF f -> forall t, at_place f (l ++ t) <> None -> t <> [] -> at_place f l = Some KDir.
Proof.
  intros Wf t. induction t as [|x t IH] using rev_ind; intros N Ne; [congruence|]. rewrite app_assoc in N. pose proof (look_parent _ _ _ Wf N) as D. destruct t as [|y t]; [rewrite app_nil_r in D; exact D|]. apply IH; [congruence|discriminate].
Qed.
Lemma empty_dir f l : WF f -> names_in f l = [] -> forall t, t <> [] -> at_place f (l ++ t) = None.
Proof.
  intros Wf E t Ne. destruct t as [|x t]; [congruence|]. destruct (at_place f (l ++ x :: t)) eqn:Q; [|reflexivity]. exfalso. assert (at_place f (l ++ [x]) <> None) as N.
  { destruct t as [|y t]; [congruence|]. assert (at_place f ((l ++ [x]) ++ (y :: t)) <> None) as N by (rewrite <- app_assoc; cbn [app]; congruence). rewrite (deep_parent f _ Wf _ N); discriminate. }
  apply (names_in_look f l x Wf) in N. rewrite E in N. destruct N.
Qed.
Lemma not_dir_leaf f l k : WF f -> at_place f l = Some k -> k <> KDir -> forall t, t <> [] -> at_place f (l ++ t) = None.
Proof. intros Wf A N t Ne. destruct (at_place f (l ++ t)) eqn:Q; [|reflexivity]. exfalso. apply N. assert (at_place f (l ++ t) <> None) as Q' by congruence. pose proof (deep_parent f l Wf t Q' Ne). congruence. Qed.
Lemma at_drop f l x : l <> [] -> at_place (drop f l) x = if place_dec x l then None else at_place f x.
Proof. intros N. unfold at_place. destruct x; [destruct (place_dec [] l); [congruence|reflexivity]|]. apply look_drop. Qed.
Lemma drop_sub f l : l <> [] -> Sub (drop f l) f.
Proof. intros N x. rewrite at_drop by exact N. destruct (place_dec x l); auto. Qed.
Lemma drop_WF f l : WF f -> l <> [] -> (forall t, t <> [] -> at_place f (l ++ t) = None) -> WF (drop f l).
Proof.
  intros Wf Nl Em. split.
  - unfold drop. clear Em. pose proof (wf_nodup f Wf) as N. clear Wf. induction f as [|[x k] f IH]; [constructor|]. inversion N as [|a b Na Nf]; subst. cbn [filter fst]. specialize (IH Nf). destruct (place_dec x l); [exact IH|]. cbn [map fst]. constructor; [|exact IH].
    intros I. apply Na. apply in_map_iff in I as ([y j] & <- & I). apply filter_In in I as [I _]. apply (in_map fst) in I. exact I.
  - intros x k I. unfold drop in I. apply filter_In in I as [I P]. cbn [fst] in P. destruct (place_dec x l) as [|Ne]; [discriminate|]. destruct (wf_name f Wf _ _ I) as (A & B & C). split; [exact A|]. split; [exact B|]. rewrite at_drop by exact Nl. destruct (place_dec (removelast x) l) as [El|]; [|exact C].
    exfalso. specialize (Em [List.last x []] ltac:(discriminate)). rewrite <- El in Em. rewrite <- (app_removelast_last ([] : str) A) in Em. unfold at_place in Em. destruct x; [congruence|]. rewrite (in_look _ _ _ (wf_nodup f Wf) I) in Em. discriminate.
Qed.
