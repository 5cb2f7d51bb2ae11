(** CopyProofs.v -- file systems that grow, walks in them, blocks. *)
From Coq Require Import Ascii String List Bool Arith Lia.
Import ListNotations.
From Verif Require Import Base PathModel TreeModel TreeSpec TreeProofs TransModel TransProofs CopyModel.

(** ---- put ---- *)
Lemma look_cons f l k x : look ((l, k) :: f) x = if place_dec l x then Some k else look f x. Proof. reflexivity. Qed.
Lemma at_put f l k x : l <> [] -> at_place (put f l k) x = if place_dec x l then Some k else at_place f x.
Proof.
  intros N. unfold put. destruct x as [|a x]; [destruct (place_dec [] l); [congruence|reflexivity]|]. cbn [at_place]. rewrite look_cons, look_drop. destruct (place_dec l (a :: x)) as [<-|Ne]; destruct (place_dec _ _); congruence.
Qed.
Lemma put_WF f l x k : WF f -> at_place f l = Some KDir -> proper x -> at_place f (l ++ [x]) <> Some KDir -> WF (put f (l ++ [x]) k).
Proof.
  intros W D P N. assert (Em : forall t, t <> [] -> at_place f ((l ++ [x]) ++ t) = None).
  { intros t Ne. destruct (at_place f (l ++ [x])) as [k0|] eqn:Q; [refine (not_dir_leaf f _ k0 W Q _ t Ne); congruence|]. destruct (at_place f ((l ++ [x]) ++ t)) eqn:Q2; [|reflexivity]. rewrite (deep_parent f (l ++ [x]) W t) in Q; congruence. }
  pose proof (drop_WF f (l ++ [x]) W (snoc_ne l x) Em) as Wd.
  assert (Nd : forall y, at_place (put f (l ++ [x]) k) y = if place_dec y (l ++ [x]) then Some k else at_place f y) by (intros y; apply at_put, snoc_ne).
  split.
  - unfold put. cbn [map fst]. constructor; [|apply (wf_nodup _ Wd)]. intros I. apply in_map_iff in I as ([y j] & E & I). cbn [fst] in E. subst y. unfold drop in I. apply filter_In in I as [_ I]. cbn [fst] in I. destruct (place_dec _ _); congruence.
  - assert (Dl : l <> l ++ [x]) by (intros E; apply (f_equal (@List.length _)) in E; rewrite app_length in E; cbn in E; lia).
    intros y j [I|I].
    + injection I as <- <-. split; [apply snoc_ne|]. rewrite last_last, removelast_last. split; [exact P|]. rewrite Nd. destruct (place_dec _ _); [congruence|exact D].
    + destruct (wf_name _ Wd _ _ I) as (A & B & C). split; [exact A|]. split; [exact B|]. rewrite Nd. rewrite at_drop in C by apply snoc_ne. destruct (place_dec _ _); [discriminate|exact C].
Qed.

(** ---- where a walk ends ---- *)
Lemma cut_names s : forall cur, ~ In slash cur -> Forall (fun x : str => ~ In slash x) (cut cur s).
Proof.
  induction s as [|c s IH]; intros cur N; cbn [cut]; [repeat constructor; exact N|]. destruct (Ascii.eqb_spec c slash) as [->|Ne]; [constructor; [exact N|apply IH; intros []]|]. apply IH. intros I. apply in_app_or in I as [I|[I|[]]]; congruence.
Qed.
Lemma parent_dir f cur : WF f -> at_place f cur = Some KDir -> at_place f (removelast cur) = Some KDir.
Proof. intros W D. destruct cur as [|y cur _] using rev_ind; [exact D|]. rewrite removelast_last. eapply look_parent; [exact W|rewrite D; discriminate]. Qed.
Definition entry (f : fsys) (l : place) : Prop := exists p x, l = p ++ [x] /\ at_place f p = Some KDir /\ proper x.
Lemma walk_entry f fo l : WF f -> at_place f l <> Some KDir -> forall n (todo : list str) cur, Forall (fun x : str => ~ In slash x) todo -> at_place f cur = Some KDir -> walk f fo n todo cur = inl l -> entry f l.
Proof.
  intros W N. induction n as [n IHn] using lt_wf_ind. induction todo as [|x rest IH]; intros cur F D E; [rewrite walk_nil in E; injection E as <-; congruence|]. inversion F as [|a b Fx Fr]; subst. rewrite walk_cons, D in E.
  destruct (stays x) eqn:SX; [exact (IH cur Fr D E)|]. destruct (str_eqb x (L "..")) eqn:DX; [exact (IH _ Fr (parent_dir f cur W D) E)|].
  assert (proper x) as P. { unfold stays in SX. apply orb_false_iff in SX as [S1 S2]. apply str_eqb_neq in S1, S2, DX. repeat split; assumption. }
  assert (LAST : forall t, walk f fo n rest (cur ++ [x]) = inl l -> at_place f (cur ++ [x]) <> Some KDir -> t = true -> entry f l).
  { intros _ E' N' _. destruct rest as [|y rest]; [rewrite walk_nil in E'; injection E' as <-; exists cur, x; auto|]. rewrite walk_cons in E'. destruct (at_place f (cur ++ [x])) as [[|d|t]|]; congruence. }
  destruct (at_place f (cur ++ [x])) as [[|d|t]|] eqn:Q; [exact (IH _ Fr Q E)|apply (LAST true E); congruence| |apply (LAST true E); congruence].
  destruct (match rest with [] => negb fo | _ => false end); [injection E as <-; exists cur, x; auto|]. destruct n as [|n]; [discriminate|]. destruct t as [|c t]; [discriminate|].
  refine (IHn n (Nat.lt_succ_diag_r n) _ _ _ _ E); [apply Forall_app; split; [apply cut_names; intros []|exact Fr]|]. destruct (is_abs (c :: t)); [reflexivity|exact D].
Qed.
Lemma resolve_entry_at f cwd fo p l : WF f -> at_place f cwd = Some KDir -> resolve f cwd fo p = inl l -> at_place f l <> Some KDir -> entry f l.
Proof.
  intros W C E N. unfold resolve in E. destruct p as [|c p]; [discriminate|]. eapply walk_entry; [exact W|exact N| | |exact E]; [apply cut_names; intros []|]. destruct (is_abs (c :: p)); [reflexivity|exact C].
Qed.
Lemma entry_ne f l : entry f l -> l <> []. Proof. intros (p & x & -> & _). apply snoc_ne. Qed.
Lemma entry_put f l k : WF f -> entry f l -> at_place f l <> Some KDir -> WF (put f l k).
Proof. intros W (p & x & -> & D & P) N. apply put_WF; assumption. Qed.

(** ---- growing ---- *)
Definition Grow (f f' : fsys) : Prop := forall x, at_place f' x = at_place f x \/ (at_place f x = None /\ at_place f' x = Some KDir).
Lemma Grow_refl f : Grow f f. Proof. left. reflexivity. Qed.
Lemma Grow_trans a b c : Grow a b -> Grow b c -> Grow a c.
Proof. intros H K x. destruct (H x) as [E|[E1 E2]], (K x) as [E'|[E1' E2']]; [left; congruence|right; split; congruence|right; split; congruence|right; split; congruence]. Qed.
Lemma Grow_Sub f f' : Grow f f' -> Sub f f'. Proof. intros G x. destruct (G x) as [E|[E _]]; [left; congruence|right; exact E]. Qed.
Lemma Grow_some f f' x k : Grow f f' -> at_place f x = Some k -> at_place f' x = Some k.
Proof. intros G E. destruct (G x) as [E'|[E' _]]; congruence. Qed.
Lemma resolve_grow f f' cwd fo p l : Grow f f' -> resolve f cwd fo p = inl l -> at_place f l <> None -> resolve f' cwd fo p = inl l.
Proof. intros G. apply resolve_sub, Grow_Sub, G. Qed.
Lemma put_Grow f l : l <> [] -> at_place f l = None -> Grow f (put f l KDir).
Proof. intros Ne N x. rewrite at_put by exact Ne. destruct (place_dec x l) as [->|]; auto. Qed.

Lemma sys_mkdir_grow k cwd f p : WF f -> at_place f cwd = Some KDir -> WF (fst (sys_mkdir k cwd f p)) /\ Grow f (fst (sys_mkdir k cwd f p)).
Proof.
  intros W C. unfold sys_mkdir. destruct (resolve f cwd false _) as [l|er] eqn:R; [|split; [exact W|apply Grow_refl]]. destruct (at_place f l) as [kd|] eqn:A; [split; [exact W|apply Grow_refl]|]. destruct (deny k CMkdir l); [split; [exact W|apply Grow_refl]|]. cbn [fst].
  assert (N : at_place f l <> Some KDir) by congruence. pose proof (resolve_entry_at f cwd false _ l W C R N) as En. split; [apply entry_put; assumption|apply put_Grow; [eapply entry_ne; exact En|exact A]].
Qed.
Lemma mkdirs_grow k cwd ts : forall f, WF f -> at_place f cwd = Some KDir -> let f' := fold_left (fun f t => fst (sys_mkdir k cwd f t)) ts f in WF f' /\ Grow f f'.
Proof.
  induction ts as [|t ts IH]; intros f W C; cbn [fold_left]; [split; [exact W|apply Grow_refl]|]. destruct (sys_mkdir_grow k cwd f t W C) as [W1 G1]. destruct (IH _ W1 (Grow_some _ _ _ _ G1 C)) as [W2 G2]. split; [exact W2|eapply Grow_trans; eassumption].
Qed.
Lemma make_directory_grow e k cwd f p f' b : WF f -> at_place f cwd = Some KDir -> make_directory e k cwd f p = Some (f', b) -> WF f' /\ Grow f f'.
Proof.
  intros W C. unfold make_directory. destruct (file_exists k cwd f p); [intros E; injection E as <- <-; split; [exact W|apply Grow_refl]|]. destruct p as [|c p]; [intros E; injection E as <- <-; split; [exact W|apply Grow_refl]|].
  destruct (convert_to_unix_slashes e (c :: p)) as [dir|]; [|discriminate]. destruct (mkdirs_grow k cwd (tops [] dir) f W C) as [W1 G1]. pose proof (sys_mkdir_grow k cwd _ dir W1 (Grow_some _ _ _ _ G1 C)) as [W2 G2].
  destruct (sys_mkdir k cwd (fold_left _ _ f) dir) as [f2 r] eqn:M. cbn [fst] in W2, G2. intros E. injection E as <- <-. split; [exact W2|eapply Grow_trans; eassumption].
Qed.

(** ---- names with and without the last link ---- *)
(** Where following leads somewhere, the name itself is there. *)
Lemma walk_nofollow f l : at_place f l <> None -> forall n todo cur, walk f true n todo cur = inl l -> exists r, walk f false n todo cur = inl r /\ at_place f r <> None.
Proof.
  intros N. induction n as [n IHn] using lt_wf_ind. induction todo as [|x rest IH]; intros cur E; [rewrite walk_nil in *; injection E as <-; exists cur; auto|]. rewrite walk_cons in E |- *.
  destruct (at_place f cur) as [[|d|t]|]; try discriminate. destruct (stays x); [apply IH; assumption|]. destruct (str_eqb x (L "..")); [apply IH; assumption|].
  destruct (at_place f (cur ++ [x])) as [[|d|t]|] eqn:Q; try (apply IH; assumption). destruct rest as [|y rest']; cbn [negb] in *.
  - exists (cur ++ [x]). split; [reflexivity|congruence].
  - destruct n as [|n]; [discriminate|]. destruct t; [discriminate|]. exact (IHn n (Nat.lt_succ_diag_r n) _ _ E).
Qed.
(** A name that has been removed: where a new file with this name is made. *)
Lemma walk_drop f r w : r <> [] -> at_place f r <> None -> forall n todo cur, walk f false n todo cur = inl r -> walk (drop f r) true n todo cur = inl w -> w = r.
Proof.
  intros Ne N. assert (A : forall x, at_place (drop f r) x = if place_dec x r then None else at_place f x) by (intros x; apply at_drop, Ne).
  induction n as [n IHn] using lt_wf_ind. induction todo as [|x rest IH]; intros cur E E'; [rewrite walk_nil in *; congruence|]. rewrite walk_cons in E, E'. rewrite A in E'. destruct (place_dec cur r); [discriminate|].
  destruct (at_place f cur) as [[|d|t]|]; try discriminate. destruct (stays x); [apply (IH cur); assumption|]. destruct (str_eqb x (L "..")); [apply (IH (removelast cur)); assumption|]. rewrite A in E'.
  destruct (place_dec (cur ++ [x]) r) as [Er|Nr].
  - destruct rest as [|y rest]; [rewrite walk_nil in E'; congruence|]. rewrite walk_cons, A in E'. destruct (place_dec (cur ++ [x]) r); [discriminate|congruence].
  - destruct (at_place f (cur ++ [x])) as [[|d|t]|] eqn:Q; try (apply (IH (cur ++ [x])); assumption). assert ((match rest with [] => negb true | _ => false end) = false) as RT by (destruct rest; reflexivity). rewrite RT in E'. destruct rest as [|y rest']; cbn [negb] in E.
    + injection E as E. congruence.
    + destruct n as [|n]; [discriminate|]. destruct t; [discriminate|]. exact (IHn n (Nat.lt_succ_diag_r n) _ _ E E').
Qed.
(** A file written where a walk ends. *)
Lemma walk_put f l d : l <> [] -> at_place f l <> Some KDir -> (forall t, at_place f l <> Some (KLink t)) ->
  forall n todo cur, walk f true n todo cur = inl l -> walk (put f l (KFile d)) true n todo cur = inl l.
Proof.
  intros Ne N NL. assert (A : forall x, at_place (put f l (KFile d)) x = if place_dec x l then Some (KFile d) else at_place f x) by (intros x; apply at_put, Ne).
  induction n as [n IHn] using lt_wf_ind. induction todo as [|x rest IH]; intros cur E; [rewrite walk_nil in *; exact E|]. rewrite walk_cons in E |- *. rewrite A. destruct (place_dec cur l) as [->|]; [destruct (at_place f l) as [[|?|?]|]; congruence|].
  destruct (at_place f cur) as [[|d'|t]|]; try discriminate. destruct (stays x); [apply IH; assumption|]. destruct (str_eqb x (L "..")); [apply IH; assumption|]. rewrite A. destruct (place_dec (cur ++ [x]) l) as [El|Nl].
  - apply IH. rewrite El in *. destruct (at_place f l) as [[|?|t]|]; try exact E. elim (NL t). reflexivity.
  - destruct (at_place f (cur ++ [x])) as [[|d'|t]|] eqn:Q; try (apply IH; assumption). destruct (match rest with [] => negb true | _ => false end); [exact E|]. destruct n as [|n]; [discriminate|]. destruct t; [discriminate|]. exact (IHn n (Nat.lt_succ_diag_r n) _ _ E).
Qed.

(** ---- blocks ---- *)
Lemma BLOCK_pos : 0 < BLOCK. Proof. unfold BLOCK. lia. Qed.
Global Opaque BLOCK.
Lemma copy_loop_all : forall fuel src out, length src < fuel -> copy_loop fuel src out = out ++ src.
Proof.
  pose proof BLOCK_pos as BP. induction fuel as [|n IH]; intros src out H; [lia|]. cbn [copy_loop]. pose proof (firstn_skipn BLOCK src) as FS. pose proof (firstn_length BLOCK src) as FL. destruct (firstn BLOCK src) as [|c x] eqn:F.
  - destruct src; [rewrite app_nil_r; reflexivity|]. cbn [length] in FL. lia.
  - destruct (Nat.ltb_spec (length (c :: x)) BLOCK) as [Lt|Ge].
    + assert (skipn BLOCK src = []) as S0 by (apply skipn_all2; lia). rewrite S0, app_nil_r in FS. rewrite FS. reflexivity.
    + rewrite IH by (rewrite skipn_length; cbn [length] in *; lia). rewrite <- app_assoc, FS. reflexivity.
Qed.
Lemma blocks_differ_spec : forall fuel nleft a b, nleft < fuel -> blocks_differ fuel nleft a b = false <-> nleft <= length a /\ nleft <= length b /\ firstn nleft a = firstn nleft b.
Proof.
  pose proof BLOCK_pos as BP. induction fuel as [|n IH]; intros nleft a b H; [lia|]. cbn [blocks_differ]. destruct (Nat.eqb_spec nleft 0) as [->|Nz]; [split; [intros _; repeat split; lia|reflexivity]|].
  set (m := Nat.min nleft BLOCK). assert (0 < m <= nleft) as Hm by (unfold m; lia). rewrite !firstn_length.
  destruct (Nat.eqb_spec (Nat.min m (length a)) m) as [La|La]; cbn [negb orb]; [|split; [discriminate|lia]]. destruct (Nat.eqb_spec (Nat.min m (length b)) m) as [Lb|Lb]; cbn [negb]; [|split; [discriminate|lia]].
  assert (SPL : forall s : str, m <= length s -> firstn nleft s = firstn m s ++ firstn (nleft - m) (skipn m s)).
  { intros s Hs. rewrite <- (firstn_skipn m s) at 1. rewrite firstn_app, firstn_firstn, firstn_length. rewrite (Nat.min_r nleft m), (Nat.min_l m) by lia. reflexivity. }
  destruct (str_eqb_spec (firstn m a) (firstn m b)) as [Eq|Ne]; cbn [negb].
  - rewrite IH by lia. rewrite !skipn_length. rewrite (SPL a), (SPL b) by lia. split; intros (A1 & A2 & A3); (split; [lia|]); (split; [lia|]); [rewrite Eq, A3; reflexivity|]. rewrite Eq in A3. apply app_inv_head in A3. exact A3.
  - split; [discriminate|]. intros (A1 & A2 & A3). rewrite (SPL a), (SPL b) in A3 by lia. elim Ne. apply (f_equal (firstn m)) in A3. rewrite !firstn_app, !firstn_firstn, !firstn_length in A3. replace (m - Nat.min m (length a)) with 0 in A3 by lia. replace (m - Nat.min m (length b)) with 0 in A3 by lia. rewrite !Nat.min_id in A3. cbn [firstn] in A3. rewrite !app_nil_r in A3. exact A3.
Qed.
