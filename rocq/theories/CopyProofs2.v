(** CopyProofs2.v -- one file is copied. *)
From Coq Require Import Ascii String List Bool Arith Lia.
Import ListNotations.
From Verif Require Import Base PathModel PathProofs TreeModel TreeSpec TreeProofs TransModel TransProofs CopyModel CopySpec CopyProofs.

Lemma thick_walk f fo y : forall n todo todo' cur l, thin todo todo' -> walk f fo n (todo' ++ [y]) cur = inl l -> walk f fo n (todo ++ [y]) cur = inl l.
Proof.
  induction n as [n IHn] using lt_wf_ind. intros todo todo' cur l H. revert cur. induction H as [k|k k' H IH|x k k' H IH]; intros cur E.
  - exact E.
  - cbn [app]. rewrite walk_cons. change (stays []) with true. cbv iota. assert (at_place f cur = Some KDir) as ->; [|apply IH; exact E].
    destruct (k' ++ [y]) as [|z zs] eqn:Z; [destruct k'; discriminate|]. rewrite walk_cons in E. destruct (at_place f cur) as [[|d|t]|]; try discriminate. reflexivity.
  - cbn [app] in E |- *. rewrite walk_cons in E |- *. destruct (at_place f cur) as [[|d|t]|]; try discriminate. destruct (stays x); [apply IH; exact E|]. destruct (str_eqb x (L "..")); [apply IH; exact E|].
    destruct (at_place f (cur ++ [x])) as [[|d|t]|]; try (apply IH; exact E).
    assert (Q : forall q : list str, (match q ++ [y] with [] => negb fo | _ => false end) = false) by (intros q; destruct q; reflexivity). rewrite Q in E |- *.
    destruct n as [|n]; [discriminate|]. destruct t as [|c t]; [discriminate|]. rewrite app_assoc in E |- *. refine (IHn n (Nat.lt_succ_diag_r n) _ _ _ _ _ E). apply thin_app, H.
Qed.
Lemma resolve_name f cwd fo p x : p <> [] -> ~ In slash x -> resolve f cwd fo (p ++ [slash] ++ x) = walk f fo MAXLINKS (cut [] p ++ [x]) (if is_abs p then [] else cwd).
Proof. intros Ne N. unfold resolve. rewrite is_abs_app by exact Ne. destruct (p ++ [slash] ++ x) eqn:E; [destruct p; discriminate|]. rewrite <- E, cut_app by exact N. reflexivity. Qed.
Lemma resolve_walk f cwd fo p : p <> [] -> resolve f cwd fo p = walk f fo MAXLINKS (cut [] p) (if is_abs p then [] else cwd).
Proof. destruct p; [congruence|reflexivity]. Qed.
Lemma chop_cases p : ~ In backslash p -> chop p = p \/ exists q, q <> [] /\ p = q ++ [slash] /\ chop p = q.
Proof.
  intros N. unfold chop. destruct (rev p) as [|c [|d r]] eqn:R; try (left; reflexivity). assert (E : p = rev (d :: r) ++ [c]) by (rewrite <- (rev_involutive p), R; reflexivity).
  destruct (Ascii.eqb_spec c slash) as [->|]; cbn [orb].
  - destruct (Ascii.eqb d ":"); [left; reflexivity|right]. exists (rev (d :: r)). split; [cbn [rev]; apply snoc_ne|auto].
  - destruct (Ascii.eqb_spec c backslash) as [->|]; [|left; reflexivity]. elim N. rewrite E. apply in_or_app. right. left. reflexivity.
Qed.
Lemma dir_spec f cwd p : ~ In backslash p -> file_is_directory f cwd p = true <-> leads_to_dir f cwd p.
Proof.
  intros N. unfold leads_to_dir. destruct p as [|c p]; [cbn; split; [discriminate|intros (l & E & _); discriminate]|]. unfold file_is_directory. unfold stat_at.
  assert (K : (exists l, resolve f cwd true (chop (c :: p)) = inl l /\ at_place f l = Some KDir) <-> exists l, resolve f cwd true (c :: p) = inl l /\ at_place f l = Some KDir).
  { destruct (chop_cases (c :: p) N) as [->|(q & Nq & E & ->)]; [reflexivity|]. rewrite E. assert (R : resolve f cwd true (q ++ [slash]) = walk f true MAXLINKS (cut [] q ++ [[]]) (if is_abs q then [] else cwd)).
    { pose proof (resolve_name f cwd true q [] Nq ltac:(intros [])) as H. rewrite app_nil_r in H. exact H. }
    rewrite (resolve_walk f cwd true q Nq). pose proof (walk_app f true ([] : str) [] MAXLINKS (cut [] q) (if is_abs q then [] else cwd)) as H.
    destruct (walk f true MAXLINKS (cut [] q) _) as [l|er].
    - destruct H as (n' & _ & H). assert (R' : resolve f cwd true (q ++ [slash]) = walk f true n' [([] : str)] l) by exact (eq_trans R H). rewrite R', walk_cons, walk_nil. change (stays ([] : str)) with true. cbv iota.
      destruct (at_place f l) as [[|d|t]|] eqn:A; (split; intros (l' & E1 & E2); try discriminate; try (injection E1 as <-); try congruence). all: exists l; auto.
    - assert (R' : resolve f cwd true (q ++ [slash]) = inr er) by exact (eq_trans R H). rewrite R'. split; intros (l & E1 & _); discriminate. }
  rewrite <- K. destruct (resolve f cwd true (chop (c :: p))) as [l|er]; [|split; [discriminate|intros (l & E & _); discriminate]]. destruct (at_place f l) as [[|d|t]|] eqn:A; (split; [|intros (l' & E1 & E2); injection E1 as <-; congruence]); try discriminate. intros _. exists l. auto.
Qed.
Lemma name_last_part s : last_part s (get_filename_name s).
Proof.
  unfold last_part, get_filename_name. destruct (rsplit slash s) as [[a b]|] eqn:R.
  - apply rsplit_some in R as [-> N]. split; [exact N|right; exists a; reflexivity].
  - apply rsplit_none in R. split; [exact R|left; reflexivity].
Qed.
Lemma last_part_unique p x y : last_part p x -> last_part p y -> x = y.
Proof.
  intros [Nx Hx] [Ny Hy]. destruct Hx as [->|[a ->]], Hy as [E|[b E]].
  - congruence.
  - elim Nx. rewrite E. apply in_or_app. right. left. reflexivity.
  - elim Ny. rewrite <- E. apply in_or_app. right. left. reflexivity.
  - revert b E. induction a as [|c a IH]; intros [|c' b] E; cbn [app] in E; injection E.
    + auto.
    + intros E' _. elim Nx. rewrite E'. apply in_or_app. right. left. reflexivity.
    + intros E' _. elim Ny. rewrite <- E'. apply in_or_app. right. left. reflexivity.
    + intros E' _. apply (IH b E').
Qed.
Lemma resolve_follow_exists f cwd p l : resolve f cwd true p = inl l -> at_place f l <> None -> exists r, resolve f cwd false p = inl r /\ at_place f r <> None.
Proof. intros E N. unfold resolve in *. destruct p; [discriminate|]. eapply walk_nofollow; eassumption. Qed.
Lemma resolve_drop f cwd p r w : r <> [] -> at_place f r <> None -> resolve f cwd false p = inl r -> resolve (drop f r) cwd true p = inl w -> w = r.
Proof. intros Ne N. unfold resolve. destruct p; [discriminate|]. apply walk_drop; assumption. Qed.
Lemma resolve_put f cwd p l d : l <> [] -> at_place f l <> Some KDir -> (forall t, at_place f l <> Some (KLink t)) -> resolve f cwd true p = inl l -> resolve (put f l (KFile d)) cwd true p = inl l.
Proof. intros Ne N NL. unfold resolve. destruct p; [discriminate|]. apply walk_put; assumption. Qed.

(** ---- RemoveFile, then opening ---- *)
Lemma rm_cases k cwd f p : WF f -> at_place f cwd = Some KDir ->
  rm_file k cwd f p = f \/ exists r, resolve f cwd false p = inl r /\ entry f r /\ at_place f r <> None /\ at_place f r <> Some KDir /\ rm_file k cwd f p = drop f r.
Proof.
  intros W C. unfold rm_file, remove_file, sys_unlink. destruct (resolve f cwd false p) as [r|er] eqn:R; [|left; destruct er; reflexivity].
  assert (F : forall n, at_place f r = Some n -> n <> KDir -> deny k CRemove r = false -> fst (drop f r, true) = f \/ exists r0, inl r = inl r0 :> place + errno /\ entry f r0 /\ at_place f r0 <> None /\ at_place f r0 <> Some KDir /\ fst (drop f r, true) = drop f r0).
  { intros n A N _. right. exists r. split; [reflexivity|]. split; [eapply resolve_entry_at; [exact W|exact C|exact R|congruence]|]. split; [congruence|]. split; [congruence|reflexivity]. }
  destruct (at_place f r) as [[|d|t]|] eqn:A; try (left; reflexivity).
  - destruct (deny k CRemove r) eqn:Dn; [left; reflexivity|]. rewrite <- A in F. exact (F (KFile d) A ltac:(discriminate) eq_refl).
  - destruct (deny k CRemove r) eqn:Dn; [left; reflexivity|]. rewrite <- A in F. exact (F (KLink t) A ltac:(discriminate) eq_refl).
Qed.
(** What is old after RemoveFile could not be removed. *)
Lemma rm_old k cwd f p w : WF f -> at_place f cwd = Some KDir -> resolve (rm_file k cwd f p) cwd true p = inl w -> at_place (rm_file k cwd f p) w <> None -> at_place f w <> Some KDir ->
  rm_file k cwd f p = f /\ exists r, resolve f cwd false p = inl r /\ deny k CRemove r = true.
Proof.
  intros W C R A ND. destruct (rm_cases k cwd f p W C) as [E|(r & R0 & En & Ar & Dr & E)].
  - rewrite E in R, A. split; [exact E|]. destruct (resolve_follow_exists f cwd p w R A) as (r & Rr & Ar). exists r. split; [exact Rr|].
    unfold rm_file, remove_file, sys_unlink in E. rewrite Rr in E. assert (Hr : at_place f r <> Some KDir). { intros Dr. rewrite (resolve_follow f cwd p r Rr) in R by (intros; congruence). injection R as <-. congruence. }
    assert (En : entry f r) by (eapply resolve_entry_at; [exact W|exact C|exact Rr|exact Hr]).
    destruct (at_place f r) as [[|d|t]|] eqn:Q; try congruence; (destruct (deny k CRemove r); [reflexivity|]); cbn [fst] in E; apply (f_equal (fun g => at_place g r)) in E; rewrite at_drop in E by (eapply entry_ne; exact En); destruct (place_dec r r); congruence.
  - exfalso. rewrite E in R, A. destruct (resolve_follow_exists _ cwd p w R A) as (r' & Rr' & Ar'). assert (Sub (drop f r) f) as SB by (apply drop_sub; eapply entry_ne; exact En). rewrite (resolve_sub _ f cwd false p r' SB Rr' Ar') in R0. injection R0 as ->. rewrite at_drop in Ar' by (eapply entry_ne; exact En). destruct (place_dec r r); congruence.
Qed.
Lemma entry_drop f r : WF f -> entry f r -> entry (drop f r) r.
Proof. intros W (p & x & -> & D & P). exists p, x. split; [reflexivity|]. split; [|exact P]. rewrite at_drop by apply snoc_ne. destruct (place_dec p (p ++ [x])) as [E|]; [|exact D]. apply (f_equal (@List.length _)) in E. rewrite app_length in E. cbn in E. lia. Qed.

(** ---- what CopyFileAlways does once the directory is there ---- *)
Lemma write_stage k cwd f q s d : WF f -> at_place f cwd = Some KDir -> at_place f s = Some (KFile d) ->
  let f2 := rm_file k cwd f q in
  match open_out k cwd f2 q with
  | None => WF f2 /\ (f2 = f \/ exists r, resolve f cwd false q = inl r /\ at_place f r <> Some KDir /\ f2 = drop f r)
  | Some (f3, w, old) =>
      entry f w /\ at_place f w <> Some KDir /\
      (old = true /\ f2 = f /\ (exists b, at_place f w = Some (KFile b)) /\ (exists r, resolve f cwd false q = inl r /\ deny k CRemove r = true) \/
       old = false /\ (s = w -> f2 = drop f s)) /\
      (forall b, let f4 := put f3 w (KFile b) in WF f4 /\ resolve f4 cwd true q = inl w /\ forall x, at_place f4 x = if place_dec x w then Some (KFile b) else at_place f x)
  end.
Proof.
  intros W C As f2. pose proof (rm_cases k cwd f q W C) as RC. fold f2 in RC.
  assert (W2 : WF f2). { destruct RC as [->|(r & R0 & En & Ar & Dr & ->)]; [exact W|]. apply drop_WF; [exact W|eapply entry_ne; exact En|]. intros t Nt. destruct (at_place f r) as [kr|] eqn:Q; [|congruence]. eapply not_dir_leaf; [exact W|exact Q|congruence|exact Nt]. }
  assert (C2 : at_place f2 cwd = Some KDir). { destruct RC as [->|(r & R0 & En & Ar & Dr & ->)]; [exact C|]. rewrite at_drop by (eapply entry_ne; exact En). destruct (place_dec cwd r); [congruence|exact C]. }
  unfold open_out. assert (NONE : WF f2 /\ (f2 = f \/ exists r, resolve f cwd false q = inl r /\ at_place f r <> Some KDir /\ f2 = drop f r)).
  { split; [exact W2|]. destruct RC as [->|(r & R0 & _ & _ & Dr & ->)]; [left; reflexivity|right; exists r; auto]. }
  destruct (resolve f2 cwd true q) as [w|er] eqn:R2; [|exact NONE].
  assert (FIN : at_place f2 w <> Some KDir -> (forall t, at_place f2 w <> Some (KLink t)) -> (forall x, x <> w -> at_place f2 x = at_place f x) ->
     forall b, let f4 := put (put f2 w (KFile [])) w (KFile b) in WF f4 /\ resolve f4 cwd true q = inl w /\ forall x, at_place f4 x = if place_dec x w then Some (KFile b) else at_place f x).
  { intros N NL Eq b f4. pose proof (resolve_entry_at f2 cwd true q w W2 C2 R2 N) as En. pose proof (entry_ne _ _ En) as Nw. pose proof (entry_put f2 w (KFile []) W2 En N) as W3.
    assert (En3 : entry (put f2 w (KFile [])) w). { destruct En as (p & x & -> & D & P). exists p, x. split; [reflexivity|]. split; [|exact P]. rewrite at_put by apply snoc_ne. destruct (place_dec p (p ++ [x])) as [E|]; [congruence|exact D]. }
    assert (A3 : at_place (put f2 w (KFile [])) w = Some (KFile [])) by (rewrite at_put by exact Nw; destruct (place_dec w w); congruence).
    split; [apply entry_put; [exact W3|exact En3|rewrite A3; discriminate]|]. split; [apply resolve_put; [exact Nw|rewrite A3; discriminate|intros t; rewrite A3; discriminate|]; apply resolve_put; [exact Nw|exact N|exact NL|exact R2]|].
    intros x. unfold f4. rewrite !at_put by exact Nw. destruct (place_dec x w); [reflexivity|apply Eq; assumption]. }
  destruct (at_place f2 w) as [[|d2|t]|] eqn:A2; try exact NONE.
  - destruct (deny k CWrite w); [exact NONE|].
    assert (Aw : at_place f w = Some (KFile d2)). { destruct RC as [E|(r & R0 & En & Ar & Dr & E)]; [rewrite <- E; exact A2|]. rewrite E in A2. rewrite at_drop in A2 by (eapply entry_ne; exact En). destruct (place_dec w r); [discriminate|exact A2]. }
    destruct (rm_old k cwd f q w W C R2) as [E (r & Rr & Dr)]; [fold f2; congruence|congruence|]. fold f2 in E. split; [|split; [congruence|split]].
    + refine (resolve_entry_at f cwd true q w W C _ _); [rewrite E in R2; exact R2|congruence].
    + left. split; [reflexivity|]. split; [exact E|]. split; [exists d2; exact Aw|exists r; auto].
    + apply FIN; [discriminate|discriminate|]. intros x _. rewrite E. reflexivity.
  - destruct (deny k CCreate w); [exact NONE|]. destruct RC as [E|(r & R0 & En & Ar & Dr & E)].
    + rewrite E in R2, A2. split; [eapply resolve_entry_at; [exact W|exact C|exact R2|congruence]|]. split; [congruence|]. split; [right; split; [reflexivity|intros ->; congruence]|]. apply FIN; [discriminate|discriminate|]. intros x _. rewrite E. reflexivity.
    + rewrite E in R2. pose proof (resolve_drop f cwd q r w (entry_ne _ _ En) Ar R0 R2) as ->. split; [exact En|]. split; [exact Dr|]. split; [right; split; [reflexivity|intros ->; exact E]|]. apply FIN; [discriminate|discriminate|]. intros x Nx. rewrite E, at_drop by (eapply entry_ne; exact En). destruct (place_dec x r); [congruence|reflexivity].
Qed.

Definition alike (f f' : fsys) : Prop := forall x, match at_place f x, at_place f' x with Some (KFile _), Some (KFile _) => True | a, b => a = b end.
Lemma walk_alike f f' fo : alike f f' -> forall n todo cur, walk f fo n todo cur = walk f' fo n todo cur.
Proof.
  intros H. induction n as [n IHn] using lt_wf_ind. induction todo as [|x rest IH]; intros cur; [rewrite !walk_nil; reflexivity|]. rewrite !walk_cons. pose proof (H cur) as Hc. pose proof (H (cur ++ [x])) as Hx.
  destruct (at_place f cur) as [[|d|t]|]; destruct (at_place f' cur) as [[|d'|t']|]; try discriminate Hc; try reflexivity. destruct (stays x); [apply IH|]. destruct (str_eqb x (L "..")); [apply IH|].
  destruct (at_place f (cur ++ [x])) as [[|d|t]|]; destruct (at_place f' (cur ++ [x])) as [[|d'|t']|]; try discriminate Hx; try apply IH. injection Hx as <-. destruct (match rest with [] => negb fo | _ => false end); [reflexivity|]. destruct n as [|n]; [reflexivity|]. destruct t; [reflexivity|]. apply IHn. lia.
Qed.
Lemma resolve_alike f f' cwd fo p : alike f f' -> resolve f cwd fo p = resolve f' cwd fo p.
Proof. intros H. unfold resolve. destruct p; [reflexivity|]. apply walk_alike, H. Qed.
Lemma limit_full n (d : str) : (length (limit n d) <? length d) = false -> limit n d = d.
Proof. destruct n as [m|]; cbn [limit]; [|reflexivity]. rewrite firstn_length. intros H. apply Nat.ltb_ge in H. apply firstn_all2. lia. Qed.
(** The name that is written, and the one that is meant. *)
Lemma target_lands e k cwd f source destination q dd : ~ In backslash destination ->
  (forall D, resolve f cwd true destination = inl D -> at_place f D = Some KDir -> deny k CAccess D = false /\ is_abs destination = true) ->
  target e k cwd f source destination = Some (q, dd) ->
  exists q', lands f cwd source destination q' /\ forall g fo l, resolve g cwd fo q = inl l -> resolve g cwd fo q' = inl l.
Proof.
  intros Nb HD. unfold target. destruct (file_is_directory f cwd destination) eqn:FD.
  - pose proof FD as FD'. apply dir_spec in FD' as LD; [|exact Nb]. pose proof LD as (D & RD & AD). destruct (HD D RD AD) as [Ac Ab]. unfold file_exists. rewrite RD, AD, Ac. cbn [negb andb].
    destruct (convert_abs e destination Ab Nb) as (c & -> & Abc & _ & T). intros E. injection E as <- <-. exists (destination ++ [slash] ++ get_filename_name source). split; [apply lands_dir; [exact LD|apply name_last_part]|].
    intros g fo l. assert (destination <> []) as Nd by (intros E; rewrite E in Ab; discriminate). assert (c <> []) as Nc by (intros E; rewrite E in Abc; discriminate). pose proof (name_last_part source) as [Ns _].
    change (c ++ slash :: get_filename_name source) with (c ++ [slash] ++ get_filename_name source). rewrite (resolve_name g cwd fo c _ Nc Ns), (resolve_name g cwd fo destination _ Nd Ns). rewrite Ab, Abc. apply thick_walk, T.
  - rewrite andb_false_r. destruct (get_filename_path e destination) as [dd0|]; [|discriminate]. intros E. injection E as <- <-. exists destination. split; [apply lands_file; intros LD; pose proof (proj2 (dir_spec f cwd destination Nb) LD) as X; rewrite FD in X; discriminate X|]. intros g fo l H. exact H.
Qed.
(** CopyFileAlways, when the source is a file that can be read to the end. *)
Lemma always_true e k cwd f source destination s d f' : WF f -> at_place f cwd = Some KDir -> ~ In backslash source -> ~ In backslash destination ->
  (forall D, resolve f cwd true destination = inl D -> at_place f D = Some KDir -> deny k CAccess D = false /\ is_abs destination = true) ->
  resolve f cwd true source = inl s -> at_place f s = Some (KFile d) -> rerr k s = None ->
  copy_file_always e k cwd f source destination = Some (f', true) ->
  exists q w, lands f cwd source destination q /\ resolve f' cwd true q = inl w /\ WF f' /\ only_at f f' w /\
    (at_place f' w = Some (KFile d) /\ at_place f' s = Some (KFile d) \/
     w = s /\ at_place f' s = Some (KFile []) /\ exists r, resolve f' cwd false q = inl r /\ deny k CRemove r = true).
Proof.
  intros W C Nbs Nbd HD Rs As Re. unfold copy_file_always. destruct (same_file cwd f source destination) eqn:SF.
  { intros E. injection E as <-. unfold same_file in SF. rewrite Rs in SF. destruct (resolve f cwd true destination) as [y|] eqn:Rd; [|discriminate]. rewrite As in SF. destruct (place_dec s y) as [<-|]; [|discriminate].
    exists destination, s. split; [apply lands_file; intros (D & RD & AD); congruence|]. split; [exact Rd|]. split; [exact W|]. split; [left; reflexivity|]. left. auto. }
  destruct (file_is_directory f cwd source) eqn:FS. { apply dir_spec in FS as (D & RD & AD); [congruence|exact Nbs]. }
  destruct (target e k cwd f source destination) as [[q dd]|] eqn:T; [|discriminate]. destruct (target_lands e k cwd f source destination q dd Nbd HD T) as (q' & La & Rq).
  destruct (make_directory e k cwd f dd) as [[f1 b1]|] eqn:M; [|discriminate]. destruct (make_directory_grow _ _ _ _ _ _ _ W C M) as [W1 G1].
  pose proof (Grow_some _ _ _ _ G1 C) as C1. pose proof (Grow_some _ _ _ _ G1 As) as As1. assert (Rs1 : resolve f1 cwd true source = inl s) by (eapply resolve_grow; [exact G1|exact Rs|congruence]).
  unfold open_in. rewrite Rs1, As1, Re. cbn [limit]. destruct (deny k CRead s); [discriminate|]. pose proof (write_stage k cwd f1 q s d W1 C1 As1) as WS. cbv zeta in WS. set (f2 := rm_file k cwd f1 q) in *.
  destruct (open_out k cwd f2 q) as [[[f3 w] old]|]; [|discriminate]. destruct WS as (Ew & Nw & Old & Fin).
  set (dd' := if (old && (if place_dec s w then true else false))%bool then [] else d). cbv zeta. rewrite copy_loop_all by lia. cbn [app].
  destruct (length (limit (werr k w) dd') <? length dd') eqn:Le; [discriminate|]. rewrite (limit_full _ _ Le). destruct (Fin dd') as (W4 & R4 & A4). set (f4 := put f3 w (KFile dd')) in *. intros E. injection E as <- _.
  exists q', w. split; [exact La|]. split; [apply Rq, R4|]. split; [exact W4|]. split.
  - intros x Nx. rewrite A4. destruct (place_dec x w); [congruence|]. destruct (G1 x) as [->|[E1 E2]]; auto.
  - rewrite !A4. destruct (place_dec w w) as [_|]; [|congruence]. unfold dd' in *. destruct (place_dec s w) as [->|Nsw].
    + destruct Old as [(-> & E2 & (b & Ab) & (r & Rr & Dr))|(-> & _)]; cbn [andb].
      * right. split; [reflexivity|]. split; [reflexivity|]. exists r. split; [|exact Dr]. apply Rq. rewrite <- (resolve_alike f1 f4); [exact Rr|]. intros x. rewrite A4. destruct (place_dec x w) as [->|]; [rewrite Ab; exact I|]. destruct (at_place f1 x) as [[|?|?]|]; reflexivity || exact I.
      * left. auto.
    + left. rewrite andb_false_r. auto.
Qed.

(** ---- FilesDiffer ---- *)
Lemma size_holds k cwd f p n : sys_stat k cwd f p = Some n -> exists l, resolve f cwd true p = inl l /\ ((exists d, at_place f l = Some (KFile d) /\ length d = n) \/ at_place f l = Some KDir /\ dsize k l = n).
Proof.
  unfold sys_stat, st_size. destruct (resolve f cwd true p) as [l|]; [|discriminate]. destruct (at_place f l) as [[|d|t]|] eqn:A; try discriminate; intros E; injection E as <-; exists l; split; [reflexivity|right|reflexivity|left]; auto. exists d. auto.
Qed.
Lemma limit_le n (d : str) : length (limit n d) <= length d /\ (length d <= length (limit n d) -> limit n d = d).
Proof. destruct n as [m|]; cbn [limit]; [|auto]. rewrite firstn_length. split; [lia|]. intros H. apply firstn_all2. lia. Qed.
Lemma differ_false k cwd f source destination : (forall l, resolve f cwd true source = inl l \/ resolve f cwd true destination = inl l -> at_place f l = Some KDir -> dsize k l <> 0) -> files_differ k cwd f source destination = false -> exists d, holds f cwd source d /\ holds f cwd destination d.
Proof.
  intros DZ. unfold files_differ. destruct (sys_stat k cwd f source) as [n|] eqn:Sn; [|discriminate]. destruct (sys_stat k cwd f destination) as [m|] eqn:Sm; [|discriminate]. destruct (Nat.eqb_spec n m) as [->|]; cbn [negb]; [|discriminate].
  destruct (size_holds _ _ _ _ _ Sn) as (x & Rx & Hx), (size_holds _ _ _ _ _ Sm) as (y & Ry & Hy). destruct (Nat.eqb_spec m 0) as [->|Nz].
  - intros _. destruct Hx as [(a & Ax & La)|[Zk Z]]; [|elim (DZ x (or_introl Rx) Zk Z)]. destruct Hy as [(b & Ay & Lb)|[Zk Z]]; [|elim (DZ y (or_intror Ry) Zk Z)]. destruct a, b; try discriminate. exists []. split; [exists x; auto|exists y; auto].
  - unfold open_in. rewrite Rx, Ry. destruct (deny k CRead x); [discriminate|]. destruct Hx as [(a & Ax & La)|[Ax _]]; rewrite Ax.
    + destruct (deny k CRead y); [discriminate|]. destruct Hy as [(b & Ay & Lb)|[Ay _]]; rewrite Ay.
      * intros B. apply blocks_differ_spec in B as (B1 & B2 & B3); [|lia]. destruct (limit_le (rerr k x) a) as [_ Ea], (limit_le (rerr k y) b) as [_ Eb]. rewrite Ea, Eb in B3 by lia. rewrite !firstn_all2 in B3 by lia. subst b. exists a. split; [exists x; auto|exists y; auto].
      * intros B. apply blocks_differ_spec in B as (_ & B2 & _); [cbn in B2; lia|lia].
    + destruct (deny k CRead y); [discriminate|]. destruct (at_place f y) as [[|b|t]|]; try discriminate; intros B; (apply blocks_differ_spec in B as (B1 & _ & _); [cbn in B1; lia|lia]).
Qed.

