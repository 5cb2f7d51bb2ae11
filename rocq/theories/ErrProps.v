(** ErrProps.v -- C117: how errors of the C++ code reach the Python caller. *)
From Coq Require Import ZArith List Bool Ascii String Lia.
From Verif Require Import Base RegexModel ErrModel ErrSpec.
Import ListNotations.
Local Open Scope Z_scope.

Section Ind.
Variable P : stmt -> Prop.
Hypothesis Hn : forall h, P (New h).
Hypothesis Hs : forall h m, P (SetMap h m).
Hypothesis Hc : forall f h r, P (Call f h r).
Hypothesis Hr : forall f h r, P (RetCall f h r).
Hypothesis Hp : forall h, P (Propagate h).
Hypothesis Ht : forall v, P (Return v).
Hypothesis He : forall e, P (Raise e).
Hypothesis Hw : forall h b, Forall P b -> P (With h b).
Hypothesis Hy : forall b c, Forall P b -> Forall P c -> P (Try b c).
Hypothesis Hd : forall h, P (Drop h).
Fixpoint stmt_all (c : stmt) : P c :=
  let fix all (l : list stmt) : Forall P l := match l with [] => Forall_nil P | c :: l' => Forall_cons c (stmt_all c) (all l') end in
  match c with
  | New h => Hn h | SetMap h m => Hs h m | Call f h r => Hc f h r | RetCall f h r => Hr f h r | Propagate h => Hp h
  | Return v => Ht v | Raise e => He e | With h b => Hw h b (all b) | Try b c => Hy b c (all b) (all c) | Drop h => Hd h
  end.
End Ind.

(** ---- dictionaries ---- *)
Lemma dget_dset k k' c d : dget k (dset k' c d) = if k =? k' then Some c else dget k d.
Proof.
  induction d as [|[j v] d IH]; cbn [dset dget]; [reflexivity|]. destruct (Z.eqb_spec k' j) as [->|N]; cbn [dget].
  - destruct (Z.eqb_spec k j); reflexivity.
  - rewrite IH. destruct (Z.eqb_spec k j) as [->|]; destruct (Z.eqb_spec j k'); try congruence; try reflexivity.
Qed.
Lemma find_snoc {A} (f : A -> bool) l x : find f (l ++ [x]) = match find f l with Some y => Some y | None => if f x then Some x else None end.
Proof. induction l as [|y l IH]; cbn [find app]; [reflexivity|]. destruct (f y); [reflexivity|apply IH]. Qed.
Lemma dget_update k m : forall d, dget k (dupdate d m) = match last_entry k m with Some c => Some c | None => dget k d end.
Proof.
  unfold last_entry, dupdate. induction m as [|[j c] m IH]; intros d; [reflexivity|]. cbn [fold_left rev fst snd]. rewrite IH, find_snoc. destruct (find _ (rev m)) as [[j' c']|]; cbn [option_map snd]; [reflexivity|].
  rewrite dget_dset. cbn [fst]. rewrite (Z.eqb_sym j k). destruct (k =? j); reflexivity.
Qed.

(** ---- handles ---- *)
Lemma find_filter_ne {A} (h h' : nat) (l : list (nat * A)) : h <> h' -> find (fun e => Nat.eqb (fst e) h) (filter (fun e => negb (Nat.eqb (fst e) h')) l) = find (fun e => Nat.eqb (fst e) h) l.
Proof.
  intros N. induction l as [|[i x] l IH]; [reflexivity|]. cbn [filter find fst]. destruct (Nat.eqb_spec i h') as [->|M]; cbn [negb find fst].
  - destruct (Nat.eqb_spec h' h); [congruence|apply IH].
  - destruct (Nat.eqb i h); [reflexivity|apply IH].
Qed.
Lemma hget_hset_eq h x s : hget h (hset h x s) = Some x.
Proof. unfold hget, hset. cbn. rewrite Nat.eqb_refl. reflexivity. Qed.
Lemma hget_hset_ne h h' x s : h <> h' -> hget h (hset h' x s) = hget h s.
Proof. intros N. unfold hget, hset. cbn [st_handles find fst]. destruct (Nat.eqb_spec h' h); [congruence|]. rewrite find_filter_ne by exact N. reflexivity. Qed.
Lemma hget_hdel_ne h h' s : h <> h' -> hget h (hdel h' s) = hget h s.
Proof. intros N. unfold hget, hdel. cbn [st_handles]. rewrite find_filter_ne by exact N. reflexivity. Qed.
Lemma hget_hdel_eq h s : hget h (hdel h s) = None.
Proof. unfold hget, hdel. cbn [st_handles]. induction (st_handles s) as [|[i x] l IH]; [reflexivity|]. cbn [filter fst]. destruct (Nat.eqb_spec i h); cbn [negb find fst]; [apply IH|]. destruct (Nat.eqb_spec i h); [congruence|apply IH]. Qed.
Lemma hget_blocks h l b b' : hget h (St l b) = hget h (St l b').
Proof. reflexivity. Qed.

(** ---- the invariant ---- *)
Definition live (b : block) : nat := if b_live b then 1%nat else 0%nat.
Definition lives (l : list block) : nat := list_sum (map live l).
Definition errs (l : list (nat * handle)) : nat := list_sum (map (fun e => match h_msg (snd e) with Some _ => 1 | None => 0 end)%nat l).
Record rel (s : state) (l : hist) : Prop := Rel {
  r_nodup : NoDup (map fst (st_handles s));
  r_handle : forall h, match hget h s with
    | None => last_error h l = None
    | Some x => (forall k, match dget k (h_map x) with Some c => c | None => VitalBaseException end = class_for h k l) /\
        ((h_code x = 0 /\ h_msg x = None /\ last_error h l = Some None) \/
         exists b m, h_code x <> 0 /\ h_msg x = Some b /\ nth_error (st_blocks s) b = Some (Blk m true) /\ last_error h l = Some (Some (h_code x, m)))
    end;
  r_distinct : forall h h' x x' b, hget h s = Some x -> hget h' s = Some x' -> h_msg x = Some b -> h_msg x' = Some b -> h = h';
  r_count : lives (st_blocks s) = (errs (st_handles s) + again l)%nat }.

Lemma rel_start : rel (St [] []) [].
Proof. constructor; cbn; [constructor|reflexivity|discriminate|reflexivity]. Qed.
Lemma filter_keys_nodup {A} (f : nat * A -> bool) l : NoDup (map fst l) -> NoDup (map fst (filter f l)).
Proof.
  induction l as [|[i x] l IH]; intros N; [constructor|]. cbn [map fst filter] in *. apply NoDup_cons_iff in N. destruct N as [M N]. destruct (f (i, x)); [|apply IH, N]. cbn [map fst]. constructor; [|apply IH, N].
  intros I. apply M. apply in_map_iff in I. destruct I as (e & E & I). apply filter_In in I. apply in_map_iff. exists e. tauto.
Qed.
Lemma hset_nodup h x s : NoDup (map fst (st_handles s)) -> NoDup (map fst (st_handles (hset h x s))).
Proof.
  intros N. unfold hset. cbn [st_handles map fst]. constructor; [|apply filter_keys_nodup, N]. intros I. apply in_map_iff in I. destruct I as (e & E & I). apply filter_In in I. destruct I as [_ I]. rewrite E, Nat.eqb_refl in I. discriminate.
Qed.
Lemma filter_absent {A} h (l : list (nat * A)) : ~ In h (map fst l) -> filter (fun e => negb (Nat.eqb (fst e) h)) l = l.
Proof. induction l as [|[i x] l IH]; intros N; [reflexivity|]. cbn [filter fst map] in *. destruct (Nat.eqb_spec i h) as [->|]; [exfalso; apply N; left; reflexivity|]. cbn [negb]. rewrite IH; [reflexivity|]. intros I. apply N. right. exact I. Qed.
Lemma hget_none_absent h s : hget h s = None -> ~ In h (map fst (st_handles s)).
Proof.
  unfold hget. induction (st_handles s) as [|[i x] l IH]; intros E; [intros []|]. cbn [find fst] in E. destruct (Nat.eqb_spec i h) as [->|N]; [discriminate|]. cbn [map fst]. intros [->|I]; [congruence|]. exact (IH E I).
Qed.
Definition msgs (x : handle) : nat := match h_msg x with Some _ => 1%nat | None => 0%nat end.
Lemma errs_filter h x s : NoDup (map fst (st_handles s)) -> hget h s = Some x -> errs (st_handles s) = (msgs x + errs (filter (fun e => negb (Nat.eqb (fst e) h)) (st_handles s)))%nat.
Proof.
  unfold hget, errs. induction (st_handles s) as [|[i y] l IH]; intros N E; [discriminate|]. cbn [find fst map snd] in *. apply NoDup_cons_iff in N. destruct N as [M N]. destruct (Nat.eqb_spec i h) as [->|D]; cbn [negb filter fst].
  - rewrite Nat.eqb_refl. cbn [negb]. injection E as ->. rewrite filter_absent by exact M. reflexivity.
  - destruct (Nat.eqb_spec i h); [congruence|]. cbn [negb map snd]. specialize (IH N E). cbn [list_sum fold_right]. unfold list_sum in IH |- *. lia.
Qed.
Lemma errs_hset_new h x s : hget h s = None -> errs (st_handles (hset h x s)) = (msgs x + errs (st_handles s))%nat.
Proof. intros E. unfold hset. cbn [st_handles]. rewrite filter_absent by (apply hget_none_absent, E). reflexivity. Qed.
Lemma errs_hset_old h x y s : NoDup (map fst (st_handles s)) -> hget h s = Some y -> (errs (st_handles (hset h x s)) + msgs y = msgs x + errs (st_handles s))%nat.
Proof. intros N E. unfold hset. cbn [st_handles]. rewrite (errs_filter h y s N E). change (errs ((h, x) :: ?l)) with (msgs x + errs l)%nat. unfold errs at 1. cbn [map snd]. fold (msgs x). unfold list_sum. cbn [fold_right]. fold (list_sum). unfold errs, list_sum. lia. Qed.
Lemma lives_snoc l b : lives (l ++ [b]) = (lives l + live b)%nat.
Proof. unfold lives. rewrite map_app, list_sum_app. cbn. lia. Qed.
Lemma lives_upd l : forall i t, nth_error l i = Some (Blk t true) -> lives l = S (lives (lupd l i (Blk t false))).
Proof.
  induction l as [|b l IH]; intros [|i] t E; try discriminate; cbn [nth_error] in E; cbn [lupd].
  - injection E as ->. reflexivity.
  - specialize (IH _ _ E). unfold lives in *. cbn [map]. unfold list_sum in *. cbn [fold_right]. lia.
Qed.
Lemma nth_snoc {A} (l : list A) x i y : nth_error l i = Some y -> nth_error (l ++ [x]) i = Some y.
Proof. intros E. rewrite nth_error_app1; [exact E|]. apply nth_error_Some. congruence. Qed.

Ltac hcase h h' := destruct (Nat.eq_dec h' h) as [->|?].
Lemma exists_rel s l h : rel s l -> exists_ h l = match hget h s with Some _ => true | None => false end.
Proof. intros R. pose proof (r_handle _ _ R h) as H. unfold exists_. destruct (hget h s) as [x|]; [|rewrite H; reflexivity]. destruct H as [_ [(_ & _ & ->)|(b & m & _ & _ & _ & ->)]]; reflexivity. Qed.
Lemma pending_rel s l h : rel s l -> propagate h s = pending h l.
Proof.
  intros R. pose proof (r_handle _ _ R h) as H. unfold propagate, pending. destruct (hget h s) as [x|]; [|rewrite H; reflexivity]. destruct H as [C [(E & _ & ->)|(b & m & N & E & B & ->)]].
  - rewrite E. reflexivity.
  - destruct (Z.eqb_spec (h_code x) 0); [congruence|]. rewrite E, B, C. reflexivity.
Qed.

Section Slack.
Variable cap : nat -> nat.
Hypothesis slack : forall n, (n < cap n)%nat.

Lemma rel_new s l h : rel s l -> hget h s = None -> rel (hset h (Hd 0 None []) s) (Made h :: l).
Proof.
  intros [N H D C] E. constructor.
  - apply hset_nodup, N.
  - intros h'. cbn [last_error class_for]. hcase h h'.
    + rewrite hget_hset_eq, !Nat.eqb_refl. cbn. split; [reflexivity|left; auto].
    + rewrite hget_hset_ne by assumption. destruct (Nat.eqb_spec h h'); [congruence|]. apply H.
  - intros h1 h2 x1 x2 b A1 A2 B1 B2. hcase h h1; [rewrite hget_hset_eq in A1; injection A1 as <-; discriminate|]. hcase h h2; [rewrite hget_hset_eq in A2; injection A2 as <-; discriminate|].
    rewrite hget_hset_ne in A1, A2 by assumption. eapply D; eassumption.
  - rewrite errs_hset_new by exact E. cbn [msgs h_msg again]. exact C.
Qed.
Lemma rel_map s l h x m : rel s l -> hget h s = Some x -> rel (hset h (Hd (h_code x) (h_msg x) (dupdate (h_map x) m)) s) (Mapped h m :: l).
Proof.
  intros [N H D C] E. constructor.
  - apply hset_nodup, N.
  - intros h'. cbn [last_error class_for]. hcase h h'.
    + rewrite hget_hset_eq, !Nat.eqb_refl. cbn [h_map h_code h_msg]. specialize (H h). rewrite E in H. destruct H as [Hm Ho]. split; [|exact Ho]. intros k. rewrite dget_update. destruct (last_entry k m); [reflexivity|apply Hm].
    + rewrite hget_hset_ne by assumption. destruct (Nat.eqb_spec h h'); [congruence|]. apply H.
  - intros h1 h2 x1 x2 b A1 A2 B1 B2. hcase h h1; hcase h h2; try reflexivity.
    + rewrite hget_hset_eq in A1. rewrite hget_hset_ne in A2 by assumption. injection A1 as <-. eapply D; eassumption.
    + rewrite hget_hset_eq in A2. rewrite hget_hset_ne in A1 by assumption. injection A2 as <-. eapply D; eassumption.
    + rewrite hget_hset_ne in A1, A2 by assumption. eapply D; eassumption.
  - pose proof (errs_hset_old h (Hd (h_code x) (h_msg x) (dupdate (h_map x) m)) x s N E) as X. unfold msgs in X. cbn [h_msg] in X. cbn [again]. change (st_blocks (hset h _ s)) with (st_blocks s). rewrite C. lia.
Qed.
Lemma rel_fail s l h x c m : rel s l -> hget h s = Some x -> c <> 0 -> exists s', populate cap h x c m s = Some s' /\ rel s' (Failed h c m :: l).
Proof.
  intros [N H D C] E Nz. unfold populate. destruct (Nat.ltb_spec (cap (List.length m)) (S (List.length m))) as [X|_]; [specialize (slack (List.length m)); lia|]. eexists. split; [reflexivity|].
  assert (forall h' y, hget h' s = Some y -> forall b, h_msg y = Some b -> (b < List.length (st_blocks s))%nat) as Bd.
  { intros h' y Ey b Eb. specialize (H h'). rewrite Ey in H. destruct H as [_ [(_ & X & _)|(b' & m' & _ & X & Y & _)]]; [congruence|]. rewrite X in Eb. injection Eb as ->. apply nth_error_Some. congruence. }
  set (x' := Hd c (Some (List.length (st_blocks s))) (h_map x)). set (s1 := St (st_handles s) (st_blocks s ++ [Blk m true])).
  assert (forall h', hget h' s1 = hget h' s) as G by reflexivity. constructor.
  - apply hset_nodup. exact N.
  - intros h'. cbn [last_error class_for]. hcase h h'.
    + rewrite hget_hset_eq, Nat.eqb_refl. cbn [x' h_map h_code h_msg]. pose proof (H h) as Hh. rewrite E in Hh. split; [apply Hh|]. right. exists (List.length (st_blocks s)), m. split; [exact Nz|]. split; [reflexivity|]. split; [|reflexivity].
      change (st_blocks (hset h x' s1)) with (st_blocks s ++ [Blk m true]). rewrite nth_error_app2, Nat.sub_diag by lia. reflexivity.
    + rewrite hget_hset_ne, G by assumption. destruct (Nat.eqb_spec h h'); [congruence|]. specialize (H h'). destruct (hget h' s) as [y|]; [|exact H]. destruct H as [Hm Ho]. split; [exact Hm|]. destruct Ho as [Ho|(b & m' & P1 & P2 & P3 & P4)]; [left; exact Ho|right]. exists b, m'. repeat split; try assumption. apply nth_snoc, P3.
  - intros h1 h2 x1 x2 b A1 A2 B1 B2. hcase h h1; hcase h h2; try reflexivity.
    + rewrite hget_hset_eq in A1. rewrite hget_hset_ne, G in A2 by assumption. injection A1 as <-. cbn in B1. injection B1 as <-. specialize (Bd _ _ A2 _ B2). lia.
    + rewrite hget_hset_eq in A2. rewrite hget_hset_ne, G in A1 by assumption. injection A2 as <-. cbn in B2. injection B2 as <-. specialize (Bd _ _ A1 _ B1). lia.
    + rewrite hget_hset_ne, G in A1, A2 by assumption. eapply D; eassumption.
  - change (st_blocks (hset h x' s1)) with (st_blocks s ++ [Blk m true]). rewrite lives_snoc, C. cbn [live b_live again].
    pose proof (errs_hset_old h x' x s1 N E) as X. change (st_handles s1) with (st_handles s) in X. unfold msgs in X. cbn [x' h_msg] in X. fold x' in X.
    specialize (H h). rewrite E in H. destruct H as [_ [(_ & Y & ->)|(b & m' & _ & Y & _ & ->)]]; rewrite Y in X; lia.
Qed.
Lemma nth_lupd_other {A} (l : list A) : forall i j v, i <> j -> nth_error (lupd l i v) j = nth_error l j.
Proof. induction l as [|a l IH]; intros [|i] [|j] v N; cbn [lupd nth_error]; try reflexivity; try congruence. apply IH. congruence. Qed.
Lemma rel_drop s l h x : rel s l -> hget h s = Some x -> exists s', destroy h s = (s', Go) /\ rel s' (Gone h :: l).
Proof.
  intros [N H D C] E. unfold destroy. rewrite E. pose proof (H h) as Hh. rewrite E in Hh. destruct Hh as [_ Ho].
  pose proof (errs_filter h x s N E) as X. unfold msgs in X.
  destruct Ho as [(_ & Y & L0)|(b & m & _ & Y & B & L0)]; rewrite Y in X |- *; [|rewrite B].
  - eexists. split; [reflexivity|]. constructor.
    + apply filter_keys_nodup, N.
    + intros h'. cbn [last_error class_for]. hcase h h'.
      * rewrite hget_hdel_eq, Nat.eqb_refl. reflexivity.
      * rewrite hget_hdel_ne by assumption. destruct (Nat.eqb_spec h h'); [congruence|]. apply H.
    + intros h1 h2 x1 x2 b A1 A2 B1 B2. hcase h h1; [rewrite hget_hdel_eq in A1; discriminate|]. hcase h h2; [rewrite hget_hdel_eq in A2; discriminate|]. rewrite hget_hdel_ne in A1, A2 by assumption. eapply D; eassumption.
    + cbn [again]. unfold hdel. cbn [st_blocks st_handles]. rewrite C. lia.
  - eexists. split; [reflexivity|]. set (s1 := St (st_handles s) (lupd (st_blocks s) b (Blk m false))). assert (forall h', hget h' s1 = hget h' s) as G by reflexivity. constructor.
    + apply filter_keys_nodup, N.
    + intros h'. cbn [last_error class_for]. hcase h h'.
      * rewrite hget_hdel_eq, Nat.eqb_refl. reflexivity.
      * rewrite hget_hdel_ne, G by assumption. destruct (Nat.eqb_spec h h'); [congruence|]. pose proof (H h') as H'. destruct (hget h' s) as [y|] eqn:Ey; [|exact H']. destruct H' as [Hm Ho]. split; [exact Hm|]. destruct Ho as [Ho|(b' & m' & P1 & P2 & P3 & P4)]; [left; exact Ho|right]. exists b', m'. repeat split; try assumption.
        change (st_blocks (hdel h s1)) with (lupd (st_blocks s) b (Blk m false)). rewrite nth_lupd_other; [exact P3|]. intros ->. assert (h = h') by (eapply D; eassumption). congruence.
    + intros h1 h2 x1 x2 b' A1 A2 B1 B2. hcase h h1; [rewrite hget_hdel_eq in A1; discriminate|]. hcase h h2; [rewrite hget_hdel_eq in A2; discriminate|]. rewrite hget_hdel_ne, G in A1, A2 by assumption. eapply D; eassumption.
    + cbn [again]. unfold hdel. cbn [st_blocks st_handles s1]. pose proof (lives_upd _ _ _ B). lia.
Qed.

(** ---- the program and its history ---- *)
Definition agree (rs : state * flow) (rl : hist * flow) : Prop := snd rs = snd rl /\ rel (fst rs) (fst rl).
Lemma report_code f t : fst (report f t) <> 0.
Proof. unfold report. destruct f, t as [[]| |]; cbn; discriminate. Qed.
Lemma call_agree f h r s l : rel s l -> snd (ccall cap f h r s) = snd (sem_call f h r l) /\ rel (fst (ccall cap f h r s)) (fst (sem_call f h r l)).
Proof.
  intros R. destruct r as [v|t]; cbn [ccall sem_call]; [split; [reflexivity|exact R]|]. destruct h as [h|].
  - assert (match inner_catch f t with Some cm => cm | None => standard_catch t end = report f t) as Er by reflexivity.
    rewrite (exists_rel _ _ h R). destruct (inner_catch f t) as [cm|] eqn:Ei; rewrite Er; destruct (report f t) as [c m] eqn:Ec; destruct (hget h s) as [x|] eqn:Ex; try (split; [reflexivity|exact R]);
      assert (c <> 0) as Nz by (pose proof (report_code f t) as Y; rewrite Ec in Y; exact Y);
      destruct (rel_fail s l h x c m R Ex Nz) as (s' & -> & R'); split; [reflexivity|exact R'|reflexivity|exact R'].
  - destruct (inner_catch f t); split; try reflexivity; exact R.
Qed.
Lemma seq_agree b : Forall (fun c => forall s l, rel s l -> agree (exec cap c s) (sem c l)) b -> forall s l, rel s l -> agree (seq (exec cap) b s) (seq_ sem b l).
Proof.
  induction 1 as [|c b Hc Hb IH]; intros s l R; [split; [reflexivity|exact R]|]. cbn [seq seq_]. destruct (Hc s l R) as [E R']. destruct (exec cap c s) as [s' fl], (sem c l) as [l' fl']. cbn [fst snd] in *. subst fl'. destruct fl; try (split; [reflexivity|exact R']). apply IH, R'.
Qed.
Theorem exec_agree c : forall s l, rel s l -> agree (exec cap c s) (sem c l).
Proof.
  induction c as [h|h m|f h r|f h r|h|v|e|h b IH|b d IHb IHd|h] using stmt_all; intros s l R; cbn [exec sem].
  - rewrite (exists_rel _ _ h R). destruct (hget h s) eqn:E; (split; [reflexivity|]); [exact R|]. apply rel_new; assumption.
  - rewrite (exists_rel _ _ h R). destruct (hget h s) as [x|] eqn:E; (split; [reflexivity|]); [|exact R]. apply rel_map; assumption.
  - destruct (call_agree f h r s l R) as [E R']. destruct (ccall cap f h r s) as [s' o], (sem_call f h r l) as [l' o']. cbn [fst snd] in *. subst o'. destruct o; split; try reflexivity; exact R'.
  - destruct (call_agree f h r s l R) as [E R']. destruct (ccall cap f h r s) as [s' o], (sem_call f h r l) as [l' o']. cbn [fst snd] in *. subst o'. destruct o; split; try reflexivity; exact R'.
  - split; [apply pending_rel, R|exact R].
  - split; [reflexivity|exact R].
  - split; [reflexivity|exact R].
  - rewrite (exists_rel _ _ h R). destruct (hget h s) as [x|] eqn:E; [|split; [reflexivity|exact R]]. destruct (seq_agree b IH s l R) as [Ef R']. destruct (seq (exec cap) b s) as [s' fl], (seq_ sem b l) as [l' fl']. cbn [fst snd] in *. subst fl'.
    destruct fl; split; cbn [fst snd]; try reflexivity; try exact R'; rewrite (pending_rel s' l' h R'); reflexivity.
  - destruct (seq_agree b IHb s l R) as [Ef R']. destruct (seq (exec cap) b s) as [s' fl], (seq_ sem b l) as [l' fl']. cbn [fst snd] in *. subst fl'. destruct fl; try (split; [reflexivity|exact R']). apply seq_agree; assumption.
  - rewrite (exists_rel _ _ h R). destruct (hget h s) as [x|] eqn:E; [|unfold destroy; rewrite E; split; [reflexivity|exact R]]. destruct (rel_drop s l h x R E) as (s' & -> & R'). split; [reflexivity|exact R'].
Qed.
End Slack.

(** Every program does what the history of its handles says; memory that is allocated
    and reachable through no handle is one message for every failed call with a handle
    that already held an error. *)
Theorem C117_history : forall cap, (forall n, (n < cap n)%nat) -> forall prog,
  snd (run cap prog) = snd (seq_ sem prog []) /\
  (st_handles (fst (run cap prog)) = [] -> lives (st_blocks (fst (run cap prog))) = again (fst (seq_ sem prog []))).
Proof.
  intros cap Sl prog. destruct (seq_agree cap prog (proj2 (Forall_forall _ _) (fun c _ => exec_agree cap Sl c)) (St [] []) [] rel_start) as [E R]. fold (run cap prog) in *. split; [exact E|]. intros H. rewrite (r_count _ _ R), H. reflexivity.
Qed.

(** ---- the methods of the Python classes ---- *)
Definition text_of (t : thrown) : str :=
  match t with
  | Std _ w => L "Caught exception in C interface: " ++ c_str w
  | CharPtr s => L "Caught error message: " ++ c_str s
  | Anything => L "Caught other exception"
  end.
(** A method returns what the C function returned, or raises exactly if the C++ code
    threw, with the class and text shown. *)
Theorem C117_methods : forall cap, (forall n, (n < cap n)%nat) ->
  (forall v, snd (run cap (method (Returned v))) = Ret v /\ snd (run cap (from_file (Returned v))) = Ret v /\
             snd (run cap (get_value_bool (Returned v))) = Ret v /\ snd (run cap (write_file (Returned v))) = Go) /\
  (forall t, snd (run cap (method (Threw t))) = Exc (VitalBaseException, text_of t)) /\
  (forall t, snd (run cap (get_value_bool (Threw t))) = Exc (NoSuchValue, text_of t)) /\
  (forall t, snd (run cap (from_file (Threw t))) = Exc (match t with
     | Std CfgNotFound w => (ConfigNotFound, c_str w) | Std CfgNotRead w => (ConfigNotRead, c_str w)
     | Std CfgNotParsed w => (ConfigNotParsed, c_str w) | _ => (ConfigIo, text_of t) end)) /\
  (forall t, snd (run cap (write_file (Threw t))) = Exc (match t with
     | Std CfgWrite w => (ConfigWrite, c_str w) | _ => (ConfigIo, text_of t) end)).
Proof.
  intros cap Sl. split; [|split; [|split; [|split]]].
  - intros v. repeat split; rewrite (proj1 (C117_history cap Sl _)); reflexivity.
  - intros t. rewrite (proj1 (C117_history cap Sl _)). destruct t as [[]| |]; reflexivity.
  - intros t. rewrite (proj1 (C117_history cap Sl _)). destruct t as [[]| |]; reflexivity.
  - intros t. rewrite (proj1 (C117_history cap Sl _)). destruct t as [[]| |]; reflexivity.
  - intros t. rewrite (proj1 (C117_history cap Sl _)). destruct t as [[]| |]; reflexivity.
Qed.

(** ---- several calls in one block ---- *)
Definition failures (l : list (cfun * cdone)) : list (Z * str) :=
  flat_map (fun c => match snd c with Returned _ => [] | Threw t => [report (fst c) t] end) l.
Definition calls (h : nat) (l : list (cfun * cdone)) : list stmt := map (fun c => Call (fst c) (Some h) (snd c)) l.
Lemma calls_run h tl l : forall k, exists_ h k = true -> seq_ sem (calls h l ++ tl) k = seq_ sem tl (rev (map (fun e => Failed h (fst e) (snd e)) (failures l)) ++ k).
Proof.
  induction l as [|[f r] l IH]; intros k X; [reflexivity|]. unfold calls. cbn [map fst snd app seq_ sem]. destruct r as [v|t]; cbn [sem_call failures flat_map snd fst app].
  - apply IH, X.
  - rewrite X. cbn [map app rev]. rewrite <- app_assoc. cbn [app]. apply IH. unfold exists_. cbn [last_error]. rewrite Nat.eqb_refl. reflexivity.
Qed.
Lemma last_error_app h l k : last_error h (rev (map (fun e => Failed h (fst e) (snd e)) l) ++ k) = match rev l with [] => last_error h k | e :: _ => Some (Some e) end.
Proof. rewrite <- map_rev. destruct (rev l) as [|[c m] r]; [reflexivity|]. cbn [map app last_error fst snd]. rewrite Nat.eqb_refl. reflexivity. Qed.
Lemma class_for_app h c l : forall k, class_for h c (map (fun e => Failed h (fst e) (snd e)) l ++ k) = class_for h c k.
Proof. induction l as [|e l IH]; intros k; [reflexivity|]. cbn [map app class_for]. apply IH. Qed.
(** A failed call does not stop the block: every call is made, and at the end the last
    failure decides; the messages of all failures but the last are never freed. *)
Theorem C117_block : forall cap, (forall n, (n < cap n)%nat) -> forall m l v,
  let r := run cap ([New 0; With 0 ([SetMap 0 m] ++ calls 0 l ++ [Return v])]) in
  snd r = match rev (failures l) with
          | [] => Ret v
          | (c, t) :: _ => Exc (match last_entry c m with Some k => k | None => VitalBaseException end, t)
          end /\
  List.length (st_blocks (fst r)) = List.length (failures l).
Proof.
  intros cap Sl m l v r. assert (seq_ sem [New 0; With 0 ([SetMap 0 m] ++ calls 0 l ++ [Return v])] [] =
    (rev (map (fun e => Failed 0 (fst e) (snd e)) (failures l)) ++ [Mapped 0 m; Made 0], match rev (failures l) with
          | [] => Ret v
          | (c, t) :: _ => Exc (match last_entry c m with Some k => k | None => VitalBaseException end, t) end)) as Q.
  { change (seq_ sem [New 0; With 0 ([SetMap 0 m] ++ calls 0 l ++ [Return v])] []) with (match sem (With 0 ([SetMap 0 m] ++ calls 0 l ++ [Return v])) [Made 0] with (s', Go) => (s', Go) | r => r end).
    change (sem (With 0 ([SetMap 0 m] ++ calls 0 l ++ [Return v])) [Made 0]) with (let '(l', fl) := seq_ sem (calls 0 l ++ [Return v]) [Mapped 0 m; Made 0] in
      match fl with Go | Ret _ => (l', match pending 0 l' with Go => fl | p => p end) | _ => (l', fl) end). rewrite calls_run by reflexivity. cbn [seq_ sem]. unfold pending. rewrite last_error_app.
    rewrite <- map_rev. destruct (rev (failures l)) as [|[c t] q]; cbn [last_error Nat.eqb]; [reflexivity|]. rewrite class_for_app. cbn [class_for Nat.eqb]. destruct (last_entry c m); reflexivity. }
  split.
  - unfold r. rewrite (proj1 (C117_history cap Sl _)), Q. reflexivity.
  - unfold r, run. cbn [seq exec hget st_handles find option_map]. change (hget 0 (hset 0 (Hd 0 None []) (St [] []))) with (Some (Hd 0 None [])). cbv iota.
    change (seq (exec cap) ([SetMap 0 m] ++ calls 0 l ++ [Return v]) (hset 0 (Hd 0 None []) (St [] []))) with (seq (exec cap) (calls 0 l ++ [Return v]) (hset 0 (Hd 0 None (dupdate [] m)) (St [] []))).
    assert (forall l s x, hget 0 s = Some x -> let q := seq (exec cap) (calls 0 l ++ [Return v]) s in snd q = Ret v /\ List.length (st_blocks (fst q)) = (List.length (st_blocks s) + List.length (failures l))%nat) as B.
    { clear l r Q. induction l as [|[f r] l IH]; intros s x X q; [split; [reflexivity|cbn; lia]|]. unfold q, calls. cbn [map fst snd app seq exec]. destruct r as [w|t]; cbn [ccall failures flat_map snd fst app].
      - eapply IH, X.
      - assert (match inner_catch f t with Some cm => cm | None => standard_catch t end = report f t) as Er by reflexivity.
        assert (exists c msg, report f t = (c, msg)) as (c & msg & Ec) by (destruct (report f t); eauto).
        replace (match inner_catch f t with Some _ | _ => _ end) with (match populate cap 0 x c msg s with None => (s, inr Crash) | Some s' => (s', @inl Z flow 0) end) by (destruct (inner_catch f t); rewrite Er, Ec, X; reflexivity).
        unfold populate. destruct (Nat.ltb_spec (cap (List.length msg)) (S (List.length msg))) as [Y|_]; [specialize (Sl (List.length msg)); lia|].
        set (s' := hset 0 _ _). destruct (IH s' _ (hget_hset_eq 0 _ _)) as [P1 P2]. split; [exact P1|]. unfold calls in P2. rewrite P2. unfold s', hset. cbn [st_blocks]. rewrite app_length. cbn [List.length]. unfold failures. lia. }
    specialize (B l (hset 0 (Hd 0 None (dupdate [] m)) (St [] [])) _ (hget_hset_eq 0 _ _)). destruct (seq (exec cap) (calls 0 l ++ [Return v]) _) as [s' fl]. cbn [fst snd] in B. destruct B as [-> B]. destruct (propagate 0 s'); exact B.
Qed.
Example C117_two : let r := run S [New 0; With 0 ([SetMap 0 io_map] ++ calls 0 [(FileRead, Threw (Std CfgNotFound (L "a"))); (OtherFun, Returned 3); (OtherFun, Threw Anything)] ++ [Return 7])] in
  snd r = Exc (ConfigIo, L "Caught other exception") /\ List.length (st_blocks (fst r)) = 2%nat.
Proof. split; reflexivity. Qed.
(** An exception of the Python code inside the block is the one that is raised,
    whatever the C functions reported. *)
Theorem C117_python_first : forall cap h body s s' e, seq (exec cap) body s = (s', Exc e) -> hget h s <> None -> exec cap (With h body) s = (s', Exc e).
Proof. intros cap h body s s' e E N. cbn [exec]. destruct (hget h s); [|congruence]. rewrite E. reflexivity. Qed.

(** ---- claims that do not hold ---- *)
(** "A later block with the same handle raises only if a call in it failed": a
    handle is never reset. *)
Theorem C117_reuse_refuted : forall cap, (forall n, (n < cap n)%nat) -> forall t l v, failures l = [] ->
  snd (run cap [New 0; Try [With 0 [Call OtherFun (Some 0%nat) (Threw t)]] []; With 0 (calls 0 l ++ [Return v])]) = Exc (VitalBaseException, text_of t).
Proof.
  intros cap Sl t l v F. rewrite (proj1 (C117_history cap Sl _)). cbn [seq_ sem]. change (exists_ 0 []) with false. cbv iota. cbn [seq_ sem]. change (exists_ 0 [Made 0]) with true. cbv iota. cbn [sem_call].
  change (exists_ 0 [Made 0]) with true. cbv iota. cbn [fst snd]. unfold pending at 1. cbn [last_error Nat.eqb class_for].
  assert (forall a b, exists_ 0 [Failed 0 a b; Made 0] = true) as X by reflexivity. rewrite X, calls_run, F by apply X. cbn [map rev app seq_ sem]. unfold pending. cbn [last_error Nat.eqb class_for]. destruct t; reflexivity.
Qed.
(** "get_value_bool raises NoSuchValue only if there is no such value": every
    exception of the C++ code is reported as that. *)
Theorem C117_no_such_value_refuted : forall cap, (forall n, (n < cap n)%nat) ->
  exists text, snd (run cap (get_value_bool (Threw (Std StdOther (L "Failed to cast key"))))) = Exc (NoSuchValue, text).
Proof. intros cap Sl. eexists. apply (C117_methods cap Sl). Qed.
(** "The error handle may be NULL": not for the functions that read and write files. *)
Theorem C117_null_refuted : forall cap f t, inner_catch f t <> None -> snd (run cap [Call f None (Threw t)]) = Crash.
Proof. intros cap f t N. unfold run. cbn [seq exec ccall]. destruct (inner_catch f t); [reflexivity|congruence]. Qed.
(** With an allocator that gives exactly what is asked for, every error report
    writes past its block. *)
Theorem C117_exact_refuted : forall cap, (forall n, cap n = n) -> forall t f, snd (run cap [New 0; With 0 [RetCall f (Some 0%nat) (Threw t)]]) = Crash.
Proof.
  intros cap Ex t f. assert (forall h x c m s, populate cap h x c m s = None) as P.
  { intros h x c m s. unfold populate. rewrite Ex. destruct (Nat.ltb_spec (List.length m) (S (List.length m))); [reflexivity|lia]. }
  unfold run. cbn [seq exec hget st_handles find option_map]. change (hget 0 (hset 0 (Hd 0 None []) (St [] []))) with (Some (Hd 0 None [])). cbv iota. cbn [seq exec ccall].
  change (hget 0 (hset 0 (Hd 0 None []) (St [] []))) with (Some (Hd 0 None [])). destruct (inner_catch f t) as [[c m]|]; [|destruct (standard_catch t) as [c m]]; rewrite P; reflexivity.
Qed.
(** glibc's malloc on 64 bit machines: the usable bytes of malloc(n).  An error report
    writes past them exactly for texts of 24, 40, 56, ... characters. *)
Definition glibc (n : nat) : nat := Nat.max 24 (16 * ((n + 23) / 16) - 8).
Theorem C117_glibc : forall n, (glibc n < S n <-> 24 <= n /\ exists k, n = 16 * k + 8)%nat.
Proof.
  intros n. unfold glibc. pose proof (Nat.div_mod (n + 23) 16 ltac:(lia)) as D. pose proof (Nat.mod_upper_bound (n + 23) 16 ltac:(lia)) as B. set (q := ((n + 23) / 16)%nat) in *. split.
  - intros H. split; [lia|]. exists (q - 1)%nat. lia.
  - intros [H (k & E)]. assert (q = S k) by lia. lia.
Qed.
Print Assumptions C117_history. Print Assumptions C117_block.
