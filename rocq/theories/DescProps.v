(** DescProps.v -- C112: descriptors. *)
From Coq Require Import Ascii List Bool NArith Arith Lia.
Import ListNotations.
From Verif Require Import Base DescModel.
Local Open Scope N_scope.

Section C.
Context {D : Type} (conv : list ascii -> D).
Notation step := (step conv). Notation run := (run conv).

(** ---- specification ---- *)
Definition reachable (s : st) : Prop := exists p, run st0 p = Some s.
Definition alive (s : st) (h : nat) : Prop := exists x, get s h = Some x.
Definition dynamic (s : st) (h : nat) : Prop := exists sz p l, get s h = Some (DDyn sz p l).
(** Two descriptor_dynamic objects hold the same array. *)
Definition shares (s : st) (h h' : nat) : Prop :=
  exists sz p l sz' l', get s h = Some (DDyn sz p l) /\ get s h' = Some (DDyn sz' p l').
(** The j-th run of sz bytes. *)
Definition chunk {A} (b : list A) (sz j : N) : list A := firstn (N.to_nat sz) (skipn (N.to_nat (j * sz)) b).
(** Each array belongs to one object, and no object holds a deleted array. *)
Definition single_owner (s : st) : Prop :=
  (forall h h', shares s h h' -> h = h') /\
  (forall h sz p l, get s h = Some (DDyn sz p l) -> exists b, nth_error (heap s) p = Some (Live b)).
(** Every array still allocated belongs to an object. *)
Definition no_leak (s : st) : Prop :=
  forall p b, nth_error (heap s) p = Some (Live b) -> exists h sz l, get s h = Some (DDyn sz p l).

(** ---- invariant ---- *)
Definition wf_obj (s : st) (x : obj) : Prop :=
  match x with
  | DFixed sz n d => 0 < sz /\ N.of_nat (length d) = n * sz /\ n * sz <= max_array
  | DDyn sz p l => 0 < sz /\ l * sz <= max_array /\ (p < length (heap s))%nat /\
                   forall b, nth_error (heap s) p = Some (Live b) -> N.of_nat (length b) = l * sz
  | Dead => True
  end.
Definition wf (s : st) : Prop := forall h x, nth_error (objs s) h = Some x -> wf_obj s x.

Lemma get_nth s h x : get s h = Some x <-> nth_error (objs s) h = Some x /\ x <> Dead.
Proof.
  unfold get. destruct (nth_error (objs s) h) as [[| |]|]; split; intros H; try discriminate; try (injection H as <-; split; [reflexivity|discriminate]); try (destruct H as [H _]; exact H).
  destruct H as [H N]. injection H as <-. destruct N; reflexivity.
Qed.
Lemma indet_len n : N.of_nat (length (indet n)) = n.
Proof. unfold indet. rewrite repeat_length. lia. Qed.
Lemma splice_len {A} (l : list A) i v : (N.to_nat i + length v <= length l)%nat -> length (splice l i v) = length l.
Proof. intros. unfold splice. rewrite !app_length, firstn_length, skipn_length. lia. Qed.
Lemma nth_lupd {A} (l : list A) i j x y : nth_error (lupd l i x) j = Some y -> (i = j /\ y = x /\ (i < length l)%nat) \/ (i <> j /\ nth_error l j = Some y).
Proof.
  intros H. destruct (Nat.eq_dec i j) as [<-|N0]; [|rewrite nth_lupd_ne in H by exact N0; auto].
  assert (i < length l)%nat as Lt. { rewrite <- (lupd_length l i x). apply nth_error_Some. rewrite H. discriminate. }
  rewrite nth_lupd_eq in H by exact Lt. injection H as <-. auto.
Qed.
Lemma nth_snoc {A} (l : list A) a j y : nth_error (l ++ [a]) j = Some y -> nth_error l j = Some y \/ (j = length l /\ y = a).
Proof.
  intros H. destruct (Nat.lt_ge_cases j (length l)) as [Lt|Ge].
  - rewrite nth_error_app1 in H by exact Lt. auto.
  - rewrite nth_error_app2 in H by exact Ge. destruct (j - length l)%nat as [|k] eqn:E.
    + cbn in H. injection H as <-. right. split; [lia|reflexivity].
    + cbn in H. destruct k; discriminate.
Qed.

Lemma step_cases s o s' r : step s o = Some (s', r) ->
  (s' = s)
  \/ (exists sz n, o = NewFixed sz n /\ 0 < sz /\ n * sz <= max_array /\ s' = new_obj s (DFixed sz n (indet (n * sz))))
  \/ (exists sz l, o = NewDyn sz l /\ 0 < sz /\ l * sz <= max_array /\ s' = St (heap s ++ [Live (indet (l * sz))]) (objs s ++ [DDyn sz (length (heap s)) l]))
  \/ (exists h x, o = CopyCtor h /\ get s h = Some x /\ s' = new_obj s x)
  \/ (exists h1 h2 x y, o = Assign h1 h2 /\ get s h1 = Some x /\ get s h2 = Some y /\ s' = set_obj s h1 y /\ ((exists sz n d d', x = DFixed sz n d /\ y = DFixed sz n d') \/ (exists sz p l p' l', x = DDyn sz p l /\ y = DDyn sz p' l')))
  \/ (exists h i v sz n d, o = Write h i v /\ get s h = Some (DFixed sz n d) /\ N.of_nat (length v) = sz /\ (i + 1) * sz <= N.of_nat (length d) /\ s' = set_obj s h (DFixed sz n (splice d (i * sz) (map Some v))))
  \/ (exists h i v sz p l d, o = Write h i v /\ get s h = Some (DDyn sz p l) /\ nth_error (heap s) p = Some (Live d) /\ N.of_nat (length v) = sz /\ (i + 1) * sz <= N.of_nat (length d) /\ s' = St (lupd (heap s) p (Live (splice d (i * sz) (map Some v)))) (objs s))
  \/ (exists h sz p l b, o = Destroy h /\ get s h = Some (DDyn sz p l) /\ nth_error (heap s) p = Some (Live b) /\ s' = St (lupd (heap s) p Freed) (lupd (objs s) h Dead))
  \/ (exists h sz n d, o = Destroy h /\ get s h = Some (DFixed sz n d) /\ s' = set_obj s h Dead).
Proof.
  intros H. destruct o as [sz n|sz l|h|h1 h2|h i v|h|h|h|h|h]; cbn [DescModel.step] in H.
  - destruct ((0 <? sz) && (0 <? n) && (n * sz <=? max_array)) eqn:E; injection H as <- <-; [|auto].
    apply andb_true_iff in E. destruct E as [E E3]. apply andb_true_iff in E. destruct E as [E1 E2].
    apply N.ltb_lt in E1. apply N.leb_le in E3. right. left. eauto 8.
  - destruct (0 <? sz) eqn:E1; cbn [negb] in H; [|injection H as <- <-; auto]. apply N.ltb_lt in E1.
    destruct (l * sz <=? max_array) eqn:E; injection H as <- <-; [|auto]. apply N.leb_le in E. right; right; left. eauto 8.
  - destruct (get s h) as [x|] eqn:G; [|discriminate]. injection H as <- <-. do 3 right; left. eauto 8.
  - destruct (get s h1) as [x|] eqn:G1; [|discriminate]. destruct (get s h2) as [y|] eqn:G2; [|destruct x; discriminate].
    assert (x <> Dead /\ y <> Dead) as [Nx Ny] by (split; [apply get_nth in G1; tauto|apply get_nth in G2; tauto]).
    destruct x as [sz n d|sz p l|]; [| |congruence]; destruct y as [sz' n' d'|sz' p' l'|]; try congruence; try (injection H as <- <-; auto).
    + destruct ((sz =? sz') && (n =? n')) eqn:E; injection H as <- <-; [|auto].
      apply andb_true_iff in E. destruct E as [E1 E2]. apply N.eqb_eq in E1, E2. subst. do 4 right; left. do 4 eexists. do 4 (split; [try reflexivity; eassumption|]). left; eauto 8.
    + destruct (sz =? sz') eqn:E; injection H as <- <-; [|auto]. apply N.eqb_eq in E. subst.
      do 4 right; left. do 4 eexists. do 4 (split; [try reflexivity; eassumption|]). right; eauto 8.
  - destruct (get s h) as [x|] eqn:G; [|discriminate]. destruct (N.of_nat (length v) =? o_sz x) eqn:Ev; cbn [negb] in H; [|injection H as <- <-; auto].
    apply N.eqb_eq in Ev. destruct x as [sz n d|sz p l|]; cbn [o_raw o_sz] in *; [| |discriminate].
    + destruct ((i + 1) * sz <=? N.of_nat (length d)) eqn:E; [|discriminate]. apply N.leb_le in E. injection H as <- <-. do 5 right; left. eauto 14.
    + unfold bkt in H. destruct (nth_error (heap s) p) as [[d|]|] eqn:Hp; try discriminate.
      destruct ((i + 1) * sz <=? N.of_nat (length d)) eqn:E; [|discriminate]. apply N.leb_le in E. injection H as <- <-. do 6 right; left. eauto 16.
  - destruct (get s h) as [x|] eqn:G; [|discriminate]. destruct x as [sz n d|sz p l|].
    + injection H as <- <-. do 8 right. eauto 10.
    + unfold bkt in H. destruct (nth_error (heap s) p) as [[d|]|] eqn:Hp; try discriminate. injection H as <- <-. do 7 right; left. eauto 12.
    + apply get_nth in G. destruct G; congruence.
  - destruct (get s h); [injection H as <- <-; auto|discriminate].
  - destruct (get s h); [injection H as <- <-; auto|discriminate].
  - destruct (get s h) as [x|]; [|discriminate]. destruct (as_bytes s x); [injection H as <- <-; auto|discriminate].
  - destruct (get s h) as [x|]; [|discriminate]. destruct (as_double conv s x); [injection H as <- <-; auto|discriminate].
Qed.

Lemma step_wf s o s' r : wf s -> step s o = Some (s', r) -> wf s'.
Proof.
  intros W H. apply step_cases in H.
  destruct H as [->|[(sz & n & -> & Hs & Hm & ->)|[(sz & l & -> & Hs & Hm & ->)|[(h & x & -> & G & ->)|[(h1 & h2 & x & y & -> & G1 & G2 & -> & T)|[(h & i & v & sz & n & d & -> & G & Lv & B & ->)|[(h & i & v & sz & p & l & d & -> & G & Hp & Lv & B & ->)|[(h & sz & p & l & b & -> & G & Hp & ->)|(h & sz & n & d & -> & G & ->)]]]]]]]].
  - exact W.
  - intros h x Hx. apply nth_snoc in Hx. destruct Hx as [Hx|[_ ->]]; [exact (W h x Hx)|].
    cbn. rewrite indet_len. auto.
  - intros h x Hx. cbn [objs] in Hx. apply nth_snoc in Hx. destruct Hx as [Hx|[_ ->]].
    + specialize (W h x Hx). destruct x as [| sz' p' l'|]; cbn in *; [exact W| |exact I].
      destruct W as (W1 & W2 & W3 & W4). rewrite app_length; cbn. repeat split; auto; try lia.
      intros b Hb. rewrite nth_error_app1 in Hb by exact W3. auto.
    + cbn. rewrite app_length; cbn. repeat split; auto; try lia. intros b Hb. rewrite nth_error_app2, Nat.sub_diag in Hb by lia. injection Hb as <-. apply indet_len.
  - intros k z Hz. cbn [objs new_obj] in Hz. apply nth_snoc in Hz. destruct Hz as [Hz|[_ ->]]; [exact (W k z Hz)|].
    apply get_nth in G. destruct G as [G _]. exact (W h x G).
  - intros k z Hz. cbn [objs set_obj] in Hz. apply nth_lupd in Hz. destruct Hz as [(_ & -> & _)|[_ Hz]]; [|exact (W k z Hz)].
    apply get_nth in G2. destruct G2 as [G2 _]. exact (W h2 y G2).
  - intros k z Hz. cbn [objs set_obj] in Hz. apply nth_lupd in Hz. destruct Hz as [(_ & -> & _)|[_ Hz]]; [|exact (W k z Hz)].
    apply get_nth in G. destruct G as [G _]. specialize (W h _ G). cbn in *. rewrite splice_len; [exact W|]. rewrite map_length. lia.
  - intros k z Hz. cbn [objs] in Hz. specialize (W k z Hz) as Wz. destruct z as [| sz' p' l'|]; cbn in *; [exact Wz| |exact I].
    rewrite lupd_length. destruct Wz as (W1 & W2 & W3 & W4). repeat split; auto.
    intros b Hb. apply nth_lupd in Hb. destruct Hb as [(-> & E & _)|[_ Hb]]; [|auto].
    injection E as ->. rewrite splice_len; [auto|]. rewrite map_length. lia.
  - intros k z Hz. cbn [objs] in Hz. apply nth_lupd in Hz. destruct Hz as [(_ & -> & _)|[_ Hz]]; [exact I|].
    specialize (W k z Hz) as Wz. destruct z as [| sz' p' l'|]; cbn in *; [exact Wz| |exact I].
    rewrite lupd_length. destruct Wz as (W1 & W2 & W3 & W4). repeat split; auto.
    intros b' Hb. apply nth_lupd in Hb. destruct Hb as [(_ & E & _)|[_ Hb]]; [discriminate|auto].
  - intros k z Hz. cbn [objs set_obj] in Hz. apply nth_lupd in Hz. destruct Hz as [(_ & -> & _)|[_ Hz]]; [exact I|exact (W k z Hz)].
Qed.
Lemma run_app s p q : run s (p ++ q) = match run s p with Some s' => run s' q | None => None end.
Proof. revert s; induction p as [|o p IH]; intros s; cbn; [reflexivity|]. destruct (step s o) as [[s' r]|]; [apply IH|reflexivity]. Qed.
Lemma run_ind (P : st -> Prop) : (forall s o s' r, P s -> step s o = Some (s', r) -> P s') -> forall p s s', P s -> run s p = Some s' -> P s'.
Proof.
  intros St p. induction p as [|o p IH]; intros s s' Ps H; cbn in H; [injection H as <-; exact Ps|].
  destruct (step s o) as [[s1 r]|] eqn:E; [|discriminate]. eauto.
Qed.
Lemma reach_wf s : reachable s -> wf s.
Proof. intros [p H]. revert H. apply run_ind; [exact step_wf|]. intros [|] x Hx; discriminate. Qed.
Lemma reach_step s o s' r : reachable s -> step s o = Some (s', r) -> reachable s'.
Proof. intros [p H] E. exists (p ++ [o]). rewrite run_app, H. cbn. rewrite E. reflexivity. Qed.

Lemma mod_small_bytes n sz : n * sz <= max_array -> (n * sz) mod size_t_mod = n * sz.
Proof. intros. apply N.mod_small. unfold max_array, size_t_mod in *. lia. Qed.
Lemma sub_all {A} (d : list A) n : N.of_nat (length d) = n -> sub d 0 n = d.
Proof. intros <-. unfold sub. cbn [N.to_nat skipn]. rewrite Nnat.Nat2N.id. apply firstn_all. Qed.
(** In a reachable state as_bytes is all of the memory. *)
Lemma as_bytes_raw s h x : wf s -> get s h = Some x -> as_bytes s x = o_raw s x.
Proof.
  intros W G. apply get_nth in G. destruct G as [G N0]. specialize (W h x G). unfold as_bytes.
  destruct x as [sz n d|sz p l|]; [| |congruence]; cbn [o_raw o_num_bytes o_size o_sz] in *; unfold o_num_bytes; cbn [o_size o_sz].
  - destruct W as (W1 & W2 & W3). rewrite mod_small_bytes by exact W3. rewrite W2, N.leb_refl. f_equal. apply sub_all. exact W2.
  - destruct W as (W1 & W2 & W3 & W4). rewrite mod_small_bytes by exact W2. unfold bkt. destruct (nth_error (heap s) p) as [[d|]|]; try reflexivity.
    rewrite (W4 d eq_refl), N.leb_refl. f_equal. apply sub_all. auto.
Qed.
Lemma as_bytes_step s h b : wf s -> (step s (AsBytes h) = Some (s, OBytes b) <-> exists x, get s h = Some x /\ o_raw s x = Some b).
Proof.
  intros W. cbn [DescModel.step]. split.
  - destruct (get s h) as [x|] eqn:G; [|discriminate]. rewrite (as_bytes_raw s h x W G). destruct (o_raw s x) as [d|] eqn:R; [|discriminate].
    intros H. injection H as <-. eauto.
  - intros (x & G & R). rewrite G, (as_bytes_raw s h x W G), R. reflexivity.
Qed.
Lemma raw_len s h x b : wf s -> get s h = Some x -> o_raw s x = Some b -> N.of_nat (length b) = o_size x * o_sz x /\ o_size x * o_sz x <= max_array /\ 0 < o_sz x.
Proof.
  intros W G R. apply get_nth in G. destruct G as [G N0]. specialize (W h x G). destruct x as [sz n d|sz p l|]; [| |congruence]; cbn in *.
  - injection R as <-. tauto.
  - unfold bkt in R. destruct (nth_error (heap s) p) as [[d|]|]; try discriminate. injection R as <-. destruct W as (W1 & W2 & W3 & W4). auto.
Qed.

(** ---- sizes ---- *)
Theorem C112_sizes : forall s h, reachable s -> alive s h ->
  exists n sz, 0 < sz /\
    step s (Size h) = Some (s, ONum n) /\ step s (NumBytes h) = Some (s, ONum (n * sz)) /\
    (forall b, step s (AsBytes h) = Some (s, OBytes b) -> N.of_nat (length b) = n * sz) /\
    (forall l, step s (AsDouble h) = Some (s, ODoubles l) -> N.of_nat (length l) = n).
Proof.
  intros s h R [x G]. pose proof (reach_wf s R) as W. exists (o_size x), (o_sz x).
  assert (0 < o_sz x /\ o_size x * o_sz x <= max_array) as [Hs Hm].
  { pose proof G as G'. apply get_nth in G'. destruct G' as [G' N0]. specialize (W h x G'). destruct x; [| |congruence]; cbn in *; tauto. }
  refine (conj Hs (conj _ (conj _ (conj _ _)))).
  - cbn. rewrite G. reflexivity.
  - cbn. rewrite G. unfold o_num_bytes. rewrite mod_small_bytes by exact Hm. reflexivity.
  - intros b H. apply as_bytes_step in H; [|exact W]. destruct H as (x' & G' & Rw). rewrite G in G'. injection G' as <-. apply (raw_len s h x b W G Rw).
  - intros l H. cbn in H. rewrite G in H. unfold as_double in H. destruct (o_raw s x) as [d|]; [|discriminate].
    destruct (doubles conv d (o_sz x) 0 (N.to_nat (o_size x))) as [r|] eqn:E; [|discriminate]. injection H as <-.
    assert (forall n i r, doubles conv d (o_sz x) i n = Some r -> length r = n) as Len.
    { clear. induction n as [|n IH]; intros i r E; cbn in E; [injection E as <-; reflexivity|].
      destruct ((i + 1) * o_sz x <=? N.of_nat (length d)); [|discriminate]. destruct (determinate _); [|discriminate].
      destruct (doubles conv d (o_sz x) (i + 1) n) as [r'|] eqn:E'; [|discriminate]. injection E as <-. cbn. f_equal. eauto. }
    rewrite (Len _ _ _ E). lia.
Qed.
Print Assumptions C112_sizes.

(** What making, copying and every other operation do to sizes. *)
Definition sizes (s : st) (h : nat) : option (N * N) := match get s h with Some x => Some (o_size x, o_sz x) | None => None end.
Lemma sizes_api s h n b : reachable s -> step s (Size h) = Some (s, ONum n) -> step s (NumBytes h) = Some (s, ONum b) -> exists sz, sizes s h = Some (n, sz) /\ b = n * sz.
Proof.
  intros R H1 H2. unfold sizes. cbn in H1, H2. destruct (get s h) as [x|] eqn:G; [|discriminate]. injection H1 as <-. injection H2 as <-.
  eexists; split; [reflexivity|]. unfold o_num_bytes. apply mod_small_bytes. pose proof (reach_wf s R) as W. apply get_nth in G. destruct G as [G N0]. specialize (W h x G). destruct x; [| |congruence]; cbn in *; tauto.
Qed.
Lemma get_new s x h : get s h <> None -> get (new_obj s x) h = get s h.
Proof. unfold get, new_obj. cbn. intros H. rewrite nth_error_app1; [reflexivity|]. apply nth_error_Some. intros E. rewrite E in H. auto. Qed.
Lemma get_snoc hp s x h : get s h <> None -> get (St hp (objs s ++ [x])) h = get s h.
Proof. unfold get. cbn. intros H. rewrite nth_error_app1; [reflexivity|]. apply nth_error_Some. intros E. rewrite E in H. auto. Qed.
Lemma get_last hp s x : x <> Dead -> get (St hp (objs s ++ [x])) (length (objs s)) = Some x.
Proof. intros N0. apply get_nth. cbn. rewrite nth_error_app2, Nat.sub_diag by lia. auto. Qed.
Lemma get_lupd hp s i x h : get (St hp (lupd (objs s) i x)) h = if (i =? h)%nat && (i <? length (objs s))%nat then match x with Dead => None | _ => Some x end else get s h.
Proof.
  unfold get. cbn [objs]. destruct (Nat.eqb_spec i h) as [->|N0]; cbn [andb].
  - destruct (Nat.lt_ge_cases h (length (objs s))) as [Lt|Ge].
    + rewrite (nth_lupd_eq _ _ _ Lt). destruct (Nat.ltb_spec h (length (objs s))) as [_|Ge]; [|lia]. destruct x; reflexivity.
    + destruct (Nat.ltb_spec h (length (objs s))) as [Lt|_]; [lia|]. replace (lupd (objs s) h x) with (objs s); [reflexivity|]. revert h Ge. induction (objs s) as [|a l IH]; intros [|h] Ge; cbn in *; try reflexivity; try lia. f_equal. apply IH. lia.
  - rewrite nth_lupd_ne by exact N0. reflexivity.
Qed.
Lemma get_lt s h x : get s h = Some x -> (h < length (objs s))%nat.
Proof. intros G. apply get_nth in G. apply nth_error_Some. destruct G as [-> _]. discriminate. Qed.

(** A new descriptor has the size asked for; a copy has the size of the
    original; only destruction and assignment to it change an object's size. *)
Theorem C112_sizes_made : forall s s' h n sz, reachable s ->
  (step s (NewFixed sz n) = Some (s', OHandle h) -> step s' (Size h) = Some (s', ONum n) /\ step s' (NumBytes h) = Some (s', ONum (n * sz))) /\
  (step s (NewDyn sz n) = Some (s', OHandle h) -> step s' (Size h) = Some (s', ONum n) /\ step s' (NumBytes h) = Some (s', ONum (n * sz))) /\
  (forall h0, step s (CopyCtor h0) = Some (s', OHandle h) -> forall k, (step s (Size h0) = Some (s, ONum k) -> step s' (Size h) = Some (s', ONum k)) /\ (step s (NumBytes h0) = Some (s, ONum k) -> step s' (NumBytes h) = Some (s', ONum k))) /\
  (forall o r, step s o = Some (s', r) -> o <> Destroy h -> (forall h2, o <> Assign h h2) -> forall k,
     (step s (Size h) = Some (s, ONum k) -> step s' (Size h) = Some (s', ONum k)) /\ (step s (NumBytes h) = Some (s, ONum k) -> step s' (NumBytes h) = Some (s', ONum k))).
Proof.
  intros s s' h n sz R. refine (conj _ (conj _ (conj _ _))).
  - cbn [DescModel.step]. destruct ((0 <? sz) && (0 <? n) && (n * sz <=? max_array)) eqn:E; [|intros H; discriminate H]. intros H. injection H as <- <-.
    apply andb_true_iff in E. destruct E as [_ E]. apply N.leb_le in E.
    unfold new_obj. rewrite get_last by discriminate. unfold o_num_bytes. cbn [o_size o_sz]. rewrite mod_small_bytes by exact E. auto.
  - cbn [DescModel.step]. destruct (0 <? sz); cbn [negb]; [|intros H; discriminate H]. destruct (n * sz <=? max_array) eqn:E; [|intros H; discriminate H]. apply N.leb_le in E. intros H. injection H as <- <-.
    rewrite get_last by discriminate. unfold o_num_bytes. cbn [o_size o_sz]. rewrite mod_small_bytes by exact E. auto.
  - intros h0. cbn [DescModel.step]. destruct (get s h0) as [x|] eqn:G; [|intros H; discriminate H]. intros H k. injection H as <- <-.
    unfold new_obj. rewrite get_last by (apply get_nth in G; tauto). split; intros E; injection E as ->; reflexivity.
  - intros o r H Nd Na.
    assert (sizes s h <> None -> sizes s' h = sizes s h) as Same.
    { intros Hn. assert (exists x, get s h = Some x) as [x0 G0]. { unfold sizes in Hn. destruct (get s h); [eauto|congruence]. }
      clear Hn. apply step_cases in H.
      destruct H as [->|[(sz' & n' & -> & Hs & Hm & ->)|[(sz' & l & -> & Hs & Hm & ->)|[(h' & x & -> & G & ->)|[(h1 & h2 & x & y & -> & G1 & G2 & -> & T)|[(h' & i & v & sz' & n' & d & -> & G & Lv & B & ->)|[(h' & i & v & sz' & p & l & d & -> & G & Hp & Lv & B & ->)|[(h' & sz' & p & l & b & -> & G & Hp & ->)|(h' & sz' & n' & d & -> & G & ->)]]]]]]]]; unfold sizes, new_obj, set_obj; try reflexivity.
      - rewrite get_snoc by congruence. reflexivity.
      - rewrite get_snoc by congruence. reflexivity.
      - rewrite get_snoc by congruence. reflexivity.
      - rewrite get_lupd. destruct (Nat.eqb_spec h1 h) as [->|]; [exfalso; eapply Na; reflexivity|reflexivity].
      - rewrite get_lupd. destruct (Nat.eqb_spec h' h) as [->|]; [|reflexivity]. destruct (Nat.ltb_spec h (length (objs s))); [|reflexivity]. cbn. rewrite G. reflexivity.
      - rewrite get_lupd. destruct (Nat.eqb_spec h' h) as [->|]; [congruence|reflexivity].
      - rewrite get_lupd. destruct (Nat.eqb_spec h' h) as [->|]; [congruence|reflexivity]. }
    unfold sizes in Same. intros k. cbn [DescModel.step]. destruct (get s h) as [x|] eqn:G; [|split; intros X; discriminate X].
    destruct (get s' h) as [x'|] eqn:G'; [|exfalso; specialize (Same ltac:(discriminate)); discriminate].
    specialize (Same ltac:(discriminate)). injection Same as E1 E2. unfold o_num_bytes. rewrite E1, E2. split; intros E; injection E as <-; reflexivity.
Qed.
Print Assumptions C112_sizes_made.

(** ---- contents ---- *)
Lemma raw_write s h i v s' : wf s -> step s (Write h i v) = Some (s', ODone) ->
  forall h' x b, get s h' = Some x -> o_raw s x = Some b ->
  exists x', get s' h' = Some x' /\ o_sz x' = o_sz x /\
  ((h' = h \/ shares s h h') -> o_raw s' x' = Some (splice b (i * N.of_nat (length v)) (map Some v))) /\
  (h' <> h -> ~ shares s h h' -> o_raw s' x' = Some b).
Proof.
  intros W H h' x b G Rb. cbn [DescModel.step] in H. destruct (get s h) as [y|] eqn:Gy; [|discriminate].
  destruct (N.eqb_spec (N.of_nat (length v)) (o_sz y)) as [Ev|]; cbn [negb] in H; [|discriminate]. rewrite Ev.
  destruct (o_raw s y) as [d|] eqn:Rd; [|discriminate]. destruct ((i + 1) * o_sz y <=? N.of_nat (length d)); [|discriminate].
  destruct y as [sz n dd|sz p l|]; [| |discriminate]; injection H as <-.
  - cbn [o_raw] in Rd. injection Rd as ->. cbn [o_sz] in *. unfold set_obj. rewrite get_lupd.
    assert (~ shares s h h') as Ns. { intros (a & b0 & c & d0 & e & X & _). congruence. }
    destruct (Nat.eqb_spec h h') as [<-|Nh]; cbn [andb].
    + rewrite Gy in G. injection G as <-. cbn in Rb. injection Rb as <-. destruct (Nat.ltb_spec h (length (objs s))) as [_|Ge]; [|apply get_lt in Gy; lia].
      eexists. split; [reflexivity|]. split; [reflexivity|]. split; [intros _; reflexivity|congruence].
    + exists x. split; [exact G|]. split; [reflexivity|]. split; [intros [->|Sh]; [congruence|contradiction]|]. intros _ _. destruct x; cbn [o_raw] in *; auto.
  - exists x. unfold get at 1. cbn [objs]. split; [exact G|]. split; [reflexivity|]. cbn [o_sz o_raw] in *.
    unfold bkt in Rd. destruct (nth_error (heap s) p) as [[d1|]|] eqn:Hp; try discriminate. injection Rd as ->.
    assert (p < length (heap s))%nat as Lt by (apply nth_error_Some; congruence).
    split.
    + intros Hs. assert (exists sz' l', x = DDyn sz' p l') as (sz' & l' & ->).
      { destruct Hs as [->|(a & p1 & c & d0 & e & X & Y)]; [rewrite Gy in G; injection G as <-; eauto|]. rewrite Gy in X. injection X as <- <- <-. rewrite G in Y. injection Y as ->. eauto. }
      cbn [o_raw] in *. unfold bkt in *. cbn [heap]. rewrite Hp in Rb. injection Rb as ->. rewrite nth_lupd_eq by exact Lt. reflexivity.
    + intros Nh Ns. destruct x as [|sz' p' l'|]; cbn [o_raw] in *; auto.
      destruct (Nat.eq_dec p p') as [<-|Np]; [exfalso; apply Ns; do 5 eexists; split; eassumption|].
      unfold bkt in *. cbn [heap]. rewrite nth_lupd_ne by exact Np. exact Rb.
Qed.
(** Writing element i puts its bytes at i*sizeof(T) of as_bytes() of the object
    (and of those sharing its array), and changes nothing else anywhere. *)
Theorem C112_write : forall s h i v s', reachable s -> step s (Write h i v) = Some (s', ODone) ->
  forall h' b, step s (AsBytes h') = Some (s, OBytes b) ->
  ((h' = h \/ shares s h h') -> step s' (AsBytes h') = Some (s', OBytes (splice b (i * N.of_nat (length v)) (map Some v)))) /\
  (h' <> h -> ~ shares s h h' -> step s' (AsBytes h') = Some (s', OBytes b)).
Proof.
  intros s h i v s' R H h' b Hb. pose proof (reach_wf s R) as W. pose proof (step_wf s _ _ _ W H) as W'.
  apply as_bytes_step in Hb; [|exact W]. destruct Hb as (x & G & Rb).
  destruct (raw_write s h i v s' W H h' x b G Rb) as (x' & G' & _ & A & B).
  split; intros; (apply as_bytes_step; [exact W'|]); exists x'; auto.
Qed.
Print Assumptions C112_write.
(** A write is defined exactly inside the array; afterwards the element reads
    back and the others are as before. *)
Lemma skipn_add {A} (l : list A) a b : skipn a (skipn b l) = skipn (b + a) l.
Proof. revert l; induction b as [|b IH]; intros l; [reflexivity|]. destruct l; [cbn; apply skipn_nil|]. cbn. apply IH. Qed.
Lemma chunk_splice {A} (b : list A) (sz i : N) (v : list A) : N.of_nat (length v) = sz -> 0 < sz -> (i + 1) * sz <= N.of_nat (length b) ->
  chunk (splice b (i * sz) v) sz i = v /\ forall j, j <> i -> chunk (splice b (i * sz) v) sz j = chunk b sz j.
Proof.
  intros Lv P B. unfold chunk, splice.
  assert (length (firstn (N.to_nat (i * sz)) b) = N.to_nat (i * sz)) as Lf by (rewrite firstn_length; lia).
  split.
  - rewrite skipn_app, Lf, Nat.sub_diag. rewrite (skipn_all2 (firstn _ b)) by lia. cbn [app skipn].
    rewrite firstn_app. replace (N.to_nat sz - length v)%nat with 0%nat by lia. rewrite firstn_O, app_nil_r. apply firstn_all2. lia.
  - intros j Nj. destruct (N.lt_ge_cases j i) as [Lt|Ge].
    + assert ((j + 1) * sz <= i * sz) by (apply N.mul_le_mono_r; lia).
      rewrite skipn_app, Lf. replace (N.to_nat (j * sz) - N.to_nat (i * sz))%nat with 0%nat by lia. cbn [skipn].
      rewrite firstn_app. rewrite skipn_length, Lf. replace (N.to_nat sz - (N.to_nat (i * sz) - N.to_nat (j * sz)))%nat with 0%nat by lia. rewrite firstn_O, app_nil_r.
      rewrite skipn_firstn_comm, firstn_firstn. f_equal. lia.
    + assert ((i + 1) * sz <= j * sz) by (apply N.mul_le_mono_r; lia).
      rewrite app_assoc, skipn_app, app_length, Lf. rewrite skipn_all2 by (rewrite app_length, Lf; lia). cbn [app].
      f_equal. rewrite skipn_add. f_equal. lia.
Qed.
Lemma chunk_map {A B} (f : A -> B) b sz j : chunk (map f b) sz j = map f (chunk b sz j).
Proof. unfold chunk. rewrite <- firstn_map, <- skipn_map. reflexivity. Qed.
Theorem C112_element : forall s h i v b n, reachable s -> step s (AsBytes h) = Some (s, OBytes b) -> step s (Size h) = Some (s, ONum n) ->
  N.of_nat (length b) = n * N.of_nat (length v) -> v <> [] ->
  (i < n <-> exists s', step s (Write h i v) = Some (s', ODone)) /\
  (forall s', step s (Write h i v) = Some (s', ODone) -> exists b', step s' (AsBytes h) = Some (s', OBytes b') /\
     length b' = length b /\ chunk b' (N.of_nat (length v)) i = map Some v /\ forall j, j <> i -> chunk b' (N.of_nat (length v)) j = chunk b (N.of_nat (length v)) j).
Proof.
  intros s h i v b n R Hb Hn Lb Nv. pose proof (reach_wf s R) as W.
  assert (0 < N.of_nat (length v)) as Pv by (destruct v; [congruence|cbn [length]; lia]).
  pose proof Hb as Hb'. apply as_bytes_step in Hb'; [|exact W]. destruct Hb' as (x & G & Rb).
  cbn [DescModel.step] in Hn. rewrite G in Hn. injection Hn as Hn. subst n.
  destruct (raw_len s h x b W G Rb) as (L1 & L2 & L3).
  assert (o_size x = 0 \/ o_sz x = N.of_nat (length v)) as Esz by (rewrite L1 in Lb; nia).
  assert (i < o_size x <-> exists s', step s (Write h i v) = Some (s', ODone)) as E.
  { split.
    - intros Lt. destruct Esz as [Z|Esz]; [lia|]. cbn [DescModel.step]. rewrite G, Rb, Esz, N.eqb_refl. cbn [negb].
      assert ((i + 1) * N.of_nat (length v) <=? N.of_nat (length b) = true) as ->. { apply N.leb_le. rewrite Lb. apply N.mul_le_mono_r. lia. }
      destruct x; eauto. discriminate.
    - intros [s' H]. cbn [DescModel.step] in H. rewrite G, Rb in H. destruct (N.of_nat (length v) =? o_sz x); cbn [negb] in H; [|discriminate].
      destruct ((i + 1) * o_sz x <=? N.of_nat (length b)) eqn:Eb; [|discriminate]. apply N.leb_le in Eb. rewrite L1 in Eb.
      apply N.mul_le_mono_pos_r in Eb; [lia|exact L3]. }
  split; [exact E|]. intros s' H. assert (i < o_size x) as Lt by (apply E; eauto). destruct Esz as [Z|Esz]; [lia|].
  destruct (C112_write s h i v s' R H h b Hb) as [A _]. specialize (A (or_introl eq_refl)). eexists. split; [exact A|].
  assert ((i + 1) * N.of_nat (length v) <= N.of_nat (length b)) as B by (rewrite Lb; apply N.mul_le_mono_r; lia).
  split; [apply splice_len; rewrite map_length; lia|].
  apply chunk_splice; [rewrite map_length; reflexivity|exact Pv|exact B].
Qed.
Print Assumptions C112_element.

(** Nothing but a write, an assignment and destruction changes what any
    descriptor reads; a copy reads the same as the original. *)
Theorem C112_others_keep : forall s o s' r h b, reachable s -> step s o = Some (s', r) -> step s (AsBytes h) = Some (s, OBytes b) ->
  (forall i v k, o <> Write k i v) -> (forall k, o <> Destroy k) -> (forall k, o <> Assign h k) ->
  step s' (AsBytes h) = Some (s', OBytes b) /\
  (forall k, o = CopyCtor h -> r = OHandle k -> step s' (AsBytes k) = Some (s', OBytes b)).
Proof.
  intros s o s' r h b R H Hb Nw Nd Na. pose proof (reach_wf s R) as W. pose proof (step_wf s _ _ _ W H) as W'.
  apply as_bytes_step in Hb; [|exact W]. destruct Hb as (x & G & Rb).
  assert (forall hp, (forall p, bkt s p <> None -> bkt (St hp []) p = bkt s p) -> forall o', o_raw (St hp o') x = Some b) as Hraw.
  { intros hp K o'. destruct x as [|sz p l|]; cbn [o_raw] in *; auto. unfold bkt in *. cbn [heap] in *. rewrite K; [exact Rb|]. rewrite Rb. discriminate. }
  split.
  - apply as_bytes_step; [exact W'|]. clear W'. apply step_cases in H.
    destruct H as [->|[(sz' & n' & -> & Hs & Hm & ->)|[(sz' & l & -> & Hs & Hm & ->)|[(h' & y & -> & Gy & ->)|[(h1 & h2 & y & z & -> & G1 & G2 & -> & T)|[(h' & i & v & sz' & n' & d & -> & _)|[(h' & i & v & sz' & p & l & d & -> & _)|[(h' & sz' & p & l & b' & -> & _)|(h' & sz' & n' & d & -> & _)]]]]]]]].
    + eauto.
    + exists x. unfold new_obj. rewrite get_snoc by congruence. split; [exact G|]. apply Hraw. unfold bkt. cbn. auto.
    + exists x. rewrite get_snoc by congruence. split; [exact G|]. apply Hraw. unfold bkt. cbn. intros p Hp. rewrite nth_error_app1; [reflexivity|]. apply nth_error_Some. intros E. rewrite E in Hp. auto.
    + exists x. unfold new_obj. rewrite get_snoc by congruence. split; [exact G|]. apply Hraw. unfold bkt. cbn. auto.
    + exists x. unfold set_obj. rewrite get_lupd. destruct (Nat.eqb_spec h1 h) as [->|]; [exfalso; eapply Na; reflexivity|]. cbn [andb]. split; [exact G|]. apply Hraw. unfold bkt. cbn. auto.
    + exfalso; eapply Nw; reflexivity.
    + exfalso; eapply Nw; reflexivity.
    + exfalso; eapply Nd; reflexivity.
    + exfalso; eapply Nd; reflexivity.
  - intros k -> ->. apply as_bytes_step; [exact W'|]. cbn [DescModel.step] in H. rewrite G in H. injection H as <- <-.
    exists x. unfold new_obj. rewrite get_last by (apply get_nth in G; tauto). split; [reflexivity|]. apply Hraw. unfold bkt. cbn. auto.
Qed.
Print Assumptions C112_others_keep.
(** Assigning makes the target read like the source. *)
Theorem C112_assign_reads : forall s h1 h2 s' b, reachable s -> step s (Assign h1 h2) = Some (s', ODone) -> step s (AsBytes h2) = Some (s, OBytes b) ->
  step s' (AsBytes h1) = Some (s', OBytes b) /\ step s' (AsBytes h2) = Some (s', OBytes b).
Proof.
  intros s h1 h2 s' b R H Hb. pose proof (reach_wf s R) as W. pose proof (step_wf s _ _ _ W H) as W'.
  apply as_bytes_step in Hb; [|exact W]. destruct Hb as (x & G & Rb).
  assert (s' = set_obj s h1 x /\ exists y, get s h1 = Some y) as [-> [y Gy]].
  { cbn [DescModel.step] in H. destruct (get s h1) as [y|]; [|discriminate]. rewrite G in H.
    destruct y as [sz n d|sz p l|]; [| |destruct x; discriminate]; destruct x as [sz' n' d'|sz' p' l'|]; try discriminate.
    - destruct ((sz =? sz') && (n =? n')) eqn:E; [|discriminate]. apply andb_true_iff in E. destruct E as [E1 E2]. apply N.eqb_eq in E1, E2. subst. injection H as <-. split; [reflexivity|eauto].
    - destruct (sz =? sz') eqn:E; [|discriminate]. apply N.eqb_eq in E. subst. injection H as <-. split; [reflexivity|eauto]. }
  assert (o_raw (set_obj s h1 x) x = Some b) as Rx by (destruct x; exact Rb).
  assert (x <> Dead) as Nx by (apply get_nth in G; tauto).
  assert (get (set_obj s h1 x) h1 = Some x) as G1. { unfold set_obj. rewrite get_lupd, Nat.eqb_refl. destruct (Nat.ltb_spec h1 (length (objs s))) as [_|Ge]; [|apply get_lt in Gy; lia]. cbn [andb]. destruct x; congruence. }
  split; (apply as_bytes_step; [exact W'|]); exists x; (split; [|exact Rx]); [exact G1|].
  unfold set_obj. rewrite get_lupd. destruct (Nat.eqb_spec h1 h2) as [->|]; [|exact G]. destruct (_ <? _)%nat; cbn [andb]; [|exact G]. destruct x; congruence.
Qed.
Print Assumptions C112_assign_reads.

(** ---- as_double ---- *)
Lemma determinate_some l v : determinate l = Some v <-> l = map Some v.
Proof.
  revert v; induction l as [|[c|] l IH]; intros v; cbn.
  - split; [intros H; injection H as <-; reflexivity|]. destruct v; [reflexivity|discriminate].
  - destruct (determinate l) as [t|]; split.
    + intros H; injection H as <-. cbn. f_equal. apply IH. reflexivity.
    + destruct v as [|a v]; [discriminate|]. cbn. intros H. injection H as <- H. f_equal. f_equal. apply IH in H. congruence.
    + discriminate.
    + destruct v as [|a v]; [discriminate|]. cbn. intros H. injection H as _ H. apply IH in H. discriminate.
  - split; [discriminate|]. destruct v; discriminate.
Qed.
Lemma determinate_none l : determinate l = None <-> In None l.
Proof.
  induction l as [|[c|] l IH]; cbn; [split; [discriminate|tauto]| |tauto].
  destruct (determinate l); split; try discriminate.
  - intros [H|H]; [discriminate|]. apply IH in H. discriminate.
  - intros _. right. apply IH. reflexivity.
  - reflexivity.
Qed.
Lemma doubles_spec d sz n : 0 < sz -> forall i, (i + N.of_nat n) * sz <= N.of_nat (length d) ->
  (forall l, doubles conv d sz i n = Some l <-> length l = n /\ forall j, (j < n)%nat -> exists v, chunk d sz (i + N.of_nat j) = map Some v /\ nth_error l j = Some (conv v)) /\
  (doubles conv d sz i n = None <-> exists j, (j < n)%nat /\ In None (chunk d sz (i + N.of_nat j))).
Proof.
  intros P. induction n as [|n IH]; intros i B; cbn [doubles].
  - split.
    + intros l. split; [intros H; injection H as <-; split; [reflexivity|intros; lia]|]. intros [H _]. destruct l; [reflexivity|discriminate].
    + split; [discriminate|intros (j & Hj & _); lia].
  - assert ((i + 1) * sz <=? N.of_nat (length d) = true) as ->. { apply N.leb_le. eapply N.le_trans; [|exact B]. apply N.mul_le_mono_r. lia. }
    destruct (IH (i + 1)) as [A C]; [replace (i + 1 + N.of_nat n) with (i + N.of_nat (S n)) by lia; exact B|].
    fold (chunk d sz i). change (sub d (i * sz) sz) with (chunk d sz i). destruct (determinate (chunk d sz i)) as [v|] eqn:Dv.
    + destruct (doubles conv d sz (i + 1) n) as [r|] eqn:Dr.
      * split.
        -- intros l. split.
           ++ intros H. injection H as <-. destruct (proj1 (A r) eq_refl) as [Lr Hr]. split; [cbn; congruence|].
              intros [|j] Hj.
              ** exists v. rewrite N.add_0_r. split; [apply determinate_some; exact Dv|reflexivity].
              ** destruct (Hr j ltac:(lia)) as (w & Hw & Hn). exists w. replace (i + N.of_nat (S j)) with (i + 1 + N.of_nat j) by lia. auto.
           ++ intros [Ll Hl]. destruct l as [|a l]; [discriminate|]. cbn in Ll. f_equal.
              destruct (Hl 0%nat ltac:(lia)) as (w & Hw & Hn). rewrite N.add_0_r in Hw. cbn in Hn. injection Hn as ->.
              assert (w = v) as ->. { apply determinate_some in Hw. congruence. } f_equal.
              assert (Some r = Some l) as E; [|congruence]. apply A. split; [congruence|].
              intros j Hj. destruct (Hl (S j) ltac:(lia)) as (w' & Hw' & Hn'). exists w'. replace (i + 1 + N.of_nat j) with (i + N.of_nat (S j)) by lia. auto.
        -- split; [discriminate|]. intros (j & Hj & Hi). destruct j as [|j].
           ++ rewrite N.add_0_r in Hi. apply determinate_none in Hi. congruence.
           ++ assert (Some r = None) as X; [|discriminate]. apply C. exists j. split; [lia|]. replace (i + 1 + N.of_nat j) with (i + N.of_nat (S j)) by lia. exact Hi.
      * split.
        -- intros l. split; [discriminate|]. intros [Ll Hl]. exfalso. destruct (proj1 C eq_refl) as (j & Hj & Hi).
           destruct (Hl (S j) ltac:(lia)) as (w & Hw & _). replace (i + N.of_nat (S j)) with (i + 1 + N.of_nat j) in Hw by lia. rewrite Hw in Hi. apply in_map_iff in Hi. destruct Hi as (c & X & _). discriminate.
        -- split; [|reflexivity]. intros _. destruct (proj1 C eq_refl) as (j & Hj & Hi). exists (S j). split; [lia|]. replace (i + N.of_nat (S j)) with (i + 1 + N.of_nat j) by lia. exact Hi.
    + apply determinate_none in Dv. split.
      * intros l. split; [discriminate|]. intros [Ll Hl]. exfalso. destruct (Hl 0%nat ltac:(lia)) as (w & Hw & _). rewrite N.add_0_r in Hw. rewrite Hw in Dv. apply in_map_iff in Dv. destruct Dv as (c & X & _). discriminate.
      * split; [|reflexivity]. intros _. exists 0%nat. split; [lia|]. rewrite N.add_0_r. exact Dv.
Qed.
(** as_double() is the elements converted one by one; it is defined exactly if
    every byte has been written. *)
Theorem C112_as_double : forall s h b n sz, reachable s -> step s (AsBytes h) = Some (s, OBytes b) ->
  step s (Size h) = Some (s, ONum n) -> step s (NumBytes h) = Some (s, ONum (n * sz)) -> 0 < n ->
  (forall l, step s (AsDouble h) = Some (s, ODoubles l) <->
     N.of_nat (length l) = n /\ forall j, (j < length l)%nat -> exists v, chunk b sz (N.of_nat j) = map Some v /\ nth_error l j = Some (conv v)) /\
  (step s (AsDouble h) = None <-> exists j, j < n /\ In None (chunk b sz j)).
Proof.
  intros s h b n sz R Hb Hn Hs Pn. pose proof (reach_wf s R) as W. apply as_bytes_step in Hb; [|exact W]. destruct Hb as (x & G & Rb).
  destruct (raw_len s h x b W G Rb) as (L1 & L2 & L3). cbn [DescModel.step] in *. rewrite G in Hn, Hs. injection Hn as <-. injection Hs as Hs.
  unfold o_num_bytes in Hs. rewrite mod_small_bytes in Hs by exact L2. assert (sz = o_sz x) as -> by (apply N.mul_cancel_l in Hs; [auto|lia]).
  rewrite G. unfold as_double. rewrite Rb.
  destruct (doubles_spec b (o_sz x) (N.to_nat (o_size x)) L3 0) as [A C]; [rewrite Nnat.N2Nat.id, N.add_0_l; lia|].
  split.
  - intros l. transitivity (doubles conv b (o_sz x) 0 (N.to_nat (o_size x)) = Some l).
    + destruct (doubles conv b (o_sz x) 0 (N.to_nat (o_size x))); split; intros H; try discriminate; injection H as <-; reflexivity.
    + rewrite A. split; intros [Ll Hl]; (split; [lia|]); intros j Hj; destruct (Hl j ltac:(lia)) as (v & X & Y); exists v; split; auto.
  - transitivity (doubles conv b (o_sz x) 0 (N.to_nat (o_size x)) = None).
    + destruct (doubles conv b (o_sz x) 0 (N.to_nat (o_size x))); split; intros H; try discriminate; reflexivity.
    + rewrite C. split; intros (j & Hj & Hi).
      * exists (N.of_nat j). split; [lia|exact Hi].
      * exists (N.to_nat j). rewrite Nnat.N2Nat.id. split; [lia|exact Hi].
Qed.
Print Assumptions C112_as_double.
End C.
