(** HashProofs4.v -- C122: erasing by iterators, and clearing. *)
From Coq Require Import List NArith Bool Arith Lia Permutation.
Import ListNotations.
From Verif Require Import Base HashModel HashProofs HashProofs2 HashProofs3.

Section Proofs.
Context {V K : Type}.
Variable key : V -> K.
Variable hash : K -> N.
Variable keq : K -> K -> bool.
Variable throws : nat -> bool.
Hypothesis keq_refl : forall a, keq a a = true.
Hypothesis keq_sym : forall a b, keq a b = true -> keq b a = true.
Hypothesis keq_trans : forall a b c, keq a b = true -> keq b c = true -> keq a c = true.
Hypothesis keq_hash : forall a b, keq a b = true -> hash a = hash b.
Notation el := (nat * V)%type.
Notation ids := (map (@fst nat V)).
Notation kof := (kof key).
Notation alike := (alike key keq).
Notation grouped := (grouped key keq).
Notation slot := (slot hash).
Notation st := (@st V).
Notation hp := (list (option (@node V))).
Notation Inv := (Inv key hash keq).
Ltac red_st := cbn [with_heap with_bks with_num less tick heap bks num clock].

Lemma concat_split {A} (B : list (list A)) : forall X y Z, concat B = X ++ y :: Z ->
  exists B1 a b B2, B = B1 ++ (a ++ y :: b) :: B2 /\ X = concat B1 ++ a /\ Z = b ++ concat B2.
Proof.
  induction B as [|l B IH]; intros X y Z E; [destruct X; discriminate|]. cbn [concat] in E. revert X E. induction l as [|u l IHl]; intros X E.
  - cbn [app] in E. destruct (IH X y Z E) as (B1 & a & b & B2 & -> & -> & ->). exists ([] :: B1), a, b, B2. auto.
  - destruct X as [|w X]; cbn [app] in E.
    + injection E as -> E. exists [], [], l, B. auto.
    + injection E as -> E. destruct (IHl X E) as (B1 & a & b & B2 & E1 & -> & ->). destruct B1 as [|l1 B1]; cbn [app] in E1.
      * injection E1 as -> ->. exists [], (w :: a), b, B2. auto.
      * injection E1 as -> ->. exists ((w :: l1) :: B1), a, b, B2. auto.
Qed.
Lemma nth_mid {A} (a : list A) x b : nth_error (a ++ x :: b) (length a) = Some x.
Proof. rewrite nth_error_app2 by lia. rewrite Nat.sub_diag. reflexivity. Qed.
Lemma lupd_mid {A} (a : list A) x b y : lupd (a ++ x :: b) (length a) y = a ++ y :: b.
Proof. induction a as [|z a IH]; [reflexivity|]. cbn. f_equal. exact IH. Qed.
Lemma mid_slot s B1 l B2 x : Inv s (B1 ++ l :: B2) -> In x l -> slot (length (B1 ++ l :: B2)) (kof x) = length B1.
Proof. intros I H. apply (i_placed _ _ _ _ _ I _ l x); [apply nth_mid|exact H]. Qed.
Lemma nodup_drop_mid (a m b : list el) : NoDup (ids (a ++ m ++ b)) -> NoDup (ids (a ++ b)).
Proof.
  rewrite !map_app. intro H. apply nodup_app; [apply (nodup_l _ _ H)|apply nodup_r in H; apply nodup_r in H; exact H|]. intros x H1 H2. apply (nodup_disj _ _ x H H1). rewrite in_app_iff. right. exact H2.
Qed.

(** ---- one element ---- *)
Lemma unlink_post x v r2 r1 : forall f s p a cur vc, seg (heap s) p (a ++ (cur, vc) :: r1 ++ (x, v) :: r2) None -> NoDup (ids (a ++ (cur, vc) :: r1 ++ (x, v) :: r2)) -> length r1 < f -> 0 < num s ->
  post (unlink f s cur (hd_ptr (r1 ++ (x, v) :: r2)) x) (fun s' _ => Done s s' p (a ++ (cur, vc) :: r1 ++ (x, v) :: r2) (a ++ (cur, vc) :: r1 ++ r2)) (fun _ => False).
Proof.
  induction r1 as [|[y w] r1 IH]; intros f s p a cur vc Sg Nd F Pos; (destruct f as [|f]; [lia|]); cbn [unlink hd_ptr app] in *.
  - destruct (drop_node s p a cur vc x v r2 Sg Nd Pos) as (n & q & En & Eq & En2 & D & Hn). apply post_bind. eapply post_load; [exact En|]. rewrite Nat.eqb_refl. cbn [n_next]. apply post_bind. eapply post_next; [exact Eq|]. apply post_bind. eapply post_delete; [exact En2|]. cbn [post]. exact D.
  - assert (Nx : Nat.eqb y x = false).
    { apply Nat.eqb_neq. intros ->. rewrite map_app in Nd. apply nodup_r in Nd. cbn [map fst] in Nd. inversion Nd as [|z m _ N2]; subst. inversion N2 as [|z2 m2 N3 _]; subst. apply N3. rewrite map_app, in_app_iff. right. left. reflexivity. }
    pose proof Sg as Sg0. apply seg_app in Sg0. destruct Sg0 as (m & _ & (_ & q & _ & (_ & n & En & SgB))). apply post_bind. eapply post_load; [exact En|]. rewrite Nx. cbn [n_next]. rewrite (seg_hd _ _ _ SgB).
    specialize (IH f s p (a ++ [(cur, vc)]) y w). rewrite !snoc_cons in IH. apply IH; [exact Sg|exact Nd|cbn in F; lia|exact Pos].
Qed.
(** Some consecutive elements have gone. *)
Definition removed (s : st) (B : list (list el)) (s' : st) (B' : list (list el)) (X M Y : list el) : Prop :=
  Inv s' B' /\ Step s B s' B' /\ length B' = length B /\ concat B = X ++ M ++ Y /\ concat B' = X ++ Y /\ num s' + length M = num s.
Lemma erase_it_post s B X x v Y : Inv s B -> concat B = X ++ (x, v) :: Y -> length (concat B) <= num s ->
  post (erase_it key hash throws s (Some x)) (fun s' _ => exists B', removed s B s' B' X [(x, v)] Y) (sim s).
Proof.
  intros I E Num. destruct (concat_split B X (x, v) Y E) as (B1 & a & b & B2 & -> & -> & ->).
  assert (Pos : 0 < num s) by (rewrite E, app_length in Num; cbn [length] in Num; lia).
  assert (Hx : In (x, v) (a ++ (x, v) :: b)) by (rewrite in_app_iff; right; left; reflexivity).
  unfold erase_it. destruct (inv_value key hash keq s _ x v I) as [n En]. { rewrite concat_app. cbn [concat]. rewrite !in_app_iff. cbn. tauto. }
  apply post_bind. eapply post_load; [exact En|]. cbn [n_val]. apply post_bind. pose proof (inv_length key hash keq s _ I) as Lb.
  apply post_slot; [rewrite Lb, app_length; cbn; lia| |apply sim_tick]. rewrite Lb. change (key v) with (kof (x, v)). rewrite (mid_slot s B1 _ B2 _ I Hx).
  set (l := a ++ (x, v) :: b) in *. assert (E2 : nth_error (B1 ++ l :: B2) (length B1) = Some l) by apply nth_mid.
  destruct (inv_bucket key hash keq s _ (length B1) I) as (p & l' & E1 & E2' & Sg). { rewrite app_length. cbn. lia. } rewrite E2 in E2'. injection E2' as <-.
  apply post_bind. eapply post_bucket; [exact E1|].
  assert (It : Inv (tick s) (B1 ++ l :: B2)) by (apply (inv_sim key hash keq s); [exact I|apply sim_tick]).
  assert (T0 : Step s (B1 ++ l :: B2) (tick s) (B1 ++ l :: B2)) by (apply (step_sim key hash keq); [exact I|apply sim_tick]).
  assert (CB : forall m, concat (B1 ++ m :: B2) = concat B1 ++ m ++ concat B2) by (intro m; rewrite concat_app; reflexivity).
  pose proof (inv_list_nodup key hash keq s _ _ l I E2) as Nd. pose proof (bucket_grouped key hash keq s _ _ l I E2) as Gr.
  destruct a as [|[c vc] a].
  - cbn [app] in l. subst l. destruct Sg as (-> & n' & En' & Sg). apply post_bind. eapply post_load; [exact En'|]. rewrite Nat.eqb_refl. cbn [n_next]. apply post_bind. apply post_set_bucket; [red_st; rewrite Lb, app_length; cbn; lia|].
    apply post_bind. eapply post_delete; [exact En'|]. cbn [post].
    match goal with |- exists B', removed s _ ?s' B' _ _ _ => destruct (pop_table key hash keq (tick s) _ (length B1) x v b n' It E2 En' s') as [I3 T3]; [reflexivity|reflexivity|] end.
    rewrite lupd_mid in I3, T3. exists (B1 ++ b :: B2). split; [exact I3|]. split; [exact (step_trans _ _ _ _ _ _ T0 T3)|]. split; [rewrite !app_length; reflexivity|]. rewrite !CB, app_nil_r. cbn [app]. split; [reflexivity|]. split; [reflexivity|]. red_st. cbn [length]. lia.
  - cbn [app] in l. pose proof Sg as Sg0. subst l. cbn [seg] in Sg0. destruct Sg0 as (Ep & nc & Enc & Sg1). subst p. apply post_bind. eapply post_load; [exact Enc|].
    assert (Nx : Nat.eqb c x = false). { apply Nat.eqb_neq. intros ->. cbn [map fst] in Nd. inversion Nd as [|z m N1 _]; subst. apply N1. rewrite map_app, in_app_iff. right. left. reflexivity. }
    rewrite Nx. cbn [n_next]. rewrite (seg_hd _ _ _ Sg1).
    eapply post_mono; [| |apply (unlink_post x v b a (fuel (tick s)) (tick s) (Some c) [] c vc)].
    + intros s' u D. cbn [app] in D. destruct (done_table key hash keq (tick s) s' _ (length B1) (Some c) _ _ It E1 E2 D) as [I3 T3].
      * change ((c, vc) :: a ++ (x, v) :: b) with (((c, vc) :: a) ++ [(x, v)] ++ b) in Nd. apply nodup_drop_mid in Nd. exact Nd.
      * change ((c, vc) :: a ++ (x, v) :: b) with (((c, vc) :: a) ++ (x, v) :: b) in Gr. apply (grouped_drop key keq keq_sym keq_trans) in Gr. exact Gr.
      * rewrite lupd_mid in I3, T3. exists (B1 ++ ((c, vc) :: a ++ b) :: B2). split; [exact I3|]. split; [exact (step_trans _ _ _ _ _ _ T0 T3)|]. split; [rewrite !app_length; reflexivity|]. rewrite !CB. cbn [app]. rewrite <- ?app_assoc. cbn [app]. rewrite <- ?app_assoc. cbn [app]. split; [reflexivity|]. split; [reflexivity|].
        pose proof (d_num _ _ _ _ _ D) as Dn. cbn [tick num] in Dn. cbn [length] in Dn. rewrite !app_length in Dn. cbn [length] in *. lia.
    + intros s' [].
    + exact Sg.
    + exact Nd.
    + unfold fuel. cbn [tick heap]. pose proof (seg_bound _ _ _ _ Sg Nd) as Bd. cbn [length] in Bd. rewrite app_length in Bd. lia.
    + exact Pos.
Qed.

(** ---- a range ---- *)
Lemma same_refl o : same o o = true.
Proof. destruct o; cbn; [apply Nat.eqb_refl|reflexivity]. Qed.
Lemma same_ne (a b : list el) : a <> [] -> NoDup (ids (a ++ b)) -> same (hd_ptr (a ++ b)) (hd_ptr b) = false.
Proof.
  destruct a as [|[x v] a]; [congruence|]. intros _ Nd. cbn [app hd_ptr map fst] in *. inversion Nd as [|z m N _]; subst. destruct b as [|[y w] b]; [reflexivity|]. cbn [hd_ptr same]. apply Nat.eqb_neq. intros ->. apply N. rewrite map_app, in_app_iff. right. left. reflexivity.
Qed.
Lemma erase_to_post b a : forall f s n B, Inv s B -> nth_error B n = Some (a ++ b) -> length a < f -> length a <= num s ->
  post (erase_to f s n (hd_ptr (a ++ b)) (hd_ptr b)) (fun s' _ => Inv s' (lupd B n b) /\ Step s B s' (lupd B n b) /\ num s' + length a = num s) (fun _ => False).
Proof.
  induction a as [|[x v] a IH]; intros f s n B I E F Num; (destruct f as [|f]; [lia|]).
  - cbn [erase_to app]. rewrite same_refl. cbn [post length app] in *. rewrite (lupd_same B n b E). split; [exact I|]. split; [apply (step_sim key hash keq); [exact I|apply sim_refl]|lia].
  - pose proof (inv_list_nodup key hash keq s _ _ _ I E) as Nd. cbn [erase_to]. rewrite (same_ne ((x, v) :: a) b) by (discriminate || exact Nd). cbn [hd_ptr app] in *.
    assert (Ln : n < length B) by (apply nth_error_Some; rewrite E; discriminate). destruct (inv_bucket key hash keq s B n I Ln) as (p & l' & E1 & E2 & Sg). rewrite E in E2. injection E2 as <-. destruct Sg as (-> & q & Eq & Sg).
    apply post_bind. eapply post_load; [exact Eq|]. apply post_bind. eapply post_delete; [exact Eq|]. apply post_bind. apply post_set_bucket; [red_st; rewrite (inv_length key hash keq s B I); exact Ln|]. cbn [n_next]. rewrite (seg_hd _ _ _ Sg).
    match goal with |- post (erase_to _ ?s1 _ _ _) _ _ => destruct (pop_table key hash keq s B n x v (a ++ b) q I E Eq s1) as [I3 T3]; [rewrite (seg_hd _ _ _ Sg); reflexivity|reflexivity|] end.
    eapply post_mono; [| |apply (IH f _ n _ I3)].
    + intros s' u (I4 & T4 & N4). rewrite lupd_twice in I4, T4. split; [exact I4|]. split; [exact (step_trans _ _ _ _ _ _ T3 T4)|]. revert N4. red_st. cbn [length] in *. lia.
    + intros s' [].
    + apply nth_lupd_eq. exact Ln.
    + cbn [length] in F. lia.
    + red_st. cbn [length] in Num. lia.
Qed.
Lemma erase_bucket_to_post a b s n B : Inv s B -> nth_error B n = Some (a ++ b) -> length a <= num s ->
  post (erase_bucket_to s n (hd_ptr b)) (fun s' _ => Inv s' (lupd B n b) /\ Step s B s' (lupd B n b) /\ num s' + length a = num s) (fun _ => False).
Proof.
  intros I E Num. assert (Ln : n < length B) by (apply nth_error_Some; rewrite E; discriminate). destruct (inv_bucket key hash keq s B n I Ln) as (p & l' & E1 & E2 & Sg). rewrite E in E2. injection E2 as <-.
  unfold erase_bucket_to. apply post_bind. eapply post_bucket; [exact E1|]. rewrite (seg_hd _ _ _ Sg). apply erase_to_post; try assumption.
  pose proof (seg_bound _ _ _ _ Sg (inv_list_nodup key hash keq s _ _ _ I E)) as Bd. rewrite app_length in Bd. unfold fuel. lia.
Qed.
Lemma seek_post rest a : forall f s p x v, seg (heap s) p ((x, v) :: a ++ rest) None -> NoDup (ids ((x, v) :: a ++ rest)) -> rest <> [] -> length a < f ->
  post (seek f s x (hd_ptr rest)) (fun s' c => s' = s /\ exists a0 vc, (x, v) :: a = a0 ++ [(c, vc)]) (fun _ => False).
Proof.
  induction a as [|[y w] a IH]; intros f s p x v Sg Nd NR F; (destruct f as [|f]; [lia|]); cbn [seek]; pose proof Sg as Sg0; destruct Sg0 as (_ & n & En & Sg1); apply post_bind; (eapply post_load; [exact En|]); cbn [n_next]; rewrite (seg_hd _ _ _ Sg1).
  - cbn [app]. rewrite same_refl. cbn [post]. split; [reflexivity|]. exists [], v. reflexivity.
  - assert (Nd2 : NoDup (ids (((y, w) :: a) ++ rest))) by (cbn [map fst] in Nd; inversion Nd; assumption). rewrite same_ne by (discriminate || exact Nd2). cbn [app hd_ptr].
    eapply post_mono; [| |apply (IH f s n y w Sg1 Nd2 NR ltac:(cbn in F; lia))].
    + intros s' c (-> & a0 & vc & E). split; [reflexivity|]. exists ((x, v) :: a0), vc. cbn [app]. rewrite <- E. reflexivity.
    + intros s' [].
Qed.
Lemma cut_to_post b m : forall f s p a cur vc, seg (heap s) p (a ++ (cur, vc) :: m ++ b) None -> NoDup (ids (a ++ (cur, vc) :: m ++ b)) -> length m < f -> length m <= num s ->
  post (cut_to f s cur (hd_ptr (m ++ b)) (hd_ptr b)) (fun s' _ => Done s s' p (a ++ (cur, vc) :: m ++ b) (a ++ (cur, vc) :: b)) (fun _ => False).
Proof.
  induction m as [|[x v] m IH]; intros f s p a cur vc Sg Nd F Num; (destruct f as [|f]; [lia|]); cbn [cut_to].
  - cbn [app] in *. rewrite same_refl. cbn [post]. apply done_refl; [exact Sg|apply sim_refl].
  - assert (Nd2 : NoDup (ids (((x, v) :: m) ++ b))). { rewrite map_app in Nd. apply nodup_r in Nd. cbn [map fst] in Nd. inversion Nd; assumption. }
    rewrite same_ne by (discriminate || exact Nd2). cbn [app hd_ptr] in *. destruct (drop_node s p a cur vc x v (m ++ b) Sg Nd ltac:(cbn in Num; lia)) as (n & q & En & Eq & En2 & D & Hn).
    apply post_bind. eapply post_load; [exact En|]. cbn [n_next]. apply post_bind. eapply post_next; [exact Eq|]. apply post_bind. eapply post_delete; [exact En2|]. rewrite Hn in *. cbv zeta in D.
    eapply post_mono; [| |apply (IH f _ p a cur vc (d_seg _ _ _ _ _ D))].
    + intros s' u D2. exact (done_trans _ _ _ _ _ _ _ D D2).
    + intros s' [].
    + change (a ++ (cur, vc) :: (x, v) :: m ++ b) with (a ++ [(cur, vc)] ++ (x, v) :: m ++ b) in Nd. rewrite app_assoc in Nd. apply (nodup_drop_mid (a ++ [(cur, vc)]) [(x, v)] (m ++ b)) in Nd. rewrite <- app_assoc in Nd. exact Nd.
    + cbn in F. lia.
    + red_st. cbn in Num. lia.
Qed.
Lemma erase_bucket_from_post a m b s n B : Inv s B -> nth_error B n = Some (a ++ m ++ b) -> m <> [] -> length m <= num s ->
  post (erase_bucket_from s n (hd_ptr (m ++ b)) (hd_ptr b)) (fun s' _ => Inv s' (lupd B n (a ++ b)) /\ Step s B s' (lupd B n (a ++ b)) /\ num s' + length m = num s) (fun _ => False).
Proof.
  intros I E Nm Num. assert (Ln : n < length B) by (apply nth_error_Some; rewrite E; discriminate). destruct (inv_bucket key hash keq s B n I Ln) as (p & l' & E1 & E2 & Sg). rewrite E in E2. injection E2 as <-.
  pose proof (inv_list_nodup key hash keq s _ _ _ I E) as Nd. unfold erase_bucket_from. apply post_bind. eapply post_bucket; [exact E1|]. rewrite (seg_hd _ _ _ Sg) at 1. destruct a as [|[x v] a].
  - cbn [app] in *. rewrite same_refl. apply erase_bucket_to_post; assumption.
  - rewrite same_ne by (discriminate || exact Nd). assert (p = Some x) as -> by apply Sg. assert (Nmb : m ++ b <> []) by (intro C; apply app_eq_nil in C; tauto). apply post_bind.
    pose proof (seg_bound _ _ _ _ Sg Nd) as Bd. rewrite !app_length in Bd. cbn [length] in Bd.
    eapply post_mono; [| |apply (seek_post (m ++ b) a (fuel s) s (Some x) x v Sg Nd Nmb)]; [|intros s' []|unfold fuel; lia].
    intros s' c (-> & a0 & vc & Ea). rewrite Ea in *. rewrite <- app_assoc in Sg, Nd, E. cbn [app] in Sg, Nd, E.
    eapply post_mono; [| |apply (cut_to_post b m (fuel s) s (Some x) a0 c vc Sg Nd)].
    + intros s' u D. destruct (done_table key hash keq s s' B n (Some x) _ _ I E1 E D) as [I3 T3].
      * change (a0 ++ (c, vc) :: m ++ b) with (a0 ++ [(c, vc)] ++ m ++ b) in Nd. rewrite app_assoc in Nd. apply nodup_drop_mid in Nd. rewrite <- app_assoc in Nd. exact Nd.
      * pose proof (bucket_grouped key hash keq s _ _ _ I E) as Gr. change (a0 ++ (c, vc) :: m ++ b) with (a0 ++ [(c, vc)] ++ m ++ b) in Gr. rewrite app_assoc in Gr. apply (grouped_drops key keq keq_sym keq_trans) in Gr. rewrite <- app_assoc in Gr. exact Gr.
      * rewrite <- app_assoc. cbn [app]. split; [exact I3|]. split; [exact T3|]. pose proof (d_num _ _ _ _ _ D) as Dn. rewrite !app_length in Dn. cbn [length] in Dn. rewrite app_length in Dn. lia.
    + intros s' [].
    + unfold fuel. lia.
    + exact Num.
Qed.
Lemma erase_buckets_post Bm : forall s B1 B2, Inv s (B1 ++ Bm ++ B2) -> length (concat Bm) <= num s ->
  post (erase_buckets s (seq (length B1) (length Bm))) (fun s' _ => Inv s' (B1 ++ map (fun _ => []) Bm ++ B2) /\ Step s (B1 ++ Bm ++ B2) s' (B1 ++ map (fun _ => []) Bm ++ B2) /\ num s' + length (concat Bm) = num s) (fun _ => False).
Proof.
  induction Bm as [|l Bm IH]; intros s B1 B2 I Num; cbn [length seq erase_buckets map concat app] in *.
  - cbn [post]. split; [exact I|]. split; [apply (step_sim key hash keq); [exact I|apply sim_refl]|lia].
  - rewrite app_length in Num. apply post_bind. assert (E : nth_error (B1 ++ l :: Bm ++ B2) (length B1) = Some (l ++ [])) by (rewrite app_nil_r; apply nth_mid).
    eapply post_mono; [| |apply (erase_bucket_to_post l [] s (length B1) _ I E ltac:(lia))]; [|intros s' []]. intros s1 u (I1 & T1 & N1). rewrite lupd_mid in I1, T1.
    assert (EB : forall R, B1 ++ [] :: R = (B1 ++ [[]]) ++ R) by (intro R; rewrite <- app_assoc; reflexivity).
    replace (S (length B1)) with (length (B1 ++ [@nil el])) by (rewrite app_length; cbn; lia). rewrite EB in I1. eapply post_mono; [| |apply (IH s1 (B1 ++ [[]]) B2 I1 ltac:(lia))]; [|intros s' []].
    intros s2 u2 (I2 & T2 & N2). rewrite EB. split; [exact I2|]. split; [rewrite EB in T1; exact (step_trans _ _ _ _ _ _ T1 T2)|]. rewrite app_length. lia.
Qed.
Lemma concat_nils {A B} (l : list B) : concat (map (fun _ => @nil A) l) = [].
Proof. induction l; [reflexivity|assumption]. Qed.
Lemma app_inj_len {A} (a b c d : list A) : a ++ b = c ++ d -> length a = length c -> a = c /\ b = d.
Proof. revert c. induction a as [|x a IH]; intros [|y c] E L; try discriminate; [auto|]. cbn in *. injection E as -> E. destruct (IH c E ltac:(lia)) as [-> ->]. auto. Qed.
Lemma app_longer {A} (a b c d : list A) : a ++ b = c ++ d -> length a <= length c -> exists e, c = a ++ e /\ b = e ++ d.
Proof. revert c. induction a as [|x a IH]; intros c E L; [exists c; auto|]. destruct c as [|y c]; [cbn in L; lia|]. cbn in *. injection E as -> E. destruct (IH c E ltac:(lia)) as (e & -> & ->). exists e. auto. Qed.
Lemma it_bucket_post s B X x v Y (Q : st -> nat -> Prop) (E : st -> Prop) : Inv s B -> concat B = X ++ (x, v) :: Y ->
  (forall s' B1 a b B2, sim s s' -> B = B1 ++ (a ++ (x, v) :: b) :: B2 -> X = concat B1 ++ a -> Y = b ++ concat B2 -> Q s' (length B1)) -> (forall s', sim s s' -> E s') -> post (it_bucket key hash throws s (Some x)) Q E.
Proof.
  intros I Ec H HE. destruct (concat_split B X (x, v) Y Ec) as (B1 & a & b & B2 & EB & EX & EY). subst B. assert (Hx : In (x, v) (a ++ (x, v) :: b)) by (rewrite in_app_iff; right; left; reflexivity).
  unfold it_bucket. destruct (inv_value key hash keq s _ x v I) as [n En]. { rewrite concat_app. cbn [concat]. rewrite !in_app_iff. cbn. tauto. }
  apply post_bind. eapply post_load; [exact En|]. cbn [n_val]. rewrite (inv_length key hash keq s _ I). apply post_slot; [rewrite app_length; cbn; lia| |apply HE, sim_tick].
  change (key v) with (kof (x, v)). rewrite (mid_slot s B1 _ B2 _ I Hx). apply (H _ B1 a b B2); auto. apply sim_tick.
Qed.
Lemma erase_range_post s B X M Y : Inv s B -> concat B = X ++ M ++ Y -> length (concat B) <= num s ->
  post (erase_range key hash throws s (hd_ptr (M ++ Y)) (hd_ptr Y)) (fun s' _ => exists B', removed s B s' B' X M Y) (sim s).
Proof.
  intros I Ec Num. assert (Hsame : forall s', sim s s' -> M = [] -> exists B', removed s B s' B' X M Y).
  { intros s' S' ->. exists B. split; [apply (inv_sim key hash keq s); assumption|]. split; [apply (step_sim key hash keq); assumption|]. split; [reflexivity|]. split; [exact Ec|]. split; [exact Ec|]. destruct S' as (_ & _ & ->). cbn. lia. }
  assert (LN : length M <= num s) by (rewrite Ec, !app_length in Num; lia).
  pose proof (i_nodup _ _ _ _ _ I) as Nd. rewrite Ec, map_app in Nd. apply nodup_r in Nd.
  unfold erase_range. destruct M as [|[x v] M].
  - (* the empty range *)
    cbn [app] in *. assert (Q : forall s', sim s s' -> post (it_bucket key hash throws s' (hd_ptr Y)) (fun s2 _ => sim s s2) (sim s)).
    { intros s' S'. destruct Y as [|[y w] Y]; [exact S'|]. apply (it_bucket_post s' B X y w Y); [apply (inv_sim key hash keq s); assumption|exact Ec| |]; intros; apply (sim_trans _ s'); assumption. }
    apply post_bind. eapply post_mono; [| |apply (Q s (sim_refl s))]; [|auto]. intros s1 f S1. apply post_bind. eapply post_mono; [| |apply (Q s1 S1)]; [|auto]. intros s2 l S2. rewrite same_refl. cbn [post]. apply Hsame; auto.
  - pose proof (same_ne ((x, v) :: M) Y ltac:(discriminate) Nd) as NS. apply post_bind. cbn [app] in Ec. cbn [hd_ptr app]. apply (it_bucket_post s B X x v (M ++ Y) _ _ I Ec); [|auto]. intros s1 B1 a b B2 S1 EB EX EY.
    pose proof (inv_sim key hash keq s s1 B I S1) as I1. pose proof (step_sim key hash keq s s1 B I S1) as T1. apply post_bind. destruct Y as [|[y w] Y].
    + (* to the end *)
      cbn [hd_ptr it_bucket post same]. rewrite app_nil_r in EY. subst M. rewrite (inv_length key hash keq s1 B I1). subst B X. set (L := length (B1 ++ (a ++ (x, v) :: b) :: B2)). assert (EL : L = length B1 + S (length B2)) by (unfold L; rewrite app_length; reflexivity).
      assert (Nat.eqb (length B1) L = false) as -> by (apply Nat.eqb_neq; lia). destruct S1 as (Hh & Hb & Hn). apply post_bind.
      assert (E2 : nth_error (B1 ++ (a ++ (x, v) :: b) :: B2) (length B1) = Some (a ++ ((x, v) :: b) ++ [])) by (rewrite app_nil_r; apply nth_mid). cbn [length] in LN. rewrite app_length in LN.
      pose proof (erase_bucket_from_post a ((x, v) :: b) [] s1 (length B1) _ I1 E2 ltac:(discriminate) ltac:(cbn [length]; lia)) as P1. rewrite (app_nil_r ((x, v) :: b)) in P1. cbn [hd_ptr] in P1.
      eapply post_mono; [| |exact P1]; [|intros s' []]. intros s2 u (I2 & T2 & N2). rewrite lupd_mid, app_nil_r in I2, T2. apply post_bind.
      assert (ER : forall R, B1 ++ a :: R = (B1 ++ [a]) ++ R ++ []) by (intro R; rewrite app_nil_r, <- app_assoc; reflexivity). rewrite (ER B2) in I2.
      replace (S (length B1)) with (length (B1 ++ [a])) by (rewrite app_length; cbn; lia). replace (L - length (B1 ++ [a])) with (length B2) by (rewrite app_length; cbn; lia).
      cbn [length] in N2. eapply post_mono; [| |apply (erase_buckets_post B2 s2 (B1 ++ [a]) [] I2 ltac:(lia))]; [|intros s' []]. intros s3 u3 (I3 & T3 & N3).
      assert (Nat.eqb L (length (bks s3)) = true) as ->. { apply Nat.eqb_eq. rewrite (inv_length key hash keq s3 _ I3), !app_length, map_length. cbn. lia. }
      cbn [post]. exists ((B1 ++ [a]) ++ map (fun _ => []) B2 ++ []). split; [exact I3|]. split; [rewrite (ER B2) in T2; exact (step_trans _ _ _ _ _ _ T1 (step_trans _ _ _ _ _ _ T2 T3))|]. split; [rewrite !app_length, map_length; cbn; lia|].
      split; [exact Ec|]. split; [rewrite !app_nil_r, !concat_app, concat_nils; cbn [concat]; rewrite !app_nil_r; reflexivity|]. cbn [length]. rewrite app_length. lia.
    + cbn [hd_ptr app] in NS |- *. assert (Ec' : concat B = (X ++ (x, v) :: M) ++ (y, w) :: Y) by (rewrite <- app_assoc; exact Ec).
      apply (it_bucket_post s1 B _ y w Y _ _ I1 Ec'); [|intros s' S'; apply (sim_trans _ s1); assumption]. intros s2 C1 c d C2 S2 EC EXM EYd. pose proof (sim_trans _ _ _ S1 S2) as S12.
      pose proof (inv_sim key hash keq s s2 B I S12) as I2. pose proof (step_sim key hash keq s s2 B I S12) as T2. rewrite NS. clear NS S1 S2 I1 T1 s1. destruct S12 as (Hh & Hb & Hn).
      destruct (Nat.eqb_spec (length B1) (length C1)) as [El|El].
      * rewrite EB in EC. destruct (app_inj_len _ _ _ _ EC El) as [-> E0]. injection E0 as E0 ->. rewrite EX, <- app_assoc in EXM. apply app_inv_head in EXM. subst c.
        assert (EE : a ++ (x, v) :: b = a ++ ((x, v) :: M) ++ (y, w) :: d) by (rewrite E0, <- app_assoc; reflexivity). rewrite EE in EB.
        assert (E2 : nth_error B (length C1) = Some (a ++ ((x, v) :: M) ++ (y, w) :: d)) by (rewrite EB; apply nth_mid).
        eapply post_mono; [| |apply (erase_bucket_from_post a ((x, v) :: M) ((y, w) :: d) s2 (length C1) B I2 E2 ltac:(discriminate) ltac:(lia))]; [|intros s' []]. intros s3 u (I3 & T3 & N3).
        exists (lupd B (length C1) (a ++ (y, w) :: d)). split; [exact I3|]. split; [exact (step_trans _ _ _ _ _ _ T2 T3)|]. split; [apply lupd_length|]. split; [exact Ec|]. split; [rewrite EB, lupd_mid, concat_app, EX, EYd; cbn [concat]; rewrite <- !app_assoc; reflexivity|]. lia.
      * destruct (Nat.lt_ge_cases (length C1) (length B1)) as [Lt|Ge].
        { exfalso. rewrite EB in EC. destruct (app_longer _ _ _ _ (eq_sym EC) ltac:(lia)) as (e & -> & Ee). destruct e as [|l0 e]; [rewrite app_nil_r in Lt; lia|]. cbn [app] in Ee. injection Ee as <- Ee.
          rewrite EX in EXM. apply (f_equal (@length el)) in EXM. rewrite concat_app in EXM. cbn [concat] in EXM. rewrite !app_length in EXM. cbn [length] in EXM. lia. }
        rewrite EB in EC. destruct (app_longer _ _ _ _ EC ltac:(lia)) as (e & E1 & Ee). destruct e as [|l0 e]; [rewrite app_nil_r in E1; subst C1; lia|]. cbn [app] in Ee. injection Ee as <- ->. subst C1.
        assert (EM : (x, v) :: M = (x, v) :: b ++ concat e ++ c). { rewrite EX, concat_app in EXM. cbn [concat] in EXM. rewrite <- !app_assoc in EXM. apply app_inv_head in EXM. apply app_inv_head in EXM. cbn [app] in EXM. exact EXM. }
        injection EM as ->. cbn [length] in LN. rewrite !app_length in LN. apply post_bind.
        assert (E2 : nth_error B (length B1) = Some (a ++ ((x, v) :: b) ++ [])) by (rewrite app_nil_r, EB; apply nth_mid).
        pose proof (erase_bucket_from_post a ((x, v) :: b) [] s2 (length B1) B I2 E2 ltac:(discriminate) ltac:(cbn [length]; lia)) as P1. rewrite (app_nil_r ((x, v) :: b)) in P1. cbn [hd_ptr] in P1.
        eapply post_mono; [| |exact P1]; [|intros s' []]. intros s3 u (I3 & T3 & N3). rewrite app_nil_r in I3, T3. rewrite EB, lupd_mid in I3, T3. cbn [length] in N3. apply post_bind.
        assert (ER : forall R, B1 ++ a :: R = (B1 ++ [a]) ++ R) by (intro R; rewrite <- app_assoc; reflexivity). rewrite ER in I3.
        replace (S (length B1)) with (length (B1 ++ [a])) by (rewrite app_length; cbn; lia). rewrite !app_length. cbn [length]. replace (length B1 + S (length e) - (length B1 + 1)) with (length e) by lia. replace (length B1 + 1) with (length (B1 ++ [a])) by (rewrite app_length; reflexivity).
        eapply post_mono; [| |apply (erase_buckets_post e s3 (B1 ++ [a]) _ I3 ltac:(lia))]; [|intros s' []]. intros s4 u4 (I4 & T4 & N4).
        rewrite (inv_length key hash keq s4 _ I4), !app_length, map_length. cbn [length]. match goal with |- context [Nat.eqb ?p ?q] => assert (Nat.eqb p q = false) as -> by (apply Nat.eqb_neq; lia) end.
        set (P0 := (B1 ++ [a]) ++ map (fun _ => []) e). assert (EP : forall R, (B1 ++ [a]) ++ map (fun _ => []) e ++ R = P0 ++ R) by (intro R; unfold P0; apply app_assoc). rewrite EP in I4, T4.
        assert (LP : length P0 = length B1 + S (length e)) by (unfold P0; rewrite !app_length, map_length; cbn; lia). rewrite <- LP.
        assert (E4 : nth_error (P0 ++ (c ++ (y, w) :: d) :: C2) (length P0) = Some (c ++ (y, w) :: d)) by apply nth_mid.
        eapply post_mono; [| |apply (erase_bucket_to_post c ((y, w) :: d) s4 (length P0) _ I4 E4 ltac:(lia))]; [|intros s' []]. intros s5 u5 (I5 & T5 & N5). rewrite lupd_mid in I5, T5.
        exists (P0 ++ ((y, w) :: d) :: C2). split; [exact I5|]. split; [rewrite <- EB in T3; rewrite (ER _) in T3; exact (step_trans _ _ _ _ _ _ T2 (step_trans _ _ _ _ _ _ T3 (step_trans _ _ _ _ _ _ T4 T5)))|].
        split; [rewrite EB, !app_length, LP; cbn [length]; rewrite app_length; cbn [length]; lia|]. split; [exact Ec|].
        split; [unfold P0; rewrite !concat_app, concat_nils, EX, EYd; cbn [concat]; rewrite !app_nil_r, <- !app_assoc; reflexivity|]. cbn [length]. rewrite !app_length. lia.
Qed.

(** ---- everything ---- *)
Record Freed (s s' : st) (l : list el) : Prop := {
  f_bks : bks s' = bks s; f_num : num s' = num s; f_len : length (heap s') = length (heap s);
  f_old : forall x, ~ In x (ids l) -> nth_error (heap s') x = nth_error (heap s) x;
  f_gone : forall x, In x (ids l) -> nth_error (heap s') x = Some None }.
Lemma delete_chain_post l : forall f s p, seg (heap s) p l None -> NoDup (ids l) -> length l < f -> post (delete_chain f s p) (fun s' _ => Freed s s' l) (fun _ => False).
Proof.
  induction l as [|[x v] l IH]; intros f s p Sg Nd F; (destruct f as [|f]; [lia|]); cbn [delete_chain].
  - cbn in Sg. subst p. cbn. split; auto. intros x [].
  - destruct Sg as (-> & n & En & Sg). cbn [map fst] in Nd. inversion Nd as [|z m Nx Nl]; subst. assert (Lx : x < length (heap s)) by (apply nth_error_Some; rewrite En; discriminate).
    apply post_bind. eapply post_load; [exact En|]. apply post_bind. eapply post_delete; [exact En|]. cbn [n_next].
    eapply post_mono; [| |apply (IH f (with_heap s (lupd (heap s) x None)) n)]; [| | |exact Nl|cbn in F; lia].
    + intros s' u [F1 F2 F3 F4 F5]. revert F1 F2 F3 F4 F5. red_st. intros F1 F2 F3 F4 F5. rewrite lupd_length in F3. split; auto.
      * intros y Hy. cbn [map fst In] in Hy. rewrite F4 by (intro C; apply Hy; right; exact C). apply nth_lupd_ne. intro C; apply Hy; left; exact C.
      * intros y [<-|Hy]; [|auto]. cbn [fst]. rewrite F4 by exact Nx. apply nth_lupd_eq. exact Lx.
    + intros s' [].
    + red_st. apply (seg_ext (heap s)); [|exact Sg]. intros y Hy. apply nth_lupd_ne. intros ->. contradiction.
Qed.
Lemma clear_from_post Bm : forall s E0, Inv s (E0 ++ Bm) ->
  post (clear_from s (seq (length E0) (length Bm))) (fun s' _ => Inv s' (E0 ++ map (fun _ => []) Bm) /\ Step s (E0 ++ Bm) s' (E0 ++ map (fun _ => []) Bm) /\ num s' = 0 /\ length (bks s') = length (bks s)) (fun _ => False).
Proof.
  induction Bm as [|l Bm IH]; intros s E0 I; cbn [length seq clear_from map].
  - cbn [post]. assert (S' : forall B, Inv s B -> Inv (with_num s 0) B) by (intros B [A1 A2 A3 A4]; split; assumption). split; [apply S'; exact I|]. split; [|split; reflexivity]. destruct (step_sim key hash keq s s _ I (sim_refl s)) as [A1 A2 A3 A4]. split; assumption.
  - assert (E2 : nth_error (E0 ++ l :: Bm) (length E0) = Some l) by apply nth_mid. assert (Le : length E0 < length (E0 ++ l :: Bm)) by (rewrite app_length; cbn; lia).
    destruct (inv_bucket key hash keq s _ (length E0) I Le) as (p & l' & E1 & E2' & Sg). rewrite E2 in E2'. injection E2' as <-. pose proof (inv_list_nodup key hash keq s _ _ _ I E2) as Nd.
    apply post_bind. eapply post_bucket; [exact E1|]. apply post_bind. eapply post_mono; [| |apply (delete_chain_post l (fuel s) s p Sg Nd)]; [|intros s' []|pose proof (seg_bound _ _ _ _ Sg Nd); unfold fuel; lia].
    intros s1 u [F1 F2 F3 F4 F5]. apply post_bind. apply post_set_bucket; [rewrite F1, (inv_length key hash keq s _ I); exact Le|].
    destruct (change_bucket key hash keq s _ (length E0) l (with_bks s1 (lupd (bks s1) (length E0) None)) None [] I E2) as [I1 T1]; red_st; auto.
    + rewrite F1. reflexivity.
    + reflexivity.
    + constructor.
    + lia.
    + intros x [].
    + intros x [Hx|Hx] Lv; [destruct Lv as [n En]; rewrite (F5 x Hx) in En; discriminate|apply live_lt in Lv; lia].
    + intros x [].
    + exact Logic.I.
    + rewrite lupd_mid in I1, T1. assert (ER : forall R, E0 ++ [] :: R = (E0 ++ [[]]) ++ R) by (intro R; rewrite <- app_assoc; reflexivity). rewrite ER in I1. replace (S (length E0)) with (length (E0 ++ [@nil el])) by (rewrite app_length; cbn; lia).
      eapply post_mono; [| |apply (IH _ (E0 ++ [[]]) I1)]; [|intros s' []]. intros s2 u2 (I2 & T2 & N2 & L2). rewrite ER. split; [exact I2|]. split; [rewrite ER in T1; exact (step_trans _ _ _ _ _ _ T1 T2)|]. split; [exact N2|]. rewrite L2. red_st. rewrite lupd_length, F1. reflexivity.
Qed.
Definition cleared (s : st) B (s' : st) : Prop := Inv s' (map (fun _ => []) B) /\ Step s B s' (map (fun _ => []) B) /\ num s' = 0.
Lemma clear_post s B : Inv s B -> post (clear s) (fun s' _ => cleared s B s') (fun _ => False).
Proof.
  intro I. unfold clear. rewrite (inv_length key hash keq s B I). eapply post_mono; [| |apply (clear_from_post B s [] I)]; [|intros s' []]. intros s' u (I1 & T1 & N1 & _). split; [exact I1|]. split; [exact T1|exact N1].
Qed.
End Proofs.
