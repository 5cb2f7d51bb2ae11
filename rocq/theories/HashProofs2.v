(** HashProofs2.v -- C122: a table as a list of buckets; searching and inserting. *)
From Coq Require Import List NArith Bool Arith Lia Permutation.
Import ListNotations.
From Verif Require Import Base HashModel HashProofs.

Section Proofs.
Context {V K : Type}.
Variable key : V -> K.
Variable hash : K -> N.
Variable keq : K -> K -> bool.
Variable throws : nat -> bool.
Hypothesis keq_refl : forall a, keq a a = true.
Hypothesis keq_sym : forall a b, keq a b = true -> keq b a = true.
Hypothesis keq_trans : forall a b c, keq a b = true -> keq b c = true -> keq a c = true.
Hypothesis keq_hash : forall a b, keq a b = true -> hash a = hash b.
Notation el := (nat * V)%type.
Notation ids := (map (@fst nat V)).
Notation kof := (kof key).
Notation alike := (alike key keq).
Notation grouped := (grouped key keq).
Notation slot := (slot hash).
Notation st := (@st V).
Notation hp := (list (option (@node V))).

Lemma lupd_split {A} (l : list A) i x : nth_error l i = Some x -> exists a b, l = a ++ x :: b /\ length a = i /\ forall y, lupd l i y = a ++ y :: b.
Proof.
  revert i. induction l as [|z l IH]; intros [|i] H; try discriminate.
  - injection H as ->. exists [], l. repeat split.
  - destruct (IH i H) as (a & b & -> & E & U). exists (z :: a), b. split; [reflexivity|]. split; [cbn; lia|]. intro y. cbn. rewrite U. reflexivity.
Qed.
Lemma lupd_same {A} (l : list A) i x : nth_error l i = Some x -> lupd l i x = l.
Proof. revert i. induction l as [|y l IH]; intros [|i] E; try discriminate; [injection E as ->; reflexivity|]. cbn in *. f_equal. apply IH. exact E. Qed.
Lemma cut_bucket {A} (B : list (list A)) i l : nth_error B i = Some l -> exists rest, Permutation (concat B) (l ++ rest) /\ forall l', Permutation (concat (lupd B i l')) (l' ++ rest).
Proof.
  intro H. destruct (lupd_split B i l H) as (a & b & -> & _ & U). exists (concat a ++ concat b). split.
  - rewrite concat_app. cbn [concat]. apply Permutation_app_swap_app.
  - intro l'. rewrite U, concat_app. cbn [concat]. apply Permutation_app_swap_app.
Qed.
Lemma nodup_l {A} (a b : list A) : NoDup (a ++ b) -> NoDup a.
Proof. induction a as [|x a IH]; intro H; [constructor|]. cbn in H. inversion H as [|y m H1 H2]; subst. constructor; [|auto]. intro C. apply H1. rewrite in_app_iff. auto. Qed.
Lemma nodup_r {A} (a b : list A) : NoDup (a ++ b) -> NoDup b.
Proof. induction a as [|x a IH]; intro H; [exact H|]. cbn in H. inversion H; subst. auto. Qed.
Lemma nodup_disj {A} (a b : list A) x : NoDup (a ++ b) -> In x a -> In x b -> False.
Proof. induction a as [|y a IH]; intros H Ha Hb; [destruct Ha|]. cbn in H. inversion H as [|z m H1 H2]; subst. destruct Ha as [<-|Ha]; [apply H1; rewrite in_app_iff; auto|auto]. Qed.
Lemma nodup_app {A} (a b : list A) : NoDup a -> NoDup b -> (forall x, In x a -> In x b -> False) -> NoDup (a ++ b).
Proof.
  induction a as [|y a IH]; intros Ha Hb D; [exact Hb|]. inversion Ha as [|z m H1 H2]; subst. cbn. constructor.
  - rewrite in_app_iff. intros [C|C]; [contradiction|]. apply (D y); [left; reflexivity|exact C].
  - apply IH; [assumption|assumption|]. intros x X1 X2. apply (D x); [right; exact X1|exact X2].
Qed.
Lemma ids_perm (a b : list el) x : Permutation a b -> (In x (ids a) <-> In x (ids b)).
Proof. intro P. apply (Permutation_map fst) in P. split; apply Permutation_in; [exact P|apply Permutation_sym; exact P]. Qed.
Lemma ids_nodup (a b : list el) : Permutation a b -> NoDup (ids a) -> NoDup (ids b).
Proof. intros P. apply Permutation_NoDup. apply Permutation_map. exact P. Qed.

Record Inv (s : st) (B : list (list el)) : Prop := {
  i_seg : Forall2 (fun p l => seg (heap s) p l None) (bks s) B;
  i_nodup : NoDup (ids (concat B));
  i_placed : forall i l x, nth_error B i = Some l -> In x l -> slot (length B) (kof x) = i;
  i_grouped : Forall grouped B }.
(** What happened to the nodes: those of others stay, none is lost. *)
Definition live (h : hp) (x : nat) : Prop := exists n, nth_error h x = Some (Some n).
Record Step (s : st) (B : list (list el)) (s' : st) (B' : list (list el)) : Prop := {
  t_len : length (heap s) <= length (heap s');
  t_old : forall x, x < length (heap s) -> ~ In x (ids (concat B)) -> nth_error (heap s') x = nth_error (heap s) x;
  t_mine : forall x, In x (ids (concat B')) -> In x (ids (concat B)) \/ length (heap s) <= x;
  t_live : forall x, In x (ids (concat B)) \/ length (heap s) <= x -> live (heap s') x -> In x (ids (concat B')) }.

Lemma live_lt (h : hp) x : live h x -> x < length h.
Proof. intros [n E]. apply nth_error_Some. rewrite E. discriminate. Qed.
Lemma f2_nth (h : hp) (bk : list (option nat)) (B : list (list el)) : Forall2 (fun p l => seg h p l None) bk B -> forall i,
  match nth_error bk i, nth_error B i with Some p, Some l => seg h p l None | None, None => True | _, _ => False end.
Proof. induction 1 as [|p l bk B H F IH]; intros [|i]; cbn; [exact I|exact I|exact H|apply IH]. Qed.
Lemma f2_of_nth (h : hp) (bk : list (option nat)) (B : list (list el)) : length bk = length B -> (forall i p l, nth_error bk i = Some p -> nth_error B i = Some l -> seg h p l None) ->
  Forall2 (fun p l => seg h p l None) bk B.
Proof.
  revert B. induction bk as [|p bk IH]; intros [|l B] E H; try discriminate; constructor; [apply (H 0); reflexivity|]. apply IH; [cbn in E; lia|]. intros i. apply (H (S i)).
Qed.
Lemma f2_len {A B} (R : A -> B -> Prop) a b : Forall2 R a b -> length a = length b.
Proof. induction 1; cbn; congruence. Qed.
Lemma inv_length s B : Inv s B -> length (bks s) = length B.
Proof. intro I. apply (f2_len _ _ _ (i_seg _ _ I)). Qed.
Lemma inv_bucket s B i : Inv s B -> i < length B -> exists p l, nth_error (bks s) i = Some p /\ nth_error B i = Some l /\ seg (heap s) p l None.
Proof.
  intros I H. pose proof (f2_nth _ _ _ (i_seg _ _ I) i) as F. destruct (nth_error B i) as [l|] eqn:E; [|apply nth_error_None in E; lia].
  destruct (nth_error (bks s) i) as [p|]; [eauto|contradiction].
Qed.
Lemma inv_list_nodup s B i l : Inv s B -> nth_error B i = Some l -> NoDup (ids l).
Proof.
  intros I E. destruct (cut_bucket B i l E) as (rest & P & _). pose proof (ids_nodup _ _ P (i_nodup _ _ I)) as N. rewrite map_app in N. apply nodup_l in N. exact N.
Qed.
Lemma inv_in_concat (B : list (list el)) i l x : nth_error B i = Some l -> In x l -> In x (concat B).
Proof. intros E H. apply in_concat. exists l. split; [apply (nth_error_In _ _ E)|exact H]. Qed.
Lemma inv_in_bucket s B x : Inv s B -> In x (concat B) -> exists l, nth_error B (slot (length B) (kof x)) = Some l /\ In x l.
Proof.
  intros I H. apply in_concat in H. destruct H as (l & Hl & Hx). apply In_nth_error in Hl. destruct Hl as [i E]. exists l. split; [|exact Hx]. rewrite (i_placed _ _ I i l x E Hx). exact E.
Qed.
(** The elements with a given key are in its bucket. *)
Lemma inv_key s B k l y : Inv s B -> nth_error B (slot (length B) k) = Some l -> In y (concat B) -> keq (kof y) k = true -> In y l.
Proof.
  intros I E H Q. destruct (inv_in_bucket s B y I H) as (l' & E' & H'). rewrite (slot_eq hash keq keq_hash _ _ _ Q) in E'. rewrite E in E'. injection E' as <-. exact H'.
Qed.
Lemma inv_sim s s' B : Inv s B -> sim s s' -> Inv s' B.
Proof. intros [A N P G] (H & Bk & _). split; auto. rewrite H, Bk. exact A. Qed.
Lemma inv_live s B x : Inv s B -> In x (ids (concat B)) -> live (heap s) x.
Proof.
  intros I H. apply in_ids in H. destruct H as [v H]. destruct (inv_in_bucket s B _ I H) as (l & E & L).
  destruct (inv_bucket s B _ I (proj1 (nth_error_Some B (slot (length B) (kof (x, v)))) ltac:(rewrite E; discriminate))) as (p & l' & _ & E' & S).
  rewrite E in E'. injection E' as <-. destruct (seg_value _ _ _ _ _ _ S L) as [n Hn]. eexists. exact Hn.
Qed.
Lemma inv_value s B x v : Inv s B -> In (x, v) (concat B) -> exists n, nth_error (heap s) x = Some (Some (Node v n)).
Proof.
  intros I H. destruct (inv_in_bucket s B _ I H) as (l & E & L). destruct (inv_bucket s B (slot (length B) (kof (x, v))) I (proj1 (nth_error_Some B _) ltac:(rewrite E; discriminate))) as (p & l' & _ & E' & S).
  rewrite E in E'. injection E' as <-. exact (seg_value _ _ _ _ _ _ S L).
Qed.
Lemma step_sim s s' B : Inv s B -> sim s s' -> Step s B s' B.
Proof.
  intros I (H & _ & _). split; rewrite ?H; auto. intros x [D|D] L; [exact D|]. apply live_lt in L. lia.
Qed.
Lemma step_trans s1 B1 s2 B2 s3 B3 : Step s1 B1 s2 B2 -> Step s2 B2 s3 B3 -> Step s1 B1 s3 B3.
Proof.
  intros [L1 O1 M1 V1] [L2 O2 M2 V2]. split; [lia| | |].
  - intros x Lx N. rewrite O2; [apply O1; assumption|lia|]. intro C. destruct (M1 x C); [contradiction|lia].
  - intros x C. destruct (M2 x C) as [C2|C2]; [apply M1; exact C2|lia].
  - intros x C Lv. apply V2; [|exact Lv]. destruct (Nat.lt_ge_cases x (length (heap s2))) as [Lx|Lx]; [|right; exact Lx]. left.
    destruct (in_dec Nat.eq_dec x (ids (concat B2))) as [D|D]; [exact D|]. exfalso. apply D. apply V1; [exact C|]. destruct Lv as [n E]. exists n. rewrite <- (O2 x Lx D). exact E.
Qed.
(** One bucket changes. *)
Lemma change_bucket s B i l s' p' l' : Inv s B -> nth_error B i = Some l -> bks s' = lupd (bks s) i p' -> seg (heap s') p' l' None -> NoDup (ids l') ->
  length (heap s) <= length (heap s') ->
  (forall x, x < length (heap s) -> ~ In x (ids l) -> nth_error (heap s') x = nth_error (heap s) x) ->
  (forall x, In x (ids l') -> In x (ids l) \/ length (heap s) <= x) ->
  (forall x, In x (ids l) \/ length (heap s) <= x -> live (heap s') x -> In x (ids l')) ->
  (forall x, In x l' -> slot (length B) (kof x) = i) -> grouped l' ->
  Inv s' (lupd B i l') /\ Step s B s' (lupd B i l').
Proof.
  intros I E Bk Sg Nd H1 H2 H3 H4 Pl Gr. destruct (cut_bucket B i l E) as (rest & P & P'). specialize (P' l').
  assert (Li : i < length B) by (apply nth_error_Some; rewrite E; discriminate).
  assert (Nr : NoDup (ids l ++ ids rest)). { rewrite <- map_app. apply (ids_nodup _ _ P (i_nodup _ _ I)). }
  assert (Old : forall x, In x (ids (concat B)) -> x < length (heap s)) by (intros x Hx; apply live_lt; apply (inv_live s B x I Hx)).
  assert (Rest : forall x, In x (ids rest) -> x < length (heap s) /\ ~ In x (ids l)).
  { intros x Hx. split.
    - apply Old. apply (ids_perm _ _ x P). rewrite map_app, in_app_iff. right. exact Hx.
    - intro Hl. exact (nodup_disj _ _ x Nr Hl Hx). }
  split.
  - split.
    + apply f2_of_nth; [rewrite Bk, !lupd_length; apply (inv_length s B I)|]. intros j p m Hp Hm. destruct (Nat.eq_dec i j) as [<-|Nij].
      * rewrite nth_lupd_eq in Hm by exact Li. injection Hm as <-. rewrite Bk, nth_lupd_eq in Hp by (rewrite (inv_length s B I); exact Li). injection Hp as <-. exact Sg.
      * rewrite nth_lupd_ne in Hm by exact Nij. rewrite Bk, nth_lupd_ne in Hp by exact Nij. pose proof (f2_nth _ _ _ (i_seg _ _ I) j) as F. rewrite Hp, Hm in F.
        apply (seg_ext (heap s)); [|exact F]. intros x Hx. assert (Q : In x (ids (concat B))). { apply in_ids in Hx. destruct Hx as [v Hx]. apply in_ids. exists v. apply (inv_in_concat B j m _ Hm Hx). }
        apply H2; [apply Old; exact Q|]. intro Hl. apply in_ids in Hl. destruct Hl as [v Hl]. apply in_ids in Hx. destruct Hx as [w Hx].
        assert (v = w). { destruct (inv_value s B x v I (inv_in_concat B i l _ E Hl)) as [n1 A1]. destruct (inv_value s B x w I (inv_in_concat B j m _ Hm Hx)) as [n2 A2]. congruence. } subst w.
        apply Nij. rewrite <- (i_placed _ _ I i l _ E Hl). apply (i_placed _ _ I j m _ Hm Hx).
    + apply (ids_nodup _ _ (Permutation_sym P')). rewrite map_app. apply nodup_app; [exact Nd|apply (nodup_r _ _ Nr)|]. intros x C1 C2. destruct (Rest x C2) as [R1 R2]. destruct (H3 x C1); [contradiction|lia].
    + rewrite lupd_length. intros j m x Hm Hx. destruct (Nat.eq_dec i j) as [<-|Nij].
      * rewrite nth_lupd_eq in Hm by exact Li. injection Hm as <-. auto.
      * rewrite nth_lupd_ne in Hm by exact Nij. apply (i_placed _ _ I j m x Hm Hx).
    + destruct (lupd_split B i l E) as (a & b & EB & _ & U). rewrite U. pose proof (i_grouped _ _ I) as G. rewrite EB in G. apply Forall_app in G. destruct G as [G1 G2]. inversion G2; subst. apply Forall_app. split; [exact G1|]. constructor; assumption.
  - split; [exact H1| | |].
    + intros x Lx N. apply H2; [exact Lx|]. intro C. apply N. apply (ids_perm _ _ x P). rewrite map_app, in_app_iff. left. exact C.
    + intros x C. apply (ids_perm _ _ x P') in C. rewrite map_app, in_app_iff in C. destruct C as [C|C].
      * destruct (H3 x C) as [D|D]; [left|right; exact D]. apply (ids_perm _ _ x P). rewrite map_app, in_app_iff. left. exact D.
      * left. apply (ids_perm _ _ x P). rewrite map_app, in_app_iff. right. exact C.
    + intros x C Lv. apply (ids_perm _ _ x P'). rewrite map_app, in_app_iff. destruct C as [C|C].
      * apply (ids_perm _ _ x P) in C. rewrite map_app, in_app_iff in C. destruct C as [C|C]; [left; apply H4; auto|right; exact C].
      * left. apply H4; auto.
Qed.

Ltac red_st := cbn [with_heap with_bks with_num less tick heap bks num clock].
(** ---- searching ---- *)
Lemma find_post s B k : Inv s B -> B <> [] ->
  post (ht_find key hash keq throws s k) (fun s' r => sim s s' /\ match r with None => forall y, In y (concat B) -> keq (kof y) k = false | Some p => exists v, In (p, v) (concat B) /\ keq (key v) k = true end) (sim s).
Proof.
  intros I NB. assert (L0 : 0 < length B) by (destruct B; [congruence|cbn; lia]). unfold ht_find. apply post_bind. apply post_slot; [rewrite (inv_length s B I); exact L0| |apply sim_tick].
  rewrite (inv_length s B I). destruct (inv_bucket s B _ I (slot_lt hash (length B) k L0)) as (p & l & E1 & E2 & Sg). apply post_bind. apply (post_bucket _ _ p); [exact E1|].
  eapply post_mono; [| |apply (find_from_post key keq throws l (fuel (tick s)) (tick s) p k Sg)].
  - intros s' [x|] [S' R]; (split; [exact (sim_trans _ _ _ (sim_tick s) S')|]).
    + destruct R as (a & v & b & -> & Q & _). exists v. split; [|exact Q]. apply (inv_in_concat B _ _ _ E2). rewrite in_app_iff. right. left. reflexivity.
    + intros y Hy. destruct (keq (kof y) k) eqn:Q; [|reflexivity]. rewrite <- Q. apply R. apply (inv_key s B k l y I E2 Hy Q).
  - intros s' S'. exact (sim_trans _ _ _ (sim_tick s) S').
  - unfold fuel. cbn [tick heap]. pose proof (seg_bound _ _ _ _ Sg (inv_list_nodup s B _ l I E2)). lia.
Qed.
Lemma filter_none {A} (f : A -> bool) l : (forall y, In y l -> f y = false) -> filter f l = [].
Proof. induction l as [|x l IH]; intro H; [reflexivity|]. cbn. rewrite (H x (or_introl eq_refl)). apply IH. intros y Hy. apply H. right. exact Hy. Qed.
Lemma filter_perm {A} (f : A -> bool) a b : Permutation a b -> Permutation (filter f a) (filter f b).
Proof.
  induction 1 as [|x a b P IH|x y a|a b c P1 IH1 P2 IH2]; cbn.
  - constructor.
  - destruct (f x); [constructor; exact IH|exact IH].
  - destruct (f x), (f y); try apply Permutation_refl; constructor.
  - exact (Permutation_trans IH1 IH2).
Qed.
Lemma key_filter s B k l : Inv s B -> nth_error B (slot (length B) k) = Some l ->
  Permutation (filter (fun y => keq (kof y) k) (concat B)) (filter (fun y => keq (kof y) k) l).
Proof.
  intros I E. destruct (cut_bucket B _ l E) as (rest & P & _). apply (Permutation_trans (filter_perm _ _ _ P)). rewrite filter_app. rewrite (filter_none _ rest); [rewrite app_nil_r; apply Permutation_refl|].
  intros y Hy. destruct (keq (kof y) k) eqn:Q; [|reflexivity]. exfalso. assert (Hc : In y (concat B)) by (apply (Permutation_in y (Permutation_sym P)); rewrite in_app_iff; right; exact Hy).
  pose proof (inv_key s B k l y I E Hc Q) as Hl. pose proof (ids_nodup _ _ P (i_nodup _ _ I)) as N. rewrite map_app in N.
  apply (in_map fst) in Hl. apply (in_map fst) in Hy. exact (nodup_disj _ _ _ N Hl Hy).
Qed.
Lemma count_post s B k : Inv s B -> B <> [] ->
  post (ht_count key hash keq throws s k) (fun s' c => sim s s' /\ c = length (filter (fun y => keq (kof y) k) (concat B))) (sim s).
Proof.
  intros I NB. assert (L0 : 0 < length B) by (destruct B; [congruence|cbn; lia]). unfold ht_count. apply post_bind. apply post_slot; [rewrite (inv_length s B I); exact L0| |apply sim_tick].
  rewrite (inv_length s B I). destruct (inv_bucket s B _ I (slot_lt hash (length B) k L0)) as (p & l & E1 & E2 & Sg). apply post_bind. apply (post_bucket _ _ p); [exact E1|].
  eapply post_mono; [| |apply (count_from_post key keq throws l (fuel (tick s)) (tick s) p k 0 Sg)].
  - intros s' c [S' ->]. split; [exact (sim_trans _ _ _ (sim_tick s) S')|]. cbn [Nat.add]. symmetry. apply Permutation_length. apply (key_filter s B k l I E2).
  - intros s' S'. exact (sim_trans _ _ _ (sim_tick s) S').
  - unfold fuel. cbn [tick heap]. pose proof (seg_bound _ _ _ _ Sg (inv_list_nodup s B _ l I E2)). lia.
Qed.

(** ---- inserting ---- *)
Lemma nth_snoc_lt {A} (h : list A) y x : x < length h -> nth_error (h ++ [y]) x = nth_error h x.
Proof. apply nth_error_app1. Qed.
Lemma nth_snoc_eq {A} (h : list A) y : nth_error (h ++ [y]) (length h) = Some y.
Proof. rewrite nth_error_app2 by lia. rewrite Nat.sub_diag. reflexivity. Qed.
(** A new node in front of a bucket. *)
Definition inserted (s : st) B v (s' : st) B' x : Prop := Inv s' B' /\ Step s B s' B' /\ length B' = length B /\ x = length (heap s) /\ Permutation (concat B') ((x, v) :: concat B) /\ num s' = S (num s).
Lemma lupd_cons_perm (B : list (list el)) i l x : nth_error B i = Some l -> Permutation (concat (lupd B i (x :: l))) (x :: concat B).
Proof. intro E. destruct (cut_bucket B i l E) as (rest & P & P'). apply (Permutation_trans (P' _)). cbn [app]. constructor. apply Permutation_sym. exact P. Qed.
Lemma push_post {A} (g : nat -> A) s B v p l : Inv s B -> nth_error (bks s) (slot (length B) (key v)) = Some p -> nth_error B (slot (length B) (key v)) = Some l -> seg (heap s) p l None ->
  (forall y, In y l -> keq (kof y) (key v) = false) ->
  post (bind (new_node throws s v) (fun s tmp => bind (set_next s tmp p) (fun s _ => bind (set_bucket s (slot (length B) (key v)) (Some tmp)) (fun s _ => Ret (with_num s (S (num s))) (g tmp)))))
    (fun s' r => exists B' x, inserted s B v s' B' x /\ r = g x)
    (sim s).
Proof.
  intros I E1 E2 Sg NE. set (i := slot (length B) (key v)) in *. apply post_bind. apply post_new; [|apply sim_tick].
  apply post_bind. eapply post_next; [cbn [with_heap heap]; apply nth_snoc_eq|]. cbn [with_heap heap tick]. apply post_bind. apply post_set_bucket.
  { cbn [with_heap bks tick]. rewrite (inv_length s B I). apply nth_error_Some. rewrite E2. discriminate. }
  cbn [post with_heap with_bks with_num heap bks num clock tick]. set (h' := lupd (heap s ++ [Some (Node v None)]) (length (heap s)) (Some (Node v p))).
  assert (Lh : length h' = S (length (heap s))) by (unfold h'; rewrite lupd_length, app_length; cbn; lia).
  assert (Ho : forall x, x < length (heap s) -> nth_error h' x = nth_error (heap s) x) by (intros x Hx; unfold h'; rewrite nth_lupd_ne by lia; apply nth_snoc_lt; exact Hx).
  assert (Hn : nth_error h' (length (heap s)) = Some (Some (Node v p))) by (unfold h'; apply nth_lupd_eq; rewrite app_length; cbn; lia).
  assert (Fr : forall x, In x (ids l) -> x < length (heap s)).
  { intros x Hx. destruct (seg_live _ _ _ _ _ Sg Hx) as (w & n & Q & _). apply nth_error_Some. rewrite Q. discriminate. }
  match goal with |- context [inserted s B v ?s'] => assert (X : Inv s' (lupd B i ((length (heap s), v) :: l)) /\ Step s B s' (lupd B i ((length (heap s), v) :: l))) end.
  2:{ destruct X as [X1 X2]. eexists. eexists. split; [|reflexivity]. split; [exact X1|]. split; [exact X2|]. split; [apply lupd_length|]. split; [reflexivity|]. split; [apply lupd_cons_perm; exact E2|reflexivity]. }
  apply (change_bucket s B i l _ (Some (length (heap s)))); try assumption; red_st.
  - reflexivity.
  - cbn [seg]. split; [reflexivity|]. exists p. split; [exact Hn|]. apply (seg_ext (heap s)); [|exact Sg]. intros x Hx. apply Ho. apply Fr. exact Hx.
  - cbn [map]. constructor; [|apply (inv_list_nodup s B i l I E2)]. intro C. exact (Nat.lt_irrefl _ (Fr _ C)).
  - rewrite Lh. lia.
  - intros x Hx _. apply Ho. exact Hx.
  - intros x [<-|Hx]; [right; apply le_n|left; exact Hx].
  - intros x [Hx|Hx] Lv; [right; exact Hx|left]. apply live_lt in Lv. rewrite Lh in Lv. cbn [fst]. lia.
  - intros x [<-|Hx]; [reflexivity|apply (i_placed _ _ I i l x E2 Hx)].
  - cbn [HashProofs.grouped]. split.
    + intros (z & Hz & Ha). exfalso. specialize (NE z Hz). unfold HashProofs.alike in Ha. apply keq_sym in Ha. change (kof (length (heap s), v)) with (key v) in Ha. congruence.
    + pose proof (i_grouped _ _ I) as G. rewrite Forall_forall in G. apply G. apply (nth_error_In _ _ E2).
Qed.
Lemma inserted_sim s s1 B v s' B' x : Inv s B -> sim s s1 -> inserted s1 B v s' B' x -> inserted s B v s' B' x.
Proof.
  intros I S1 (A1 & A2 & A3 & A4 & A5 & A6). pose proof (step_sim s s1 B I S1) as T. destruct S1 as (Hh & Hb & Hm). split; [exact A1|]. split; [exact (step_trans _ _ _ _ _ _ T A2)|]. split; [exact A3|]. split; [congruence|]. split; [exact A5|congruence].
Qed.
(** A new node behind one with the same key. *)
Lemma behind_post s B v a cur w b p : Inv s B -> nth_error (bks s) (slot (length B) (key v)) = Some p -> nth_error B (slot (length B) (key v)) = Some (a ++ (cur, w) :: b) -> seg (heap s) p (a ++ (cur, w) :: b) None ->
  keq (key w) (key v) = true ->
  post (bind (new_node throws s v) (fun s tmp => bind (load s cur) (fun s nc => bind (set_next s tmp (n_next nc)) (fun s _ => bind (set_next s cur (Some tmp)) (fun s _ => Ret (with_num s (S (num s))) tmp)))))
    (fun s' x => exists B', inserted s B v s' B' x)
    (sim s).
Proof.
  intros I E1 E2 Sg Q. set (i := slot (length B) (key v)) in *. pose proof Sg as Sg0. apply seg_app in Sg. destruct Sg as (m & SgA & (-> & n & En & SgB)).
  pose proof (inv_list_nodup s B i _ I E2) as Nd. rewrite map_app in Nd. cbn [map fst] in Nd.
  assert (Fr : forall x, In x (ids (a ++ (cur, w) :: b)) -> x < length (heap s)).
  { intros x Hx. destruct (seg_live _ _ _ _ _ Sg0 Hx) as (u & n' & Q' & _). apply nth_error_Some. rewrite Q'. discriminate. }
  assert (Lc : cur < length (heap s)) by (apply Fr; rewrite map_app, in_app_iff; right; left; reflexivity).
  apply post_bind. apply post_new; [|apply sim_tick]. apply post_bind. eapply post_load; [red_st; rewrite nth_snoc_lt by exact Lc; exact En|]. cbn [n_next].
  apply post_bind. eapply post_next; [red_st; apply nth_snoc_eq|]. red_st. apply post_bind. eapply post_next; [red_st; rewrite nth_lupd_ne by lia; rewrite nth_snoc_lt by exact Lc; exact En|].
  red_st. set (h1 := lupd (heap s ++ [Some (Node v None)]) (length (heap s)) (Some (Node v n))). set (h' := lupd h1 cur (Some (Node w (Some (length (heap s)))))). cbn [post].
  assert (L1 : length h1 = S (length (heap s))) by (unfold h1; rewrite lupd_length, app_length; cbn; lia).
  assert (Lh : length h' = S (length (heap s))) by (unfold h'; rewrite lupd_length; exact L1).
  assert (Ho : forall x, x < length (heap s) -> x <> cur -> nth_error h' x = nth_error (heap s) x).
  { intros x Hx Nx. unfold h'. rewrite nth_lupd_ne by congruence. unfold h1. rewrite nth_lupd_ne by lia. apply nth_snoc_lt; exact Hx. }
  assert (Hn : nth_error h' (length (heap s)) = Some (Some (Node v n))) by (unfold h'; rewrite nth_lupd_ne by lia; unfold h1; apply nth_lupd_eq; rewrite app_length; cbn; lia).
  assert (Hc : nth_error h' cur = Some (Some (Node w (Some (length (heap s)))))) by (unfold h'; apply nth_lupd_eq; rewrite L1; lia).
  set (l' := a ++ (cur, w) :: (length (heap s), v) :: b).
  match goal with |- context [inserted s B v ?s'] => assert (X : Inv s' (lupd B i l') /\ Step s B s' (lupd B i l')) end.
  2:{ destruct X as [X1 X2]. eexists. split; [exact X1|]. split; [exact X2|]. split; [apply lupd_length|]. split; [reflexivity|]. split; [|reflexivity].
      destruct (cut_bucket B i _ E2) as (rest & P & P'). apply (Permutation_trans (P' _)). unfold l'.
      apply (Permutation_trans (l' := (length (heap s), v) :: (a ++ (cur, w) :: b) ++ rest)); [|constructor; apply Permutation_sym; exact P].
      change ((length (heap s), v) :: (a ++ (cur, w) :: b) ++ rest) with (((length (heap s), v) :: a ++ (cur, w) :: b) ++ rest). apply Permutation_app_tail.
      change (a ++ (cur, w) :: (length (heap s), v) :: b) with (a ++ [(cur, w)] ++ (length (heap s), v) :: b). rewrite app_assoc. apply Permutation_sym. change (a ++ (cur, w) :: b) with (a ++ [(cur, w)] ++ b). rewrite app_assoc. apply Permutation_middle. }
  assert (Na : forall x, In x (ids a) -> x <> cur) by (intros x Hx ->; apply (nodup_disj _ _ cur Nd Hx); left; reflexivity).
  assert (Nb : forall x, In x (ids b) -> x <> cur) by (intros x Hx ->; apply nodup_r in Nd; inversion Nd; contradiction).
  apply (change_bucket s B i _ _ p _ I E2); red_st.
  - symmetry. apply lupd_same. exact E1.
  - unfold l'. apply seg_app. exists (Some cur). split.
    + apply (seg_ext (heap s)); [|exact SgA]. intros x Hx. apply Ho; [|apply Na; exact Hx]. apply Fr. rewrite map_app, in_app_iff. left. exact Hx.
    + cbn [seg]. split; [reflexivity|]. eexists. split; [exact Hc|]. split; [reflexivity|]. exists n. split; [exact Hn|]. apply (seg_ext (heap s)); [|exact SgB]. intros x Hx. apply Ho; [|apply Nb; exact Hx]. apply Fr. rewrite map_app, in_app_iff. right. right. exact Hx.
  - unfold l'. change (a ++ (cur, w) :: (length (heap s), v) :: b) with (a ++ [(cur, w)] ++ (length (heap s), v) :: b). rewrite app_assoc, map_app. cbn [map fst].
    apply (Permutation_NoDup (Permutation_middle _ _ _)). rewrite <- map_app, <- app_assoc. cbn [app]. constructor.
    + intro C. exact (Nat.lt_irrefl _ (Fr _ C)).
    + rewrite map_app. exact Nd.
  - rewrite Lh. lia.
  - intros x Hx N. apply Ho; [exact Hx|]. intros ->. apply N. rewrite map_app, in_app_iff. right. left. reflexivity.
  - intros x. unfold l'. rewrite !map_app, !in_app_iff. cbn [map fst In]. intros [C|[C|[C|C]]]; auto. right. lia.
  - intros x C Lv. unfold l'. rewrite !map_app, !in_app_iff in *. cbn [map fst In] in *. destruct C as [C|C]; [tauto|]. apply live_lt in Lv. rewrite Lh in Lv. right. right. left. lia.
  - intros x. unfold l'. rewrite in_app_iff. cbn [In]. intros [C|[C|[C|C]]].
    + apply (i_placed _ _ I i _ x E2). rewrite in_app_iff. auto.
    + apply (i_placed _ _ I i _ x E2). rewrite in_app_iff. cbn. auto.
    + subst x. reflexivity.
    + apply (i_placed _ _ I i _ x E2). rewrite in_app_iff. cbn. auto.
  - unfold l'. apply (grouped_insert key keq keq_sym keq_trans).
    + pose proof (i_grouped _ _ I) as G. rewrite Forall_forall in G. apply G. apply (nth_error_In _ _ E2).
    + exact Q.
Qed.
Lemma insert_unique_noresize_post s B v : Inv s B -> B <> [] ->
  post (insert_unique_noresize key hash keq throws s v)
    (fun s' r => if snd r then (forall y, In y (concat B) -> keq (kof y) (key v) = false) /\ exists B', inserted s B v s' B' (fst r)
                 else sim s s' /\ exists w, In (fst r, w) (concat B) /\ keq (key w) (key v) = true)
    (sim s).
Proof.
  intros I NB. assert (L0 : 0 < length B) by (destruct B; [congruence|cbn; lia]). unfold insert_unique_noresize. apply post_bind. apply post_slot; [rewrite (inv_length s B I); exact L0| |apply sim_tick].
  rewrite (inv_length s B I). destruct (inv_bucket s B _ I (slot_lt hash (length B) (key v) L0)) as (p & l & E1 & E2 & Sg). apply post_bind. apply (post_bucket _ _ p); [exact E1|]. apply post_bind.
  eapply post_mono; [| |apply (find_from_post key keq throws l (fuel (tick s)) (tick s) p (key v) Sg)].
  - intros s' [x|] [S' R]; pose proof (sim_trans _ _ _ (sim_tick s) S') as S2; clear S'.
    + destruct R as (a & w & b & -> & Q & _). cbn [post snd fst]. split; [exact S2|]. exists w. split; [|exact Q]. apply (inv_in_concat B _ _ _ E2). rewrite in_app_iff. right. left. reflexivity.
    + pose proof (inv_sim s s' B I S2) as I'. destruct S2 as (Hh & Hb & Hm). rewrite <- Hh in Sg. rewrite <- Hb in E1.
      eapply post_mono; [| |apply (push_post (fun x => (x, true)) s' B v p l I' E1 E2 Sg R)].
      * intros s2 r (B' & x & H & ->). cbn [fst snd]. split.
        -- intros y Hy. destruct (keq (kof y) (key v)) eqn:Q; [|reflexivity]. rewrite <- Q. apply R. apply (inv_key s B (key v) l y I E2 Hy Q).
        -- exists B'. apply (inserted_sim s s'); [exact I|repeat split; assumption|exact H].
      * intros s2 S2. apply (sim_trans s s'); [repeat split; assumption|exact S2].
  - intros s' S'. exact (sim_trans _ _ _ (sim_tick s) S').
  - unfold fuel. cbn [tick heap]. pose proof (seg_bound _ _ _ _ Sg (inv_list_nodup s B _ l I E2)). lia.
Qed.
Lemma insert_equal_noresize_post s B v : Inv s B -> B <> [] ->
  post (insert_equal_noresize key hash keq throws s v) (fun s' x => exists B', inserted s B v s' B' x) (sim s).
Proof.
  intros I NB. assert (L0 : 0 < length B) by (destruct B; [congruence|cbn; lia]). unfold insert_equal_noresize. apply post_bind. apply post_slot; [rewrite (inv_length s B I); exact L0| |apply sim_tick].
  rewrite (inv_length s B I). destruct (inv_bucket s B _ I (slot_lt hash (length B) (key v) L0)) as (p & l & E1 & E2 & Sg). apply post_bind. apply (post_bucket _ _ p); [exact E1|]. apply post_bind.
  eapply post_mono; [| |apply (find_from_post key keq throws l (fuel (tick s)) (tick s) p (key v) Sg)].
  - intros s' r [S' R]. pose proof (sim_trans _ _ _ (sim_tick s) S') as S2. clear S'. pose proof (inv_sim s s' B I S2) as I'. destruct S2 as (Hh & Hb & Hm). rewrite <- Hh in Sg. rewrite <- Hb in E1. destruct r as [x|].
    + destruct R as (a & w & b & -> & Q & _). eapply post_mono; [| |apply (behind_post s' B v a x w b p I' E1 E2 Sg Q)].
      * intros s2 y (B' & H). exists B'. apply (inserted_sim s s'); [exact I|repeat split; assumption|exact H].
      * intros s2 S2. apply (sim_trans s s'); [repeat split; assumption|exact S2].
    + eapply post_mono; [| |apply (push_post (fun x => x) s' B v p l I' E1 E2 Sg R)].
      * intros s2 r (B' & x & H & ->). exists B'. apply (inserted_sim s s'); [exact I|repeat split; assumption|exact H].
      * intros s2 S2. apply (sim_trans s s'); [repeat split; assumption|exact S2].
  - intros s' S'. exact (sim_trans _ _ _ (sim_tick s) S').
  - unfold fuel. cbn [tick heap]. pose proof (seg_bound _ _ _ _ Sg (inv_list_nodup s B _ l I E2)). lia.
Qed.
End Proofs.
