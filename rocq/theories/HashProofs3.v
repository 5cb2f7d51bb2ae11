(** HashProofs3.v -- C122: erasing. *)
From Coq Require Import List NArith Bool Arith Lia Permutation.
Import ListNotations.
From Verif Require Import Base HashModel HashProofs HashProofs2.

Section Proofs.
Context {V K : Type}.
Variable key : V -> K.
Variable hash : K -> N.
Variable keq : K -> K -> bool.
Variable throws : nat -> bool.
Hypothesis keq_refl : forall a, keq a a = true.
Hypothesis keq_sym : forall a b, keq a b = true -> keq b a = true.
Hypothesis keq_trans : forall a b c, keq a b = true -> keq b c = true -> keq a c = true.
Hypothesis keq_hash : forall a b, keq a b = true -> hash a = hash b.
Notation el := (nat * V)%type.
Notation ids := (map (@fst nat V)).
Notation kof := (kof key).
Notation alike := (alike key keq).
Notation grouped := (grouped key keq).
Notation slot := (slot hash).
Notation st := (@st V).
Notation hp := (list (option (@node V))).
Notation Inv := (Inv key hash keq).

Ltac red_st := cbn [with_heap with_bks with_num less tick heap bks num clock].
Definition hd_ptr (l : list el) : option nat := match l with [] => None | (x, _) :: _ => Some x end.
Lemma seg_hd (h : hp) p l : seg h p l None -> p = hd_ptr l.
Proof. destruct l as [|[x v] l]; cbn [seg hd_ptr]; [intro H; exact H|intros [H _]; exact H]. Qed.
Lemma seg_lt (h : hp) p l q x : seg h p l q -> In x (ids l) -> x < length h.
Proof. intros H I. destruct (seg_live _ _ _ _ _ H I) as (v & n & E & _). apply nth_error_Some. rewrite E. discriminate. Qed.

(** A bucket loses some nodes behind its first one. *)
Record Done (s s' : st) (p : option nat) (l l' : list el) : Prop := {
  d_bks : bks s' = bks s;
  d_len : length (heap s') = length (heap s);
  d_seg : seg (heap s') p l' None;
  d_old : forall x, ~ In x (ids l) -> nth_error (heap s') x = nth_error (heap s) x;
  d_live : forall x, In x (ids l) -> live (heap s') x -> In x (ids l');
  d_incl : forall x, In x l' -> In x l;
  d_num : num s' + length l = num s + length l' }.
Lemma done_refl s s' p l : seg (heap s) p l None -> sim s s' -> Done s s' p l l.
Proof. intros H (A & B & C). split; rewrite ?A, ?B, ?C; auto. Qed.
Lemma done_trans s1 s2 s3 p l1 l2 l3 : Done s1 s2 p l1 l2 -> Done s2 s3 p l2 l3 -> Done s1 s3 p l1 l3.
Proof.
  intros [B1 L1 S1 O1 V1 I1 N1] [B2 L2 S2 O2 V2 I2 N2].
  assert (Sub : forall x, In x (ids l2) -> In x (ids l1)) by (intros x Hx; apply in_ids in Hx; destruct Hx as [v Hx]; apply in_ids; exists v; auto).
  split; try congruence; auto; try lia.
  - intros x Hx. rewrite O2; [auto|]. intro C. apply Hx. auto.
  - intros x Hx Lv. destruct (in_dec Nat.eq_dec x (ids l2)) as [D|D]; [auto|]. exfalso. apply D. apply V1; [exact Hx|]. destruct Lv as [n E]. exists n. rewrite <- (O2 x D). exact E.
Qed.
Lemma done_sim s1 s2 s3 p l1 l2 : seg (heap s1) p l1 None -> sim s1 s2 -> Done s2 s3 p l1 l2 -> Done s1 s3 p l1 l2.
Proof. intros H S D. apply (done_trans s1 s2 s3 p l1 l1 l2); [apply done_refl; assumption|exact D]. Qed.

Lemma drop_node s p a cur vc x v r : seg (heap s) p (a ++ (cur, vc) :: (x, v) :: r) None -> NoDup (ids (a ++ (cur, vc) :: (x, v) :: r)) -> 0 < num s ->
  exists n q, nth_error (heap s) x = Some (Some (Node v n)) /\ nth_error (heap s) cur = Some (Some (Node vc q)) /\
    nth_error (lupd (heap s) cur (Some (Node vc n))) x = Some (Some (Node v n)) /\
    let s1 := less (with_heap (with_heap s (lupd (heap s) cur (Some (Node vc n)))) (lupd (lupd (heap s) cur (Some (Node vc n))) x None)) in
    Done s s1 p (a ++ (cur, vc) :: (x, v) :: r) (a ++ (cur, vc) :: r) /\ n = hd_ptr r.
Proof.
  intros Sg Nd Pos. pose proof Sg as Sg0. apply seg_app in Sg. destruct Sg as (m & SgA & (-> & q & Eq & (-> & n & En & SgB))).
  assert (Nd0 := Nd). rewrite map_app in Nd. cbn [map fst] in Nd. pose proof (nodup_r _ _ Nd) as Nd2. inversion Nd2 as [|z1 m1 Nc Nd3]; subst. inversion Nd3 as [|z2 m2 Nx Nd4]; subst.
  assert (Ncx : cur <> x) by (intros ->; apply Nc; left; reflexivity).
  assert (Lc : cur < length (heap s)) by (apply nth_error_Some; rewrite Eq; discriminate).
  assert (Lx : x < length (heap s)) by (apply nth_error_Some; rewrite En; discriminate).
  exists n, (Some x). split; [exact En|]. split; [exact Eq|]. split; [rewrite nth_lupd_ne by exact Ncx; exact En|]. cbv zeta. split; [|apply (seg_hd _ _ _ SgB)].
  set (h2 := lupd (lupd (heap s) cur (Some (Node vc n))) x None).
  assert (Ho : forall y, y <> cur -> y <> x -> nth_error h2 y = nth_error (heap s) y) by (intros y A1 A2; unfold h2; rewrite !nth_lupd_ne by congruence; reflexivity).
  assert (Hc : nth_error h2 cur = Some (Some (Node vc n))) by (unfold h2; rewrite nth_lupd_ne by congruence; apply nth_lupd_eq; exact Lc).
  assert (Hx : nth_error h2 x = Some None) by (unfold h2; apply nth_lupd_eq; rewrite lupd_length; exact Lx).
  split; red_st; fold h2.
  - reflexivity.
  - unfold h2. rewrite !lupd_length. reflexivity.
  - apply seg_app. exists (Some cur). split.
    + apply (seg_ext (heap s)); [|exact SgA]. intros y Hy. apply Ho; intros ->; apply (nodup_disj _ _ _ Nd Hy); cbn; auto.
    + cbn [seg]. split; [reflexivity|]. exists n. split; [exact Hc|]. apply (seg_ext (heap s)); [|exact SgB]. intros y Hy. apply Ho; intros ->; [apply Nc; right; exact Hy|contradiction].
  - intros y Hy. rewrite map_app, in_app_iff in Hy. cbn [map fst In] in Hy. apply Ho; intros ->; apply Hy; auto.
  - intros y Hy [z Ez]. rewrite map_app, in_app_iff in *. cbn [map fst In] in *. destruct Hy as [Hy|[Hy|[Hy|Hy]]]; auto. subst y. rewrite Hx in Ez. discriminate.
  - intros y. rewrite !in_app_iff. cbn [In]. clear. tauto.
  - rewrite !app_length. cbn [length]. lia.
Qed.

(** The key of an element, readable as long as that element is not in [r]. *)
Definition readable (s : st) (k : kref) (kk : K) (r : list el) : Prop :=
  match k with KVal k => k = kk | KOf p => (exists v n, nth_error (heap s) p = Some (Some (Node v n)) /\ key v = kk) /\ ~ In p (ids r) end.
Lemma post_read (s : st) k kk r (Q : st -> K -> Prop) (E : st -> Prop) : readable s k kk r -> Q s kk -> post (read_key key s k) Q E.
Proof.
  destruct k as [k|p]; cbn [readable read_key]; [intros ->; auto|]. intros [(v & n & En & <-) _] H. apply post_bind. apply (post_load _ _ _ _ _ _ En). exact H.
Qed.
Lemma done_readable s s' p l l' k kk r r' : Done s s' p l l' -> readable s k kk r -> (forall x, In x (ids r') -> In x (ids r)) ->
  (forall p, k = KOf p -> In p (ids l) -> In p (ids l')) -> seg (heap s) p l None -> readable s' k kk r'.
Proof.
  intros D R Sub Kp Sg. destruct k as [k|q]; cbn [readable] in *; [exact R|]. destruct R as [(v & n & En & Ek) Nr]. split; [|intro C; apply Nr; auto].
  destruct (in_dec Nat.eq_dec q (ids l)) as [I|I].
  - specialize (Kp q eq_refl I). destruct (seg_live _ _ _ _ _ (d_seg _ _ _ _ _ D) Kp) as (v' & n' & E' & I'). exists v', n'. split; [exact E'|].
    destruct (seg_value _ _ _ _ _ _ Sg (d_incl _ _ _ _ _ D _ I')) as [n2 E2]. congruence.
  - exists v, n. split; [rewrite (d_old _ _ _ _ _ D q I); exact En|exact Ek].
Qed.
Definition other (kk : K) (y : el) : bool := negb (keq (kof y) kk).
Lemma snoc_cons {A} (a : list A) x r : (a ++ [x]) ++ r = a ++ x :: r.
Proof. rewrite <- app_assoc. reflexivity. Qed.
Lemma erase_loop_post r : forall f s p a cur vc k kk erased,
  seg (heap s) p (a ++ (cur, vc) :: r) None -> NoDup (ids (a ++ (cur, vc) :: r)) -> readable s k kk r -> length r < f -> length r <= num s ->
  post (erase_loop key keq throws f s cur (hd_ptr r) k erased)
    (fun s' c => Done s s' p (a ++ (cur, vc) :: r) (a ++ (cur, vc) :: filter (other kk) r) /\ c + length (filter (other kk) r) = erased + length r)
    (fun s' => exists r1 r2, r = r1 ++ r2 /\ Done s s' p (a ++ (cur, vc) :: r) (a ++ (cur, vc) :: filter (other kk) r1 ++ r2)).
Proof.
  induction r as [|[x v] r IH]; intros f s p a cur vc k kk erased Sg Nd Rd F Num; (destruct f as [|f]; [lia|]); cbn [erase_loop hd_ptr].
  - cbn [post filter length]. split; [apply done_refl; [exact Sg|apply sim_refl]|lia].
  - destruct (drop_node s p a cur vc x v r Sg Nd ltac:(cbn in Num; lia)) as (n & q & En & Eq & En2 & D & Hn). apply post_bind. apply (post_load _ _ _ _ _ _ En). cbn [n_val n_next].
    apply post_bind. apply (post_read _ _ _ _ _ _ Rd). apply post_bind. apply post_call.
    2:{ exists [], ((x, v) :: r). split; [reflexivity|]. cbn [filter app]. apply done_refl; [exact Sg|apply sim_tick]. }
    destruct (keq (key v) kk) eqn:Q.
    + apply post_bind. eapply post_next; [exact Eq|]. apply post_bind. eapply post_delete; [exact En2|]. rewrite Hn in *.
      match goal with |- post (erase_loop _ _ _ _ ?s1 _ _ _ _) _ _ => set (s2 := s1) end. cbv zeta in D.
      assert (D' : Done s s2 p (a ++ (cur, vc) :: (x, v) :: r) (a ++ (cur, vc) :: r)).
      { apply (done_trans s _ s2 p _ _ _ D). apply done_refl; [apply (d_seg _ _ _ _ _ D)|]. unfold s2. repeat split. }
      assert (Nd2 : NoDup (ids (a ++ (cur, vc) :: r))).
      { rewrite map_app in *. cbn [map fst] in *. change (cur :: x :: ids r) with ([cur] ++ x :: ids r) in Nd. rewrite app_assoc in Nd. apply NoDup_remove_1 in Nd. rewrite <- app_assoc in Nd. exact Nd. }
      assert (Rd2 : readable s2 k kk r).
      { apply (done_readable s s2 p _ _ k kk _ r D' Rd); [intros y Hy; right; exact Hy| |exact Sg]. intros y -> Hy. rewrite map_app, in_app_iff in *. cbn [map fst In] in *. destruct Rd as [_ Nr]. cbn [map fst In] in Nr. intuition. }
      eapply post_mono; [| |apply (IH f s2 p a cur vc k kk (S erased) (d_seg _ _ _ _ _ D') Nd2 Rd2)].
      * intros s' c [D2 C]. assert (O : other kk (x, v) = false) by (unfold other; change (kof (x, v)) with (key v); rewrite Q; reflexivity). cbn [filter]. rewrite O. split; [exact (done_trans _ _ _ _ _ _ _ D' D2)|]. cbn [length]. lia.
      * intros s' (r1 & r2 & -> & D2). exists ((x, v) :: r1), r2. split; [reflexivity|]. assert (O : other kk (x, v) = false) by (unfold other; change (kof (x, v)) with (key v); rewrite Q; reflexivity). cbn [filter]. rewrite O. exact (done_trans _ _ _ _ _ _ _ D' D2).
      * cbn in F. lia.
      * pose proof (d_num _ _ _ _ _ D') as Dn. rewrite !app_length in Dn. cbn [length] in *. lia.
    + assert (O : other kk (x, v) = true) by (unfold other; change (kof (x, v)) with (key v); rewrite Q; reflexivity). rewrite Hn.
      assert (Rd2 : readable (tick s) k kk r) by (destruct k; cbn [readable] in *; [exact Rd|]; destruct Rd as [R1 R2]; split; [exact R1|intro C; apply R2; right; exact C]).
      eapply post_mono; [| |apply (IH f (tick s) p (a ++ [(cur, vc)]) x v k kk erased); try rewrite !snoc_cons; try assumption; try (cbn in *; lia)].
      * intros s' c [D2 C]. rewrite !snoc_cons in D2. cbn [filter]. rewrite O. split; [apply (done_sim s (tick s)); [exact Sg|apply sim_tick|exact D2]|cbn [length]; lia].
      * intros s' (r1 & r2 & -> & D2). rewrite !snoc_cons in D2. exists ((x, v) :: r1), r2. split; [reflexivity|]. cbn [filter]. rewrite O. apply (done_sim s (tick s)); [exact Sg|apply sim_tick|exact D2].
Qed.

(** From a bucket to the table. *)
Lemma sublist_placed s B i l l' : Inv s B -> nth_error B i = Some l -> (forall x, In x l' -> In x l) -> forall x : el, In x l' -> slot (length B) (kof x) = i.
Proof. intros I E H x Hx. apply (i_placed _ _ _ _ _ I i l x E). auto. Qed.
Lemma bucket_grouped s B i l : Inv s B -> nth_error B i = Some l -> grouped l.
Proof. intros I E. pose proof (i_grouped _ _ _ _ _ I) as G. rewrite Forall_forall in G. apply G. apply (nth_error_In _ _ E). Qed.
Lemma done_table s s' B i p l l' : Inv s B -> nth_error (bks s) i = Some p -> nth_error B i = Some l -> Done s s' p l l' -> NoDup (ids l') -> grouped l' ->
  Inv s' (lupd B i l') /\ Step s B s' (lupd B i l').
Proof.
  intros I E1 E2 D Nd G. apply (change_bucket key hash keq s B i l s' p l' I E2).
  - rewrite (d_bks _ _ _ _ _ D). symmetry. apply lupd_same. exact E1.
  - apply (d_seg _ _ _ _ _ D).
  - exact Nd.
  - rewrite (d_len _ _ _ _ _ D). lia.
  - intros x _ H. apply (d_old _ _ _ _ _ D). exact H.
  - intros x Hx. left. apply in_ids in Hx. destruct Hx as [v Hx]. apply in_ids. exists v. apply (d_incl _ _ _ _ _ D). exact Hx.
  - intros x [Hx|Hx] Lv; [apply (d_live _ _ _ _ _ D); assumption|]. exfalso. apply live_lt in Lv. rewrite (d_len _ _ _ _ _ D) in Lv. lia.
  - apply (sublist_placed s B i l l' I E2). apply (d_incl _ _ _ _ _ D).
  - exact G.
Qed.
(** The first node of a bucket goes. *)
Lemma pop_table s B i x v r n : Inv s B -> nth_error B i = Some ((x, v) :: r) -> nth_error (heap s) x = Some (Some (Node v n)) ->
  forall s', bks s' = lupd (bks s) i n -> heap s' = lupd (heap s) x None -> Inv s' (lupd B i r) /\ Step s B s' (lupd B i r).
Proof.
  intros I E En s' Hb Hh. assert (Li : i < length B) by (apply nth_error_Some; rewrite E; discriminate). destruct (inv_bucket key hash keq s B i I Li) as (p & l & E1 & E2 & Sg). rewrite E in E2. injection E2 as <-.
  destruct Sg as (-> & n' & En' & Sg). rewrite En in En'. injection En' as <-. pose proof (inv_list_nodup key hash keq s B i _ I E) as Nd. cbn [map fst] in Nd. inversion Nd as [|z m Nx Nr]; subst.
  assert (Lx : x < length (heap s)) by (apply nth_error_Some; rewrite En; discriminate).
  apply (change_bucket key hash keq s B i _ s' n r I E Hb); try assumption.
  - rewrite Hh. apply (seg_ext (heap s)); [|exact Sg]. intros y Hy. apply nth_lupd_ne. intros ->. contradiction.
  - rewrite Hh, lupd_length. lia.
  - intros y _ Hy. rewrite Hh. apply nth_lupd_ne. intros ->. apply Hy. left. reflexivity.
  - intros y Hy. left. right. exact Hy.
  - intros y [Hy|Hy] Lv.
    + cbn [map fst In] in Hy. destruct Hy as [<-|Hy]; [|exact Hy]. destruct Lv as [z Ez]. rewrite Hh, nth_lupd_eq in Ez by exact Lx. discriminate.
    + apply live_lt in Lv. rewrite Hh, lupd_length in Lv. lia.
  - apply (sublist_placed s B i _ r I E). intros y Hy. right. exact Hy.
  - pose proof (bucket_grouped s B i _ I E) as G. apply G.
Qed.

Lemma lupd_twice {A} (B : list A) i x y : lupd (lupd B i x) i y = lupd B i y.
Proof. revert i. induction B as [|b B IH]; intros [|i]; cbn; try reflexivity. f_equal. apply IH. Qed.
Lemma filter_len {A} (f : A -> bool) l : length (filter f l) <= length l.
Proof. induction l as [|x l IH]; cbn; [lia|]. destruct (f x); cbn; lia. Qed.
Lemma nodup_filter f (l : list el) : NoDup (ids l) -> NoDup (ids (filter f l)).
Proof.
  induction l as [|[x v] l IH]; intro H; [exact H|]. cbn [filter]. cbn [map fst] in H. inversion H as [|z m H1 H2]; subst. destruct (f (x, v)); [|auto]. cbn [map fst]. constructor; [|auto].
  intro C. apply H1. apply in_ids in C. destruct C as [w C]. apply filter_In in C. apply in_ids. exists w. apply C.
Qed.
Lemma nodup_part f (a b : list el) : NoDup (ids (a ++ b)) -> NoDup (ids (filter f a ++ b)).
Proof.
  rewrite !map_app. intro H. apply nodup_app; [apply nodup_filter; apply (nodup_l _ _ H)|apply (nodup_r _ _ H)|]. intros x H1 H2. apply (nodup_disj _ _ x H); [|exact H2].
  apply in_ids in H1. destruct H1 as [v H1]. apply filter_In in H1. apply in_ids. exists v. apply H1.
Qed.
Lemma other_alike kk x y : alike x y -> other kk x = other kk y.
Proof.
  intro H. unfold other. f_equal. unfold HashProofs.alike in H. destruct (keq (kof x) kk) eqn:A, (keq (kof y) kk) eqn:B; try reflexivity.
  - rewrite (keq_trans _ _ _ (keq_sym _ _ H) A) in B. discriminate.
  - rewrite (keq_trans _ _ _ H B) in A. discriminate.
Qed.
Lemma grouped_part_filter kk a b : grouped (a ++ b) -> grouped (filter (other kk) a ++ b).
Proof.
  induction a as [|x a IH]; [auto|]. intro G. cbn [filter app]. destruct (other kk x) eqn:O; [|apply IH; exact (proj2 G)]. cbn [app HashProofs.grouped]. destruct G as [H G]. split; [|apply IH; exact G].
  intros (z & Hz & A). assert (Hz' : In z (a ++ b)). { rewrite in_app_iff in *. destruct Hz as [Hz|Hz]; [left; apply filter_In in Hz; apply Hz|right; exact Hz]. }
  specialize (H (ex_intro _ z (conj Hz' A))). destruct a as [|y a]; [exact H|]. cbn [app] in H. cbn [filter]. rewrite <- (other_alike kk x y H), O. exact H.
Qed.
(** Elements of other buckets have other keys. *)
Lemma other_rest s B kk l rest : Inv s B -> nth_error B (slot (length B) kk) = Some l -> Permutation (concat B) (l ++ rest) -> filter (other kk) rest = rest.
Proof.
  intros I E P. assert (H : forall y, In y rest -> other kk y = true).
  { intros y Hy. unfold other. destruct (keq (kof y) kk) eqn:Q; [|reflexivity]. exfalso. assert (Hc : In y (concat B)) by (apply (Permutation_in y (Permutation_sym P)); rewrite in_app_iff; auto).
    pose proof (inv_key key hash keq keq_hash s B kk l y I E Hc Q) as Hl. pose proof (ids_nodup _ _ P (i_nodup _ _ _ _ _ I)) as N. rewrite map_app in N. exact (nodup_disj _ _ _ N (in_map fst _ _ Hl) (in_map fst _ _ Hy)). }
  clear -H. induction rest as [|y r IH]; [reflexivity|]. cbn. rewrite (H y (or_introl eq_refl)). f_equal. apply IH. intros z Hz. apply H. right. exact Hz.
Qed.
(** The key may be that of an element which is first in its bucket, or of none of this table. *)
Definition key_ref (s : st) (B : list (list el)) (k : kref) (kk : K) : Prop :=
  match k with KVal k => k = kk | KOf p => (exists v n, nth_error (heap s) p = Some (Some (Node v n)) /\ key v = kk) /\ (forall l, In l B -> ~ In p (ids (tl l))) end.
Definition erased (s : st) B kk (s' : st) B' : Prop := Inv s' B' /\ Step s B s' B' /\ length B' = length B /\ Permutation (concat B') (filter (other kk) (concat B)) /\ num s' + length (concat B) = num s + length (concat B').
(** After an exception some elements with that key may remain. *)
Definition half_erased (s : st) B kk (s' : st) B' : Prop := Inv s' B' /\ Step s B s' B' /\ length B' = length B /\ num s' + length (concat B) = num s + length (concat B') /\
  exists gone, Permutation (concat B) (gone ++ concat B') /\ forall y, In y gone -> keq (kof y) kk = true.
Lemma perm_filter_split kk (l : list el) : exists gone, Permutation l (gone ++ filter (other kk) l) /\ forall y, In y gone -> keq (kof y) kk = true.
Proof.
  induction l as [|x l (g & P & H)]; [exists []; split; [constructor|intros _ []]|]. cbn [filter]. destruct (other kk x) eqn:O.
  - exists g. split; [|exact H]. apply Permutation_cons_app. exact P.
  - exists (x :: g). split; [cbn [app]; constructor; exact P|]. intros y [<-|Hy]; [|auto]. unfold other in O. apply negb_false_iff in O. exact O.
Qed.
Lemma erase_key_post s B k kk : Inv s B -> B <> [] -> key_ref s B k kk -> length (concat B) <= num s ->
  post (erase_key key hash keq throws s k)
    (fun s' c => exists B', erased s B kk s' B' /\ c + length (concat B') = length (concat B))
    (fun s' => exists B', half_erased s B kk s' B').
Proof.
  intros I NB Kr Num. assert (L0 : 0 < length B) by (destruct B; [congruence|cbn; lia]).
  assert (Rd : forall r, (forall x, In x (ids r) -> exists l, In l B /\ In x (ids (tl l))) -> readable s k kk r).
  { intros r Hr. destruct k as [k|p]; cbn in *; [exact Kr|]. destruct Kr as [R N]. split; [exact R|]. intro C. destruct (Hr p C) as (l & Hl & Hp). exact (N l Hl Hp). }
  assert (Same : forall s', sim s s' -> half_erased s B kk s' B).
  { intros s' S'. split; [apply (inv_sim key hash keq s); assumption|]. split; [apply (step_sim key hash keq); assumption|]. split; [reflexivity|]. destruct S' as (_ & _ & ->). split; [reflexivity|]. exists []. split; [apply Permutation_refl|intros _ []]. }
  unfold erase_key. apply post_bind. apply (post_read s k kk [] _ _ (Rd [] ltac:(intros x []))). apply post_bind. apply post_slot; [rewrite (inv_length key hash keq s B I); exact L0| |exists B; apply Same; apply sim_tick].
  rewrite (inv_length key hash keq s B I). pose proof (slot_lt hash (length B) kk L0) as Li. destruct (inv_bucket key hash keq s B _ I Li) as (p & l & E1 & E2 & Sg). set (i := slot (length B) kk) in *.
  apply post_bind. apply (post_bucket _ _ p); [exact E1|]. destruct (cut_bucket B i l E2) as (rest & P & P').
  pose proof (other_rest s B kk l rest I E2 P) as Or.
  assert (Len : length (concat B) = length l + length rest) by (rewrite (Permutation_length P), app_length; reflexivity).
  pose proof (inv_list_nodup key hash keq s B i l I E2) as Nd. pose proof (bucket_grouped s B i l I E2) as Gl.
  destruct l as [|[x v] r].
  { cbn in Sg. subst p. cbn [post]. exists B. split; [|reflexivity]. split; [apply (inv_sim key hash keq s); [exact I|apply sim_tick]|]. split; [apply (step_sim key hash keq); [exact I|apply sim_tick]|]. split; [reflexivity|]. split; [|reflexivity].
    cbn [app] in P. apply (Permutation_trans P). rewrite <- Or at 1. apply Permutation_sym. apply filter_perm. exact P. }
  pose proof Sg as Sg0. destruct Sg as (-> & n & En & Sg). apply post_bind. eapply post_load; [exact En|]. cbn [n_next]. rewrite (seg_hd _ _ _ Sg). apply post_bind.
  assert (Rr : readable s k kk r). { apply Rd. intros y Hy. exists ((x, v) :: r). split; [apply (nth_error_In _ _ E2)|exact Hy]. }
  assert (Rt : readable (tick s) k kk r) by exact Rr.
  assert (Lr : length r <= num s) by (cbn [length] in Len; lia).
  assert (Ft : forall l', NoDup (ids l') -> grouped l' -> forall s', Done (tick s) s' (Some x) ((x, v) :: r) l' -> Inv s' (lupd B i l') /\ Step s B s' (lupd B i l') /\ num s' + length (concat B) = num s + length (concat (lupd B i l'))).
  { intros l' N' G' s' D. destruct (done_table s s' B i (Some x) ((x, v) :: r) l' I E1 E2 (done_sim s (tick s) s' _ _ _ Sg0 (sim_tick s) D) N' G') as [X1 X2]. split; [exact X1|]. split; [exact X2|].
    pose proof (d_num _ _ _ _ _ D) as Dn. red_st. cbn [tick num] in Dn. rewrite (Permutation_length (P' l')), app_length, Len. lia. }
  eapply post_mono; [| |apply (erase_loop_post r (fuel (tick s)) (tick s) (Some x) [] x v k kk 0 Sg0 Nd Rt)].
  - intros s1 c [D C]. cbn [app] in D. assert (N1 : NoDup (ids ((x, v) :: filter (other kk) r))).
    { cbn [map fst] in *. inversion Nd as [|z m A1 A2]; subst. constructor; [|apply nodup_filter; exact A2]. intro Q. apply A1. apply in_ids in Q. destruct Q as [w Q]. apply filter_In in Q. apply in_ids. exists w. apply Q. }
    assert (G1 : grouped ((x, v) :: filter (other kk) r)).
    { cbn [HashProofs.grouped]. destruct Gl as [Ga Gb]. split; [|apply (grouped_filter key keq); [intros; apply other_alike; assumption|exact Gb]]. intros (z & Hz & A). apply filter_In in Hz. destruct Hz as [Hz Oz].
      specialize (Ga (ex_intro _ z (conj Hz A))). destruct r as [|y r]; [destruct Hz|]. cbn [filter]. assert (O : other kk y = true). { rewrite <- Oz. apply other_alike. apply (alike_trans key keq keq_trans y (x, v)); [apply (alike_sym key keq keq_sym); exact Ga|exact A]. } rewrite O. exact Ga. }
    destruct (Ft _ N1 G1 s1 D) as (I1 & T1 & M1). assert (E2' : nth_error (lupd B i ((x, v) :: filter (other kk) r)) i = Some ((x, v) :: filter (other kk) r)) by (apply nth_lupd_eq; exact Li).
    pose proof (d_seg _ _ _ _ _ D) as Sg1. destruct Sg1 as (_ & n1 & En1 & Sg1). apply post_bind. eapply post_load; [exact En1|]. cbn [n_val n_next]. apply post_bind.
    assert (Rd1 : readable s1 k kk (filter (other kk) r)).
    { apply (done_readable (tick s) s1 (Some x) _ _ k kk r _ D Rt); [intros y Hy; apply in_ids in Hy; destruct Hy as [w Hy]; apply filter_In in Hy; apply in_ids; exists w; apply Hy| |exact Sg0].
      intros y -> Hy. cbn [map fst In] in *. destruct Hy as [<-|Hy]; [left; reflexivity|]. destruct Rr as [_ Nr]. contradiction. }
    apply (post_read _ _ _ _ _ _ Rd1). apply post_bind.
    assert (Pf : Permutation (filter (other kk) (concat B)) (filter (other kk) ((x, v) :: r) ++ rest)). { apply (Permutation_trans (filter_perm _ _ _ P)). rewrite filter_app, Or. apply Permutation_refl. }
    apply post_call.
    2:{ exists (lupd B i ((x, v) :: filter (other kk) r)). split; [apply (inv_sim key hash keq s1); [exact I1|apply sim_tick]|]. split; [apply (step_trans _ _ _ _ _ _ T1); apply (step_sim key hash keq); [exact I1|apply sim_tick]|]. split; [apply lupd_length|]. split; [exact M1|].
        destruct (perm_filter_split kk r) as (g & Pg & Hg). exists g. split; [|exact Hg]. apply (Permutation_trans P). apply Permutation_sym. apply (Permutation_trans (Permutation_app_head g (P' _))). rewrite app_assoc. apply Permutation_app_tail.
        apply Permutation_sym. apply (Permutation_trans (l' := (x, v) :: g ++ filter (other kk) r)); [constructor; exact Pg|apply Permutation_middle]. }
    destruct (keq (key v) kk) eqn:Q.
    + assert (Ox : other kk (x, v) = false) by (unfold other; change (kof (x, v)) with (key v); rewrite Q; reflexivity).
      apply post_bind. apply post_set_bucket; [red_st; rewrite (inv_length key hash keq _ _ I1), lupd_length; exact Li|]. apply post_bind. eapply post_delete; [red_st; exact En1|]. cbn [post].
      assert (Ip : Inv (tick s1) (lupd B i ((x, v) :: filter (other kk) r))) by (apply (inv_sim key hash keq s1); [exact I1|apply sim_tick]).
      match goal with |- exists B', erased s B kk ?s' B' /\ _ => destruct (pop_table (tick s1) _ i x v (filter (other kk) r) n1 Ip E2' En1 s') as [I3 T3]; [reflexivity|reflexivity|] end.
      assert (LL : lupd (lupd B i ((x, v) :: filter (other kk) r)) i (filter (other kk) r) = lupd B i (filter (other kk) r)).
      { apply lupd_twice. }
      rewrite LL in I3, T3. pose proof (P' (filter (other kk) r)) as P3. pose proof (P' ((x, v) :: filter (other kk) r)) as P4.
      exists (lupd B i (filter (other kk) r)). split; [split; [exact I3|]; split; [|split; [apply lupd_length|split]]|].
      * apply (step_trans _ _ _ _ _ _ T1). apply (step_trans _ _ _ _ _ _ (step_sim key hash keq _ _ _ I1 (sim_tick s1)) T3).
      * apply (Permutation_trans P3). apply Permutation_sym. apply (Permutation_trans Pf). cbn [filter]. rewrite Ox. apply Permutation_refl.
      * red_st. rewrite (Permutation_length P3), app_length. rewrite (Permutation_length P4) in M1. cbn [app length] in M1. rewrite app_length in M1. lia.
      * rewrite (Permutation_length P3), app_length, Len. cbn [length]. lia.
    + cbn [post]. assert (Ox : other kk (x, v) = true) by (unfold other; change (kof (x, v)) with (key v); rewrite Q; reflexivity). pose proof (P' ((x, v) :: filter (other kk) r)) as P4.
      exists (lupd B i ((x, v) :: filter (other kk) r)). split; [split; [apply (inv_sim key hash keq s1); [exact I1|apply sim_tick]|]; split; [apply (step_trans _ _ _ _ _ _ T1); apply (step_sim key hash keq); [exact I1|apply sim_tick]|]; split; [apply lupd_length|split; [|exact M1]]|].
      * apply (Permutation_trans P4). apply Permutation_sym. apply (Permutation_trans Pf). cbn [filter]. rewrite Ox. apply Permutation_refl.
      * rewrite (Permutation_length P4), app_length, Len. cbn [length]. lia.
  - intros s1 (r1 & r2 & -> & D). cbn [app] in D.
    assert (N1 : NoDup (ids ((x, v) :: filter (other kk) r1 ++ r2))).
    { cbn [map fst] in *. inversion Nd as [|z m A1 A2]; subst. constructor; [|apply nodup_part; exact A2]. intro Q. apply A1. apply in_ids in Q. destruct Q as [w Q]. apply in_ids. exists w. rewrite in_app_iff in *. destruct Q as [Q|Q]; [apply filter_In in Q; tauto|auto]. }
    assert (G1 : grouped ((x, v) :: filter (other kk) r1 ++ r2)).
    { cbn [HashProofs.grouped]. destruct Gl as [Ga Gb]. split; [|apply grouped_part_filter; exact Gb]. intros (z & Hz & A). assert (Hz' : In z (r1 ++ r2)) by (rewrite in_app_iff in *; destruct Hz as [Hz|Hz]; [apply filter_In in Hz; tauto|auto]).
      specialize (Ga (ex_intro _ z (conj Hz' A))). destruct r1 as [|y r1]; [exact Ga|]. cbn [app filter] in *. destruct (other kk y) eqn:O; [exact Ga|].
      (* the elements alike are gone from the front, or all of them are *)
      destruct (grouped_run key keq keq_sym keq_trans y (r1 ++ r2) Gb) as (run & t & Et & Hr & Ht).
      assert (Ay : alike y z) by (apply (alike_trans key keq keq_trans y (x, v)); [apply (alike_sym key keq keq_sym); exact Ga|exact A]).
      assert (Oz : other kk z = false) by (rewrite <- O; symmetry; apply other_alike; exact Ay).
      rewrite in_app_iff in Hz. destruct Hz as [Hz|Hz]; [apply filter_In in Hz; destruct Hz as [_ Hz]; congruence|].
      (* z in r2, so all of r1 is alike y *)
      assert (R1 : forall u, In u r1 -> other kk u = false).
      { intros u Hu. rewrite <- O. symmetry. apply other_alike. clear -Et Hr Ht Hu Hz Ay N1 Nd. 
        assert (Iu : In u run \/ In u t) by (apply in_app_or; rewrite <- Et; apply in_or_app; auto). destruct Iu as [Iu|Iu]; [auto|]. exfalso.
        assert (Iz : In z run). { assert (Q : In z (run ++ t)) by (rewrite <- Et; apply in_or_app; auto). apply in_app_or in Q. destruct Q as [Q|Q]; [exact Q|exfalso; exact (Ht z Q Ay)]. }
        cbn [map fst] in Nd. inversion Nd as [|z0 m0 _ Nd2]; subst. inversion Nd2 as [|z1 m1 _ Nd3]; subst.
        clear -Et Iu Iz Hu Hz Nd3. revert r1 Et Hu Nd3. induction run as [|b run IH]; intros r1 Et Hu Nd3; [destruct Iz|]. destruct r1 as [|c r1]; [destruct Hu|]. cbn [app] in Et. injection Et as -> Et.
        destruct Iz as [->|Iz].
        - cbn [app map] in Nd3. inversion Nd3 as [|z2 m2 A _]; subst. apply A. rewrite map_app, in_app_iff. right. apply in_map. exact Hz.
        - destruct Hu as [->|Hu].
          + cbn [app map] in Nd3. inversion Nd3 as [|z2 m2 A _]; subst. apply A. rewrite Et, map_app, in_app_iff. right. apply in_map. exact Iu.
          + cbn [app map] in Nd3. inversion Nd3; subst. apply (IH Iz r1 Et Hu). assumption. }
      rewrite (filter_none (other kk) r1 R1). cbn [app]. destruct r2 as [|u r2]; [destruct Hz|].
      destruct (in_app_or run t u) as [Iu|Iu]; [rewrite <- Et; apply in_or_app; right; left; reflexivity| |].
      - apply (alike_trans key keq keq_trans (x, v) y); [exact Ga|]. apply Hr. exact Iu.
      - exfalso. (* u in t, z after it *)
        assert (Iz : In z run). { assert (Q : In z (run ++ t)) by (rewrite <- Et; apply in_or_app; auto). apply in_app_or in Q. destruct Q as [Q|Q]; [exact Q|exfalso; exact (Ht z Q Ay)]. }
        cbn [map fst] in Nd. inversion Nd as [|z0 m0 _ Nd2]; subst. inversion Nd2 as [|z1 m1 _ Nd3]; subst.
        clear -Et Iu Iz Hz Nd3. revert r1 Et Nd3. induction run as [|b run IH]; intros r1 Et Nd3; [destruct Iz|]. destruct r1 as [|c r1].
        + cbn [app] in Et. injection Et as -> Et. cbn [app map] in Nd3. inversion Nd3 as [|z2 m2 A _]; subst. apply A. rewrite map_app, in_app_iff. right. apply in_map. exact Iu.
        + cbn [app] in Et. injection Et as -> Et. cbn [app map] in Nd3. inversion Nd3 as [|z2 m2 A A2]; subst. destruct Iz as [->|Iz]; [apply A; rewrite map_app, in_app_iff; right; apply in_map; exact Hz|]. apply (IH Iz r1 Et A2). }
    destruct (Ft _ N1 G1 s1 D) as (I1 & T1 & M1). exists (lupd B i ((x, v) :: filter (other kk) r1 ++ r2)). split; [exact I1|]. split; [exact T1|]. split; [apply lupd_length|]. split; [exact M1|].
    destruct (perm_filter_split kk r1) as (g & Pg & Hg). exists g. split; [|exact Hg]. apply (Permutation_trans P). apply Permutation_sym. apply (Permutation_trans (Permutation_app_head g (P' _))). rewrite app_assoc. apply Permutation_app_tail.
    apply Permutation_sym. apply (Permutation_trans (l' := (x, v) :: g ++ filter (other kk) r1 ++ r2)); [constructor; rewrite app_assoc; apply Permutation_app_tail; exact Pg|apply Permutation_middle].
  - unfold fuel. cbn [tick heap]. pose proof (seg_bound _ _ _ _ Sg0 Nd). cbn [length] in *. lia.
  - exact Lr.
Qed.
End Proofs.
