(** HashProofs6.v -- C122: iteration, ranges of equal keys, comparison; insertion with resize. *)
From Coq Require Import List NArith Bool Arith Lia Permutation.
Import ListNotations.
From Verif Require Import Base HashModel HashSpec HashProofs HashProofs2 HashProofs3 HashProofs4 HashProofs5.

Section Proofs.
Context {V K : Type}.
Variable key : V -> K.
Variable hash : K -> N.
Variable keq : K -> K -> bool.
Variable throws : nat -> bool.
Variable veq : V -> V -> bool.
Hypothesis keq_refl : forall a, keq a a = true.
Hypothesis keq_sym : forall a b, keq a b = true -> keq b a = true.
Hypothesis keq_trans : forall a b c, keq a b = true -> keq b c = true -> keq a c = true.
Hypothesis keq_hash : forall a b, keq a b = true -> hash a = hash b.
Notation el := (nat * V)%type.
Notation ids := (map (@fst nat V)).
Notation kof := (kof key).
Notation alike := (alike key keq).
Notation grouped := (grouped key keq).
Notation slot := (slot hash).
Notation st := (@st V).
Notation hp := (list (option (@node V))).
Notation Inv := (Inv key hash keq).
Ltac red_st := cbn [with_heap with_bks with_num less tick heap bks num clock].

(** ---- iteration ---- *)
Lemma first_ptr (h : hp) bk B : Forall2 (fun p l => seg h p l None) bk B ->
  match find (fun p : option nat => match p with Some _ => true | None => false end) bk with Some p => p | None => None end = first (concat B).
Proof.
  induction 1 as [|p l bk B Sg F IH]; [reflexivity|]. cbn [find concat]. destruct l as [|[x v] l].
  - cbn in Sg. subst p. exact IH.
  - destruct Sg as (-> & _). reflexivity.
Qed.
Lemma f2_skipn {A B} (R : A -> B -> Prop) i a b : Forall2 R a b -> Forall2 R (skipn i a) (skipn i b).
Proof. revert a b. induction i as [|i IH]; intros a b F; [exact F|]. destruct F; cbn; [constructor|auto]. Qed.
Lemma next_bucket_eq s B i : Inv s B -> next_bucket s i = first (concat (skipn i B)).
Proof. intro I. unfold next_bucket. apply (first_ptr (heap s)). apply f2_skipn. apply (i_seg _ _ _ _ _ I). Qed.
Lemma skipn_mid {A} (a : list A) x b : skipn (S (length a)) (a ++ x :: b) = b.
Proof. induction a as [|y a IH]; [reflexivity|]. exact IH. Qed.
Lemma first_app (a b : list el) : a <> [] -> first (a ++ b) = first a.
Proof. destruct a as [|[x v] a]; [congruence|reflexivity]. Qed.
Lemma incr_post thr s B A x v C : Inv s B -> concat B = A ++ (x, v) :: C ->
  post (incr key hash thr s x) (fun s' r => sim s s' /\ r = first C) (sim s).
Proof.
  intros I E. destruct (concat_split B A (x, v) C E) as (B1 & a & b & B2 & -> & -> & ->). set (l := a ++ (x, v) :: b) in *.
  assert (Hx : In (x, v) l) by (unfold l; rewrite in_app_iff; right; left; reflexivity).
  destruct (inv_bucket key hash keq s _ (length B1) I) as (p & l' & E1 & E2 & Sg). { rewrite app_length. cbn. lia. } rewrite nth_mid in E2. injection E2 as <-.
  unfold l in Sg. apply seg_app in Sg. destruct Sg as (m & _ & (_ & n & En & Sg)). unfold incr. apply post_bind. eapply post_load; [exact En|]. cbn [n_next n_val]. destruct b as [|[y w] b].
  - cbn in Sg. subst n. apply post_bind. pose proof (inv_length key hash keq s _ I) as Lb. apply post_slot; [rewrite Lb, app_length; cbn; lia| |apply sim_tick]. cbn [post]. split; [apply sim_tick|].
    rewrite Lb. change (key v) with (kof (x, v)). rewrite (mid_slot key hash keq s B1 l B2 _ I Hx). rewrite (next_bucket_eq (tick s) (B1 ++ l :: B2)); [|apply (inv_sim key hash keq s); [exact I|apply sim_tick]]. rewrite skipn_mid. reflexivity.
  - destruct Sg as (-> & _). cbn [post]. split; [apply sim_refl|reflexivity].
Qed.
Lemma walk_from s B : Inv s B -> forall C A, concat B = A ++ C -> walk key hash s (first C) C.
Proof.
  intro I. induction C as [|[x v] C IH]; intros A E; [constructor|]. cbn [first]. pose proof (incr_post never s B A x v C I E) as P. destruct (incr key hash never s x) as [s' y|s'|] eqn:Ei; cbn [post] in P.
  - destruct P as [_ ->]. destruct (inv_value key hash keq s B x v I) as [n En]. { rewrite E, in_app_iff. right. left. reflexivity. }
    eapply walk_next; [exact En|exact Ei|]. apply (IH (A ++ [(x, v)])). rewrite <- app_assoc. exact E.
  - exfalso. clear P. unfold incr, load in Ei. destruct (nth_error (heap s) x) as [[[u m]|]|]; try discriminate. cbn [bind n_next] in Ei. destruct m; [discriminate|]. unfold bkt_num, call in Ei. cbn [never bind] in Ei. destruct (length (bks s)); discriminate.
  - destruct P.
Qed.
Lemma walk_all s B : Inv s B -> walk key hash s (ht_begin s) (concat B).
Proof. intro I. unfold ht_begin. rewrite (next_bucket_eq s B 0 I). cbn [skipn]. apply (walk_from s B I (concat B) []). reflexivity. Qed.
Lemma walk_fun s p l l' : walk key hash s p l -> walk key hash s p l' -> l = l'.
Proof. intro W. revert l'. induction W as [|x v n s' y l E1 E2 W IH]; intros l' W'; inversion W'; subst; [reflexivity|]. assert (y0 = y) as -> by congruence. assert (v0 = v) as -> by congruence. f_equal. apply IH. assumption. Qed.

(** ---- the elements of a bucket ---- *)
Lemma filter_all {A} (f : A -> bool) l : (forall x, In x l -> f x = true) -> filter f l = l.
Proof. induction l as [|x l IH]; intro H; [reflexivity|]. cbn. rewrite (H x (or_introl eq_refl)). f_equal. apply IH. intros y Hy. apply H. right. exact Hy. Qed.
Lemma bucket_filter s B i l : Inv s B -> nth_error B i = Some l -> l = filter (fun x => Nat.eqb (slot (length B) (kof x)) i) (concat B).
Proof.
  intros I E. pose proof (i_placed _ _ _ _ _ I) as P. set (n := length B) in P |- *. clearbody n. clear I. assert (P' : forall j m x, nth_error B j = Some m -> In x m -> slot n (kof x) = 0 + j) by exact P. clear P.
  replace i with (0 + i) by lia. revert i E P'. generalize 0. induction B as [|m B IH]; intros k i E P; [destruct i; discriminate|]. cbn [concat]. rewrite filter_app. destruct i as [|i].
  - injection E as ->. rewrite filter_all; [|intros x Hx; rewrite (P 0 l x eq_refl Hx); apply Nat.eqb_refl]. rewrite filter_none; [rewrite app_nil_r; reflexivity|].
    intros x Hx. apply in_concat in Hx. destruct Hx as (m & Hm & Hx). apply In_nth_error in Hm. destruct Hm as [j Hm]. rewrite (P (S j) m x Hm Hx). apply Nat.eqb_neq. lia.
  - rewrite filter_none; [|intros x Hx; rewrite (P 0 m x eq_refl Hx); apply Nat.eqb_neq; lia]. cbn [app]. replace (k + S i) with (S k + i) by lia. apply IH; [exact E|]. intros j m' x Hm Hx. rewrite (P (S j) m' x Hm Hx). lia.
Qed.
Lemma elems_post s B i : Inv s B -> i < length B ->
  post (elems_in_bucket s i) (fun s' c => s' = s /\ c = length (filter (fun x => Nat.eqb (slot (length B) (kof x)) i) (concat B))) (fun _ => False).
Proof.
  intros I Li. destruct (inv_bucket key hash keq s B i I Li) as (p & l & E1 & E2 & Sg). unfold elems_in_bucket. apply post_bind. eapply post_bucket; [exact E1|]. rewrite <- (bucket_filter s B i l I E2).
  pose proof (seg_bound _ _ _ _ Sg (inv_list_nodup key hash keq s _ _ _ I E2)) as Bd. eapply post_mono; [| |apply (chain_length_post l (fuel s) s p 0 Sg ltac:(unfold fuel; lia))]; [|intros s' H; exact H]. intros s' c [-> ->]. split; [reflexivity|lia].
Qed.

(** ---- equal_range ---- *)
Lemma equal_range_post s B k : Inv s B -> B <> [] ->
  post (equal_range key hash keq throws s k) (fun s' r => sim s s' /\ exists A M C, concat B = A ++ M ++ C /\ (forall y, In y M -> keq (kof y) k = true) /\ (forall y, In y (A ++ C) -> keq (kof y) k = false) /\
     r = (match M with [] => (None, None) | _ => (first (M ++ C), first C) end)) (sim s).
Proof.
  intros I NB. assert (L0 : 0 < length B) by (destruct B; [congruence|cbn; lia]). unfold equal_range. apply post_bind. apply post_slot; [rewrite (inv_length key hash keq s B I); exact L0| |apply sim_tick].
  rewrite (inv_length key hash keq s B I). destruct (inv_bucket key hash keq s B _ I (slot_lt hash (length B) k L0)) as (p & l & E1 & E2 & Sg). apply post_bind. eapply post_bucket; [exact E1|]. apply post_bind.
  pose proof (inv_list_nodup key hash keq s _ _ _ I E2) as Nd. pose proof (seg_bound _ _ _ _ Sg Nd) as Bd.
  destruct (lupd_split B _ l E2) as (B1 & B2 & EB & EL & _).
  assert (Out : forall y, In y (concat B1 ++ concat B2) -> keq (kof y) k = false).
  { intros y Hy. destruct (keq (kof y) k) eqn:Q; [|reflexivity]. exfalso. assert (Hc : In y (concat B)) by (rewrite EB, concat_app; cbn [concat]; rewrite !in_app_iff in *; tauto).
    pose proof (inv_key key hash keq keq_hash s B k l y I E2 Hc Q) as Hl. pose proof (i_nodup _ _ _ _ _ I) as N. rewrite EB, concat_app in N. cbn [concat] in N. rewrite !map_app in N. rewrite in_app_iff in Hy. destruct Hy as [Hy|Hy]; apply (in_map fst) in Hy; apply (in_map fst) in Hl.
    - apply (nodup_disj _ _ _ N Hy). rewrite in_app_iff. left. exact Hl.
    - apply nodup_r in N. exact (nodup_disj _ _ _ N Hl Hy). }
  eapply post_mono; [| |apply (find_from_post key keq throws l (fuel (tick s)) (tick s) p k Sg)].
  - intros s1 [x|] [S1 R].
    + destruct R as (a & v & b & -> & Q & Ha). pose proof (sim_trans _ _ _ (sim_tick s) S1) as S2. clear S1. destruct S2 as (Hh & Hb & Hn). pose proof Sg as Sg0. apply seg_app in Sg0. destruct Sg0 as (m & _ & (_ & n & En & Sb)).
      apply post_bind. eapply post_load; [rewrite Hh; exact En|]. cbn [n_next]. apply post_bind. rewrite <- Hh in Sb.
      eapply post_mono; [| |apply (skip_equal_post key keq throws keq_sym b (fuel s1) s1 n k Sb)].
      * intros s2 r (S3 & b1 & b2 & -> & Hb1 & Hr). assert (S4 : sim s s2) by (apply (sim_trans s s1 s2); [repeat split; assumption|exact S3]).
        assert (Eb2 : forall y, In y b2 -> keq (kof y) k = false).
        { destruct r as [y|], b2 as [|[y' w] b2]; try contradiction. destruct Hr as [<- Hw].
          pose proof (bucket_grouped key hash keq s _ _ _ I E2) as G. apply (grouped_part key keq) in G. destruct (grouped_run key keq keq_sym keq_trans _ _ G) as (run & t & Et & Hrun & Ht).
          assert (Al : forall z, alike (x, v) z <-> keq (kof z) k = true). { intro z. unfold HashProofs.alike. change (kof (x, v)) with (key v). split; intro H; [apply keq_sym in H; exact (keq_trans _ _ _ H Q)|exact (keq_trans _ _ _ Q (keq_sym _ _ H))]. }
          intros z Hz. destruct (keq (kof z) k) eqn:Qz; [|reflexivity]. exfalso. apply Al in Qz.
          assert (Iz : exists t1 t2, (y, w) :: b2 = t1 ++ z :: t2) by (apply in_split; exact Hz). destruct Iz as (t1 & t2 & Ez).
          (* (y,w) is not alike, so it is in t, and so is all behind it *)
          destruct (Nat.lt_ge_cases (length b1) (length run)) as [Lt|Ge].
          - destruct (app_longer _ _ _ _ Et ltac:(lia)) as (e & -> & Ee). destruct e as [|z0 e]; [rewrite app_nil_r in Lt; lia|]. cbn [app] in Ee. injection Ee as <- Ee. assert (A1 : alike (x, v) (y, w)) by (apply Hrun; rewrite in_app_iff; right; left; reflexivity). apply Al in A1. change (kof (y, w)) with (key w) in A1. congruence.
          - destruct (app_longer _ _ _ _ (eq_sym Et) Ge) as (e & -> & Ee). apply (Ht z); [rewrite Ee, in_app_iff; right; exact Hz|exact Qz]. }
        assert (Fin : forall q, q = first (b2 ++ concat B2) -> sim s s2 /\ exists A M C, concat B = A ++ M ++ C /\ (forall y, In y M -> keq (kof y) k = true) /\ (forall y, In y (A ++ C) -> keq (kof y) k = false) /\ (Some x, q) = (match M with [] => (None, None) | _ => (first (M ++ C), first C) end)).
        { intros q ->. split; [exact S4|]. exists (concat B1 ++ a), ((x, v) :: b1), (b2 ++ concat B2). split; [rewrite EB, concat_app; cbn [concat app]; rewrite <- !app_assoc; cbn [app]; rewrite <- !app_assoc; reflexivity|]. split; [intros y [<-|Hy]; [exact Q|auto]|]. split; [|reflexivity].
          intros y Hy. rewrite !in_app_iff in Hy. destruct Hy as [[Hy|Hy]|[Hy|Hy]]; auto; apply Out; rewrite in_app_iff; auto. }
        destruct r as [y|], b2 as [|[y' w] b2]; try contradiction.
        -- destruct Hr as [<- Hw]. cbn [post]. apply Fin. reflexivity.
        -- cbn [post]. apply Fin. cbn [app]. rewrite (next_bucket_eq s2 B); [|apply (inv_sim key hash keq s); assumption]. rewrite <- EL. rewrite EB at 1. rewrite skipn_mid. reflexivity.
      * intros s2 S3. apply (sim_trans s s1 s2); [repeat split; assumption|exact S3].
      * unfold fuel. rewrite Hh. rewrite app_length in Bd. cbn [length] in Bd. lia.
    + cbn [post]. split; [exact (sim_trans _ _ _ (sim_tick s) S1)|]. exists (concat B1), [], (l ++ concat B2). split; [rewrite EB, concat_app; reflexivity|]. split; [intros y []|]. split; [|reflexivity].
      intros y Hy. rewrite !in_app_iff in Hy. destruct Hy as [Hy|[Hy|Hy]]; auto; apply Out; rewrite in_app_iff; auto.
  - intros s' S'. exact (sim_trans _ _ _ (sim_tick s) S').
  - unfold fuel. cbn [tick heap]. lia.
Qed.

(** ---- operator== ---- *)
Definition eqv (x y : el) : Prop := veq (snd x) (snd y) = true.
Lemma chain_eq_post l : forall m f s p q, seg (heap s) p l None -> seg (heap s) q m None -> length l < f ->
  post (chain_eq veq f s p q) (fun s' b => s' = s /\ (b = true <-> Forall2 eqv l m)) (fun _ => False).
Proof.
  induction l as [|[x v] l IH]; intros [|[y u] m] f s p q S1 S2 F; (destruct f as [|f]; [lia|]); cbn [chain_eq].
  - cbn in S1, S2. subst. cbn. split; [reflexivity|]. split; [constructor|reflexivity].
  - cbn in S1. subst p. destruct S2 as (-> & _). cbn. split; [reflexivity|]. split; [discriminate|intro H; inversion H].
  - destruct S1 as (-> & n & _). cbn in S2. subst q. cbn. split; [reflexivity|]. split; [discriminate|intro H; inversion H].
  - destruct S1 as (-> & n & En & S1). destruct S2 as (-> & n2 & En2 & S2). apply post_bind. eapply post_load; [exact En|]. apply post_bind. eapply post_load; [exact En2|]. cbn [n_val n_next]. destruct (veq v u) eqn:Q.
    + eapply post_mono; [| |apply (IH m f s n n2 S1 S2 ltac:(cbn in F; lia))]; [|intros s' []]. intros s' b [-> H]. split; [reflexivity|]. rewrite H. split; [intro G; constructor; [exact Q|exact G]|intro G; inversion G; assumption].
    + cbn. split; [reflexivity|]. split; [discriminate|]. intro H. inversion H as [|a1 a2 a3 a4 E1]; subst. unfold eqv in E1. cbn in E1. congruence.
Qed.
Lemma buckets_eq_post B : forall s bk B0 bk0, Forall2 (fun p l => seg (heap s) p l None) bk B -> Forall2 (fun p l => seg (heap s) p l None) bk0 B0 -> length B = length B0 -> (forall l, In l B -> NoDup (ids l)) ->
  post (buckets_eq veq s bk bk0) (fun s' b => s' = s /\ (b = true <-> Forall2 (Forall2 eqv) B B0)) (fun _ => False).
Proof.
  induction B as [|l B IH]; intros s bk B0 bk0 F F0 Le Nd; inversion F as [|p l1 bk1 B1 Sg Ft]; subst; destruct B0 as [|m B0]; try discriminate; inversion F0 as [|q m1 bk2 B2 Sg0 Ft0]; subst; cbn [buckets_eq].
  - cbn. split; [reflexivity|]. split; [constructor|reflexivity].
  - apply post_bind. pose proof (seg_bound _ _ _ _ Sg (Nd l (or_introl eq_refl))) as Bd. eapply post_mono; [| |apply (chain_eq_post l m (fuel s) s p q Sg Sg0 ltac:(unfold fuel; lia))]; [|intros s' []]. intros s' b [-> H]. destruct b.
    + eapply post_mono; [| |apply (IH s bk1 B0 bk2 Ft Ft0 ltac:(cbn in Le; lia))]; [|intros s' []|intros l' Hl; apply Nd; right; exact Hl]. intros s' b [-> H2]. split; [reflexivity|]. rewrite H2. split; [intro G; constructor; [apply H; reflexivity|exact G]|intro G; inversion G; assumption].
    + cbn. split; [reflexivity|]. split; [discriminate|]. intro G. inversion G as [|a1 a2 a3 a4 E1]; subst. apply H in E1. discriminate.
Qed.
Lemma f2_concat (B B0 : list (list el)) : Forall2 (Forall2 eqv) B B0 -> Forall2 eqv (concat B) (concat B0).
Proof. induction 1; cbn; [constructor|]. apply Forall2_app; assumption. Qed.
Lemma f2_filter (f : el -> bool) (R : el -> el -> Prop) l m : (forall x y, R x y -> f x = f y) -> Forall2 R l m -> Forall2 R (filter f l) (filter f m).
Proof. intros H F. induction F as [|x y l m E F IH]; [constructor|]. cbn. rewrite <- (H x y E). destruct (f x); [constructor; assumption|exact IH]. Qed.
Lemma f2_nth_ext {A} (R : A -> A -> Prop) a b : length a = length b -> (forall i x y, nth_error a i = Some x -> nth_error b i = Some y -> R x y) -> Forall2 R a b.
Proof. revert b. induction a as [|x a IH]; intros [|y b] L H; try discriminate; constructor; [apply (H 0); reflexivity|]. apply IH; [cbn in L; lia|]. intros i. apply (H (S i)). Qed.
Lemma eq_post s B sc bk0 k0 B0 : Inv s B -> Inv (St (heap s) sc bk0 k0) B0 ->
  post (ht_eq veq s bk0) (fun s' b => s' = s /\ (b = true -> length B = length B0 /\ Forall2 eqv (concat B) (concat B0)) /\
     (length B = length B0 -> Forall2 (fun x y => veq (snd x) (snd y) = true /\ keq (key (snd x)) (key (snd y)) = true) (concat B) (concat B0) -> b = true)) (fun _ => False).
Proof.
  intros I I0. unfold ht_eq. pose proof (inv_length key hash keq _ _ I) as L1. pose proof (inv_length key hash keq _ _ I0) as L2. cbn [bks] in L2. destruct (Nat.eqb_spec (length (bks s)) (length bk0)) as [E|E].
  - assert (LE : length B = length B0) by congruence. eapply post_mono; [| |apply (buckets_eq_post B s (bks s) B0 bk0 (i_seg _ _ _ _ _ I) (i_seg _ _ _ _ _ I0) LE)]; [|intros s' []|].
    + intros s' b [-> H]. split; [reflexivity|]. split; [intro Hb; split; [exact LE|apply f2_concat, H, Hb]|]. intros _ F. apply H. apply f2_nth_ext; [exact LE|]. intros i l m El Em.
      rewrite (bucket_filter s B i l I El), (bucket_filter _ B0 i m I0 Em). rewrite <- LE. set (n := length B). clearbody n.
      assert (G : Forall2 (fun x y => veq (snd x) (snd y) = true /\ keq (key (snd x)) (key (snd y)) = true) (filter (fun x => Nat.eqb (slot n (kof x)) i) (concat B)) (filter (fun x => Nat.eqb (slot n (kof x)) i) (concat B0))).
      { apply f2_filter; [|exact F]. intros x y [_ Q]. unfold HashProofs.kof. rewrite (slot_eq hash keq keq_hash n _ _ Q). reflexivity. }
      clear -G. induction G as [|x y l m [Q _] G IH]; constructor; assumption.
    + intros l Hl. apply In_nth_error in Hl. destruct Hl as [i Hl]. apply (inv_list_nodup key hash keq s B i l I Hl).
  - cbn [post]. split; [reflexivity|]. split; [discriminate|]. intros C. congruence.
Qed.

(** ---- insertion ---- *)
Lemma find_or_insert_eq (s : st) v : find_or_insert key hash keq throws s v = bind (insert_unique key hash keq throws s v) (fun s r => Ret s (fst r)).
Proof.
  unfold find_or_insert, insert_unique, insert_unique_noresize. destruct (resize key hash throws s (num s + 1)) as [s1 u|s1|]; cbn [bind]; try reflexivity.
  destruct (bkt_num hash throws s1 (key v) (length (bks s1))) as [s2 n|s2|]; cbn [bind]; try reflexivity. destruct (bucket s2 n) as [s3 p|s3|]; cbn [bind]; try reflexivity.
  destruct (find_from key keq throws (fuel s3) s3 p (key v)) as [s4 [x|]|s4|]; cbn [bind]; try reflexivity. destruct (new_node throws s4 v) as [s5 t|s5|]; cbn [bind]; try reflexivity.
  destruct (set_next s5 t p) as [s6 u6|s6|]; cbn [bind]; try reflexivity. destruct (set_bucket s6 n (Some t)) as [s7 u7|s7|]; cbn [bind]; reflexivity.
Qed.
(** What an insertion that throws leaves. *)
Definition insert_failed (s : st) B (s' : st) B' : Prop := Inv s' B' /\ Step s B s' B' /\ num s' = num s /\ (num s < length B -> B' = B) /\ exists gone, Permutation (concat B) (gone ++ concat B').
Lemma target_same c n : n < c -> target_count c (n + 1) = c.
Proof. intro H. unfold target_count. destruct (Nat.ltb_spec c (n + 1)); [lia|reflexivity]. Qed.
Lemma target_ge c h : c <= target_count c h.
Proof. unfold target_count. destruct (Nat.ltb c h); lia. Qed.
Lemma resize_enough s n : n < length (bks s) -> resize key hash throws s (n + 1) = Ret s tt.
Proof. intro H. unfold resize. destruct (Nat.ltb_spec (length (bks s)) (n + 1)); [lia|reflexivity]. Qed.
Lemma inv_bks_ne s B : Inv s B -> length (bks s) = length B.
Proof. intro I. apply (inv_length key hash keq s B I). Qed.
Lemma after_resize {T} (f : st -> @out V T) (Q : st -> T -> Prop) s B : Inv s B -> B <> [] ->
  (forall s1 B1, resized key hash keq s B s1 B1 -> length B1 = target_count (length B) (num s + 1) -> B1 <> [] -> post (f s1) Q (sim s1)) ->
  post (bind (resize key hash throws s (num s + 1)) (fun s _ => f s)) Q (fun s' => exists B', insert_failed s B s' B').
Proof.
  intros I NB H. pose proof (inv_length key hash keq s B I) as LB. destruct (Nat.lt_ge_cases (num s) (length B)) as [Lt|Ge].
  - rewrite resize_enough by lia. cbn [bind]. eapply post_mono; [| |apply (H s B)].
    + intros s' a Ha. exact Ha.
    + intros s' S'. exists B. split; [apply (inv_sim key hash keq s); assumption|]. split; [apply (step_sim key hash keq); assumption|]. split; [apply S'|]. split; [reflexivity|]. exists []. apply Permutation_refl.
    + split; [exact I|]. split; [apply (step_sim key hash keq); [exact I|apply sim_refl]|]. split; [apply Permutation_refl|reflexivity].
    + rewrite target_same by exact Lt. reflexivity.
    + exact NB.
  - apply post_bind. eapply post_mono; [| |apply (resize_post key hash keq throws keq_sym keq_trans keq_hash s B (num s + 1) I NB)].
    + intros s1 u (B1 & R & L1 & Eq). assert (N1 : B1 <> []). { intros ->. pose proof (target_ge (length B) (num s + 1)). destruct B; [congruence|]. cbn [length] in *. lia. }
      eapply post_mono; [| |apply (H s1 B1 R L1 N1)]; [intros s' a Ha; exact Ha|]. intros s' S'. destruct R as (I1 & T1 & P1 & M1). exists B1. split; [apply (inv_sim key hash keq s1); assumption|]. split; [apply (step_trans _ _ _ _ _ _ T1); apply (step_sim key hash keq); assumption|].
      destruct S' as (_ & _ & ->). split; [exact M1|]. split; [intro C; lia|]. exists []. apply Permutation_sym. exact P1.
    + intros s' (B' & l & I1 & T1 & L1 & E1 & M1). exists B'. split; [exact I1|]. split; [exact T1|]. split; [exact M1|]. split; [intro C; lia|exists l; rewrite E1; apply Permutation_refl].
Qed.
(** The outcome of an insertion into a table that had B: with [b], a new element x. *)
Definition ins_unique (s : st) B v (s' : st) B' (x : nat) (b : bool) : Prop :=
  Inv s' B' /\ Step s B s' B' /\ if b then (forall y, In y (concat B) -> keq (kof y) (key v) = false) /\ length (heap s) <= x /\ Permutation (concat B') ((x, v) :: concat B) /\ num s' = S (num s)
    else (exists u, In (x, u) (concat B) /\ keq (key u) (key v) = true) /\ Permutation (concat B') (concat B) /\ num s' = num s.
Definition ins_equal (s : st) B v (s' : st) B' (x : nat) : Prop := Inv s' B' /\ Step s B s' B' /\ length (heap s) <= x /\ Permutation (concat B') ((x, v) :: concat B) /\ num s' = S (num s).
Lemma unique_noresize s B v : Inv s B -> B <> [] ->
  post (insert_unique_noresize key hash keq throws s v) (fun s' r => exists B', length B' = length B /\ ins_unique s B v s' B' (fst r) (snd r) /\ (snd r = false -> B' = B)) (sim s).
Proof.
  intros I NB. eapply post_mono; [| |apply (insert_unique_noresize_post key hash keq throws keq_sym keq_hash s B v I NB)]; [|intros s' S'; exact S'].
  intros s' [x [|]]; cbn [fst snd].
  - intros (Hn & B' & I' & T & L' & -> & P & N'). exists B'. split; [exact L'|]. split; [|discriminate]. split; [exact I'|]. split; [exact T|]. split; [exact Hn|]. split; [lia|]. split; assumption.
  - intros (S' & u & Hu & Q). exists B. split; [reflexivity|]. split; [|reflexivity]. split; [apply (inv_sim key hash keq s); assumption|]. split; [apply (step_sim key hash keq); assumption|]. split; [exists u; split; assumption|]. split; [apply Permutation_refl|apply S'].
Qed.
Lemma unique_post s B v : Inv s B -> B <> [] ->
  post (insert_unique key hash keq throws s v) (fun s' r => exists B', length B' = target_count (length B) (num s + 1) /\ ins_unique s B v s' B' (fst r) (snd r)) (fun s' => exists B', insert_failed s B s' B').
Proof.
  intros I NB. unfold insert_unique. apply (after_resize (fun s => insert_unique_noresize key hash keq throws s v)); [exact I|exact NB|]. intros s1 B1 (I1 & T1 & P1 & N1) L1 NB1.
  eapply post_mono; [| |apply (unique_noresize s1 B1 v I1 NB1)]; [|intros s' S'; exact S']. intros s' [x b] (B' & L' & (I' & T' & H') & _). cbn [fst snd] in *. exists B'. split; [congruence|]. split; [exact I'|]. split; [exact (step_trans _ _ _ _ _ _ T1 T')|]. destruct b.
  - destruct H' as (Hn & Hx & P' & N'). split; [intros y Hy; apply Hn; apply (Permutation_in y (Permutation_sym P1) Hy)|]. split; [pose proof (t_len _ _ _ _ T1); lia|]. split; [|congruence]. rewrite P'. apply perm_skip. exact P1.
  - destruct H' as ((u & Hu & Q) & P' & N'). split; [exists u; split; [apply (Permutation_in _ P1 Hu)|exact Q]|]. split; [rewrite P'; exact P1|congruence].
Qed.
Lemma equal_noresize s B v : Inv s B -> B <> [] ->
  post (insert_equal_noresize key hash keq throws s v) (fun s' x => exists B', length B' = length B /\ ins_equal s B v s' B' x) (sim s).
Proof.
  intros I NB. eapply post_mono; [| |apply (insert_equal_noresize_post key hash keq throws keq_sym keq_trans s B v I NB)]; [|intros s' S'; exact S'].
  intros s' x (B' & I' & T & L' & -> & P & N'). exists B'. split; [exact L'|]. split; [exact I'|]. split; [exact T|]. split; [lia|]. split; assumption.
Qed.
Lemma equal_post s B v : Inv s B -> B <> [] ->
  post (insert_equal key hash keq throws s v) (fun s' x => exists B', length B' = target_count (length B) (num s + 1) /\ ins_equal s B v s' B' x) (fun s' => exists B', insert_failed s B s' B').
Proof.
  intros I NB. unfold insert_equal. apply (after_resize (fun s => insert_equal_noresize key hash keq throws s v)); [exact I|exact NB|]. intros s1 B1 (I1 & T1 & P1 & N1) L1 NB1.
  eapply post_mono; [| |apply (equal_noresize s1 B1 v I1 NB1)]; [|intros s' S'; exact S']. intros s' x (B' & L' & (I' & T' & Hx & P' & N')). exists B'. split; [congruence|]. split; [exact I'|]. split; [exact (step_trans _ _ _ _ _ _ T1 T')|].
  split; [pose proof (t_len _ _ _ _ T1); lia|]. split; [|congruence]. rewrite P'. apply perm_skip. exact P1.
Qed.
Lemma find_or_insert_post s B v : Inv s B -> B <> [] ->
  post (find_or_insert key hash keq throws s v) (fun s' x => exists B' b, length B' = target_count (length B) (num s + 1) /\ ins_unique s B v s' B' x b) (fun s' => exists B', insert_failed s B s' B').
Proof.
  intros I NB. rewrite find_or_insert_eq. apply post_bind. eapply post_mono; [| |apply (unique_post s B v I NB)]; [|intros s' H; exact H]. intros s' [x b] (B' & L' & H'). cbn [post fst snd] in *. exists B', b. split; assumption.
Qed.

(** ---- equal keys follow each other ---- *)
Lemma grouped_together l : grouped l -> together key keq l.
Proof.
  intros G P x M y C z D E Q. subst l. apply (grouped_part key keq) in G. destruct (grouped_run key keq keq_sym keq_trans _ _ G) as (run & t & Et & Hr & Ht).
  assert (Eq : M ++ y :: C ++ z :: D = (M ++ [y]) ++ C ++ z :: D) by (rewrite <- app_assoc; reflexivity).
  destruct (Nat.lt_ge_cases (length M) (length run)) as [Lt|Ge].
  - rewrite Eq in Et. destruct (app_longer _ _ _ _ Et ltac:(rewrite app_length; cbn; lia)) as (e & -> & _). apply (Hr y). rewrite !in_app_iff. left. right. left. reflexivity.
  - destruct (app_longer _ _ _ _ (eq_sym Et) Ge) as (e & -> & Ee). exfalso. apply (Ht z); [|exact Q]. rewrite Ee, in_app_iff. right. right. rewrite in_app_iff. right. left. reflexivity.
Qed.
End Proofs.
