(** HashProofs.v -- C122: lists of elements, chains of nodes, and the searching loops. *)
From Coq Require Import List NArith Bool Arith Lia Permutation.
Import ListNotations.
From Verif Require Import Base HashModel.

Section Proofs.
Context {V K : Type}.
Variable key : V -> K.
Variable hash : K -> N.
Variable keq : K -> K -> bool.
Variable throws : nat -> bool.
Hypothesis keq_refl : forall a, keq a a = true.
Hypothesis keq_sym : forall a b, keq a b = true -> keq b a = true.
Hypothesis keq_trans : forall a b c, keq a b = true -> keq b c = true -> keq a c = true.
Hypothesis keq_hash : forall a b, keq a b = true -> hash a = hash b.
Notation el := (nat * V)%type.
Notation ids := (map (@fst nat V)).
Definition kof (x : el) : K := key (snd x).
Definition alike (x y : el) : Prop := keq (kof x) (kof y) = true.

(** ---- elements with equal keys next to each other ---- *)
Fixpoint grouped (l : list el) : Prop :=
  match l with
  | [] => True
  | x :: r => ((exists z, In z r /\ alike x z) -> match r with [] => True | y :: _ => alike x y end) /\ grouped r
  end.
Lemma alike_sym x y : alike x y -> alike y x.
Proof. apply keq_sym. Qed.
Lemma alike_trans x y z : alike x y -> alike y z -> alike x z.
Proof. apply keq_trans. Qed.
Lemma grouped_filter f l : (forall x y, alike x y -> f x = f y) -> grouped l -> grouped (filter f l).
Proof.
  intro F. induction l as [|x r IH]; [auto|]. cbn [grouped filter]. intros [H G]. destruct (f x) eqn:E; [|auto]. cbn [grouped]. split; [|auto].
  intros (z & I & A). apply filter_In in I. destruct I as [I _]. specialize (H (ex_intro _ z (conj I A))). destruct r as [|y r]; [destruct I|].
  cbn [filter]. rewrite <- (F x y H), E. exact H.
Qed.
Lemma last_snoc {A} (l : list A) x d : last (l ++ [x]) d = x.
Proof. induction l as [|y l IH]; [reflexivity|]. cbn [app]. destruct (l ++ [x]) eqn:E; [destruct l; discriminate|]. exact IH. Qed.
Lemma last_in {A} (l : list A) d : l <> [] -> In (last l d) l.
Proof. induction l as [|y l IH]; [congruence|]. intros _. destruct l as [|z l]; [left; reflexivity|]. right. apply IH. discriminate. Qed.
Lemma grouped_snoc l x : grouped l -> ((exists z, In z l /\ alike x z) -> alike x (last l x)) -> grouped (l ++ [x]).
Proof.
  induction l as [|y r IH]; intros G H; [cbn; split; [intros (z & [] & _)|exact I]|]. cbn [app grouped]. destruct G as [G1 G2]. split.
  - intros (z & I & A). destruct r as [|w r].
    + cbn in *. destruct I as [->|[]]. exact A.
    + cbn [app]. apply G1. apply in_app_or in I. destruct I as [I|[->|[]]]; [eauto|]. exists (last (w :: r) z). split; [apply last_in; discriminate|].
      apply (alike_trans y z); [exact A|]. assert (B : exists z0, In z0 (y :: w :: r) /\ alike z z0) by (exists y; split; [left; reflexivity|apply alike_sym; exact A]). apply H in B. exact B.
  - apply IH; [exact G2|]. intros (z & I & A). destruct r as [|w r]; [destruct I|]. apply (H (ex_intro _ z (conj (or_intror I) A))).
Qed.
Lemma grouped_rev l : grouped l -> grouped (rev l).
Proof.
  induction l as [|x r IH]; [auto|]. intros [H G]. cbn [rev]. apply grouped_snoc; [auto|]. intros (z & I & A). apply in_rev in I. specialize (H (ex_intro _ z (conj I A))).
  destruct r as [|y r]; [destruct I|]. cbn [rev]. rewrite last_snoc. exact H.
Qed.
Lemma grouped_app a b : grouped a -> grouped b -> (forall x y, In x a -> In y b -> ~ alike x y) -> grouped (a ++ b).
Proof.
  intros Ga Gb D. induction a as [|x r IH]; [exact Gb|]. cbn [app grouped]. destruct Ga as [H G]. split.
  - intros (z & I & A). apply in_app_or in I. destruct I as [I|I]; [|exfalso; apply (D x z); [left; reflexivity|exact I|exact A]]. specialize (H (ex_intro _ z (conj I A))).
    destruct r as [|y r]; [destruct I|]. exact H.
  - apply IH; [exact G|]. intros u v U W. apply D; [right; exact U|exact W].
Qed.
Lemma grouped_insert a x n b : grouped (a ++ x :: b) -> alike x n -> grouped (a ++ x :: n :: b).
Proof.
  intros G A. induction a as [|y a IH].
  - cbn [app grouped] in *. destruct G as [H G]. split; [intros _; exact A|]. split; [|exact G]. intros (z & I & B). destruct b as [|w b]; [destruct I|].
    apply (alike_trans n x); [apply alike_sym; exact A|]. apply H. exists z. split; [exact I|]. apply (alike_trans x n); assumption.
  - cbn [app grouped] in *. destruct G as [H G]. split; [|auto]. intros (z & I & B).
    assert (P : exists z, In z (a ++ x :: b) /\ alike y z).
    { apply in_app_or in I. destruct I as [I|[->|[->|I]]]; [exists z|exists z|exists x|exists z]; rewrite in_app_iff; cbn; (split; [auto|]); try exact B. apply (alike_trans y z); [exact B|apply alike_sym; exact A]. }
    specialize (H P). destruct a; exact H.
Qed.
Lemma grouped_drop a x b : grouped (a ++ x :: b) -> grouped (a ++ b).
Proof.
  intro G. induction a as [|y a IH]; [apply G|]. cbn [app grouped] in *. destruct G as [H G]. split; [|auto]. intros (z & I & B).
  assert (P : exists z, In z (a ++ x :: b) /\ alike y z) by (exists z; split; [apply in_app_or in I; rewrite in_app_iff; cbn; tauto|exact B]).
  specialize (H P). destruct a as [|w a]; [|exact H]. cbn [app] in *. destruct b as [|w b]; [destruct I|]. destruct G as [H' _]. apply (alike_trans y x); [exact H|]. apply H'.
  exists z. split; [exact I|]. apply (alike_trans x y); [apply alike_sym; exact H|exact B].
Qed.
Lemma grouped_drops a m b : grouped (a ++ m ++ b) -> grouped (a ++ b).
Proof. induction m as [|x m IH]; [auto|]. intro G. apply IH. cbn [app] in G. apply grouped_drop in G. exact G. Qed.
Lemma grouped_part a b : grouped (a ++ b) -> grouped b.
Proof. induction a as [|x a IH]; [auto|]. intros [_ G]. auto. Qed.
(** What follows an element and is alike comes before everything else. *)
Lemma grouped_run x b : grouped (x :: b) -> exists r t, b = r ++ t /\ (forall y, In y r -> alike x y) /\ (forall y, In y t -> ~ alike x y).
Proof.
  revert x. induction b as [|y b IH]; intros x G; [exists [], []; repeat split; intros _ []|]. destruct (keq (kof x) (kof y)) eqn:E.
  - destruct (IH y) as (r & t & -> & R & T); [exact (proj2 G)|]. exists (y :: r), t. split; [reflexivity|]. split.
    + intros z [->|I]; [exact E|]. apply (alike_trans x y); [exact E|]. auto.
    + intros z I A. apply (T z I). apply (alike_trans y x); [apply keq_sym; exact E|exact A].
  - exists [], (y :: b). split; [reflexivity|]. split; [intros _ []|]. intros z I A. destruct G as [H _]. specialize (H (ex_intro _ z (conj I A))). unfold alike in H. congruence.
Qed.

(** ---- chains ---- *)
Notation hp := (list (option (@node V))).
Fixpoint seg (h : hp) (p : option nat) (l : list el) (q : option nat) : Prop :=
  match l with
  | [] => p = q
  | (x, v) :: r => p = Some x /\ exists n, nth_error h x = Some (Some (Node v n)) /\ seg h n r q
  end.
Lemma seg_app h a b p q : seg h p (a ++ b) q <-> exists m, seg h p a m /\ seg h m b q.
Proof.
  revert p. induction a as [|[x v] a IH]; intro p; cbn [app seg].
  - split; [intro H; exists p; auto|]. intros (m & -> & H). exact H.
  - split.
    + intros (-> & n & E & H). apply IH in H. destruct H as (m & A & B). exists m. split; [|exact B]. split; [reflexivity|]. exists n. auto.
    + intros (m & (-> & n & E & A) & B). split; [reflexivity|]. exists n. split; [exact E|]. apply IH. eauto.
Qed.
Lemma seg_ext h h' p l q : (forall x, In x (ids l) -> nth_error h' x = nth_error h x) -> seg h p l q -> seg h' p l q.
Proof.
  revert p. induction l as [|[x v] l IH]; intros p F H; [exact H|]. destruct H as (-> & n & E & H). split; [reflexivity|]. exists n. split.
  - rewrite F by (left; reflexivity). exact E.
  - apply IH; [|exact H]. intros y I. apply F. right. exact I.
Qed.
Lemma seg_live h p l q x : seg h p l q -> In x (ids l) -> exists v n, nth_error h x = Some (Some (Node v n)) /\ In (x, v) l.
Proof.
  revert p. induction l as [|[y v] l IH]; intros p H I; [destruct I|]. destruct H as (-> & n & E & H). destruct I as [<-|I]; [exists v, n; split; [exact E|left; reflexivity]|].
  destruct (IH _ H I) as (w & m & A & B). exists w, m. split; [exact A|right; exact B].
Qed.
Lemma seg_value h p l q x v : seg h p l q -> In (x, v) l -> exists n, nth_error h x = Some (Some (Node v n)).
Proof.
  revert p. induction l as [|[y w] l IH]; intros p H I; [destruct I|]. destruct H as (-> & n & E & H). destruct I as [I|I]; [injection I as <- <-; eauto|eauto].
Qed.
Lemma ids_bound (h : hp) l : (forall x, In x l -> x < length h) -> NoDup l -> length l <= length h.
Proof.
  intros B N. rewrite <- (seq_length (length h) 0). apply NoDup_incl_length; [exact N|]. intros x I. apply in_seq. specialize (B x I). lia.
Qed.
Lemma seg_bound h p l q : seg h p l q -> NoDup (ids l) -> length l <= length h.
Proof.
  intros H N. rewrite <- (map_length fst). apply ids_bound; [|exact N]. intros x I. destruct (seg_live _ _ _ _ _ H I) as (v & n & E & _). apply nth_error_Some. rewrite E. discriminate.
Qed.
Lemma in_ids (l : list el) x : In x (ids l) <-> exists v, In (x, v) l.
Proof. rewrite in_map_iff. split; [intros ((y & v) & <- & I); exists v; exact I|intros (v & I); exists (x, v); auto]. Qed.

(** ---- outcomes ---- *)
Notation st := (@st V).
Definition post {A} (x : @out V A) (Q : st -> A -> Prop) (E : st -> Prop) : Prop := match x with Ret s a => Q s a | Exc s => E s | Bad => False end.
Lemma post_bind {A B} (x : @out V A) (f : st -> A -> @out V B) (Q : st -> B -> Prop) (E : st -> Prop) : post x (fun s a => post (f s a) Q E) E -> post (bind x f) Q E.
Proof. destruct x; cbn; auto. Qed.
Lemma post_mono {A} (x : @out V A) (Q Q' : st -> A -> Prop) (E E' : st -> Prop) : (forall s a, Q s a -> Q' s a) -> (forall s, E s -> E' s) -> post x Q E -> post x Q' E'.
Proof. destruct x; cbn; auto. Qed.
Lemma post_call {A} (s : st) (a : A) (Q : st -> A -> Prop) (E : st -> Prop) : Q (tick s) a -> E (tick s) -> post (call throws s a) Q E.
Proof. unfold call. destruct (throws (clock s)); cbn; auto. Qed.
Lemma post_load (s : st) x v n (Q : st -> node -> Prop) (E : st -> Prop) : nth_error (heap s) x = Some (Some (Node v n)) -> Q s (Node v n) -> post (load s x) Q E.
Proof. unfold load. intros ->. auto. Qed.
Lemma post_next (s : st) x v n q (Q : st -> unit -> Prop) (E : st -> Prop) : nth_error (heap s) x = Some (Some (Node v n)) -> Q (with_heap s (lupd (heap s) x (Some (Node v q)))) tt -> post (set_next s x q) Q E.
Proof. unfold set_next. intros ->. auto. Qed.
Lemma post_delete (s : st) x v n (Q : st -> unit -> Prop) (E : st -> Prop) : nth_error (heap s) x = Some (Some (Node v n)) -> Q (with_heap s (lupd (heap s) x None)) tt -> post (delete_node s x) Q E.
Proof. unfold delete_node. intros ->. auto. Qed.
Lemma post_bucket (s : st) i p (Q : st -> option nat -> Prop) (E : st -> Prop) : nth_error (bks s) i = Some p -> Q s p -> post (bucket s i) Q E.
Proof. unfold bucket. intros ->. auto. Qed.
Lemma post_set_bucket (s : st) i p (Q : st -> unit -> Prop) (E : st -> Prop) : i < length (bks s) -> Q (with_bks s (lupd (bks s) i p)) tt -> post (set_bucket s i p) Q E.
Proof. unfold set_bucket. intro H. apply Nat.ltb_lt in H. rewrite H. auto. Qed.
Lemma post_new (s : st) v (Q : st -> nat -> Prop) (E : st -> Prop) : Q (with_heap (tick s) (heap s ++ [Some (Node v None)])) (length (heap s)) -> E (tick s) -> post (new_node throws s v) Q E.
Proof. unfold new_node. intros A B. apply post_bind. apply post_call; assumption. Qed.
Definition slot (n : nat) (k : K) : nat := N.to_nat (N.modulo (hash k) (N.of_nat n)).
Lemma post_slot (s : st) k n (Q : st -> nat -> Prop) (E : st -> Prop) : 0 < n -> Q (tick s) (slot n k) -> E (tick s) -> post (bkt_num hash throws s k n) Q E.
Proof. intros H A B. unfold bkt_num. apply post_bind. apply post_call; [|exact B]. destruct n; [lia|]. exact A. Qed.
Lemma slot_lt n k : 0 < n -> slot n k < n.
Proof. intro H. unfold slot. pose proof (N.mod_lt (hash k) (N.of_nat n) ltac:(lia)). lia. Qed.
Lemma slot_eq n a b : keq a b = true -> slot n a = slot n b.
Proof. intro H. unfold slot. rewrite (keq_hash a b H). reflexivity. Qed.

(** Only the clock goes on. *)
Definition sim (s s' : st) : Prop := heap s' = heap s /\ bks s' = bks s /\ num s' = num s.
Lemma sim_refl s : sim s s. Proof. repeat split. Qed.
Lemma sim_tick s : sim s (tick s). Proof. repeat split. Qed.
Lemma sim_trans a b c : sim a b -> sim b c -> sim a c.
Proof. unfold sim. intuition congruence. Qed.

Lemma find_from_post l : forall f s p k, seg (heap s) p l None -> length l < f ->
  post (find_from key keq throws f s p k) (fun s' r => sim s s' /\ match r with
    | None => forall y, In y l -> keq (kof y) k = false
    | Some x => exists a v b, l = a ++ (x, v) :: b /\ keq (key v) k = true /\ (forall y, In y a -> keq (kof y) k = false) end) (sim s).
Proof.
  induction l as [|[x v] l IH]; intros f s p k H F; (destruct f as [|f]; [lia|]); cbn [find_from].
  - cbn in H. subst p. cbn. split; [apply sim_refl|]. intros _ [].
  - destruct H as (-> & n & E & H). apply post_bind. apply (post_load _ _ _ _ _ _ E). cbn [n_val n_next]. apply post_bind. apply post_call; [|apply sim_tick]. destruct (keq (key v) k) eqn:B.
    + cbn. split; [apply sim_tick|]. exists [], v, l. split; [reflexivity|]. split; [exact B|]. intros _ [].
    + specialize (IH f (tick s) n k H ltac:(cbn in F; lia)). eapply post_mono; [| |exact IH].
      * intros s' [y|] [S' R]; (split; [apply (sim_trans _ _ _ (sim_tick s) S')|]).
        -- destruct R as (a & w & b & -> & A & Z). exists ((x, v) :: a), w, b. split; [reflexivity|]. split; [exact A|]. intros y' [<-|I]; [exact B|auto].
        -- intros y' [<-|I]; [exact B|auto].
      * intros s' S'. apply (sim_trans _ _ _ (sim_tick s) S').
Qed.
Lemma count_from_post l : forall f s p k r, seg (heap s) p l None -> length l < f ->
  post (count_from key keq throws f s p k r) (fun s' c => sim s s' /\ c = r + length (filter (fun y => keq (kof y) k) l)) (sim s).
Proof.
  induction l as [|[x v] l IH]; intros f s p k r H F; (destruct f as [|f]; [lia|]); cbn [count_from].
  - cbn in H. subst p. cbn. split; [apply sim_refl|lia].
  - destruct H as (-> & n & E & H). apply post_bind. apply (post_load _ _ _ _ _ _ E). cbn [n_val n_next]. apply post_bind. apply post_call; [|apply sim_tick].
    eapply post_mono; [| |apply (IH f (tick s) n k _ H ltac:(cbn in F; lia))].
    + intros s' c [S' R]. split; [apply (sim_trans _ _ _ (sim_tick s) S')|]. cbn [filter]. change (kof (x, v)) with (key v). destruct (keq (key v) k); cbn [length]; lia.
    + intros s' S'. apply (sim_trans _ _ _ (sim_tick s) S').
Qed.
Lemma skip_equal_post l : forall f s p k, seg (heap s) p l None -> length l < f ->
  post (skip_equal key keq throws f s p k) (fun s' r => sim s s' /\ exists a b, l = a ++ b /\ (forall y, In y a -> keq (kof y) k = true) /\
     match r, b with None, [] => True | Some x, (y, v) :: _ => x = y /\ keq (key v) k = false | _, _ => False end) (sim s).
Proof.
  induction l as [|[x v] l IH]; intros f s p k H F; (destruct f as [|f]; [lia|]); cbn [skip_equal].
  - cbn in H. subst p. cbn. split; [apply sim_refl|]. exists [], []. repeat split. intros _ [].
  - destruct H as (-> & n & E & H). apply post_bind. apply (post_load _ _ _ _ _ _ E). cbn [n_val n_next]. apply post_bind. apply post_call; [|apply sim_tick]. destruct (keq (key v) k) eqn:B.
    + specialize (IH f (tick s) n k H ltac:(cbn in F; lia)). eapply post_mono; [| |exact IH].
      * intros s' r [S' (a & b & -> & A & Z)]. split; [apply (sim_trans _ _ _ (sim_tick s) S')|]. exists ((x, v) :: a), b. split; [reflexivity|]. split; [|exact Z]. intros y [<-|I]; [exact B|auto].
      * intros s' S'. apply (sim_trans _ _ _ (sim_tick s) S').
    + cbn. split; [apply sim_tick|]. exists [], ((x, v) :: l). split; [reflexivity|]. split; [intros _ []|]. auto.
Qed.
Lemma chain_length_post l : forall f s p r, seg (heap s) p l None -> length l < f -> post (chain_length f s p r) (fun s' c => s' = s /\ c = r + length l) (fun _ => False).
Proof.
  induction l as [|[x v] l IH]; intros f s p r H F; (destruct f as [|f]; [lia|]); cbn [chain_length].
  - cbn in H. subst p. cbn. split; [reflexivity|lia].
  - destruct H as (-> & n & E & H). apply post_bind. apply (post_load _ _ _ _ _ _ E). cbn [n_next]. eapply post_mono; [| |apply (IH f s n (S r) H ltac:(cbn in F; lia))]; [|auto].
    intros s' c [-> ->]. cbn [length]. split; [reflexivity|lia].
Qed.
End Proofs.
