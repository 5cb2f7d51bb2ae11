(** HashStep.v -- C122: every member function, on one of several tables. *)
From Coq Require Import List NArith Bool Arith Lia Permutation.
Import ListNotations.
From Verif Require Import Base HashModel HashSpec HashProofs HashProofs2 HashProofs3 HashProofs4 HashProofs5 HashProofs6 HashWorld.

Section World.
Context {V K : Type}.
Variable key : V -> K.
Variable hash : K -> N.
Variable keq : K -> K -> bool.
Variable throws : nat -> bool.
Variable veq : V -> V -> bool.
Hypothesis keq_sym : forall a b, keq a b = true -> keq b a = true.
Hypothesis keq_trans : forall a b c, keq a b = true -> keq b c = true -> keq a c = true.
Hypothesis keq_hash : forall a b, keq a b = true -> hash a = hash b.
Notation el := (nat * V)%type.
Notation ids := (map (@fst nat V)).
Notation kof := (kof key).
Notation st := (@st V).
Notation world := (@world V).
Notation Inv := (Inv key hash keq).
Notation WInv := (WInv key hash keq).
Notation holds := (holds key hash).
Notation others := (others key hash).
Notation legal := (legal key hash).
Notation effect := (effect key hash keq veq).
Notation failed := (failed key keq).
Notation step := (step key hash keq throws veq).
Notation fits := (fits key hash keq).

(** The result of a member function on table i. *)
Definition good (w : world) (o : @op V K) (i : nat) (x : wout) : Prop :=
  match x with
  | WRet w' r => exists l n c l' n' c' Bs', holds w i l n c /\ holds w' i l' n' c' /\ others w w' i /\ WInv w' Bs' /\ effect w o l n c l' n' c' r
  | WThrow w' => exists l n c l' n' c' Bs', holds w i l n c /\ holds w' i l' n' c' /\ others w w' i /\ WInv w' Bs' /\ failed w o l n c l' n' c'
  | WBad => False
  end.
Lemma member {T} w Bs i (f : st -> @out V T) rp (o : @op V K) l n c : WInv w Bs -> holds w i l n c ->
  (forall s B, heap s = w_heap w -> num s = n -> Inv s B -> nth_error Bs i = Some B -> length (concat B) <= n -> l = concat B -> c = length B ->
   post (f s) (fun s' a => exists B', fits s B s' B' /\ effect w o (concat B) n (length B) (concat B') (num s') (length B') (rp a)) (fun s' => exists B', fits s B s' B' /\ failed w o (concat B) n (length B) (concat B') (num s') (length B'))) ->
  good w o i (on w i f rp).
Proof.
  intros W H P. destruct (there_inv key hash keq w Bs i l n c W H) as (b & B & Et & EB & El & Ec & I & Le).
  pose proof (on_post key hash keq w Bs i b n B f rp (fun n' B' a => effect w o (concat B) n (length B) (concat B') n' (length B') (rp a)) (fun n' B' => failed w o (concat B) n (length B) (concat B') n' (length B')) W Et EB) as Q.
  specialize (Q (P (St (w_heap w) (w_clock w) b n) B eq_refl eq_refl I EB Le El Ec)). subst l c. unfold good. destruct (on w i f rp) as [w' r|w'|].
  - destruct Q as (n' & B' & a & Q & -> & W' & H' & O). exists (concat B), n, (length B), (concat B'), n', (length B'), (lupd Bs i B'). repeat (split; [assumption|]). assumption.
  - destruct Q as (n' & B' & Q & W' & H' & O). exists (concat B), n, (length B), (concat B'), n', (length B'), (lupd Bs i B'). repeat (split; [assumption|]). assumption.
  - exact Q.
Qed.
Lemma usable_ne w i : usable key hash w i -> exists l n c, holds w i l n c /\ 0 < c.
Proof. intro H. exact H. Qed.
Lemma ne_of_len {A} (B : list A) : 0 < length B -> B <> [].
Proof. destruct B; cbn; [lia|discriminate]. Qed.
(** Functions that only look. *)
Lemma looks {T} s B (x : @out V T) (R : T -> Prop) (Q : st -> list (list el) -> T -> Prop) (E : st -> list (list el) -> Prop) : Inv s B -> length (concat B) <= num s ->
  post x (fun s' a => sim s s' /\ R a) (sim s) -> (forall (s' : st) a, num s' = num s -> R a -> Q s' B a) -> (forall s' : st, num s' = num s -> E s' B) ->
  post x (fun s' a => exists B', fits s B s' B' /\ Q s' B' a) (fun s' => exists B', fits s B s' B' /\ E s' B').
Proof.
  intros I Le P HQ HE. eapply post_mono; [| |exact P].
  - intros s' a [S' Ra]. exists B. split; [apply fits_sim; assumption|]. destruct S' as (_ & _ & N'). apply HQ; assumption.
  - intros s' S'. exists B. split; [apply fits_sim; assumption|]. destruct S' as (_ & _ & N'). apply HE. exact N'.
Qed.
(** Functions that change nothing when they throw. *)
Lemma changes {T} s B (x : @out V T) (R : st -> list (list el) -> T -> Prop) (Q : st -> list (list el) -> T -> Prop) (E : st -> list (list el) -> Prop) : Inv s B -> length (concat B) <= num s ->
  post x (fun s' a => exists B', R s' B' a) (sim s) -> (forall s' B' a, R s' B' a -> fits s B s' B' /\ Q s' B' a) -> (forall s' : st, num s' = num s -> E s' B) ->
  post x (fun s' a => exists B', fits s B s' B' /\ Q s' B' a) (fun s' => exists B', fits s B s' B' /\ E s' B').
Proof.
  intros I Le P HQ HE. eapply post_mono; [| |exact P].
  - intros s' a [B' Ra]. exists B'. apply HQ. exact Ra.
  - intros s' S'. exists B. split; [apply fits_sim; assumption|]. destruct S' as (_ & _ & N'). apply HE. exact N'.
Qed.
Lemma new_id s B B' s' x v : Inv s B -> Step s B s' B' -> length (heap s) <= x -> Permutation (concat B') ((x, v) :: concat B) -> new_in (concat B) v (concat B') x.
Proof. intros I T Hx P. split; [|exact P]. intro C. pose proof (live_lt _ _ (inv_live key hash keq s B x I C)). lia. Qed.
Lemma ins_unique_effect s B v s' B' x b : Inv s B -> length (concat B) <= num s -> ins_unique key hash keq s B v s' B' x b -> fits s B s' B' /\ unique_insert key keq (concat B) (num s) v (concat B') (num s') x b.
Proof.
  intros I Le (I' & T & H). destruct b.
  - destruct H as (Hn & Hx & P & N'). split; [split; [exact I'|split; [exact T|rewrite (Permutation_length P); cbn; lia]]|]. split; [exact Hn|]. split; [exact (new_id s B B' s' x v I T Hx P)|exact N'].
  - destruct H as (Hu & P & N'). split; [split; [exact I'|split; [exact T|rewrite (Permutation_length P); lia]]|]. split; [exact Hu|]. split; assumption.
Qed.
Lemma ins_equal_effect s B v s' B' x : Inv s B -> length (concat B) <= num s -> ins_equal key hash keq s B v s' B' x -> fits s B s' B' /\ new_in (concat B) v (concat B') x /\ num s' = S (num s).
Proof. intros I Le (I' & T & Hx & P & N'). split; [split; [exact I'|split; [exact T|rewrite (Permutation_length P); cbn; lia]]|]. split; [exact (new_id s B B' s' x v I T Hx P)|exact N']. Qed.
Lemma failed_insert s B s' B' n : n = num s -> length (concat B) <= num s -> insert_failed key hash keq s B s' B' ->
  fits s B s' B' /\ (num s' = n /\ (n < length B -> concat B' = concat B /\ length B' = length B) /\ exists gone, Permutation (concat B) (gone ++ concat B')).
Proof.
  intros -> Le (I' & T & N' & Eq & gone & P). split; [split; [exact I'|split; [exact T|]]|].
  - pose proof (Permutation_length P) as L. rewrite app_length in L. lia.
  - split; [exact N'|]. split; [intro C; rewrite (Eq C); split; reflexivity|]. exists gone. exact P.
Qed.
Lemma filter_split {A} (f : A -> bool) l : length (filter f l) + length (filter (fun x => negb (f x)) l) = length l.
Proof. induction l as [|x l IH]; [reflexivity|]. cbn. destruct (f x); cbn; lia. Qed.
Lemma alive_value w s B x v : heap s = w_heap w -> Inv s B -> In (x, v) (concat B) -> alive w x v.
Proof. intros E I H. destruct (inv_value key hash keq s B x v I H) as [n En]. exists n. rewrite <- E. exact En. Qed.
Lemma mod_slot (l : list el) c b : 0 < c -> filter (fun y => N.eqb (N.modulo (hash (key (snd y))) (N.of_nat c)) (N.of_nat b)) l = filter (fun x => Nat.eqb (slot hash c (kof x)) b) l.
Proof.
  intro Hc. apply filter_ext. intros [x v]. unfold slot, HashProofs.kof. cbn [snd]. set (m := N.modulo (hash (key v)) (N.of_nat c)). destruct (N.eqb_spec m (N.of_nat b)) as [E|E], (Nat.eqb_spec (N.to_nat m) b) as [E'|E']; try reflexivity; exfalso.
  - apply E'. rewrite E. apply Nnat.Nat2N.id.
  - apply E. rewrite <- E'. symmetry. apply Nnat.N2Nat.id.
Qed.
Lemma hd_first (l : list el) : hd_ptr l = first l.
Proof. destruct l as [|[x v] l]; reflexivity. Qed.
Lemma removed_effect s B s' B' X M Y : removed key hash keq s B s' B' X M Y -> length (concat B) <= num s -> fits s B s' B'.
Proof. intros (I & T & L & E & E' & N') Le. split; [exact I|]. split; [exact T|]. rewrite E', app_length. rewrite E, !app_length in Le. lia. Qed.
Lemma lost_effect s B s' B' l : lost key hash keq s B s' B' l -> length (concat B) <= num s -> fits s B s' B'.
Proof. intros (I & T & L & E & N') Le. split; [exact I|]. split; [exact T|]. rewrite E, app_length in Le. lia. Qed.

Theorem step_member w Bs o i : WInv w Bs -> legal w o -> subject o = Some i -> good w o i (step w o).
Proof.
  intros W Lg Sj. destruct o; try discriminate Sj; cbn [subject] in Sj; injection Sj as ->; cbn [HashSpec.legal] in Lg; cbn [HashModel.step].
  - (* insert_unique *) destruct Lg as (l & n & c & H & Hc). apply (member w Bs i _ _ _ l n c W H). intros s B Eh En I EB Le -> ->. apply ne_of_len in Hc. subst n.
    eapply post_mono; [| |apply (unique_post key hash keq throws keq_sym keq_trans keq_hash s B v I Hc)].
    + intros s' [x b] (B' & Ln & H'). exists B'. apply (ins_unique_effect s B v s' B' x b I Le) in H'. destruct H' as [H1 H2]. split; [exact H1|]. split; [exact Ln|]. exists x, b. split; [reflexivity|exact H2].
    + intros s' (B' & H'). exists B'. exact (failed_insert s B s' B' _ eq_refl Le H').
  - (* insert_equal *) destruct Lg as (l & n & c & H & Hc). apply (member w Bs i _ _ _ l n c W H). intros s B Eh En I EB Le -> ->. apply ne_of_len in Hc. subst n.
    eapply post_mono; [| |apply (equal_post key hash keq throws keq_sym keq_trans keq_hash s B v I Hc)].
    + intros s' x (B' & Ln & H'). exists B'. apply (ins_equal_effect s B v s' B' x I Le) in H'. destruct H' as (H1 & H2). split; [exact H1|]. split; [exact Ln|]. exists x. split; [reflexivity|exact H2].
    + intros s' (B' & H'). exists B'. exact (failed_insert s B s' B' _ eq_refl Le H').
  - (* find_or_insert *) destruct Lg as (l & n & c & H & Hc). apply (member w Bs i _ _ _ l n c W H). intros s B Eh En I EB Le -> ->. apply ne_of_len in Hc. subst n.
    eapply post_mono; [| |apply (find_or_insert_post key hash keq throws keq_sym keq_trans keq_hash s B v I Hc)].
    + intros s' x (B' & b & Ln & H'). exists B'. apply (ins_unique_effect s B v s' B' x b I Le) in H'. destruct H' as [H1 H2]. split; [exact H1|]. split; [exact Ln|]. exists x, b. split; [reflexivity|exact H2].
    + intros s' (B' & H'). exists B'. exact (failed_insert s B s' B' _ eq_refl Le H').
  - (* insert_unique_noresize *) destruct Lg as (l & n & c & H & Hc). apply (member w Bs i _ _ _ l n c W H). intros s B Eh En I EB Le -> ->. apply ne_of_len in Hc. subst n.
    eapply changes; [exact I|exact Le|apply (unique_noresize key hash keq throws keq_sym keq_hash s B v I Hc)| |].
    + intros s' B' [x b] (Ln & H' & Hb). cbn [fst snd] in *. apply (ins_unique_effect s B v s' B' x b I Le) in H'. destruct H' as [H1 H2]. split; [exact H1|]. split; [exact Ln|]. exists x, b. split; [reflexivity|]. split; [exact H2|]. intro Hf. rewrite (Hb Hf). reflexivity.
    + intros s' N'. split; [reflexivity|]. split; [reflexivity|exact N'].
  - (* insert_equal_noresize *) destruct Lg as (l & n & c & H & Hc). apply (member w Bs i _ _ _ l n c W H). intros s B Eh En I EB Le -> ->. apply ne_of_len in Hc. subst n.
    eapply changes; [exact I|exact Le|apply (equal_noresize key hash keq throws keq_sym keq_trans s B v I Hc)| |].
    + intros s' B' x (Ln & H'). apply (ins_equal_effect s B v s' B' x I Le) in H'. destruct H' as (H1 & H2). split; [exact H1|]. split; [exact Ln|]. exists x. split; [reflexivity|exact H2].
    + intros s' N'. split; [reflexivity|]. split; [reflexivity|exact N'].
  - (* erase of a key *) destruct Lg as ((l & n & c & H & Hc) & Lk). apply (member w Bs i _ _ _ l n c W H). intros s B Eh En I EB Le -> ->. apply ne_of_len in Hc. subst n.
    assert (KR : exists kk, means key w k kk /\ key_ref key s B k kk).
    { destruct k as [k|p]; [exists k; split; reflexivity|]. destruct Lk as ((v & m & Ev) & Np). exists (key v). split; [exists v; split; [exists m; exact Ev|reflexivity]|]. split; [exists v, m; split; [rewrite Eh; exact Ev|reflexivity]|].
      intros l Hl C. apply (Np _ _ _ H). apply in_map_iff in C. destruct C as (y & <- & Hy). apply in_map. apply in_concat. exists l. split; [exact Hl|]. destruct l; [destruct Hy|right; exact Hy]. }
    destruct KR as (kk & Mk & KR). eapply post_mono; [| |apply (erase_key_post key hash keq throws keq_sym keq_trans keq_hash s B k kk I Hc KR Le)].
    + intros s' e (B' & (I' & T & Ln & P & N') & Ne). exists B'. pose proof (filter_split (has key keq kk) (concat B)) as F. pose proof (Permutation_length P) as PL. unfold HashProofs3.other in PL.
      change (fun y : el => negb (keq (kof y) kk)) with (fun y => negb (has key keq kk y)) in PL. split; [split; [exact I'|split; [exact T|lia]]|]. split; [exact Ln|]. exists kk, e. split; [exact Mk|]. split; [reflexivity|]. split; [exact P|]. split; [|lia]. unfold HashProofs.kof in PL. unfold has in *. lia.
    + intros s' (B' & I' & T & Ln & N' & gone & P & Hg). exists B'. pose proof (Permutation_length P) as PL. rewrite app_length in PL. split; [split; [exact I'|split; [exact T|lia]]|]. split; [exact Ln|]. split; [lia|]. exists kk, gone. split; [exact Mk|]. split; [exact P|exact Hg].
  - (* erase of an element *) destruct Lg as ((l & n & c & H) & Lx). apply (member w Bs i _ _ _ l n c W H). intros s B Eh En I EB Le -> ->. subst n. destruct it as [x|].
    + destruct (Lx x eq_refl) as (l & n & c & H2 & Hx). destruct (there_inv key hash keq w Bs i l n c W H2) as (b2 & B2 & _ & EB2 & -> & _). assert (B2 = B) as -> by congruence.
      apply in_map_iff in Hx. destruct Hx as ([y v] & Ey & Hx). cbn in Ey. subst y. apply in_split in Hx. destruct Hx as (X & Y & EX).
      eapply changes; [exact I|exact Le|apply (erase_it_post key hash keq throws keq_sym keq_trans s B X x v Y I EX Le)| |].
      * intros s' B' u Rm. split; [exact (removed_effect s B s' B' _ _ _ Rm Le)|]. destruct Rm as (I' & T & Ln & E & E' & N'). split; [exact Ln|]. cbn [length] in N'. split; [lia|]. exists X, v, Y. split; [exact EX|exact E'].
      * intros s' N'. split; [reflexivity|]. split; [reflexivity|exact N'].
    + cbn [erase_it post]. exists B. split; [apply fits_sim; [exact I|exact Le|apply sim_refl]|]. split; [reflexivity|]. split; reflexivity.
  - (* erase of a range *) destruct Lg as (X & M & Y & n & c & H & -> & ->). apply (member w Bs i _ _ _ _ n c W H). intros s B Eh En I EB Le El ->. subst n.
    rewrite <- !hd_first. eapply changes; [exact I|exact Le|apply (erase_range_post key hash keq throws keq_sym keq_trans s B X M Y I (eq_sym El) Le)| |].
    + intros s' B' u Rm. split; [exact (removed_effect s B s' B' _ _ _ Rm Le)|]. destruct Rm as (I' & T & Ln & E & E' & N'). split; [exact Ln|]. exists X, M, Y. split; [exact E|]. split; [apply hd_first|]. split; [apply hd_first|]. split; [exact E'|exact N'].
    + intros s' N'. split; [reflexivity|]. split; [reflexivity|exact N'].
  - (* resize *) destruct Lg as (l & m & c & H & Hc). apply (member w Bs i _ _ _ l m c W H). intros s B Eh En I EB Le -> ->. apply ne_of_len in Hc. subst m.
    eapply post_mono; [| |apply (resize_post key hash keq throws keq_sym keq_trans keq_hash s B n I Hc)].
    + intros s' u (B' & (I' & T & P & N') & Ln & _). exists B'. split; [split; [exact I'|split; [exact T|rewrite (Permutation_length P); lia]]|]. split; [exact Ln|]. split; assumption.
    + intros s' (B' & l & Ls). exists B'. split; [exact (lost_effect s B s' B' l Ls Le)|]. destruct Ls as (I' & T & Ln & E & N'). split; [exact N'|]. split; [exact Ln|]. exists l. exact E.
  - (* clear *) destruct Lg as (l & n & c & H). apply (member w Bs i _ _ _ l n c W H). intros s B Eh En I EB Le -> ->. subst n.
    eapply post_mono; [| |apply (clear_post key hash keq s B I)]; [|intros s' []]. intros s' u (I' & T & N'). eexists. split; [split; [exact I'|split; [exact T|rewrite concat_nils; cbn; lia]]|]. rewrite concat_nils, map_length, N'. split; [reflexivity|]. split; reflexivity.
  - (* find *) destruct Lg as (l & n & c & H & Hc). apply (member w Bs i _ _ _ l n c W H). intros s B Eh En I EB Le -> ->. apply ne_of_len in Hc. subst n.
    eapply looks; [exact I|exact Le|apply (find_post key hash keq throws keq_hash s B k I Hc)| |].
    + intros s' r N' Hr. split; [reflexivity|]. split; [reflexivity|]. split; [exact N'|]. exists r. split; [reflexivity|]. destruct r as [x|]; exact Hr.
    + intros s' N'. split; [reflexivity|]. split; [reflexivity|exact N'].
  - (* count *) destruct Lg as (l & n & c & H & Hc). apply (member w Bs i _ _ _ l n c W H). intros s B Eh En I EB Le -> ->. apply ne_of_len in Hc. subst n.
    eapply looks; [exact I|exact Le|apply (count_post key hash keq throws keq_hash s B k I Hc)| |].
    + intros s' r N' Hr. cbv beta in Hr. split; [reflexivity|]. split; [reflexivity|]. split; [exact N'|]. rewrite Hr. reflexivity.
    + intros s' N'. split; [reflexivity|]. split; [reflexivity|exact N'].
  - (* equal_range *) destruct Lg as (l & n & c & H & Hc). apply (member w Bs i _ _ _ l n c W H). intros s B Eh En I EB Le -> ->. apply ne_of_len in Hc. subst n.
    eapply looks; [exact I|exact Le|apply (equal_range_post key hash keq throws keq_sym keq_trans keq_hash s B k I Hc)| |].
    + intros s' r N' (X & M & Y & E & HM & HO & Er). split; [reflexivity|]. split; [reflexivity|]. split; [exact N'|]. exists X, M, Y. split; [exact E|]. split; [exact HM|]. split; [exact HO|]. rewrite Er. destruct M; reflexivity.
    + intros s' N'. split; [reflexivity|]. split; [reflexivity|exact N'].
  - (* ++ *) destruct Lg as (l & n & c & H & Hx). apply (member w Bs i _ _ _ l n c W H). intros s B Eh En I EB Le -> ->. subst n.
    apply in_map_iff in Hx. destruct Hx as ([y v] & Ey & Hx). cbn in Ey. subst y. apply in_split in Hx. destruct Hx as (X & Y & EX).
    eapply looks; [exact I|exact Le|apply (incr_post key hash keq throws s B X x v Y I EX)| |].
    + intros s' r N' Hr. cbv beta in Hr. split; [reflexivity|]. split; [reflexivity|]. split; [exact N'|]. exists X, v, Y. split; [exact EX|]. rewrite Hr. reflexivity.
    + intros s' N'. split; [reflexivity|]. split; [reflexivity|exact N'].
  - (* elems_in_bucket *) destruct Lg as (l & m & c & H & Hx). apply (member w Bs i _ _ _ l m c W H). intros s B Eh En I EB Le -> ->. subst m.
    eapply post_mono; [| |apply (elems_post key hash keq s B n I Hx)]; [|intros s' []]. intros s' e [-> ->]. exists B. split; [apply fits_sim; [exact I|exact Le|apply sim_refl]|]. split; [reflexivity|]. split; [reflexivity|]. split; [reflexivity|]. rewrite mod_slot by lia. reflexivity.
  - (* == *) destruct Lg as ((l & n & c & H) & (l2 & n2 & c2 & H2)). destruct (there_inv key hash keq w Bs j l2 n2 c2 W H2) as (b2 & B2 & Et2 & EB2 & -> & -> & I2 & _). rewrite (proj2 (tab_nth w j (b2, n2)) Et2).
    apply (member w Bs i _ _ _ l n c W H). intros s B Eh En I EB Le -> ->. subst n.
    rewrite <- Eh in I2. eapply post_mono; [| |apply (eq_post key hash keq veq keq_hash s B _ b2 n2 B2 I I2)]; [|intros s' []]. intros s' r (-> & R1 & R2). exists B. split; [apply fits_sim; [exact I|exact Le|apply sim_refl]|]. split; [reflexivity|]. split; [reflexivity|]. split; [reflexivity|].
    exists r, (concat B2), n2, (length B2). split; [reflexivity|]. split; [exact H2|]. split; [exact R1|exact R2].
Qed.
End World.
