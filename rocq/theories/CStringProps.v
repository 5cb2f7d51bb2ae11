(** CStringProps.v -- C57. *)
From Coq Require Import ZArith List Bool Lia.
Import ListNotations.
From Verif Require Import CStringModel.
Local Open Scope Z_scope.

Lemma skipn_exact {A} (l r : list A) n : n = length l -> skipn n (l ++ r) = r.
Proof. intros ->. rewrite skipn_app, Nat.sub_diag, skipn_all. reflexivity. Qed.
Lemma poke_app pre x post v i : i = length pre -> poke (pre ++ x :: post) i v = Fine (pre ++ Some v :: post).
Proof.
  intros ->. unfold poke. assert (E : (length pre <? length (pre ++ x :: post))%nat = true) by (apply Nat.ltb_lt; rewrite app_length; cbn; lia). rewrite E. clear E.
  rewrite firstn_app, Nat.sub_diag, firstn_all. change (firstn 0 (x :: post)) with (@nil (option Z)). rewrite app_nil_r.
  assert (E : skipn (S (length pre)) (pre ++ x :: post) = post).
  { replace (pre ++ x :: post) with ((pre ++ [x]) ++ post) by (rewrite <- app_assoc; reflexivity). apply skipn_exact. rewrite app_length. cbn [length]. lia. }
  rewrite E. reflexivity.
Qed.
Lemma poke_all_ok l : forall pre mid post, length mid = length l -> poke_all (pre ++ mid ++ post) (length pre) l = Fine (pre ++ map Some l ++ post).
Proof.
  induction l as [|v l IH]; intros pre mid post H; destruct mid as [|x mid]; try discriminate; cbn [poke_all]; [reflexivity|].
  cbn [app]. rewrite (poke_app pre x (mid ++ post) v _ eq_refl). specialize (IH (pre ++ [Some v]) mid post). rewrite app_length in IH. cbn [length] in IH. rewrite Nat.add_1_r in IH.
  rewrite <- !app_assoc in IH. cbn [app] in IH. rewrite IH by (cbn in H; lia). reflexivity.
Qed.
Lemma poke_all_over l : forall b i, (i <= length b)%nat -> (length b < i + length l)%nat -> poke_all b i l = Overrun.
Proof.
  induction l as [|v l IH]; intros b i H0 H; cbn [length] in H; [lia|]. cbn [poke_all]. unfold poke. destruct (Nat.ltb_spec i (length b)) as [L|L]; [|reflexivity].
  apply IH; rewrite app_length, firstn_length; cbn [length]; rewrite skipn_length; lia.
Qed.
Lemma take_n_ok n : forall src, (n <= length src)%nat \/ In 0 src ->
  exists l, take_n src n = Fine l /\ length l = n /\ firstn n (firstn (strlen src) src ++ repeat 0 n) = l.
Proof.
  induction n as [|n IH]; intros src H; [exists []; destruct src; repeat split; auto|]. destruct src as [|c r]; [destruct H as [H|[]]; cbn in H; lia|]. cbn [take_n strlen].
  destruct (Z.eqb_spec c 0) as [->|N].
  - exists (repeat 0 (S n)). split; auto. split; [apply repeat_length|]. cbn [firstn app]. change (repeat 0 (S n)) with (0 :: repeat 0 n). cbn [firstn]. f_equal. rewrite <- (repeat_length 0 n) at 1. apply firstn_all.
  - destruct (IH r) as (l & E & L & F). { destruct H as [H|[H|H]]; [left; cbn in H; lia|congruence|right; auto]. }
    rewrite E. exists (c :: l). split; auto. split; [cbn; lia|]. cbn [firstn app]. f_equal. rewrite <- F.
    rewrite !firstn_app. f_equal. 
    assert (G : forall k m : nat, (k <= m)%nat -> forall q, (k <= q)%nat -> firstn k (repeat 0 m) = firstn k (repeat 0 q)).
    { clear. induction k as [|k IH]; intros m Hm q Hq; auto. destruct m, q; try lia. cbn. f_equal. apply IH; lia. }
    change (0 :: repeat 0 n) with (repeat 0 (S n)). apply G; lia.
Qed.
(** C57: vital_string_new, for every length and every source of at least that
    many bytes (or terminated): no access outside a block; every byte of the
    new block is set; it is length + 1 bytes, the last is 0, and the others are
    the source up to its first 0, then 0. *)
Theorem C57_string_new n src : (n <= length src)%nat \/ In 0 src ->
  exists b, vital_string_new n (Some src) = Fine (n, b) /\ b = map Some (firstn n (firstn (strlen src) src ++ repeat 0 n) ++ [0]) /\ length b = (n + 1)%nat.
Proof.
  intro H. unfold vital_string_new. unfold malloc. rewrite repeat_app. rewrite (poke_app (repeat None n) None [] 0) by (rewrite repeat_length; reflexivity).
  destruct (take_n_ok n src H) as (l & E & L & F). destruct n as [|n].
  - exists [Some 0]. split; [reflexivity|]. split; auto.
  - unfold strncpy. rewrite E. pose proof (poke_all_ok l [] (repeat None (S n)) [Some 0]) as P. cbn [app length] in P. rewrite P by (rewrite repeat_length; lia).
    exists (map Some l ++ [Some 0]). split; auto. split; [rewrite F, map_app; reflexivity|]. rewrite app_length, map_length. cbn. lia.
Qed.
Print Assumptions C57_string_new.
Theorem C57_string_new_null n : vital_string_new n None = Fine (n, repeat None n ++ [Some 0]).
Proof.
  unfold vital_string_new. unfold malloc. rewrite repeat_app. rewrite (poke_app (repeat None n) None [] 0) by (rewrite repeat_length; reflexivity). destruct n; reflexivity.
Qed.
Print Assumptions C57_string_new_null.
Example C57_nonvacuous : vital_string_new 5 (Some [72; 105; 0; 9]) = Fine (5%nat, [Some 72; Some 105; Some 0; Some 0; Some 0; Some 0]).
Proof. reflexivity. Qed.
(** The error message is written past the end of its block for every message,
    by exactly one byte: one byte more would always have been enough. *)
Lemma strlen_le s : (strlen s <= length s)%nat.
Proof. induction s as [|c s IH]; cbn; auto. destruct (c =? 0); lia. Qed.
Theorem C57_error_message_refuted e ec msg : populate_eh e ec msg = Overrun /\
  strcpy (malloc (strlen msg + 1)) msg = Fine (map Some (firstn (strlen msg) msg ++ [0])).
Proof.
  pose proof (strlen_le msg) as L. split.
  - unfold populate_eh, strcpy. rewrite poke_all_over; auto; [cbn; lia|]. unfold malloc. rewrite repeat_length, app_length, firstn_length. cbn. lia.
  - unfold strcpy. pose proof (poke_all_ok (firstn (strlen msg) msg ++ [0]) [] (malloc (strlen msg + 1)) []) as P. cbn [app length] in P. rewrite !app_nil_r in P. apply P.
    unfold malloc. rewrite repeat_length, app_length, firstn_length. cbn. lia.
Qed.
Print Assumptions C57_error_message_refuted.
(** ... and so is every list of names with at least one name that has no 0 byte inside. *)
Lemma strlen_app0 s : ~ In 0 s -> strlen (s ++ [0]) = length s.
Proof. induction s as [|c s IH]; intro H; [reflexivity|]. cbn. destruct (Z.eqb_spec c 0) as [->|N]; [exfalso; apply H; left; auto|]. rewrite IH; auto. intro X. apply H. right. auto. Qed.
Theorem C57_string_list_refuted l : (forall s, In s l -> ~ In 0 s) -> (string_list l = Overrun <-> l <> []).
Proof.
  intro H. split.
  - intros E ->. discriminate.
  - intro N. destruct l as [|s r]; [congruence|]. cbn [string_list]. unfold strcpy. rewrite strlen_app0 by (apply H; left; auto).
    rewrite poke_all_over; auto; [cbn; lia|]. unfold malloc. rewrite repeat_length, app_length, firstn_length, app_length. cbn. lia.
Qed.
Print Assumptions C57_string_list_refuted.
