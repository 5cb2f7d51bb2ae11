(** MD5Props.v -- C118: the MD5 digest. *)
From Coq Require Import ZArith Ascii String List Bool Lia Reals.
From Verif Require Import MD5Model MD5Spec MD5Table MD5Proofs.
Import ListNotations.
Local Open Scope Z_scope.

(** ---- specification ---- *)
(** What one call of Append(data, length) hands over: [length] bytes, or, when the
    length is negative, the bytes of a C string (all those before the first 0). *)
Definition given (call : list Z * Z) (piece : list Z) : Prop :=
  let '(data, len) := call in
  (0 <= len /\ Z.of_nat (length piece) = len /\ exists rest, data = piece ++ rest) \/
  (len < 0 /\ ~ In 0 piece /\ exists rest, data = piece ++ 0 :: rest).
(** Lower-case hexadecimal. *)
Definition hex_val (c : ascii) (v : Z) : Prop :=
  let n := Z.of_nat (nat_of_ascii c) in (48 <= n <= 57 /\ v = n - 48) \/ (97 <= n <= 102 /\ v = n - 87).
Inductive hex_of : list Z -> list ascii -> Prop :=
  | hex_nil : hex_of [] []
  | hex_cons : forall b d hi lo t vh vl, hex_val hi vh -> hex_val lo vl -> b = 16 * vh + vl -> hex_of d t -> hex_of (b :: d) (hi :: lo :: t).

(** ---- lemmas ---- *)
Lemma sine_is i : (1 <= i <= 64)%nat -> T_of i = sine i.
Proof. apply C118_table. Qed.
Lemma given_kw s data len piece : given (data, len) piece -> kw_append s data len = md5_append s piece.
Proof.
  intros [(A & B & rest & ->)|(A & B & rest & ->)]; unfold kw_append.
  - destruct (Z.ltb_spec len 0); [lia|]. rewrite firstn_app. replace (Z.to_nat len) with (length piece) by lia. rewrite firstn_all, Nat.sub_diag. cbn [firstn]. rewrite app_nil_r. reflexivity.
  - destruct (Z.ltb_spec len 0); [|lia]. f_equal. clear A H. induction piece as [|x p IH]; [reflexivity|]. cbn [c_bytes app]. destruct (Z.eqb_spec x 0) as [->|]; [elim B; left; reflexivity|]. f_equal. apply IH. intros I. apply B. right. exact I.
Qed.
Lemma le_bytes_range : forall k n b, In b (le_bytes k n) -> 0 <= b < 256.
Proof. induction k as [|k IH]; intros n b; [intros []|]. cbn [le_bytes]. intros [<-|I]; [apply Z.mod_pos_bound; lia|exact (IH _ _ I)]. Qed.
Lemma le_bytes_len : forall k n, length (le_bytes k n) = k.
Proof. induction k; intros; cbn; auto. Qed.
Lemma nib v : 0 <= v < 16 -> hex_val (nth (Z.to_nat v) hex "?"%char) v.
Proof.
  intros H. assert (exists n, v = Z.of_nat n /\ (n < 16)%nat) as (n & -> & N) by (exists (Z.to_nat v); lia). rewrite Nat2Z.id. unfold hex_val. do 16 (destruct n as [|n]; [vm_compute; (left; split; [split; discriminate|reflexivity]) || (right; split; [split; discriminate|reflexivity])|]). lia.
Qed.
Lemma to_hex_ok d : (forall b, In b d -> 0 <= b < 256) -> hex_of d (to_hex d).
Proof.
  induction d as [|b d IH]; intros H; [constructor|]. specialize (IH (fun x I => H x (or_intror I))). specialize (H b (or_introl eq_refl)). unfold to_hex. cbn [flat_map app]. fold (to_hex d).
  assert (Z.shiftr b 4 = b / 16) as -> by (rewrite Z.shiftr_div_pow2 by lia; reflexivity). assert (Z.land b 15 = b mod 16) as -> by (change 15 with (Z.ones 4); rewrite Z.land_ones by lia; reflexivity).
  apply hex_cons with (b / 16) (b mod 16); [apply nib; split; [apply Z.div_pos; lia|apply Z.div_lt_upper_bound; lia]|apply nib, Z.mod_pos_bound; lia|apply Z.div_mod; lia|exact IH].
Qed.
Lemma to_hex_len d : length (to_hex d) = (2 * length d)%nat.
Proof. unfold to_hex. induction d as [|x d IH]; [reflexivity|]. cbn [flat_map app length]. lia. Qed.
Lemma fold_given : forall calls pieces, Forall2 given calls pieces -> forall s, fold_left (fun s c => kw_append s (fst c) (snd c)) calls s = fold_left md5_append pieces s.
Proof. induction 1 as [|[d n] p calls pieces G _ IH]; intros s; [reflexivity|]. cbn [fold_left fst snd]. rewrite (given_kw _ _ _ _ G). apply IH. Qed.

(** ---- theorems ---- *)
(** The state after Initialize, then any calls of Append. *)
Definition appended (s : md5_state) (calls : list (list Z * Z)) : md5_state :=
  fold_left (fun s c => kw_append s (fst c) (snd c)) calls (md5_init s).
Theorem C118_digest : forall s calls pieces, length (buf s) = 64%nat -> Forall2 given calls pieces ->
  is_md5 sine (concat pieces) (snd (md5_finish (appended s calls))).
Proof.
  intros s calls pieces B G. unfold appended. rewrite (fold_given _ _ G). apply (is_md5_ext T_of); [exact sine_is|]. apply finish_ok. rewrite <- (app_nil_l (concat pieces)). apply chunks_ok, init_ok, B.
Qed.
(** A text has exactly one digest: the order and sizes of the pieces cannot matter. *)
Theorem C118_one_digest : forall msg d d', is_md5 sine msg d -> is_md5 sine msg d' -> d = d'.
Proof.
  intros msg d d' (p & (k & K & M & ->) & ->) (p' & (k' & K' & M' & ->) & ->). assert (k = k') as ->; [|reflexivity].
  pose proof (Nat.div_mod (length msg + 1 + k) 64 ltac:(lia)). pose proof (Nat.div_mod (length msg + 1 + k') 64 ltac:(lia)). lia.
Qed.
Theorem C118_pieces : forall s s' calls calls' pieces pieces', length (buf s) = 64%nat -> length (buf s') = 64%nat ->
  Forall2 given calls pieces -> Forall2 given calls' pieces' -> concat pieces = concat pieces' ->
  snd (md5_finish (appended s calls)) = snd (md5_finish (appended s' calls')).
Proof.
  intros s s' calls calls' pieces pieces' B B' G G' E. apply (C118_one_digest (concat pieces)); [apply C118_digest; assumption|]. rewrite E. apply C118_digest; assumption.
Qed.
(** FinalizeHex: 32 characters that spell the 16 bytes. *)
Theorem C118_hex : forall s calls pieces, length (buf s) = 64%nat -> Forall2 given calls pieces ->
  let digest := snd (md5_finish (appended s calls)) in
  length digest = 16%nat /\ (forall b, In b digest -> 0 <= b < 256) /\ length (to_hex digest) = 32%nat /\ hex_of digest (to_hex digest).
Proof.
  intros s calls pieces B G digest. destruct (C118_digest s calls pieces B G) as (p & _ & E). fold digest in E.
  assert (length digest = 16%nat) as L by (rewrite E; unfold digest_bytes; destruct (absorb sine start p) as [[[? ?] ?] ?]; rewrite !app_length, !le_bytes_len; reflexivity).
  assert (forall b, In b digest -> 0 <= b < 256) as R. { intros b. rewrite E. unfold digest_bytes. destruct (absorb sine start p) as [[[? ?] ?] ?]. rewrite !in_app_iff. intros [I|[I|[I|I]]]; exact (le_bytes_range _ _ _ I). }
  split; [exact L|]. split; [exact R|]. split; [|apply to_hex_ok, R]. rewrite to_hex_len, L. reflexivity.
Qed.
(** An object used again and again, Initialize to Finalize: every digest is that of
    its own bytes. *)
Fixpoint sessions (s : md5_state) (l : list (list (list Z * Z))) : list (list Z) :=
  match l with [] => [] | calls :: r => let '(s', d) := md5_finish (appended s calls) in d :: sessions s' r end.
Lemma finish_buf s m : Inv s m -> length (buf (fst (md5_finish s))) = 64%nat.
Proof.
  intros H. unfold md5_finish. cbn [fst]. match goal with |- length (buf (md5_append (md5_append _ ?a) ?b)) = _ => destruct (append_ok _ _ b (append_ok _ _ a H)) as (f & t & Q) end. apply Q.
Qed.
Theorem C118_reuse : forall uses texts, Forall2 (fun calls text => exists pieces, Forall2 given calls pieces /\ text = concat pieces) uses texts ->
  forall s, length (buf s) = 64%nat -> Forall2 (fun text d => is_md5 sine text d) texts (sessions s uses).
Proof.
  induction 1 as [|calls text uses texts (pieces & G & ->) _ IH]; intros s B; [constructor|]. cbn [sessions]. pose proof (C118_digest s calls pieces B G) as D.
  assert (Inv (appended s calls) (concat pieces)) as I by (unfold appended; rewrite (fold_given _ _ G); rewrite <- (app_nil_l (concat pieces)); apply chunks_ok, init_ok, B).
  pose proof (finish_buf _ _ I) as B'. destruct (md5_finish (appended s calls)) as [s' d]. constructor; [exact D|]. apply IH. exact B'.
Qed.
(** Without Initialize in between, the bytes appended afterwards follow the padded text. *)
Theorem C118_continued : forall s calls pieces more, length (buf s) = 64%nat -> Forall2 given calls pieces ->
  exists p, padded (concat pieces) p /\ is_md5 sine (p ++ concat more) (snd (md5_finish (fold_left md5_append more (fst (md5_finish (appended s calls)))))).
Proof.
  intros s calls pieces more B G. assert (Inv (appended s calls) (concat pieces)) as I by (unfold appended; rewrite (fold_given _ _ G); rewrite <- (app_nil_l (concat pieces)); apply chunks_ok, init_ok, B).
  destruct (finish_state _ _ I) as (p & P & J). exists p. split; [exact P|]. apply (is_md5_ext T_of); [exact sine_is|]. apply finish_ok, chunks_ok, J.
Qed.

(** ---- the hypotheses can be met; known digests ---- *)
Definition zero_state : md5_state := Md5 0 0 (Regs 0 0 0 0) (repeat 0 64).
Example C118_abc :
  Forall2 given [([97; 98; 99; 0; 7], -1)] [[97; 98; 99]] /\ Forall2 given [([97; 98; 120], 2); ([99], 1); ([], 0)] [[97; 98]; [99]; []] /\
  to_hex (snd (md5_finish (appended zero_state [([97; 98; 99; 0; 7], -1)]))) = list_ascii_of_string "900150983cd24fb0d6963f7d28e17f72" /\
  to_hex (snd (md5_finish (appended zero_state [([97; 98; 120], 2); ([99], 1); ([], 0)]))) = list_ascii_of_string "900150983cd24fb0d6963f7d28e17f72".
Proof.
  split; [constructor; [|constructor]; right; split; [lia|]; split; [cbn; lia|exists [7]; reflexivity]|].
  split; [repeat (constructor; [left; split; [lia|]; split; [reflexivity|eexists; reflexivity]|]); constructor|].
  split; vm_compute; reflexivity.
Qed.
(** Finalize twice: the second digest is another one. *)
Theorem C118_finalize_twice_refuted : exists s calls pieces, length (buf s) = 64%nat /\ Forall2 given calls pieces /\
  let '(s', d) := md5_finish (appended s calls) in snd (md5_finish s') <> d.
Proof. exists zero_state, [], []. split; [reflexivity|]. split; [constructor|]. vm_compute. discriminate. Qed.

Print Assumptions C118_digest.
Print Assumptions C118_table.
Print Assumptions C118_reuse.
Print Assumptions C118_hex.
Print Assumptions C118_continued.
Print Assumptions C118_finalize_twice_refuted.
