(** Lemmas about Base64Model. *)
From Coq Require Import ZArith Bool List Lia.
Import ListNotations.
From Verif Require Import Base64Model Base64Spec.
Local Open Scope Z_scope.

(** Checking a fact for every byte. *)
Definition all_bytes : list Z := map Z.of_nat (seq 0 256).
Lemma in_all_bytes b : byte b -> In b all_bytes.
Proof. intro H. unfold all_bytes. apply in_map_iff. exists (Z.to_nat b). split; [apply Z2Nat.id; unfold byte in H; lia|apply in_seq; unfold byte in H; lia]. Qed.
Lemma byte1 (f : Z -> bool) : forallb f all_bytes = true -> forall b, byte b -> f b = true.
Proof. intros H b Hb. rewrite forallb_forall in H. apply H, in_all_bytes; auto. Qed.
Lemma byte2 (f : Z -> Z -> bool) : forallb (fun a => forallb (f a) all_bytes) all_bytes = true -> forall a b, byte a -> byte b -> f a b = true.
Proof. intros H a b Ha Hb. rewrite forallb_forall in H. specialize (H a (in_all_bytes a Ha)). rewrite forallb_forall in H. apply H, in_all_bytes; auto. Qed.

(** The four sextets of a triplet, as values. *)
Definition v0 (a : Z) : Z := value (map (Z.testbit a) [7; 6; 5; 4; 3; 2]).
Definition v1 (a b : Z) : Z := value (map (Z.testbit a) [1; 0] ++ map (Z.testbit b) [7; 6; 5; 4]).
Definition v2 (b c : Z) : Z := value (map (Z.testbit b) [3; 2; 1; 0] ++ map (Z.testbit c) [7; 6]).
Definition v3 (c : Z) : Z := value (map (Z.testbit c) [5; 4; 3; 2; 1; 0]).

Lemma value6 l : length l = 6%nat -> 0 <= value l < 64.
Proof.
  do 7 (destruct l as [|? l]; try discriminate). intros _. unfold value. cbn [fold_left].
  repeat match goal with |- context[Z.b2z ?b] => let x := fresh "x" in set (x := Z.b2z b); assert (0 <= x <= 1) by (destruct b; cbn; lia); clearbody x end. lia.
Qed.
Lemma v0_lt a : 0 <= v0 a < 64. Proof. apply value6. reflexivity. Qed.
Lemma v1_lt a b : 0 <= v1 a b < 64. Proof. apply value6. reflexivity. Qed.
Lemma v2_lt a b : 0 <= v2 a b < 64. Proof. apply value6. reflexivity. Qed.
Lemma v3_lt a : 0 <= v3 a < 64. Proof. apply value6. reflexivity. Qed.

Definition oeqb (x y : option Z) : bool := match x, y with Some a, Some b => a =? b | None, None => true | _, _ => false end.
Lemma oeqb_eq x y : oeqb x y = true -> x = y.
Proof. destruct x, y; cbn; try discriminate; auto. intro H. apply Z.eqb_eq in H. congruence. Qed.
Lemma enc_letter v : 0 <= v < 64 -> enc_char v = Some (letter v).
Proof.
  intro H. apply oeqb_eq. revert v H.
  assert (C : forallb (fun v => if v <? 64 then oeqb (enc_char v) (Some (letter v)) else true) all_bytes = true) by (vm_compute; reflexivity).
  intros v H. assert (B : byte v) by (unfold byte; lia). pose proof (byte1 _ C v B) as X. cbn beta in X. assert (E : (v <? 64) = true) by (apply Z.ltb_lt; lia). rewrite E in X. exact X.
Qed.
Lemma dec_letter v : 0 <= v < 64 -> dec_char (letter v) = Some v /\ letter v <> 61.
Proof.
  assert (C : forallb (fun v => if v <? 64 then oeqb (dec_char (letter v)) (Some v) && negb (letter v =? 61) else true) all_bytes = true) by (vm_compute; reflexivity).
  intros H. assert (B : byte v) by (unfold byte; lia). pose proof (byte1 _ C v B) as X. cbn beta in X. assert (E : (v <? 64) = true) by (apply Z.ltb_lt; lia). rewrite E in X.
  apply andb_true_iff in X. destruct X as [X Y]. split; [apply oeqb_eq; auto|]. apply negb_true_iff, Z.eqb_neq in Y. exact Y.
Qed.
Ltac table1 := intros; apply Z.eqb_eq; match goal with H : byte ?a |- ?e = true =>
  let f := eval pattern a in e in match f with ?g _ => apply (byte1 g); [vm_compute; reflexivity|assumption] end end.
Ltac table2 a b := intros; apply Z.eqb_eq; match goal with |- ?e = true =>
  let f := eval pattern a, b in e in match f with ?g _ _ => apply (byte2 g); [vm_compute; reflexivity|assumption|assumption] end end.
Lemma e0 a : byte a -> Z.land (Z.shiftr a 2) 63 = v0 a.
Proof. table1. Qed.
Lemma e1 a b : byte a -> byte b -> Z.lor (Z.land (Z.shiftl a 4) 48) (Z.land (Z.shiftr b 4) 15) = v1 a b.
Proof. table2 a b. Qed.
Lemma e2 a b : byte a -> byte b -> Z.lor (Z.land (Z.shiftl a 2) 60) (Z.land (Z.shiftr b 6) 3) = v2 a b.
Proof. table2 a b. Qed.
Lemma e3 a : byte a -> Z.land a 63 = v3 a.
Proof. table1. Qed.
Lemma e1' a : byte a -> Z.land (Z.shiftl a 4) 48 = v1 a 0.
Proof. table1. Qed.
Lemma e2' a : byte a -> Z.land (Z.shiftl a 2) 60 = v2 a 0.
Proof. table1. Qed.
Lemma d0 a b : byte a -> byte b -> Z.lor (Z.land (Z.shiftl (v0 a) 2) 252) (Z.land (Z.shiftr (v1 a b) 4) 3) = a.
Proof. table2 a b. Qed.
Lemma d1a a b : byte a -> byte b -> Z.land (Z.shiftl (v1 a b) 4) 240 = Z.land b 240.
Proof. table2 a b. Qed.
Lemma d1b b c : byte b -> byte c -> Z.land (Z.shiftr (v2 b c) 2) 15 = Z.land b 15.
Proof. table2 b c. Qed.
Lemma d1c b : byte b -> Z.lor (Z.land b 240) (Z.land b 15) = b.
Proof. table1. Qed.
Lemma d2a b c : byte b -> byte c -> Z.land (Z.shiftl (v2 b c) 6) 192 = Z.land c 192.
Proof. table2 b c. Qed.
Lemma d2b c : byte c -> Z.lor (Z.land c 192) (Z.land (Z.shiftr (v3 c) 0) 63) = c.
Proof. table1. Qed.

(** The specification by triplets. *)
Lemma padding_step n : padding (S (S (S n))) = padding n.
Proof. unfold padding. replace (S (S (S n)) mod 3)%nat with (n mod 3)%nat; auto. replace (S (S (S n))) with (n + 1 * 3)%nat by lia. rewrite Nat.mod_add; lia. Qed.
Lemma base64_3 a b c r : base64 (a :: b :: c :: r) = letter (v0 a) :: letter (v1 a b) :: letter (v2 b c) :: letter (v3 c) :: base64 r.
Proof. unfold base64. cbn [length]. rewrite padding_step. reflexivity. Qed.
Lemma base64_2 a b : base64 [a; b] = [letter (v0 a); letter (v1 a b); letter (v2 b 0); 61].
Proof. reflexivity. Qed.
Lemma base64_1 a : base64 [a] = [letter (v0 a); letter (v1 a 0); 61; 61].
Proof. reflexivity. Qed.
Lemma ind3 {A} (P : list A -> Prop) : P [] -> (forall a, P [a]) -> (forall a b, P [a; b]) -> (forall a b c r, P r -> P (a :: b :: c :: r)) -> forall l, P l.
Proof.
  intros H0 H1 H2 H3 l. assert (X : forall n l, (length l <= n)%nat -> P l); [|apply (X (length l)); auto].
  clear l. induction n as [|n IH]; intros l Hl.
  - destruct l; [auto|cbn in Hl; lia].
  - destruct l as [|a [|b [|c r]]]; auto. apply H3, IH. cbn in Hl. lia.
Qed.
Lemma base64_length l : (length (base64 l) = 4 * ((length l + 2) / 3))%nat.
Proof.
  induction l as [| | |a b c r IH] using ind3; try reflexivity. rewrite base64_3. cbn [length]. rewrite IH.
  replace (S (S (S (length r))) + 2)%nat with ((length r + 2) + 1 * 3)%nat by lia. rewrite Nat.div_add by lia. lia.
Qed.
Lemma skipn_skipn {A} (n m : nat) (l : list A) : skipn n (skipn m l) = skipn (m + n) l.
Proof. revert l. induction m as [|m IH]; intro l; [reflexivity|]. destruct l; [destruct n; reflexivity|apply IH]. Qed.
(** Overwriting part of a buffer. *)
Definition patch (b : list Z) (o : nat) (l : list Z) : list Z := firstn o b ++ l ++ skipn (o + length l) b.
Lemma wr_patch b o v : (o < length b)%nat -> wr b o v = Some (patch b o [v]).
Proof. intro H. unfold wr, patch. apply Nat.ltb_lt in H. rewrite H. cbn [length app]. rewrite Nat.add_1_r. reflexivity. Qed.
Lemma patch_length b o l : (o + length l <= length b)%nat -> length (patch b o l) = length b.
Proof. intro H. unfold patch. rewrite !app_length, firstn_length, skipn_length. lia. Qed.
Lemma patch_patch b o l l' : (o + length l + length l' <= length b)%nat -> patch (patch b o l) (o + length l) l' = patch b o (l ++ l').
Proof.
  intro H. unfold patch. set (A := firstn o b ++ l).
  assert (HA : (length A = o + length l)%nat) by (unfold A; rewrite app_length, firstn_length; lia).
  rewrite (app_assoc (firstn o b) l). fold A. rewrite <- HA. rewrite firstn_app, Nat.sub_diag, firstn_all. cbn [firstn]. rewrite app_nil_r.
  rewrite skipn_app. rewrite (skipn_all2 A) by lia. cbn [app].
  replace (length A + length l' - length A)%nat with (length l') by lia. rewrite skipn_skipn.
  unfold A. rewrite <- !app_assoc. f_equal. f_equal. f_equal. f_equal. rewrite app_length, firstn_length, app_length. lia.
Qed.
Lemma patch_nil b o : patch b o [] = b.
Proof. unfold patch. cbn [length app]. rewrite Nat.add_0_r. apply firstn_skipn. Qed.
Lemma wr_snoc b o l v : (o + length l < length b)%nat -> wr (patch b o l) (o + length l) v = Some (patch b o (l ++ [v])).
Proof. intro H. rewrite wr_patch by (rewrite patch_length; lia). f_equal. apply patch_patch. cbn. lia. Qed.
Lemma wr_none b o v : (length b <= o)%nat -> wr b o v = None.
Proof. intro H. unfold wr. assert (E : (o <? length b)%nat = false) by (apply Nat.ltb_ge; lia). rewrite E. reflexivity. Qed.
Lemma rd_at pre x post k : k = length pre -> rd (pre ++ x :: post) k = Some x.
Proof. intros ->. unfold rd. rewrite nth_error_app2 by lia. rewrite Nat.sub_diag. reflexivity. Qed.

Ltac wr4 :=
  rewrite (wr_patch _ _ _) by lia; cbv beta iota;
  rewrite (wr_snoc _ _ [_] _) by (cbn [length]; lia); cbn [app]; cbv beta iota;
  rewrite (wr_snoc _ _ [_; _] _) by (cbn [length]; lia); cbn [app]; cbv beta iota.
Lemma encode3_ok pre a b c post out o : byte a -> byte b -> byte c -> (o + 4 <= length out)%nat ->
  encode3 (pre ++ a :: b :: c :: post) (length pre) out o = Some (patch out o [letter (v0 a); letter (v1 a b); letter (v2 b c); letter (v3 c)]).
Proof.
  intros Ha Hb Hc Ho. unfold encode3. rewrite rd_at by reflexivity.
  rewrite e0 by auto. rewrite (enc_letter (v0 a)) by apply v0_lt. rewrite (wr_patch _ _ _) by lia.
  replace (pre ++ a :: b :: c :: post) with ((pre ++ [a]) ++ b :: c :: post) by (rewrite <- app_assoc; reflexivity).
  rewrite rd_at by (rewrite app_length; reflexivity). rewrite e1 by auto. rewrite (enc_letter (v1 a b)) by apply v1_lt.
  rewrite (wr_snoc _ _ [_] _) by (cbn [length]; lia). cbn [app].
  replace (((pre ++ [a]) ++ b :: c :: post)) with ((pre ++ [a; b]) ++ c :: post) by (rewrite <- !app_assoc; reflexivity).
  rewrite rd_at by (rewrite app_length; reflexivity). rewrite e2 by auto. rewrite (enc_letter (v2 b c)) by apply v2_lt.
  rewrite (wr_snoc _ _ [_; _] _) by (cbn [length]; lia). cbn [app].
  rewrite e3 by auto. rewrite (enc_letter (v3 c)) by apply v3_lt.
  rewrite (wr_snoc _ _ [_; _; _] _) by (cbn [length]; lia). reflexivity.
Qed.
Lemma encode2_ok pre a b post out o : byte a -> byte b -> (o + 4 <= length out)%nat ->
  encode2 (pre ++ a :: b :: post) (length pre) out o = Some (patch out o [letter (v0 a); letter (v1 a b); letter (v2 b 0); 61]).
Proof.
  intros Ha Hb Ho. unfold encode2. rewrite rd_at by reflexivity.
  rewrite e0 by auto. rewrite (enc_letter (v0 a)) by apply v0_lt. rewrite (wr_patch _ _ _) by lia.
  replace (pre ++ a :: b :: post) with ((pre ++ [a]) ++ b :: post) by (rewrite <- app_assoc; reflexivity).
  rewrite rd_at by (rewrite app_length; reflexivity). rewrite e1 by auto. rewrite (enc_letter (v1 a b)) by apply v1_lt.
  rewrite (wr_snoc _ _ [_] _) by (cbn [length]; lia). cbn [app].
  rewrite e2' by auto. rewrite (enc_letter (v2 b 0)) by apply v2_lt.
  rewrite (wr_snoc _ _ [_; _] _) by (cbn [length]; lia). cbn [app].
  rewrite (wr_snoc _ _ [_; _; _] _) by (cbn [length]; lia). reflexivity.
Qed.
Lemma encode1_ok pre a post out o : byte a -> (o + 4 <= length out)%nat ->
  encode1 (pre ++ a :: post) (length pre) out o = Some (patch out o [letter (v0 a); letter (v1 a 0); 61; 61]).
Proof.
  intros Ha Ho. unfold encode1. rewrite rd_at by reflexivity.
  rewrite e0 by auto. rewrite (enc_letter (v0 a)) by apply v0_lt. rewrite (wr_patch _ _ _) by lia.
  rewrite e1' by auto. rewrite (enc_letter (v1 a 0)) by apply v1_lt.
  rewrite (wr_snoc _ _ [_] _) by (cbn [length]; lia). cbn [app].
  rewrite (wr_snoc _ _ [_; _] _) by (cbn [length]; lia). cbn [app].
  rewrite (wr_snoc _ _ [_; _; _] _) by (cbn [length]; lia). reflexivity.
Qed.
(** A write past the end, whatever came before, is caught. *)
Lemma wr_length b o v b' : wr b o v = Some b' -> length b' = length b /\ (o < length b)%nat.
Proof.
  intro H. destruct (Nat.le_gt_cases (length b) o) as [X|X]; [rewrite wr_none in H by lia; discriminate|].
  rewrite wr_patch in H by lia. injection H as <-. rewrite patch_length by (cbn [length]; lia). lia.
Qed.
Ltac wrn := repeat match goal with
  | |- context[match rd ?b ?i with _ => _ end] => destruct (rd b i); [|reflexivity]
  | |- context[match enc_char ?c with _ => _ end] => destruct (enc_char c); [|reflexivity]
  | |- context[match wr ?b ?i ?v with _ => _ end] => let W := fresh "W" in destruct (wr b i v) eqn:W; [apply wr_length in W|reflexivity]
  end; apply wr_none; lia.
Lemma encode3_none src p out o : (length out < o + 4)%nat -> encode3 src p out o = None.
Proof. intro H. unfold encode3. wrn. Qed.
Lemma encode2_none src p out o : (length out < o + 4)%nat -> encode2 src p out o = None.
Proof. intro H. unfold encode2. wrn. Qed.
Lemma encode1_none src p out o : (length out < o + 4)%nat -> encode1 src p out o = None.
Proof. intro H. unfold encode1. wrn. Qed.

(** What the loop leaves for the end of [encode]: the bytes after the last triplet. *)
Definition tail_enc (l : list Z) (mark : bool) : list Z := match l with [] => if mark then [61; 61; 61; 61] else [] | _ => base64 l end.
Fixpoint body_len (l : list Z) : nat := match l with _ :: _ :: _ :: r => S (S (S (body_len r))) | _ => 0%nat end.
Fixpoint body (l : list Z) : list Z := match l with a :: b :: c :: r => letter (v0 a) :: letter (v1 a b) :: letter (v2 b c) :: letter (v3 c) :: body r | _ => [] end.
Fixpoint rest (l : list Z) : list Z := match l with a :: b :: c :: r => rest r | _ => l end.
Lemma base64_split l : base64 l = body l ++ base64 (rest l).
Proof. induction l as [| | |a b c r IH] using ind3; try reflexivity. rewrite base64_3, IH. reflexivity. Qed.
Lemma rest_length l : (length (rest l) < 3)%nat.
Proof. induction l as [| | |a b c r IH] using ind3; cbn; auto; lia. Qed.
Lemma loop_ok l : Forall byte l -> forall pre post out o fuel, (length l < fuel)%nat -> (o + length (body l) <= length out)%nat ->
  exists mid, l = mid ++ rest l /\
  enc_loop fuel (pre ++ l ++ post) (length pre) (length pre + length l) out o = Some (patch out o (body l), (length pre + length mid)%nat, (o + length (body l))%nat).
Proof.
  induction l as [|a|a b|a b c r IH] using ind3; intros Hb pre post out o fuel Hf Ho; (destruct fuel as [|fuel]; [cbn in Hf; lia|]); cbn [enc_loop].
  1-3: exists []; split; [reflexivity|]; cbn [length app body];
    match goal with |- context[(3 <=? ?x)%nat] => assert (E : (3 <=? x)%nat = false) by (apply Nat.leb_gt; lia); rewrite E end; rewrite patch_nil, !Nat.add_0_r; reflexivity.
  cbn [length] in Hf. inversion Hb as [|? ? Ha Hb1]; subst. inversion Hb1 as [|? ? Hb2 Hb3]; subst. inversion Hb3 as [|? ? Hc Hr]; subst.
  cbn [body length] in Ho.
  destruct (IH Hr (pre ++ [a; b; c]) post (patch out o [letter (v0 a); letter (v1 a b); letter (v2 b c); letter (v3 c)]) (o + 4)%nat fuel) as (mid & Hmid & Hl); [lia| |].
  { rewrite patch_length; cbn [length]; lia. }
  exists (a :: b :: c :: mid). split; [cbn [rest app]; congruence|].
  assert (E : (3 <=? length pre + length (a :: b :: c :: r) - length pre)%nat = true) by (apply Nat.leb_le; cbn [length]; lia). rewrite E.
  cbn [app]. rewrite encode3_ok by (auto; lia). rewrite app_length in Hl. cbn [length] in Hl |- *. rewrite <- app_assoc in Hl. cbn [app] in Hl.
  replace (length pre + 3 + length r)%nat with (length pre + S (S (S (length r))))%nat in Hl by lia. rewrite Hl. cbn [body rest].
  assert (E4 : forall x, (o + 4)%nat = (o + length [letter (v0 a); letter (v1 a b); letter (v2 b c); x])%nat) by reflexivity.
  rewrite (E4 (letter (v3 c))), patch_patch by (cbn [length]; lia). cbn [app].
  f_equal. f_equal; [f_equal|]; cbn [length]; lia.
Qed.
Lemma loop_none l : Forall byte l -> forall pre post out o fuel, (o <= length out)%nat -> (length out < o + length (body l))%nat ->
  enc_loop fuel (pre ++ l ++ post) (length pre) (length pre + length l) out o = None.
Proof.
  induction l as [|a|a b|a b c r IH] using ind3; intros Hb pre post out o fuel H0 Ho; cbn [body length] in Ho; try lia.
  destruct fuel as [|fuel]; [reflexivity|]. cbn [enc_loop].
  assert (E : (3 <=? length pre + length (a :: b :: c :: r) - length pre)%nat = true) by (apply Nat.leb_le; cbn [length]; lia). rewrite E.
  destruct (Nat.le_gt_cases (o + 4) (length out)) as [H|H]; [|rewrite encode3_none by lia; reflexivity].
  inversion Hb as [|? ? Ha Hb1]; subst. inversion Hb1 as [|? ? Hb2 Hb3]; subst. inversion Hb3 as [|? ? Hc Hr]; subst.
  cbn [app]. rewrite encode3_ok by (auto; lia).
  specialize (IH Hr (pre ++ [a; b; c]) post (patch out o [letter (v0 a); letter (v1 a b); letter (v2 b c); letter (v3 c)]) (o + 4)%nat fuel).
  rewrite patch_length in IH by (cbn [length]; lia). rewrite app_length in IH. cbn [length] in IH |- *. rewrite <- app_assoc in IH. cbn [app] in IH.
  replace (length pre + 3 + length r)%nat with (length pre + S (S (S (length r))))%nat in IH by lia. apply IH; lia.
Qed.
