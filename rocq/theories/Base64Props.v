(** Base64Props.v -- C43, C44, C68. *)
From Coq Require Import ZArith Bool List Lia.
Import ListNotations.
From Verif Require Import Base64Model Base64Spec Base64Proofs Base64Proofs2.
Local Open Scope Z_scope.

(** C43: for every byte sequence, standing at the start of any input buffer,
    Encode writes its RFC 4648 encoding at the start of the output buffer,
    returns that encoding's length, and touches nothing else -- provided the
    output buffer holds 4 * ceil(n / 3) bytes; otherwise it writes outside. *)
Theorem C43_encode l post out : Forall byte l ->
  encode (l ++ post) (length l) out false =
  if (4 * ((length l + 2) / 3) <=? length out)%nat
  then Some (base64 l ++ skipn (length (base64 l)) out, (4 * ((length l + 2) / 3))%nat)
  else None.
Proof.
  intro Hb. pose proof (base64_length l) as HL.
  assert (E : base64 l ++ marks (length l) false = base64 l) by (unfold marks; apply app_nil_r).
  destruct (Nat.leb_spec (4 * ((length l + 2) / 3)) (length out)) as [H|H].
  - rewrite encode_ok; rewrite ?E; auto; [|lia]. rewrite HL. unfold patch. cbn [firstn app Nat.add]. rewrite HL. reflexivity.
  - apply encode_overflow; auto. rewrite E. lia.
Qed.
Print Assumptions C43_encode.
(** The encoding uses only the 64 letters and the pad character. *)
Theorem C43_alphabet l c : In c (base64 l) -> c = 61 \/ (exists v, 0 <= v < 64 /\ c = letter v).
Proof.
  induction l as [|a|a b|a b d r IH] using ind3; intro H.
  - destruct H.
  - rewrite base64_1 in H. destruct H as [<-|[<-|[<-|[<-|[]]]]]; eauto using v0_lt, v1_lt, v2_lt, v3_lt.
  - rewrite base64_2 in H. destruct H as [<-|[<-|[<-|[<-|[]]]]]; eauto using v0_lt, v1_lt, v2_lt, v3_lt.
  - rewrite base64_3 in H. destruct H as [<-|[<-|[<-|[<-|H]]]]; eauto using v0_lt, v1_lt, v2_lt, v3_lt.
Qed.
Print Assumptions C43_alphabet.
(** Round trip, when the length is known: the n bytes come back and no other
    byte of the output buffer changes. *)
Theorem C43_round_trip_length l post out : Forall byte l -> (length l <= length out)%nat ->
  decode (base64 l ++ post) (length l) out 0 = Some (l ++ skipn (length l) out, length l).
Proof.
  intros Hb Ho. unfold decode. cbn [Nat.eqb negb].
  pose proof (front_rest l) as FR. pose proof (rest_length l) as RL. pose proof (rest_Forall l Hb) as RB.
  assert (FL : (length l = length (front l) + length (rest l))%nat) by (rewrite <- FR at 1; apply app_length).
  destruct (dec_out_body l Hb [] (base64 (rest l) ++ post) out 0 (length l) (S (length l))) as (fuel & Hf & Hl); [lia|lia|lia|].
  cbn [length app Nat.add] in Hl. rewrite base64_split, <- app_assoc, Hl. clear Hl.
  destruct fuel as [|fuel]; [lia|]. cbn [dec_loop_out].
  assert (E : (3 <=? length l - length (front l))%nat = false) by (apply Nat.leb_gt; lia). rewrite E.
  replace (length l - length (front l))%nat with (length (rest l)) by lia.
  assert (P : patch out 0 (front l ++ rest l) = l ++ skipn (length l) out) by (rewrite FR; reflexivity).
  destruct (rest l) as [|a [|b [|c r]]]; cbn [length] in RL; try lia; cbn [length Nat.eqb].
  - rewrite app_nil_r in P. rewrite P. cbn [length] in FL. rewrite Nat.add_0_r in FL. rewrite <- FL. reflexivity.
  - rewrite base64_1. cbn [app]. rewrite (decode3_one (body l) a post [0; 0; 0] 0) by (try apply (Forall_inv RB); cbn; lia).
    unfold patch at 1. cbn [firstn app length Nat.add skipn Nat.ltb Nat.leb rd nth_error].
    change (length (front l)) with (0 + length (front l))%nat. rewrite (wr_snoc out 0 (front l) a) by (cbn [length] in FL; lia). cbv beta iota. rewrite P. cbn [length] in FL. rewrite FL. reflexivity.
  - rewrite base64_2. cbn [app]. rewrite (decode3_two (body l) a b post [0; 0; 0] 0) by (try apply (Forall_inv RB); try apply (Forall_inv (Forall_inv_tail RB)); cbn; lia).
    unfold patch at 1. cbn [firstn app length Nat.add skipn Nat.ltb Nat.leb rd nth_error].
    pose proof (wr_snoc out 0 (front l) a) as W1. pose proof (wr_snoc out 0 (front l ++ [a]) b) as W2. cbn [Nat.add] in W1, W2.
    rewrite W1 by (cbn [length] in FL; lia). rewrite app_length in W2. cbn [length] in W2.
    change (patch [0; 0; 0] 0 [a; b; 0]) with [a; b; 0]. cbv beta iota.
    rewrite W2 by (cbn [length] in *; lia).
    rewrite <- app_assoc. cbn [app]. rewrite P. cbn [length] in FL. rewrite FL. reflexivity.
Qed.
Print Assumptions C43_round_trip_length.
Lemma decode_bound_common l post out e : Forall byte l -> l <> [] -> (length (base64 l) <= e)%nat -> (3 * ((length l + 2) / 3) <= length out)%nat ->
  (length l mod 3 <> 0)%nat ->
  decode (base64 l ++ post) 0 out e = Some (patch out 0 (l ++ repeat 0 (3 - length l mod 3)), length l).
Proof.
  intros Hb Hn He Ho Hm. unfold decode. pose proof (base64_length l) as BL.
  assert (E0 : (e =? 0)%nat = false). { apply Nat.eqb_neq. destruct l; [congruence|]. cbn [length] in BL. assert (1 <= (S (length l) + 2) / 3)%nat by (apply Nat.div_le_lower_bound; lia). lia. }
  rewrite E0. cbn [negb].
  pose proof (front_rest l) as FR. pose proof (rest_length l) as RL. pose proof (rest_Forall l Hb) as RB. pose proof (rest_mod l) as RM.
  assert (FL : (length l = length (front l) + length (rest l))%nat) by (rewrite <- FR at 1; apply app_length).
  assert (BB : (length (base64 l) = length (body l) + 4)%nat).
  { rewrite base64_split, app_length. rewrite <- RM in Hm. destruct (rest l) as [|a [|b [|c r]]]; cbn [length] in RL, Hm; try lia; reflexivity. }
  assert (OO : (length (front l) + 3 <= length out)%nat).
  { rewrite <- RM in Hm. pose proof (front_body l). rewrite BL in BB. lia. }
  destruct (dec_in_body l Hb [] (base64 (rest l) ++ post) out 0 e (S e)) as (fuel & Hf & Hl); [cbn [length]; lia|cbn [length]; lia|cbn [length]; lia|].
  cbn [length app Nat.add] in Hl, Hf. rewrite base64_split, <- app_assoc, Hl. clear Hl.
  destruct fuel as [|fuel]; [lia|]. cbn [dec_loop_in].
  assert (E : (length (body l) <? e)%nat = true) by (apply Nat.ltb_lt; lia). rewrite E. rewrite <- RM in *.
  assert (PL : length (patch out 0 (front l)) = length out) by (apply patch_length; lia).
  destruct (rest l) as [|a [|b [|c r]]]; cbn [length] in RL; try lia.
  - cbn in Hm. lia.
  - rewrite base64_1. cbn [app]. rewrite decode3_one by (try apply (Forall_inv RB); lia). cbn [Nat.ltb Nat.leb length Nat.sub repeat].
    change (length (front l)) with (0 + length (front l))%nat at 1. rewrite patch_patch by (cbn [length]; lia). f_equal. f_equal; [|cbn [length] in FL; lia].
    f_equal. rewrite <- FR at 2. rewrite <- app_assoc. reflexivity.
  - rewrite base64_2. cbn [app]. rewrite decode3_two by (try apply (Forall_inv RB); try apply (Forall_inv (Forall_inv_tail RB)); lia). cbn [Nat.ltb Nat.leb length Nat.sub repeat].
    change (length (front l)) with (0 + length (front l))%nat at 1. rewrite patch_patch by (cbn [length]; lia). f_equal. f_equal; [|cbn [length] in FL; lia].
    f_equal. rewrite <- FR at 2. rewrite <- app_assoc. reflexivity.
Qed.
Lemma rest_nil l : (length l mod 3 = 0)%nat -> rest l = [] /\ front l = l /\ base64 l = body l.
Proof.
  intro H. pose proof (rest_mod l) as R. rewrite H in R. destruct (rest l) eqn:E; [|discriminate].
  pose proof (front_rest l) as F. rewrite E, app_nil_r in F. pose proof (base64_split l) as S. rewrite E, app_nil_r in S. auto.
Qed.
Lemma div3 n : (n mod 3 = 0 -> 3 * ((n + 2) / 3) = n /\ n = 3 * (n / 3))%nat.
Proof. intro H. pose proof (Nat.div_mod n 3). assert (n = 3 * (n / 3))%nat by lia. split; auto. rewrite H1 at 1. replace (3 * (n / 3) + 2)%nat with (2 + (n / 3) * 3)%nat by lia. rewrite Nat.div_add by lia. change (2 / 3)%nat with 0%nat. lia. Qed.
Lemma div3' n : (n mod 3 <> 0 -> 3 * ((n + 2) / 3) = 3 * (n / 3 + 1) /\ n + (3 - n mod 3) = 3 * (n / 3 + 1))%nat.
Proof.
  intro H. pose proof (Nat.div_mod n 3). pose proof (Nat.mod_upper_bound n 3). assert (D : ((n + 2) / 3 = n / 3 + 1)%nat); [|lia].
  assert (C : (n mod 3 = 1 \/ n mod 3 = 2)%nat) by lia. destruct C as [C|C].
  - replace (n + 2)%nat with (0 + (n / 3 + 1) * 3)%nat by lia. rewrite Nat.div_add by lia. apply Nat.add_0_l.
  - replace (n + 2)%nat with (1 + (n / 3 + 1) * 3)%nat by lia. rewrite Nat.div_add by lia. apply Nat.add_0_l.
Qed.
(** Round trip, when only the length of the encoded text is known: needs room
    for whole triplets; the bytes between the n-th and the end of the last
    triplet are set to zero, nothing after that changes. *)
Theorem C43_round_trip_text l post out : Forall byte l -> l <> [] -> (3 * ((length l + 2) / 3) <= length out)%nat ->
  exists out', decode (base64 l ++ post) 0 out (length (base64 l)) = Some (out', length l) /\
    firstn (length l) out' = l /\ skipn (3 * ((length l + 2) / 3)) out' = skipn (3 * ((length l + 2) / 3)) out /\ length out' = length out.
Proof.
  intros Hb Hn Ho. destruct (Nat.eq_dec (length l mod 3) 0) as [M|M].
  - destruct (rest_nil l M) as (R & F & B). destruct (div3 _ M) as [D1 D2].
    exists (patch out 0 l). split; [|split; [|split]].
    + unfold decode. rewrite B. assert (BL : (length (body l) <> 0)%nat). { pose proof (front_body l) as X. rewrite F in X. destruct l; [congruence|]. cbn [length] in X. lia. }
      apply Nat.eqb_neq in BL. rewrite BL. cbn [negb].
      destruct (dec_in_body l Hb [] post out 0 (length (body l)) (S (length (body l)))) as (fuel & Hf & Hl); [cbn; lia|cbn; lia|rewrite F; lia|].
      cbn [length app Nat.add] in Hl, Hf. rewrite Hl, F. destruct fuel as [|fuel]; [lia|]. cbn [dec_loop_in]. rewrite Nat.ltb_irrefl. reflexivity.
    + unfold patch. cbn [firstn app Nat.add]. apply firstn_app_exact.
    + rewrite D1. unfold patch. cbn [firstn app Nat.add]. apply skipn_app_exact.
    + apply patch_length. lia.
  - destruct (div3' _ M) as [D1 D2]. exists (patch out 0 (l ++ repeat 0 (3 - length l mod 3))). split; [|split; [|split]].
    + apply decode_bound_common; auto.
    + unfold patch. cbn [firstn app Nat.add]. rewrite <- app_assoc. apply firstn_app_exact.
    + rewrite D1, <- D2. unfold patch. cbn [firstn app Nat.add]. rewrite app_length, repeat_length.
      replace (length l + (3 - length l mod 3))%nat with (length (l ++ repeat 0 (3 - length l mod 3))) at 1 by (rewrite app_length, repeat_length; reflexivity). apply skipn_app_exact.
    + apply patch_length. rewrite app_length, repeat_length. lia.
Qed.
Print Assumptions C43_round_trip_text.
Example C43_nonvacuous : Forall byte [77; 0; 255; 16] /\ base64 [77; 0; 255; 16] = [84; 81; 68; 47; 69; 65; 61; 61] /\
  encode [77; 0; 255; 16] 4 (repeat 7 9) false = Some ([84; 81; 68; 47; 69; 65; 61; 61; 7], 8%nat) /\
  decode [84; 81; 68; 47; 69; 65; 61; 61] 4 (repeat 7 5) 0 = Some ([77; 0; 255; 16; 7], 4%nat).
Proof. split; [|repeat split; reflexivity]. repeat constructor; unfold byte; lia. Qed.
(** The documented buffer estimate (length * 1.5) is too small. *)
Theorem C43_estimate_refuted : exists l out, Forall byte l /\ (3 * length l <= 2 * length out)%nat /\ encode l (length l) out false = None.
Proof. exists [1], [0; 0]. split; [repeat constructor; unfold byte; lia|]. split; [cbn; lia|reflexivity]. Qed.
Print Assumptions C43_estimate_refuted.

(** C44: with mark_end, the encoding is followed by ==== when n is a multiple
    of 3.  Whatever follows the encoded stream in the input, decoding without
    knowing the length yields the n bytes when n is not a multiple of 3, and
    the n bytes plus one zero byte when it is. *)
Theorem C44_marked_encode l post out : Forall byte l ->
  let text := base64 l ++ (if (length l mod 3 =? 0)%nat then [61; 61; 61; 61] else []) in
  encode (l ++ post) (length l) out true =
  if (length text <=? length out)%nat then Some (text ++ skipn (length text) out, length text) else None.
Proof.
  intros Hb text. assert (E : text = base64 l ++ marks (length l) true) by reflexivity. clearbody text.
  destruct (Nat.leb_spec (length text) (length out)) as [H|H].
  - rewrite encode_ok; rewrite <- ?E; auto.
  - apply encode_overflow; auto. rewrite <- E. lia.
Qed.
Print Assumptions C44_marked_encode.
Theorem C44_marked_decode l junk out : Forall byte l -> (3 * (length l / 3 + 1) <= length out)%nat ->
  let marked := (length l mod 3 =? 0)%nat in
  let text := base64 l ++ (if marked then [61; 61; 61; 61] else []) in
  let n := (length l + if marked then 1 else 0)%nat in
  exists out', decode (text ++ junk) 0 out (length (text ++ junk)) = Some (out', n) /\
    firstn n out' = l ++ (if marked then [0] else []) /\
    skipn (3 * (length l / 3 + 1)) out' = skipn (3 * (length l / 3 + 1)) out /\ length out' = length out.
Proof.
  intros Hb Ho marked text n. subst marked.
  destruct (Nat.eqb_spec (length l mod 3) 0) as [M|M]; subst text n.
  - destruct (rest_nil l M) as (R & F & B). destruct (div3 _ M) as [D1 D2].
    assert (PL : length (patch out 0 l) = length out) by (apply patch_length; lia).
    exists (patch out 0 (l ++ [0; 0; 0])). split; [|split; [|split]].
    + unfold decode. rewrite B. rewrite !app_length. cbn [length]. match goal with |- context[negb (?x =? 0)%nat] => assert (E : (x =? 0)%nat = false) by (apply Nat.eqb_neq; lia); rewrite E; clear E end. cbn [negb].
      destruct (dec_in_body l Hb [] ([61; 61; 61; 61] ++ junk) out 0 (length (body l) + 4 + length junk) (S (length (body l) + 4 + length junk))) as (fuel & Hf & Hl); [cbn; lia|cbn; lia|rewrite F; lia|].
      cbn [length Nat.add] in Hl, Hf. rewrite !app_nil_l in Hl. rewrite <- app_assoc, Hl, F. destruct fuel as [|fuel]; [lia|]. cbn [dec_loop_in].
      match goal with |- context[(?x <? ?y)%nat] => assert (E : (x <? y)%nat = true) by (apply Nat.ltb_lt; lia); rewrite E; clear E end.
      cbn [app]. rewrite decode3_marks by lia. cbn [Nat.ltb Nat.leb].
      change (length l) with (0 + length l)%nat at 1. rewrite patch_patch by (cbn [length]; lia). reflexivity.
    + unfold patch. cbn [firstn app Nat.add]. replace (length l + 1)%nat with (length (l ++ [0])) by (rewrite app_length; reflexivity).
      replace (l ++ [0; 0; 0]) with ((l ++ [0]) ++ [0; 0]) by (rewrite <- app_assoc; reflexivity). rewrite <- (app_assoc (l ++ [0])). apply firstn_app_exact.
    + unfold patch. cbn [firstn app Nat.add]. replace (3 * (length l / 3 + 1))%nat with (length (l ++ [0; 0; 0])) by (rewrite app_length; cbn [length]; lia). apply skipn_app_exact.
    + apply patch_length. rewrite app_length. cbn [length]. lia.
  - destruct (div3' _ M) as [D1 D2]. rewrite !app_nil_r. exists (patch out 0 (l ++ repeat 0 (3 - length l mod 3))). rewrite Nat.add_0_r. split; [|split; [|split]].
    + apply decode_bound_common; auto; [intros ->; apply M; reflexivity|rewrite app_length; lia|lia].
    + unfold patch. cbn [firstn app Nat.add]. rewrite <- app_assoc. apply firstn_app_exact.
    + rewrite <- D2. unfold patch. cbn [firstn app Nat.add]. rewrite app_length, repeat_length.
      replace (length l + (3 - length l mod 3))%nat with (length (l ++ repeat 0 (3 - length l mod 3))) at 1 by (rewrite app_length, repeat_length; reflexivity). apply skipn_app_exact.
    + apply patch_length. rewrite app_length, repeat_length. lia.
Qed.
Print Assumptions C44_marked_decode.
(** The documented contract -- the marked stream decodes to the original -- is
    false for every sequence whose length is a multiple of 3. *)
Theorem C44_exact_refuted l out : Forall byte l -> (length l mod 3 = 0)%nat -> (length l + 3 <= length out)%nat ->
  exists out', decode (base64 l ++ [61; 61; 61; 61]) 0 out (length (base64 l ++ [61; 61; 61; 61])) = Some (out', S (length l)).
Proof.
  intros Hb M Ho. destruct (div3 _ M) as [_ D]. destruct (C44_marked_decode l [] out Hb) as (out' & H & _); [lia|].
  rewrite M in H. cbn [Nat.eqb] in H. rewrite app_nil_r, Nat.add_1_r in H. eauto.
Qed.
Print Assumptions C44_exact_refuted.
Example C44_nonvacuous : encode [1; 2; 3] 3 (repeat 9 9) true = Some ([65; 81; 73; 68; 61; 61; 61; 61; 9], 8%nat) /\
  decode [65; 81; 73; 68; 61; 61; 61; 61; 5; 5; 5; 5] 0 (repeat 9 7) 12 = Some ([1; 2; 3; 0; 0; 0; 9], 4%nat).
Proof. split; reflexivity. Qed.

(** C68: on any bytes whatever, the decoder stays inside its buffers when it
    is given a multiple of 4 input bytes and 3 output bytes for each 4; it
    returns at most that many. *)
Lemma dec_char_some c : byte c -> exists v, dec_char c = Some v.
Proof.
  intro H. unfold dec_char, rd. destruct (nth_error decode_table (Z.to_nat c)) eqn:E; eauto. apply nth_error_None in E. assert (length decode_table = 256%nat) by reflexivity. unfold byte in H. lia.
Qed.
Lemma decode3_safe src p out o : Forall byte src -> (p + 4 <= length src)%nat -> (o + 3 <= length out)%nat ->
  exists out' n, decode3 src p out o = Some (out', n) /\ (n <= 3)%nat /\ length out' = length out.
Proof.
  intros Hb Hp Ho. assert (R : forall k, (k < 4)%nat -> exists x, rd src (p + k) = Some x /\ byte x).
  { intros k Hk. unfold rd. destruct (nth_error src (p + k)) as [x|] eqn:E; [|apply nth_error_None in E; lia]. exists x. split; auto. apply nth_error_In in E. rewrite Forall_forall in Hb. auto. }
  destruct (R 0%nat) as (x0 & R0 & B0); [lia|]. rewrite Nat.add_0_r in R0. destruct (R 1%nat) as (x1 & R1 & B1); [lia|]. destruct (R 2%nat) as (x2 & R2 & B2); [lia|]. destruct (R 3%nat) as (x3 & R3 & B3); [lia|].
  destruct (dec_char_some _ B0) as [y0 D0]. destruct (dec_char_some _ B1) as [y1 D1]. destruct (dec_char_some _ B2) as [y2 D2]. destruct (dec_char_some _ B3) as [y3 D3].
  unfold decode3. rewrite R0, R1, R2, R3, D0, D1, D2, D3. destruct ((y0 =? 255) || (y1 =? 255) || (y2 =? 255) || (y3 =? 255))%bool.
  - exists out, 0%nat. split; [reflexivity|]. lia.
  - rewrite wr_patch by lia. rewrite (wr_snoc _ _ [_]) by (cbn; lia). cbn [app]. rewrite (wr_snoc _ _ [_; _]) by (cbn; lia). cbn [app].
    match goal with |- context[patch out o ?l] => assert (PL : length (patch out o l) = length out) by (apply patch_length; cbn; lia) end.
    destruct (x2 =? EQ); [|destruct (x3 =? EQ)]; do 2 eexists; (split; [reflexivity|]); lia.
Qed.
Theorem C68_decode_safe input out k : Forall byte input -> (4 * k <= length input)%nat -> (3 * k <= length out)%nat ->
  forall len, k <> 0%nat -> exists out' n, decode input len out (4 * k) = Some (out', n) /\ (n <= 3 * k)%nat /\ length out' = length out.
Proof.
  intros Hb Hi Ho len Hk. unfold decode. assert (E : (4 * k =? 0)%nat = false) by (apply Nat.eqb_neq; lia). rewrite E. cbn [negb]. clear E.
  assert (G : forall fuel m j out1, (j + m = k)%nat -> length out1 = length out -> (4 * m < fuel)%nat -> forall o, (o <= 3 * j)%nat ->
    exists out' n, dec_loop_in fuel input (4 * j) (4 * k) out1 o = Some (out', n) /\ (n <= 3 * k)%nat /\ length out' = length out).
  { induction fuel as [|fuel IH]; intros m j out1 Hj Hl Hf o Hoj; [lia|]. cbn [dec_loop_in].
    destruct (Nat.ltb_spec (4 * j) (4 * k)) as [H|H].
    - destruct (decode3_safe input (4 * j) out1 o Hb) as (out2 & n & D & Hn & L2); [lia|lia|]. rewrite D. destruct (Nat.ltb_spec n 3) as [N|N].
      + do 2 eexists. split; [reflexivity|]. lia.
      + replace (4 * j + 4)%nat with (4 * S j)%nat by lia. apply (IH (m - 1)%nat); lia.
    - do 2 eexists. split; [reflexivity|]. lia. }
  apply (G (S (4 * k)) k 0%nat out); lia.
Qed.
Print Assumptions C68_decode_safe.
(** ... and when the output length is given (max_input_length 0): room for
    exactly that many bytes is enough, and 4 input bytes per started triplet. *)
Theorem C68_decode_length_safe input out len : Forall byte input -> (4 * ((len + 2) / 3) <= length input)%nat -> (len <= length out)%nat ->
  exists out' n, decode input len out 0 = Some (out', n) /\ (n <= len)%nat /\ length out' = length out.
Proof.
  intros Hb Hi Ho. unfold decode. cbn [Nat.eqb negb].
  assert (G : forall fuel j out1, (3 * j <= len)%nat -> length out1 = length out -> (len - 3 * j < fuel)%nat ->
    exists ret out' j' n, dec_loop_out fuel input (4 * j) out1 (3 * j) len = Some (ret, out', (4 * j')%nat, n) /\ length out' = length out /\ (n <= len)%nat /\
      (ret = false -> n = (3 * j')%nat /\ (len - n < 3)%nat)).
  { induction fuel as [|fuel IH]; intros j out1 Hj Hl Hf; [lia|]. cbn [dec_loop_out].
    assert (J : (3 <= len - 3 * j -> 4 * j + 4 <= length input)%nat). { intro X. assert (j + 1 <= (len + 2) / 3)%nat by (apply Nat.div_le_lower_bound; lia). lia. }
    destruct (Nat.leb_spec 3 (len - 3 * j)) as [H|H].
    - destruct (decode3_safe input (4 * j) out1 (3 * j) Hb) as (out2 & n & D & Hn & L2); [lia|lia|]. rewrite D. destruct (Nat.ltb_spec n 3) as [N|N].
      + exists true, out2, j, (3 * j + n)%nat. split; [reflexivity|]. split; [lia|]. split; [lia|discriminate].
      + replace (4 * j + 4)%nat with (4 * S j)%nat by lia. replace (3 * j + n)%nat with (3 * S j)%nat by lia. apply IH; lia.
    - exists false, out1, j, (3 * j)%nat. split; [reflexivity|]. split; [lia|]. split; [lia|]. intros _. lia. }
  destruct (G (S len) 0%nat out) as (ret & out1 & j & n & D & L & Hn & R); [lia|lia|lia|]. change (4 * 0)%nat with 0%nat in D. change (3 * 0)%nat with 0%nat in D. rewrite D. clear D.
  destruct ret; [eauto|]. destruct (R eq_refl) as [-> Hlt].
  assert (J : (len - 3 * j <> 0 -> 4 * j + 4 <= length input)%nat). { intro X. assert (j + 1 <= (len + 2) / 3)%nat by (apply Nat.div_le_lower_bound; lia). lia. }
  destruct (Nat.eqb_spec (len - 3 * j) 2) as [E|E]; [|destruct (Nat.eqb_spec (len - 3 * j) 1) as [E1|E1]; [|eauto]].
  - destruct (decode3_safe input (4 * j) [0; 0; 0] 0 Hb) as (t & m & D & Hm & L2); [lia|cbn; lia|]. rewrite D. destruct t as [|t0 [|t1 [|t2 [|? ?]]]]; try discriminate. cbn [rd nth_error].
    destruct (2 <=? m)%nat; [|destruct (0 <? m)%nat; [|eauto]].
    + rewrite wr_patch by lia. rewrite (wr_snoc _ _ [_]) by (cbn; lia). do 2 eexists. split; [reflexivity|]. rewrite patch_length by (cbn; lia). lia.
    + rewrite wr_patch by lia. do 2 eexists. split; [reflexivity|]. rewrite patch_length by (cbn; lia). lia.
  - destruct (decode3_safe input (4 * j) [0; 0; 0] 0 Hb) as (t & m & D & Hm & L2); [lia|cbn; lia|]. rewrite D. destruct t as [|t0 [|t1 [|t2 [|? ?]]]]; try discriminate. cbn [rd nth_error].
    destruct (0 <? m)%nat; [|eauto]. rewrite wr_patch by lia. do 2 eexists. split; [reflexivity|]. rewrite patch_length by (cbn; lia). lia.
Qed.
Print Assumptions C68_decode_length_safe.
(** max_input_length is not a bound on what is read: with a number that is not
    a multiple of 4, a valid text of exactly that length is read past its end. *)
Theorem C68_max_input_length_refuted : exists input out, Forall byte input /\ (length input = 5)%nat /\ (length out = 100)%nat /\ decode input 0 out 5 = None.
Proof. exists [65; 65; 65; 65; 65], (repeat 0 100). split; [repeat constructor; unfold byte; lia|]. split; [reflexivity|]. split; reflexivity. Qed.
Print Assumptions C68_max_input_length_refuted.
(** Decoding stops at the first group of four with a character outside the
    alphabet; what was decoded before it is kept. *)
Theorem C68_stops_at_invalid l q junk out : Forall byte l -> (length l mod 3 = 0)%nat -> (length l + 3 <= length out)%nat ->
  length q = 4%nat -> Forall byte q -> (exists c, In c q /\ c <> 61 /\ forall v, 0 <= v < 64 -> c <> letter v) ->
  decode (base64 l ++ q ++ junk) 0 out (length (base64 l ++ q ++ junk)) = Some (l ++ skipn (length l) out, length l).
Proof.
  intros Hb M Ho Hq Hqb (c & Hc & Nc & Lc). destruct (rest_nil l M) as (R & F & B).
  assert (Bad : dec_char c = Some 255).
  { assert (Bc : byte c) by (rewrite Forall_forall in Hqb; auto).
    assert (T : forallb (fun c => oeqb (dec_char c) (Some 255) || (c =? 61) || existsb (fun v => c =? letter v) (map Z.of_nat (seq 0 64))) all_bytes = true) by (vm_compute; reflexivity).
    pose proof (byte1 _ T c Bc) as X. cbn beta in X. apply orb_true_iff in X. destruct X as [X|X].
    - apply orb_true_iff in X. destruct X as [X|X]; [apply oeqb_eq; exact X|apply Z.eqb_eq in X; congruence].
    - apply existsb_exists in X. destruct X as (v & Hv & E). apply Z.eqb_eq in E. apply in_map_iff in Hv. destruct Hv as (k & <- & Hk). apply in_seq in Hk. exfalso. apply (Lc (Z.of_nat k)); [lia|auto]. }
  destruct q as [|q0 [|q1 [|q2 [|q3 [|? ?]]]]]; try discriminate.
  unfold decode. rewrite B. rewrite !app_length. cbn [length]. match goal with |- context[negb (?x =? 0)%nat] => assert (E : (x =? 0)%nat = false) by (apply Nat.eqb_neq; lia); rewrite E; clear E end. cbn [negb].
  destruct (dec_in_body l Hb [] ([q0; q1; q2; q3] ++ junk) out 0 (length (body l) + (4 + length junk)) (S (length (body l) + (4 + length junk)))) as (fuel & Hf & Hl); [cbn; lia|cbn; lia|rewrite F; lia|].
  cbn [length Nat.add] in Hl, Hf. rewrite !app_nil_l in Hl. cbn [Nat.add] in Hl |- *. rewrite Hl, F. destruct fuel as [|fuel]; [lia|]. cbn [dec_loop_in].
  match goal with |- context[(?x <? ?y)%nat] => assert (E : (x <? y)%nat = true) by (apply Nat.ltb_lt; lia); rewrite E; clear E end.
  cbn [app]. unfold decode3. destruct (rd4 (body l) q0 q1 q2 q3 junk) as (R0 & R1 & R2 & R3). rewrite R0, R1, R2, R3.
  assert (S4 : forall x, In x [q0; q1; q2; q3] -> exists v, dec_char x = Some v) by (intros x Hx; apply dec_char_some; rewrite Forall_forall in Hqb; auto).
  destruct (S4 q0) as [y0 D0]; [cbn; auto|]. destruct (S4 q1) as [y1 D1]; [cbn; auto|]. destruct (S4 q2) as [y2 D2]; [cbn; auto|]. destruct (S4 q3) as [y3 D3]; [cbn; auto|].
  rewrite D0, D1, D2, D3.
  assert (E : ((y0 =? 255) || (y1 =? 255) || (y2 =? 255) || (y3 =? 255))%bool = true).
  { destruct Hc as [<-|[<-|[<-|[<-|[]]]]]; rewrite Bad in *;
    [injection D0 as <-|injection D1 as <-|injection D2 as <-|injection D3 as <-]; rewrite Z.eqb_refl; rewrite ?orb_true_r; reflexivity. }
  rewrite E. cbn [Nat.ltb Nat.leb]. rewrite Nat.add_0_r. reflexivity.
Qed.
Print Assumptions C68_stops_at_invalid.
Example C68_nonvacuous : decode [65; 81; 73; 68; 65; 33; 65; 65] 0 (repeat 9 7) 8 = Some ([1; 2; 3; 9; 9; 9; 9], 3%nat).
Proof. reflexivity. Qed.
