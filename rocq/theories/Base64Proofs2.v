(** Base64: the encoder and decoder as a whole. *)
From Coq Require Import ZArith Bool List Lia.
Import ListNotations.
From Verif Require Import Base64Model Base64Spec Base64Proofs.
Local Open Scope Z_scope.

(** The bytes before [rest]. *)
Fixpoint front (l : list Z) : list Z := match l with a :: b :: c :: r => a :: b :: c :: front r | _ => [] end.
Lemma front_rest l : front l ++ rest l = l.
Proof. induction l as [| | |a b c r IH] using ind3; cbn; congruence. Qed.
Lemma front_body l : (3 * length (body l) = 4 * length (front l))%nat.
Proof. induction l as [| | |a b c r IH] using ind3; cbn [front body length]; lia. Qed.
Lemma front_length l : (length (front l) = 3 * (length l / 3))%nat.
Proof.
  induction l as [| | |a b c r IH] using ind3; try reflexivity. cbn [front length]. rewrite IH.
  replace (S (S (S (length r)))) with (length r + 1 * 3)%nat by lia. rewrite Nat.div_add by lia. lia.
Qed.
Lemma rest_mod l : (length (rest l) = length l mod 3)%nat.
Proof. induction l as [| | |a b c r IH] using ind3; try reflexivity. cbn [rest]. rewrite IH. cbn [length]. replace (S (S (S (length r)))) with (length r + 1 * 3)%nat by lia. rewrite Nat.mod_add; lia. Qed.
Lemma rest_Forall l : Forall byte l -> Forall byte (rest l).
Proof. rewrite <- (front_rest l) at 1. rewrite Forall_app. tauto. Qed.

Definition marks (n : nat) (mark : bool) : list Z := if mark && (n mod 3 =? 0)%nat then [61; 61; 61; 61] else [].
Lemma firstn_app_exact {A} (l l' : list A) : firstn (length l) (l ++ l') = l.
Proof. rewrite firstn_app, Nat.sub_diag, firstn_all. apply app_nil_r. Qed.
Lemma skipn_app_exact {A} (l l' : list A) : skipn (length l) (l ++ l') = l'.
Proof. rewrite skipn_app, Nat.sub_diag, skipn_all. reflexivity. Qed.
Lemma four_marks out o : (o + 4 <= length out)%nat ->
  (out1 <- wr out (o + 3) EQ;; out2 <- wr out1 (o + 2) EQ;; out3 <- wr out2 (o + 1) EQ;; out4 <- wr out3 o EQ;; Some (out4, (o + 4)%nat)) = Some (patch out o [61; 61; 61; 61], (o + 4)%nat).
Proof.
  intro H. assert (HA : length (firstn o out) = o) by (rewrite firstn_length; lia).
  rewrite <- (firstn_skipn o out) in H |- *. set (A := firstn o out) in *. set (B := skipn o out) in *.
  clearbody A B. clear out. rewrite app_length in H. destruct B as [|x0 [|x1 [|x2 [|x3 B]]]]; cbn [length] in H; try lia.
  assert (W : forall P x Q k, k = length P -> wr (P ++ x :: Q) k EQ = Some (P ++ 61 :: Q)).
  { intros P x Q k ->. rewrite wr_patch by (rewrite app_length; cbn; lia). f_equal. unfold patch. rewrite firstn_app_exact. cbn [length app].
    f_equal. f_equal. rewrite Nat.add_1_r. replace (P ++ x :: Q) with ((P ++ [x]) ++ Q) by (rewrite <- app_assoc; reflexivity).
    replace (S (length P)) with (length (P ++ [x])) by (rewrite app_length; cbn; lia). apply skipn_app_exact. }
  replace (A ++ x0 :: x1 :: x2 :: x3 :: B) with ((A ++ [x0; x1; x2]) ++ x3 :: B) by (rewrite <- app_assoc; reflexivity).
  rewrite W by (rewrite app_length; cbn; lia). replace ((A ++ [x0; x1; x2]) ++ 61 :: B) with ((A ++ [x0; x1]) ++ x2 :: 61 :: B) by (rewrite <- !app_assoc; reflexivity).
  rewrite W by (rewrite app_length; cbn; lia). replace ((A ++ [x0; x1]) ++ 61 :: 61 :: B) with ((A ++ [x0]) ++ x1 :: 61 :: 61 :: B) by (rewrite <- !app_assoc; reflexivity).
  rewrite W by (rewrite app_length; cbn; lia). replace ((A ++ [x0]) ++ 61 :: 61 :: 61 :: B) with (A ++ x0 :: 61 :: 61 :: 61 :: B) by (rewrite <- !app_assoc; reflexivity).
  rewrite W by auto. f_equal. f_equal. unfold patch. cbn [length].
  replace ((A ++ [x0; x1; x2]) ++ x3 :: B) with ((A ++ [x0; x1; x2; x3]) ++ B) by (rewrite <- !app_assoc; reflexivity).
  replace (o + 4)%nat with (length (A ++ [x0; x1; x2; x3])) by (rewrite app_length; cbn; lia). rewrite skipn_app_exact.
  rewrite <- app_assoc. rewrite <- HA. rewrite firstn_app_exact. reflexivity.
Qed.
Lemma encode_ok l post out mark : Forall byte l -> (length (base64 l ++ marks (length l) mark) <= length out)%nat ->
  encode (l ++ post) (length l) out mark = Some (patch out 0 (base64 l ++ marks (length l) mark), length (base64 l ++ marks (length l) mark)).
Proof.
  intros Hb Ho. unfold encode.
  pose proof Hb as Hr. apply rest_Forall in Hr. pose proof (rest_length l) as Hrl. pose proof (rest_mod l) as Hm.
  rewrite base64_split in Ho |- *. unfold marks in *. rewrite <- Hm in *. rewrite !app_length in Ho.
  destruct (loop_ok l Hb [] post out 0 (S (length l))) as (mid & Hmid & Hl); [lia|lia|]. cbn [app length Nat.add] in Hl. rewrite Hl. clear Hl.
  assert (HL : (length l - length mid = length (rest l))%nat) by (rewrite Hmid at 1; rewrite app_length; lia). rewrite HL.
  assert (Hp : length (patch out 0 (body l)) = length out) by (apply patch_length; lia).
  assert (HI : l ++ post = mid ++ rest l ++ post) by (rewrite app_assoc, <- Hmid; reflexivity). rewrite HI. clear HI.
  destruct (rest l) as [|a [|b [|c r]]]; cbn [length] in Hrl; try lia; cbn [length Nat.eqb andb] in *; rewrite ?andb_true_r, ?andb_false_r in *.
  - destruct mark; cbn [length] in *.
    + rewrite four_marks by (rewrite Hp; cbn in Ho; lia). f_equal. f_equal; [|rewrite !app_length; cbn; lia].
      change (length (body l)) with (0 + length (body l))%nat at 1. rewrite patch_patch by (cbn; cbn in Ho; lia). rewrite <- app_assoc. reflexivity.
    + change (base64 []) with (@nil Z). rewrite !app_nil_r. reflexivity.
  - cbn [app]. apply Forall_inv in Hr. rewrite encode1_ok by (auto; rewrite Hp; change (length (base64 [a])) with 4%nat in Ho; lia).
    rewrite <- base64_1. f_equal. f_equal; [|rewrite !app_length; change (length (base64 [a])) with 4%nat; cbn; lia].
    change (length (body l)) with (0 + length (body l))%nat at 1. rewrite patch_patch by (cbn; cbn in Ho; lia). rewrite app_nil_r. reflexivity.
  - cbn [app]. pose proof (Forall_inv Hr) as Ha. pose proof (Forall_inv (Forall_inv_tail Hr)) as Hb'. rewrite encode2_ok by (auto; rewrite Hp; change (length (base64 [a; b])) with 4%nat in Ho; lia).
    rewrite <- base64_2. f_equal. f_equal; [|rewrite !app_length; change (length (base64 [a; b])) with 4%nat; cbn; lia].
    change (length (body l)) with (0 + length (body l))%nat at 1. rewrite patch_patch by (cbn; cbn in Ho; lia). rewrite app_nil_r. reflexivity.
Qed.
Lemma encode_overflow l post out mark : Forall byte l -> (length out < length (base64 l ++ marks (length l) mark))%nat ->
  encode (l ++ post) (length l) out mark = None.
Proof.
  intros Hb Ho. unfold encode.
  destruct (Nat.le_gt_cases (length (body l)) (length out)) as [H|H].
  2:{ pose proof (loop_none l Hb [] post out 0 (S (length l))) as X. cbn [length app Nat.add] in X. rewrite X by lia. reflexivity. }
  pose proof Hb as Hr. apply rest_Forall in Hr. pose proof (rest_length l) as Hrl. pose proof (rest_mod l) as Hm.
  rewrite base64_split in Ho. unfold marks in *. rewrite <- Hm in *. rewrite !app_length in Ho.
  destruct (loop_ok l Hb [] post out 0 (S (length l))) as (mid & Hmid & Hl); [lia|lia|]. cbn [app length Nat.add] in Hl. rewrite Hl. clear Hl.
  assert (HL : (length l - length mid = length (rest l))%nat) by (rewrite Hmid at 1; rewrite app_length; lia). rewrite HL.
  assert (Hp : length (patch out 0 (body l)) = length out) by (apply patch_length; lia).
  destruct (rest l) as [|a [|b [|c r]]]; cbn [length] in Hrl; try lia; cbn [length Nat.eqb andb] in *; rewrite ?andb_true_r, ?andb_false_r in *.
  - change (length (base64 [])) with 0%nat in Ho. destruct mark; cbn [length] in Ho; [|lia]. rewrite (wr_none _ (_ + 3)) by lia. reflexivity.
  - rewrite encode1_none; [reflexivity|]. change (length (base64 [a])) with 4%nat in Ho. cbn [length] in Ho. lia.
  - rewrite encode2_none; [reflexivity|]. change (length (base64 [a; b])) with 4%nat in Ho. cbn [length] in Ho. lia.
Qed.

(** Decoding one group. *)
Lemma rd4 pre a b c d post : rd (pre ++ a :: b :: c :: d :: post) (length pre) = Some a /\ rd (pre ++ a :: b :: c :: d :: post) (length pre + 1) = Some b /\
  rd (pre ++ a :: b :: c :: d :: post) (length pre + 2) = Some c /\ rd (pre ++ a :: b :: c :: d :: post) (length pre + 3) = Some d.
Proof. unfold rd. repeat split; rewrite nth_error_app2 by lia; [rewrite Nat.sub_diag|replace (_ + 1 - _)%nat with 1%nat by lia|replace (_ + 2 - _)%nat with 2%nat by lia|replace (_ + 3 - _)%nat with 3%nat by lia]; reflexivity. Qed.
Lemma wr3 out o x y z : (o + 3 <= length out)%nat -> (b1 <- wr out o x;; b2 <- wr b1 (o + 1) y;; wr b2 (o + 2) z) = Some (patch out o [x; y; z]).
Proof.
  intro H. rewrite wr_patch by lia. rewrite (wr_snoc _ _ [_]) by (cbn; lia). cbn [app]. rewrite (wr_snoc _ _ [_; _]) by (cbn; lia). reflexivity.
Qed.
Lemma decode3_gen pre s0 s1 s2 s3 post out o x0 x1 x2 x3 :
  dec_char s0 = Some x0 -> dec_char s1 = Some x1 -> dec_char s2 = Some x2 -> dec_char s3 = Some x3 ->
  x0 <> 255 -> x1 <> 255 -> x2 <> 255 -> x3 <> 255 -> (o + 3 <= length out)%nat ->
  decode3 (pre ++ s0 :: s1 :: s2 :: s3 :: post) (length pre) out o =
  Some (patch out o [Z.lor (Z.land (Z.shiftl x0 2) 252) (Z.land (Z.shiftr x1 4) 3); Z.lor (Z.land (Z.shiftl x1 4) 240) (Z.land (Z.shiftr x2 2) 15); Z.lor (Z.land (Z.shiftl x2 6) 192) (Z.land (Z.shiftr x3 0) 63)],
        if s2 =? EQ then 1%nat else if s3 =? EQ then 2%nat else 3%nat).
Proof.
  intros D0 D1 D2 D3 N0 N1 N2 N3 H. unfold decode3. destruct (rd4 pre s0 s1 s2 s3 post) as (R0 & R1 & R2 & R3). rewrite R0, R1, R2, R3, D0, D1, D2, D3.
  apply Z.eqb_neq in N0, N1, N2, N3. rewrite N0, N1, N2, N3. cbn [orb].
  match goal with |- (match wr ?b ?i ?x with _ => _ end) = Some (patch _ _ [_; ?y; ?z], _) => pose proof (wr3 out o x y z H) as W end.
  rewrite wr_patch in * by lia. rewrite (wr_snoc _ _ [_]) in * by (cbn; lia). cbn [app] in *. rewrite W.
  destruct (s2 =? EQ); [reflexivity|]. destruct (s3 =? EQ); reflexivity.
Qed.
Lemma not255 v : 0 <= v < 64 -> v <> 255. Proof. lia. Qed.
Lemma decode3_full pre a b c post out o : byte a -> byte b -> byte c -> (o + 3 <= length out)%nat ->
  decode3 (pre ++ letter (v0 a) :: letter (v1 a b) :: letter (v2 b c) :: letter (v3 c) :: post) (length pre) out o = Some (patch out o [a; b; c], 3%nat).
Proof.
  intros Ha Hb Hc H. destruct (dec_letter (v0 a) (v0_lt _)) as [D0 _]. destruct (dec_letter (v1 a b) (v1_lt _ _)) as [D1 _].
  destruct (dec_letter (v2 b c) (v2_lt _ _)) as [D2 E2]. destruct (dec_letter (v3 c) (v3_lt _)) as [D3 E3].
  rewrite (decode3_gen _ _ _ _ _ _ _ _ _ _ _ _ D0 D1 D2 D3) by (auto; apply not255; auto using v0_lt, v1_lt, v2_lt, v3_lt).
  rewrite d0, d1a, d1b, d1c, d2a, d2b by auto. apply Z.eqb_neq in E2, E3. unfold EQ. rewrite E2, E3. reflexivity.
Qed.
Lemma dec_eq : dec_char 61 = Some 0. Proof. reflexivity. Qed.
Lemma byte0 : byte 0. Proof. unfold byte. lia. Qed.
Lemma decode3_two pre a b post out o : byte a -> byte b -> (o + 3 <= length out)%nat ->
  decode3 (pre ++ letter (v0 a) :: letter (v1 a b) :: letter (v2 b 0) :: 61 :: post) (length pre) out o = Some (patch out o [a; b; 0], 2%nat).
Proof.
  intros Ha Hb H. destruct (dec_letter (v0 a) (v0_lt _)) as [D0 _]. destruct (dec_letter (v1 a b) (v1_lt _ _)) as [D1 _].
  destruct (dec_letter (v2 b 0) (v2_lt _ _)) as [D2 E2].
  rewrite (decode3_gen _ _ _ _ _ _ _ _ _ _ _ _ D0 D1 D2 dec_eq) by (auto; try lia; apply not255; auto using v0_lt, v1_lt, v2_lt, v3_lt).
  rewrite d0, d1a, d1b, d1c by auto using byte0. rewrite d2a by auto using byte0. apply Z.eqb_neq in E2. unfold EQ. rewrite E2. reflexivity.
Qed.
Lemma decode3_one pre a post out o : byte a -> (o + 3 <= length out)%nat ->
  decode3 (pre ++ letter (v0 a) :: letter (v1 a 0) :: 61 :: 61 :: post) (length pre) out o = Some (patch out o [a; 0; 0], 1%nat).
Proof.
  intros Ha H. destruct (dec_letter (v0 a) (v0_lt _)) as [D0 _]. destruct (dec_letter (v1 a 0) (v1_lt _ _)) as [D1 _].
  rewrite (decode3_gen _ _ _ _ _ _ _ _ _ _ _ _ D0 D1 dec_eq dec_eq) by (auto; try lia; apply not255; auto using v0_lt, v1_lt, v2_lt, v3_lt).
  rewrite d0, d1a by auto using byte0. reflexivity.
Qed.
Lemma decode3_marks pre post out o : (o + 3 <= length out)%nat ->
  decode3 (pre ++ 61 :: 61 :: 61 :: 61 :: post) (length pre) out o = Some (patch out o [0; 0; 0], 1%nat).
Proof. intro H. rewrite (decode3_gen _ _ _ _ _ _ _ _ _ _ _ _ dec_eq dec_eq dec_eq dec_eq) by (auto; lia). reflexivity. Qed.

(** The loops over whole groups. *)
Lemma dec_in_body l : Forall byte l -> forall pre post out o e fuel, (length pre + length (body l) <= e)%nat -> (e - length pre < fuel)%nat -> (o + length (front l) <= length out)%nat ->
  exists fuel', (e - (length pre + length (body l)) < fuel')%nat /\
  dec_loop_in fuel (pre ++ body l ++ post) (length pre) e out o =
  dec_loop_in fuel' (pre ++ body l ++ post) (length pre + length (body l)) e (patch out o (front l)) (o + length (front l)).
Proof.
  induction l as [|a|a b|a b c r IH] using ind3; intros Hb pre post out o e fuel He Hf Ho.
  1-3: exists fuel; cbn [body front length app]; rewrite patch_nil, !Nat.add_0_r; split; [lia|reflexivity].
  cbn [body length] in He. cbn [front length] in Ho. inversion Hb as [|? ? Ha Hb1]; subst. inversion Hb1 as [|? ? Hb2 Hb3]; subst. inversion Hb3 as [|? ? Hc Hr]; subst.
  destruct fuel as [|fuel]; [lia|].
  set (q := [letter (v0 a); letter (v1 a b); letter (v2 b c); letter (v3 c)]).
  destruct (IH Hr (pre ++ q) post (patch out o [a; b; c]) (o + 3)%nat e fuel) as (fuel' & Hf' & Hl).
  { rewrite app_length. cbn. lia. } { rewrite app_length. cbn. lia. } { rewrite patch_length; cbn [length]; lia. }
  exists fuel'. rewrite app_length in Hf', Hl. cbn [q length] in Hf', Hl. cbn [body length]. split; [lia|].
  cbn [dec_loop_in]. assert (E : (length pre <? e)%nat = true) by (apply Nat.ltb_lt; lia). rewrite E. cbn [app]. rewrite decode3_full by (auto; lia).
  change (3 <? 3)%nat with false. cbv beta iota. rewrite <- app_assoc in Hl. cbn [q app] in Hl. rewrite Hl. cbn [front length].
  replace (o + 3)%nat with (o + length [a; b; c])%nat by reflexivity. rewrite patch_patch by (cbn [length]; lia). cbn [app length]. f_equal; lia.
Qed.
Lemma dec_out_body l : Forall byte l -> forall pre post out o oend fuel, (o + length (front l) <= oend)%nat -> (oend - o < fuel)%nat -> (oend <= length out)%nat ->
  exists fuel', (oend - (o + length (front l)) < fuel')%nat /\
  dec_loop_out fuel (pre ++ body l ++ post) (length pre) out o oend =
  dec_loop_out fuel' (pre ++ body l ++ post) (length pre + length (body l)) (patch out o (front l)) (o + length (front l)) oend.
Proof.
  induction l as [|a|a b|a b c r IH] using ind3; intros Hb pre post out o oend fuel He Hf Ho.
  1-3: exists fuel; cbn [body front length app]; rewrite patch_nil, !Nat.add_0_r; split; [lia|reflexivity].
  cbn [front length] in He. inversion Hb as [|? ? Ha Hb1]; subst. inversion Hb1 as [|? ? Hb2 Hb3]; subst. inversion Hb3 as [|? ? Hc Hr]; subst.
  destruct fuel as [|fuel]; [lia|].
  set (q := [letter (v0 a); letter (v1 a b); letter (v2 b c); letter (v3 c)]).
  destruct (IH Hr (pre ++ q) post (patch out o [a; b; c]) (o + 3)%nat oend fuel) as (fuel' & Hf' & Hl).
  { lia. } { lia. } { rewrite patch_length; cbn [length]; lia. }
  exists fuel'. rewrite app_length in Hl. cbn [q length] in Hl. cbn [body front length]. split; [lia|].
  cbn [dec_loop_out]. assert (E : (3 <=? oend - o)%nat = true) by (apply Nat.leb_le; lia). rewrite E. cbn [app]. rewrite decode3_full by (auto; lia).
  change (3 <? 3)%nat with false. cbv beta iota. rewrite <- app_assoc in Hl. cbn [q app] in Hl. rewrite Hl.
  replace (o + 3)%nat with (o + length [a; b; c])%nat by reflexivity. rewrite patch_patch by (cbn [length]; lia). cbn [app length]. f_equal; lia.
Qed.
