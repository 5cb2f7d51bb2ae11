(** RegexPass.v -- both passes of the compiler follow the pure parser. *)
From Coq Require Import List Ascii Bool Arith Lia.
Import ListNotations.
From Verif Require Import Base RegexModel RegexSpec RegexAst RegexGen.

(** Emission in both modes. *)
Definition putc (c : option str) (g : str) : option str := match c with None => None | Some x => Some (x ++ g) end.
Definition putz (c : option str) (z : nat) (g : str) : nat := match c with None => z + length g | Some _ => z end.
Definition atc (c : option str) (m : nat) : ptr := match c with None => Dummy | Some x => At (length x + m) end.
Definition okc (c : option str) (z m : nat) : Prop := match c with None => True | Some x => length x + m <= z /\ z < B64 end.
Definition st (d t : str) (np : nat) (c : option str) (z : nat) (g : str) : rst := mkR d t np (putc c g) (putz c z g).
Lemma okc_le : forall c z m m', okc c z m -> m' <= m -> okc c z m'.
Proof. intros [x|] z m m' H L; cbn [okc putc putz] in *; [lia|auto]. Qed.
Lemma okc_put : forall c z g m, okc c z (length g + m) -> okc (putc c g) (putz c z g) m.
Proof. intros [x|] z g m H; cbn [okc putc putz] in *; [|auto]. rewrite app_length. lia. Qed.
Lemma putc_app : forall c a b, putc (putc c a) b = putc c (a ++ b).
Proof. intros [x|] a b; cbn; [|reflexivity]. now rewrite app_assoc. Qed.
Lemma putz_app : forall c z a b, putz (putc c a) (putz c z a) b = putz c z (a ++ b).
Proof. intros [x|] z a b; cbn; [reflexivity|]. rewrite app_length. lia. Qed.
Lemma atc_put : forall c g m, atc (putc c g) m = atc c (length g + m).
Proof. intros [x|] g m; cbn; [|reflexivity]. rewrite app_length. f_equal. lia. Qed.
Lemma st_st : forall d t np c z a b, st d t np (putc c a) (putz c z a) b = st d t np c z (a ++ b).
Proof. intros. unfold st. now rewrite putc_app, putz_app. Qed.
Lemma st_nil : forall d t np c z, mkR d t np c z = st d t np c z [].
Proof. intros d t np [x|] z; unfold st; cbn; [now rewrite app_nil_r|now rewrite Nat.add_0_r]. Qed.
Lemma st_rest : forall d t np c z g, r_rest (st d t np c z g) = t. Proof. reflexivity. Qed.
Lemma st_len : forall d t np c z g g', c = None -> length g = length g' -> st d t np c z g = st d t np c z g'.
Proof. intros. subst. unfold st. cbn. now rewrite H0. Qed.
Lemma node0 : forall op, [byte op; NUL; NUL] = node op 0. Proof. reflexivity. Qed.

Lemma regnode_st : forall op d t np c z X, okc c z (length X + 3) ->
  regnode op (st d t np c z X) = COk (st d t np c z (X ++ node op 0), atc c (length X)).
Proof.
  intros op d t np [x|] z X H; unfold regnode, st, with_code; cbn [r_code putc r_size putz r_done r_rest r_npar].
  - cbn [okc] in H. rewrite app_length. destruct (Nat.leb_spec (length x + length X + 3) z); [|lia]. rewrite <- app_assoc. cbn [atc]. reflexivity.
  - rewrite app_length, len_node, Nat.add_assoc. reflexivity.
Qed.
Lemma regc_st : forall b d t np c z X, okc c z (length X + 1) -> regc b (st d t np c z X) = COk (st d t np c z (X ++ [b])).
Proof.
  intros b d t np [x|] z X H; unfold regc, st, with_code; cbn [r_code putc r_size putz r_done r_rest r_npar].
  - cbn [okc] in H. rewrite app_length. destruct (Nat.leb_spec (length x + length X + 1) z); [|lia]. rewrite <- app_assoc. reflexivity.
  - rewrite app_length. cbn [length]. rewrite Nat.add_assoc. reflexivity.
Qed.
Lemma regcs_st : forall bs d t np c z X, okc c z (length X + length bs) -> regcs bs (st d t np c z X) = COk (st d t np c z (X ++ bs)).
Proof.
  induction bs as [|b bs IH]; intros d t np c z X H; cbn [regcs]; [now rewrite app_nil_r|].
  cbn [length] in H. rewrite regc_st by (eapply okc_le; [exact H|lia]). cbn [cbind]. rewrite IH.
  - rewrite <- app_assoc. reflexivity.
  - rewrite app_length. cbn [length]. eapply okc_le; [exact H|lia].
Qed.
Lemma reginsert_st : forall op d t np c z X Y, okc c z (length X + length Y + 3) ->
  reginsert op (atc c (length X)) (st d t np c z (X ++ Y)) = COk (st d t np c z (X ++ node op 0 ++ Y)).
Proof.
  intros op d t np [x|] z X Y H; unfold reginsert, st, with_code; cbn [r_code putc r_size putz r_done r_rest r_npar atc].
  - cbn [okc] in H. rewrite !app_length. destruct (Nat.leb_spec (length x + (length X + length Y) + 3) z); [|lia].
    replace (firstn (length x + length X) (x ++ X ++ Y)) with (x ++ X) by (rewrite app_assoc, <- (app_length x X), firstn_app, Nat.sub_diag, firstn_all; cbn [firstn]; now rewrite app_nil_r).
    replace (skipn (length x + length X) (x ++ X ++ Y)) with Y by (rewrite app_assoc, <- (app_length x X), skipn_app, Nat.sub_diag, skipn_all; reflexivity).
    rewrite <- !app_assoc. reflexivity.
  - rewrite !app_length, len_node. do 2 f_equal. lia.
Qed.
Lemma regtail_st : forall f d t np c z X Y r0 v dd, okc c z (length X + length (f None) + length Y) -> (forall k, length (f k) = length (f None)) ->
  (length (f None) < B64 -> tailed f) -> dd <= length Y -> v = length X + length (f None) + dd ->
  (forall x, c = Some x -> hops (x ++ X ++ f None ++ Y) (length x + r0) (length x + length X)) ->
  regtail (atc c r0) (atc c v) (st d t np c z (X ++ f None ++ Y)) = COk (st d t np c z (X ++ f (Some dd) ++ Y)).
Proof.
  intros f d t np [x|] z X Y r0 v dd H Lf T Hd V C.
  - cbn [atc]. cbn [okc] in H. unfold st. cbn [putc putz].
    specialize (C x eq_refl).
    rewrite (regtail_at f _ _ (x ++ X) Y _ dd).
    + unfold with_code. cbn. rewrite <- !app_assoc. reflexivity.
    + apply T. lia.
    + cbn [r_code]. rewrite <- !app_assoc. reflexivity.
    + rewrite <- !app_assoc, app_length. exact C.
    + rewrite app_length. lia.
    + lia.
  - cbn [atc regtail]. unfold st. cbn [putc putz]. do 2 f_equal. rewrite !app_length, (Lf (Some dd)). lia.
Qed.
Lemma regtail_st0 : forall f d t np c z X Y v dd, okc c z (length X + length (f None) + length Y) -> (forall k, length (f k) = length (f None)) ->
  (length (f None) < B64 -> tailed f) -> dd <= length Y -> v = length X + length (f None) + dd ->
  regtail (atc c (length X)) (atc c v) (st d t np c z (X ++ f None ++ Y)) = COk (st d t np c z (X ++ f (Some dd) ++ Y)).
Proof. intros. eapply regtail_st; eauto. intros. apply h_refl. Qed.
Lemma regoptail_st : forall op off d t np c z X Y v, op < 256 ->
  regoptail (atc c (length X)) v (st d t np c z (X ++ node op off ++ Y)) =
  if op =? oBRANCH then regtail (atc c (length X + 3)) v (st d t np c z (X ++ node op off ++ Y)) else COk (st d t np c z (X ++ node op off ++ Y)).
Proof.
  intros op off d t np [x|] z X Y v Ho; cbn [atc regoptail]; [|destruct (op =? oBRANCH); reflexivity].
  unfold st at 1. cbn [r_code putc]. rewrite app_assoc, <- app_length, nth_pre0. cbn [node app nth_error]. rewrite nat_byte by exact Ho.
  destruct (op =? oBRANCH); [|reflexivity]. rewrite app_length, Nat.add_assoc. reflexivity.
Qed.
(** BACK nodes: the next pointer is set to go back to an earlier node. *)
Lemma regtail_back : forall d t np c z X W Y r0 v, okc c z (length X + length W + 3 + length Y) -> v = length X ->
  (forall x, c = Some x -> hops (x ++ X ++ W ++ node oBACK 0 ++ Y) (length x + r0) (length x + length X + length W)) ->
  regtail (atc c r0) (atc c v) (st d t np c z (X ++ W ++ node oBACK 0 ++ Y)) = COk (st d t np c z (X ++ W ++ node oBACK (length W) ++ Y)).
Proof.
  intros d t np [x|] z X W Y r0 v H V C.
  - cbn [atc]. cbn [okc] in H. unfold st. cbn [putc putz].
    specialize (C x eq_refl). unfold regtail. cbn [r_code].
    assert (E : forall k, x ++ X ++ W ++ node oBACK k ++ Y = (x ++ X ++ W) ++ node oBACK k ++ Y) by (intro; rewrite <- !app_assoc; reflexivity).
    rewrite E in C. rewrite !E.
    assert (Le : length x + length X + length W = length (x ++ X ++ W)) by (rewrite !app_length; lia).
    rewrite Le in C. pose proof (hops_le _ _ _ C) as Hle. pose proof (node_at_back0 (x ++ X ++ W) Y) as N.
    pose proof (node_at_lt _ _ _ N).
    rewrite (last_hops _ _ _ _ C N) by lia. cbn [cbind]. rewrite Nat.eqb_refl.
    destruct (Nat.leb_spec (length x + v) (length (x ++ X ++ W))); [|lia].
    rewrite set_next_node. replace (length (x ++ X ++ W) - (length x + v)) with (length W) by lia. reflexivity.
  - cbn [atc regtail]. unfold st. cbn [putc putz]. do 2 f_equal. rewrite !app_length, !len_node. lia.
Qed.
