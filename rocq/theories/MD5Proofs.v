(** MD5Proofs.v -- MD5.c computes the digest of RFC 1321, however the bytes are appended. *)
From Coq Require Import ZArith Ascii String List Bool Lia Reals.
From Verif Require Import MD5Model MD5Spec MD5Table.
Import ListNotations.
Local Open Scope Z_scope.

(** ---- words ---- *)
Definition W (x : Z) : Prop := 0 <= x < 2 ^ 32.
Lemma w32_W z : W (w32 z). Proof. apply Z.mod_pos_bound. reflexivity. Qed.
Lemma wnot_not x : W x -> wnot x = not32 x.
Proof.
  intros [A B]. unfold wnot, not32. change T_MASK with (Z.ones 32). change (2 ^ 32 - 1) with (Z.ones 32). rewrite Z.sub_nocarry_ldiff.
  - apply Z.bits_inj'. intros n Hn. rewrite Z.lxor_spec, Z.ldiff_spec. destruct (Z.ltb_spec n 32).
    + rewrite Z.ones_spec_low by lia. destruct (Z.testbit x n); reflexivity.
    + rewrite Z.ones_spec_high by lia. rewrite (Z.bits_above_log2 x n); [reflexivity|lia|]. destruct (Z.eq_dec x 0) as [->|]; [cbn; lia|]. apply Z.lt_le_trans with 32; [apply Z.log2_lt_pow2; lia|lia].
  - apply Z.bits_inj'. intros n Hn. rewrite Z.ldiff_spec, Z.bits_0. destruct (Z.ltb_spec n 32).
    + rewrite Z.ones_spec_low by lia. destruct (Z.testbit x n); reflexivity.
    + rewrite (Z.bits_above_log2 x n); [reflexivity|lia|]. destruct (Z.eq_dec x 0) as [->|]; [cbn; lia|]. apply Z.lt_le_trans with 32; [apply Z.log2_lt_pow2; lia|lia].
Qed.
Lemma rot_rot x n : W x -> 0 < n < 32 -> rotate_left x n = rot32 x n.
Proof.
  intros [A B] N. unfold rotate_left, rot32, w32. rewrite Z.shiftl_mul_pow2, Z.shiftr_div_pow2 by lia.
  assert (Z.land ((x * 2 ^ n) mod 2 ^ 32) (x / 2 ^ (32 - n)) = 0) as D.
  { apply Z.bits_inj'. intros k Hk. rewrite Z.land_spec, Z.bits_0. destruct (Z.ltb_spec k n).
    - rewrite Z.mod_pow2_bits_low, Z.mul_pow2_bits_low by lia. reflexivity.
    - rewrite (Z.bits_above_log2 (x / 2 ^ (32 - n))), andb_false_r; [reflexivity|apply Z.div_pos; lia|].
      assert (x / 2 ^ (32 - n) < 2 ^ n) as Q. { apply Z.div_lt_upper_bound; [lia|]. rewrite <- Z.pow_add_r by lia. replace (32 - n + n) with 32 by lia. exact B. }
      destruct (Z.eq_dec (x / 2 ^ (32 - n)) 0) as [->|Nz]; [cbn; lia|]. apply Z.lt_le_trans with n; [|lia]. apply Z.log2_lt_pow2; [|exact Q]. pose proof (Z.div_pos x (2 ^ (32 - n)) A ltac:(lia)). lia. }
  rewrite Z.add_nocarry_lxor by exact D. rewrite Z.lxor_lor by exact D. reflexivity.
Qed.

(** ---- one block ---- *)
Definition T_of (i : nat) : Z := nth (i - 1) table 0.
Definition func (i : nat) : Z -> Z -> Z -> Z := if Nat.ltb i 16 then fF else if Nat.ltb i 32 then fG else if Nat.ltb i 48 then fH else fI.
Lemma func_aux i x y z : W x -> W y -> W z -> func i x y z = aux i x y z.
Proof.
  intros X Y Z0. unfold func, aux. destruct (Nat.ltb i 16); [unfold fF; rewrite wnot_not by exact X; reflexivity|]. destruct (Nat.ltb i 32); [unfold fG; rewrite wnot_not by exact Z0; reflexivity|].
  destruct (Nat.ltb i 48); [unfold fH; apply Z.lxor_assoc|unfold fI; rewrite wnot_not by exact Z0; reflexivity].
Qed.
Definition op_of (i : nat) : op :=
  match Nat.modulo i 4 with
  | 0%nat => SET (func i) RA RB RC RD (which i) (shifts i) (T_of (S i))
  | 1%nat => SET (func i) RD RA RB RC (which i) (shifts i) (T_of (S i))
  | 2%nat => SET (func i) RC RD RA RB (which i) (shifts i) (T_of (S i))
  | _ => SET (func i) RB RC RD RA (which i) (shifts i) (T_of (S i))
  end.
Lemma ops_are : round_ops = map op_of (seq 0 64).
Proof. reflexivity. Qed.
Definition view (k : nat) (s : regs) : quad :=
  match k with
  | 0%nat => (ra s, rb s, rc s, rd s) | 1%nat => (rd s, ra s, rb s, rc s)
  | 2%nat => (rc s, rd s, ra s, rb s) | _ => (rb s, rc s, rd s, ra s)
  end.
Definition Ws (s : regs) : Prop := W (ra s) /\ W (rb s) /\ W (rc s) /\ W (rd s).
Lemma shifts_range i : 0 < shifts i < 32.
Proof.
  unfold shifts. pose proof (Nat.mod_upper_bound i 4 ltac:(lia)) as B. destruct (i mod 4)%nat as [|[|[|[|?]]]]; [..|lia]; cbn [nth]; destruct (Nat.ltb i 16), (Nat.ltb i 32), (Nat.ltb i 48); cbn [nth]; lia.
Qed.
Lemma op_step X s i : Ws s -> Ws (run_op X s (op_of i)) /\
  view (S i mod 4) (run_op X s (op_of i)) = step T_of (fun k => nth k X 0) (view (i mod 4) s) i.
Proof.
  intros (A & B & C & D). pose proof (Nat.mod_upper_bound i 4 ltac:(lia)) as U. assert (S i mod 4 = match i mod 4 with 0 => 1 | 1 => 2 | 2 => 3 | _ => 0 end)%nat as E.
  { pose proof (Nat.div_mod i 4 ltac:(lia)) as Q. pose proof (Nat.div_mod (S i) 4 ltac:(lia)) as Q'. pose proof (Nat.mod_upper_bound (S i) 4 ltac:(lia)). destruct (i mod 4)%nat as [|[|[|[|?]]]]; lia. }
  rewrite E. unfold op_of. pose proof (shifts_range i) as Sr.
  destruct (i mod 4)%nat as [|[|[|[|?]]]]; [..|lia]; cbn [run_op get put view]; (split; [unfold Ws; cbn [ra rb rc rd]; auto using w32_W|]); unfold step; cbn [ra rb rc rd]; unfold add32; fold (w32);
    rewrite func_aux by assumption; rewrite rot_rot by (try apply w32_W; exact Sr); unfold w32; rewrite (Z.add_comm (rot32 _ _)); reflexivity.
Qed.
Lemma ops_steps X s n : Ws s -> Ws (fold_left (run_op X) (map op_of (seq 0 n)) s) /\
  view (n mod 4) (fold_left (run_op X) (map op_of (seq 0 n)) s) = fold_left (step T_of (fun k => nth k X 0)) (seq 0 n) (view 0 s).
Proof.
  intros H. induction n as [|n [IH1 IH2]]; [split; [exact H|reflexivity]|]. rewrite seq_S, map_app, !fold_left_app. cbn [map fold_left Nat.add]. rewrite <- IH2. apply op_step, IH1.
Qed.
Lemma word_word data k : word_at data k = word data k.
Proof. unfold word_at, word. rewrite !Z.shiftl_mul_pow2 by lia. rewrite Nat.add_0_r. change (256 ^ 2) with (2 ^ 16). change (256 ^ 3) with (2 ^ 24). change (2 ^ 8) with 256. lia. Qed.
Lemma words_word data k : (k < 16)%nat -> nth k (words data) 0 = word data k.
Proof. intros H. unfold words. rewrite (nth_indep _ 0 (word_at data 0)) by (rewrite map_length, seq_length; exact H). rewrite map_nth, seq_nth by exact H. apply word_word. Qed.
Lemma which_lt i : (which i < 16)%nat \/ (64 <= i)%nat \/ (i < 16)%nat.
Proof. unfold which. destruct (Nat.ltb_spec i 16); [lia|]. destruct (Nat.ltb i 32); [left; apply Nat.mod_upper_bound; lia|]. destruct (Nat.ltb i 48); left; apply Nat.mod_upper_bound; lia. Qed.
Lemma which_lt16 i : (i < 64)%nat -> (which i < 16)%nat.
Proof. intros H. destruct (which_lt i) as [A|[A|A]]; [exact A|lia|]. unfold which. destruct (Nat.ltb_spec i 16); lia. Qed.
Lemma fold_step_ext T X Y l : (forall i, In i l -> X (which i) = Y (which i)) -> forall q, fold_left (step T X) l q = fold_left (step T Y) l q.
Proof.
  induction l as [|i l IH]; intros H q; [reflexivity|]. cbn [fold_left]. rewrite IH by (intros; apply H; right; assumption). f_equal. unfold step. destruct q as [[[a b] c] d]. rewrite H by (left; reflexivity). reflexivity.
Qed.
Definition quad_of (s : regs) : quad := (ra s, rb s, rc s, rd s).
Lemma process_eq s data : Ws s -> Ws (md5_process s data) /\ quad_of (md5_process s data) = process T_of (quad_of s) data.
Proof.
  intros H. unfold md5_process. rewrite ops_are. destruct (ops_steps (words data) s 64 H) as [_ E]. set (r := fold_left _ _ s) in *. split; [unfold Ws; cbn [ra rb rc rd]; auto using w32_W|].
  unfold quad_of, process. change (64 mod 4)%nat with 0%nat in E. cbn [view] in E. rewrite (fold_step_ext T_of _ (word data)) in E by (intros i Hi; apply in_seq in Hi; apply words_word, which_lt16; lia). rewrite <- E. reflexivity.
Qed.

(** ---- blocks of a text ---- *)
Lemma skipn_add {A} (l : list A) : forall n m, skipn n (skipn m l) = skipn (m + n) l.
Proof. intros n m. revert l. induction m as [|m IH]; intros l; [reflexivity|]. destruct l; [cbn; apply skipn_nil|]. cbn [skipn Nat.add]. apply IH. Qed.
Lemma absorb_short T q l : (length l < 64)%nat -> absorb T q l = q.
Proof. intros H. unfold absorb. rewrite Nat.div_small by exact H. reflexivity. Qed.
Lemma fold_seq_shift {A} (f g : A -> nat -> A) : (forall q i, f q (S i) = g q i) -> forall n k q, fold_left f (seq (S k) n) q = fold_left g (seq k n) q.
Proof. intros H. induction n as [|n IH]; intros k q; [reflexivity|]. cbn [seq fold_left]. rewrite H. apply IH. Qed.
Lemma absorb_cons T q b l : length b = 64%nat -> absorb T q (b ++ l) = absorb T (process T q b) l.
Proof.
  intros H. unfold absorb. rewrite app_length, H. replace ((64 + length l) / 64)%nat with (S (length l / 64)).
  2:{ replace (64 + length l)%nat with (length l + 1 * 64)%nat by lia. rewrite Nat.div_add by lia. lia. }
  cbn [seq fold_left]. replace (block (b ++ l) 0) with b. 2:{ unfold block. change (64 * 0)%nat with 0%nat. cbn [skipn]. rewrite firstn_app, H, Nat.sub_diag. rewrite firstn_all2 by lia. cbn [firstn]. rewrite app_nil_r. reflexivity. }
  apply fold_seq_shift. intros q0 i. f_equal. unfold block. f_equal. rewrite skipn_app, H. rewrite skipn_all2 by lia. cbn [app]. f_equal. lia.
Qed.

Definition mult64 (l : list Z) : Prop := exists k, length l = (64 * k)%nat.
Lemma absorb_app T l2 : forall k l1 q, length l1 = (64 * k)%nat -> absorb T q (l1 ++ l2) = absorb T (absorb T q l1) l2.
Proof.
  induction k as [|k IH]; intros l1 q H.
  - destruct l1; [reflexivity|cbn in H; lia].
  - assert (length (firstn 64 l1) = 64%nat) as F by (rewrite firstn_length; lia). rewrite <- (firstn_skipn 64 l1). rewrite <- app_assoc, !(absorb_cons T q (firstn 64 l1)) by exact F. apply IH. rewrite skipn_length. lia.
Qed.
Lemma full_blocks_ok : forall fuel r p, (length p <= fuel)%nat -> Ws r ->
  exists full, let '(r', lft) := full_blocks fuel r p in p = full ++ lft /\ mult64 full /\ (length lft < 64)%nat /\ Ws r' /\ quad_of r' = absorb T_of (quad_of r) full.
Proof.
  induction fuel as [|f IH]; intros r p H Wr.
  - exists []. destruct p; [|cbn in H; lia]. cbn [full_blocks]. repeat split; try apply Wr; [exists 0%nat; reflexivity|cbn; lia].
  - cbn [full_blocks]. destruct (Z.leb_spec 64 (Z.of_nat (length p))).
    + destruct (process_eq r (firstn 64 p) Wr) as [W1 E1]. destruct (IH (md5_process r (firstn 64 p)) (skipn 64 p)) as [full K]; [rewrite skipn_length; lia|exact W1|].
      exists (firstn 64 p ++ full). destruct (full_blocks f _ _) as [r' lft]. destruct K as (K1 & [k K2] & K3 & K4 & K5). assert (length (firstn 64 p) = 64%nat) as F by (rewrite firstn_length; lia).
      split; [rewrite <- app_assoc, <- K1, firstn_skipn; reflexivity|]. split; [exists (S k); rewrite app_length, F, K2; lia|]. split; [exact K3|]. split; [exact K4|]. rewrite K5, E1, absorb_cons by exact F. reflexivity.
    + exists []. split; [reflexivity|]. split; [exists 0%nat; reflexivity|]. split; [lia|]. split; [exact Wr|reflexivity].
Qed.

(** ---- what the state stands for ---- *)
Definition holds (c0 c1 : Z) (r : regs) (b m : list Z) (full tail : list Z) : Prop :=
  m = full ++ tail /\ mult64 full /\ (length tail < 64)%nat /\ length b = 64%nat /\ firstn (length tail) b = tail /\
  Ws r /\ quad_of r = absorb T_of start full /\ W c0 /\ W c1 /\ c0 + 2 ^ 32 * c1 = (8 * Z.of_nat (length m)) mod 2 ^ 64.
Definition Inv (s : md5_state) (m : list Z) : Prop := exists full tail, holds (count0 s) (count1 s) (abcd s) (buf s) m full tail.
Lemma init_ok s : length (buf s) = 64%nat -> Inv (md5_init s) [].
Proof.
  intros H. exists [], []. unfold holds, md5_init. cbn [count0 count1 abcd buf]. split; [reflexivity|]. split; [exists 0%nat; reflexivity|]. split; [cbn; lia|]. split; [exact H|]. split; [reflexivity|].
  split; [unfold Ws, W; cbn [ra rb rc rd]; repeat split; (reflexivity || discriminate)|]. split; [reflexivity|]. unfold W. repeat split; (reflexivity || discriminate || lia).
Qed.
Lemma land63 z : Z.land z 63 = z mod 64. Proof. change 63 with (Z.ones 6). rewrite Z.land_ones by lia. reflexivity. Qed.
Lemma shr z n : 0 <= n -> Z.shiftr z n = z / 2 ^ n. Proof. intros. apply Z.shiftr_div_pow2. exact H. Qed.
(** count0 alone. *)
Lemma low_count c0 c1 n : W c0 -> c0 + 2 ^ 32 * c1 = (8 * n) mod 2 ^ 64 -> c0 = 8 * (n mod 2 ^ 29).
Proof.
  intros [A B] E. assert (c0 = (8 * n) mod 2 ^ 32) as C.
  { rewrite <- (Z.mod_small c0 (2 ^ 32)) by lia. rewrite <- (Z.mod_add c0 c1 (2 ^ 32)) by lia. rewrite (Z.mul_comm c1), E. change (2 ^ 64) with (2 ^ 32 * 2 ^ 32). rewrite Z.rem_mul_r by lia. rewrite (Z.mul_comm (2 ^ 32)), Z.mod_add by lia. apply Z.mod_mod. lia. }
  rewrite C. change (2 ^ 32) with (8 * 2 ^ 29). rewrite Z.mul_mod_distr_l by lia. reflexivity.
Qed.
Lemma offset_is c0 c1 r b m full tail : holds c0 c1 r b m full tail -> Z.land (Z.shiftr c0 3) 63 = Z.of_nat (length tail).
Proof.
  intros (-> & [k K] & T & _ & _ & _ & _ & W0 & _ & E). apply low_count in E; [|exact W0]. rewrite land63, shr, E by lia. change (2 ^ 3) with 8. rewrite (Z.mul_comm 8), Z.div_mul by lia.
  change (2 ^ 29) with (64 * 2 ^ 23). rewrite Z.rem_mul_r by lia. rewrite (Z.mul_comm 64), Z.mod_add, Z.mod_mod by lia. rewrite app_length, K, Nat2Z.inj_add, Nat2Z.inj_mul. rewrite Z.add_comm, Z.mul_comm. change (Z.of_nat 64) with 64. rewrite Z.mod_add by lia. apply Z.mod_small. lia.
Qed.
(** The two counters together. *)
Lemma counters c0 c1 n k : W c0 -> W c1 -> 0 <= k -> c0 + 2 ^ 32 * c1 = (8 * n) mod 2 ^ 64 ->
  let nbits := w32 (Z.shiftl k 3) in let d1 := w32 (c1 + w32 (Z.shiftr k 29)) in let d0 := w32 (c0 + nbits) in
  let d1 := if d0 <? nbits then w32 (d1 + 1) else d1 in
  W d0 /\ W d1 /\ d0 + 2 ^ 32 * d1 = (8 * (n + k)) mod 2 ^ 64.
Proof.
  intros W0 W1 K E. cbn zeta. set (nb := w32 (Z.shiftl k 3)). assert (W nb) as Wn by apply w32_W. assert (nb = (8 * k) mod 2 ^ 32) as En by (unfold nb, w32; rewrite Z.shiftl_mul_pow2 by lia; f_equal; lia).
  split; [apply w32_W|]. split; [destruct (_ <? _); apply w32_W|].
  (* carry *)
  assert (w32 (c0 + nb) = c0 + nb /\ (w32 (c0 + nb) <? nb) = false \/ w32 (c0 + nb) = c0 + nb - 2 ^ 32 /\ (w32 (c0 + nb) <? nb) = true) as Cy.
  { unfold W in *. destruct (Z.ltb_spec (c0 + nb) (2 ^ 32)).
    - left. assert (w32 (c0 + nb) = c0 + nb) as Q by (apply Z.mod_small; lia). split; [exact Q|]. rewrite Q. apply Z.ltb_ge. lia.
    - right. assert (w32 (c0 + nb) = c0 + nb - 2 ^ 32) as Q. { unfold w32. rewrite <- (Z.mod_add (c0 + nb) (-1)) by lia. apply Z.mod_small. lia. } split; [exact Q|]. rewrite Q. apply Z.ltb_lt. lia. }
  assert (exists t, nb + 2 ^ 32 * w32 (Z.shiftr k 29) = 8 * k + t * 2 ^ 64) as [t Et].
  { exists (- (k / 2 ^ 29 / 2 ^ 32)). rewrite En, shr by lia. unfold w32. pose proof (Z.div_mod (8 * k) (2 ^ 32) ltac:(lia)) as D1. pose proof (Z.div_mod (k / 2 ^ 29) (2 ^ 32) ltac:(lia)) as D2.
    replace (8 * k / 2 ^ 32) with (k / 2 ^ 29) in D1. 2:{ change (2 ^ 32) with (8 * 2 ^ 29). rewrite Z.div_mul_cancel_l by lia. reflexivity. } change (2 ^ 64) with (2 ^ 32 * 2 ^ 32). lia. }
  assert (forall x, exists j, w32 x = x + j * 2 ^ 32) as Wx. { intros x. exists (- (x / 2 ^ 32)). unfold w32. pose proof (Z.div_mod x (2 ^ 32) ltac:(lia)). lia. }
  pose proof (Z.div_mod (8 * n) (2 ^ 64) ltac:(lia)) as Dn. rewrite <- E in Dn.
  assert (forall v0 v1, W v0 -> W v1 -> (exists j, v0 + 2 ^ 32 * v1 = 8 * (n + k) + j * 2 ^ 64) -> v0 + 2 ^ 32 * v1 = (8 * (n + k)) mod 2 ^ 64) as Fin.
  { intros v0 v1 V0 V1 [j J]. rewrite <- (Z.mod_add (8 * (n + k)) j) by lia. rewrite <- J. symmetry. apply Z.mod_small. unfold W in *. change (2 ^ 64) with (2 ^ 32 * 2 ^ 32). nia. }
  destruct Cy as [[C1 ->]|[C1 ->]]; apply Fin; try apply w32_W; rewrite C1.
  - destruct (Wx (c1 + w32 (Z.shiftr k 29))) as [j ->]. exists (j + t - 8 * n / 2 ^ 64). change (2 ^ 64) with (2 ^ 32 * 2 ^ 32) in *. lia.
  - destruct (Wx (w32 (c1 + w32 (Z.shiftr k 29)) + 1)) as [j1 ->]. destruct (Wx (c1 + w32 (Z.shiftr k 29))) as [j ->]. exists (j1 + j + t - 8 * n / 2 ^ 64). change (2 ^ 64) with (2 ^ 32 * 2 ^ 32) in *. lia.
Qed.
Lemma memcpy_len b i l : (i + length l <= length b)%nat -> length (memcpy_at b i l) = length b.
Proof. intros H. unfold memcpy_at. rewrite !app_length, firstn_length, skipn_length. lia. Qed.
Lemma memcpy_first b i l : (i + length l <= length b)%nat -> firstn (i + length l) (memcpy_at b i l) = firstn i b ++ l.
Proof.
  intros H. unfold memcpy_at. rewrite app_assoc, firstn_app. rewrite firstn_all2 by (rewrite app_length, firstn_length; lia). rewrite app_length, firstn_length.
  replace (i + length l - _)%nat with 0%nat by lia. cbn [firstn]. rewrite app_nil_r. reflexivity.
Qed.
(** The last part of md5_append: full blocks, then the rest into the buffer. *)
Lemma rest_ok c0 c1 r b m0 p : length b = 64%nat -> mult64 m0 -> Ws r -> quad_of r = absorb T_of start m0 -> W c0 -> W c1 -> c0 + 2 ^ 32 * c1 = (8 * Z.of_nat (length (m0 ++ p))) mod 2 ^ 64 ->
  Inv (let '(r', lft) := full_blocks (length p) r p in Md5 c0 c1 r' (match lft with [] => b | _ => memcpy_at b 0 lft end)) (m0 ++ p).
Proof.
  intros B [k0 K0] Wr Q W0 W1 E. destruct (full_blocks_ok (length p) r p (Nat.le_refl _) Wr) as [full H]. destruct (full_blocks _ _ _) as [r' lft]. destruct H as (P & [k K] & Ll & Wr' & Q').
  exists (m0 ++ full), lft. unfold holds. cbn [count0 count1 abcd buf]. split; [rewrite P, app_assoc; reflexivity|]. split; [exists (k0 + k)%nat; rewrite app_length, K0, K; lia|]. split; [exact Ll|].
  assert (length (match lft with [] => b | _ => memcpy_at b 0 lft end) = 64%nat /\ firstn (length lft) (match lft with [] => b | _ => memcpy_at b 0 lft end) = lft) as [L1 L2].
  { destruct lft as [|x lft']; [split; [exact B|reflexivity]|]. set (l := x :: lft') in *. split; [rewrite memcpy_len; lia|]. change (length l) with (0 + length l)%nat. rewrite memcpy_first by lia. reflexivity. }
  split; [exact L1|]. split; [exact L2|]. split; [exact Wr'|]. split; [rewrite Q', Q; symmetry; apply (absorb_app _ _ k0); exact K0|]. repeat split; try (apply W0); try (apply W1). exact E.
Qed.
Lemma append_ok s m d : Inv s m -> Inv (md5_append s d) (m ++ d).
Proof.
  intros (full & tail & H). pose proof (offset_is _ _ _ _ _ _ _ H) as Off. destruct H as (-> & K & Tl & B & Bf & Wr & Q & W0 & W1 & E). unfold md5_append. rewrite Off.
  destruct (Z.leb_spec (Z.of_nat (length d)) 0) as [D|D].
  { destruct d; [|cbn in D; lia]. rewrite app_nil_r. exists full, tail. unfold holds. tauto. }
  pose proof (counters _ _ _ (Z.of_nat (length d)) W0 W1 ltac:(lia) E) as Ct. cbn zeta in Ct |- *. rewrite <- Nat2Z.inj_add, <- app_length in Ct. match type of Ct with W ?x /\ W ?y /\ _ => set (c1 := y) in *; set (c0 := x) in * end. clearbody c1. clearbody c0. clear E W0 W1. destruct Ct as (W0 & W1 & E).
  destruct (Z.eqb_spec (Z.of_nat (length tail)) 0) as [Z0|Z0].
  { destruct tail; [|cbn in Z0; lia]. rewrite app_nil_r in *. apply rest_ok; assumption. }
  set (copy := if 64 <? Z.of_nat (length tail) + Z.of_nat (length d) then 64 - Z.of_nat (length tail) else Z.of_nat (length d)). rewrite Nat2Z.id. assert (0 <= copy <= Z.of_nat (length d) /\ Z.of_nat (length tail) + copy <= 64) as [Cp1 Cp2] by (unfold copy; destruct (Z.ltb_spec 64 (Z.of_nat (length tail) + Z.of_nat (length d))); lia).
  set (d1 := firstn (Z.to_nat copy) d). assert (length d1 = Z.to_nat copy) as Ld by (unfold d1; rewrite firstn_length; lia).
  assert (length tail + length d1 <= length (buf s))%nat as Fit by lia.
  pose proof (memcpy_len _ _ _ Fit) as Ml. pose proof (memcpy_first _ _ _ Fit) as Mf. rewrite Bf in Mf.
  destruct (Z.ltb_spec (Z.of_nat (length tail) + copy) 64) as [Lt|Ge].
  - assert (copy = Z.of_nat (length d)) as Cd by (revert Lt; unfold copy; destruct (Z.ltb_spec 64 (Z.of_nat (length tail) + Z.of_nat (length d))); lia). assert (d1 = d) as Dd by (unfold d1; apply firstn_all2; lia). rewrite Dd in *.
    exists full, (tail ++ d). unfold holds. cbn [count0 count1 abcd buf]. rewrite app_assoc. split; [reflexivity|]. split; [exact K|]. rewrite app_length. split; [lia|]. split; [lia|]. split; [exact Mf|]. tauto.
  - assert (firstn 64 (memcpy_at (buf s) (length tail) d1) = tail ++ d1) as Full by (rewrite <- Mf; f_equal; lia). rewrite firstn_all2 in Full by lia. rewrite Full.
    assert (length (tail ++ d1) = 64%nat) as L64 by (rewrite app_length; lia). destruct K as [k K].
    destruct (process_eq (abcd s) (tail ++ d1) Wr) as [Wp Qp].
    assert ((full ++ tail) ++ d = (full ++ (tail ++ d1)) ++ skipn (Z.to_nat copy) d) as Split by (unfold d1; rewrite <- !app_assoc, firstn_skipn; reflexivity). rewrite Split in *.
    apply rest_ok; try assumption; [exists (S k); rewrite app_length, L64, K; lia|]. rewrite Qp, Q, (absorb_app _ _ k) by exact K. rewrite <- (app_nil_r (tail ++ d1)) at 2. rewrite absorb_cons by exact L64. reflexivity.
Qed.

(** ---- md5_finish ---- *)
Lemma bytes_of_le w : W w -> bytes_of w = le_bytes 4 w.
Proof.
  intros Ww. unfold bytes_of, byte_of, le_bytes. change 255 with (Z.ones 8). rewrite !Z.land_ones, !shr by lia. change (2 ^ 0) with 1. rewrite Z.div_1_r. rewrite !Z.div_div by lia. reflexivity.
Qed.
Lemma le_bytes_app : forall j k n, 0 <= n -> le_bytes (j + k) n = le_bytes j n ++ le_bytes k (n / 256 ^ Z.of_nat j).
Proof.
  induction j as [|j IH]; intros k n H; [cbn [Nat.add le_bytes app]; change (256 ^ Z.of_nat 0) with 1; rewrite Z.div_1_r; reflexivity|].
  cbn [Nat.add le_bytes app]. rewrite IH by (apply Z.div_pos; lia). rewrite Z.div_div by lia. do 3 f_equal. rewrite Nat2Z.inj_succ, Z.pow_succ_r by lia. reflexivity.
Qed.
Lemma le_bytes_mod : forall k n, le_bytes k (n mod 256 ^ Z.of_nat k) = le_bytes k n.
Proof.
  induction k as [|k IH]; intros n; [reflexivity|]. cbn [le_bytes]. rewrite Nat2Z.inj_succ, Z.pow_succ_r by lia. rewrite Z.rem_mul_r by lia. rewrite (Z.mul_comm 256), Z.mod_add, Z.mod_mod, Z.div_add by lia. f_equal. rewrite Z.div_small by (apply Z.mod_pos_bound; lia). cbn [Z.add]. apply IH.
Qed.
Lemma bytes_count c0 c1 : W c0 -> W c1 -> bytes_of c0 ++ bytes_of c1 = le_bytes 8 (c0 + 2 ^ 32 * c1).
Proof.
  intros A B. rewrite !bytes_of_le by assumption. rewrite (le_bytes_app 4 4). 2:{ unfold W in *. lia. } f_equal.
  - rewrite <- (le_bytes_mod 4 (_ + _)). f_equal. change (256 ^ Z.of_nat 4) with (2 ^ 32). rewrite Z.mul_comm, Z.mod_add by lia. symmetry. apply Z.mod_small. exact A.
  - f_equal. change (256 ^ Z.of_nat 4) with (2 ^ 32). rewrite Z.mul_comm, Z.div_add by lia. rewrite Z.div_small by exact A. reflexivity.
Qed.
Lemma firstn_pad n : (n <= 63)%nat -> firstn (S n) pad = [128] ++ repeat 0 n.
Proof. intros H. unfold pad. cbn [firstn app]. f_equal. replace 63%nat with (n + (63 - n))%nat by lia. rewrite repeat_app, firstn_app, repeat_length, Nat.sub_diag. cbn [firstn]. rewrite app_nil_r. apply firstn_all2. rewrite repeat_length. lia. Qed.
Lemma finish_all s m : Inv s m -> exists p, padded m p /\ Inv (fst (md5_finish s)) p /\ snd (md5_finish s) = digest_bytes (absorb T_of start p).
Proof.
  intros H. assert (exists c, count0 s = 8 * c /\ c = Z.of_nat (length m) mod 2 ^ 29 /\ bytes_of (count0 s) ++ bytes_of (count1 s) = le_bytes 8 ((8 * Z.of_nat (length m)) mod 2 ^ 64)) as (c & C1 & C2 & C3).
  { destruct H as (full & tail & _ & _ & _ & _ & _ & _ & _ & W0 & W1 & E). exists (Z.of_nat (length m) mod 2 ^ 29). split; [exact (low_count _ _ _ W0 E)|]. split; [reflexivity|]. rewrite <- E. apply bytes_count; assumption. }
  unfold md5_finish. rewrite C3. set (n := Z.land _ 63). assert (n = (55 - Z.of_nat (length m)) mod 64) as En.
  { unfold n, w32. rewrite land63, C1, shr by lia. change (2 ^ 3) with 8. rewrite (Z.mul_comm 8), Z.div_mul, C2 by lia. change (2 ^ 32) with (64 * 2 ^ 26). rewrite Z.rem_mul_r by lia. rewrite (Z.mul_comm 64), Z.mod_add, Z.mod_mod by lia.
    change (2 ^ 29) with (64 * 2 ^ 23). rewrite Z.rem_mul_r by lia. rewrite (Zminus_mod 55), (Z.mul_comm 64 (_ mod 2 ^ 23)), Z.mod_add, Z.mod_mod by lia. rewrite <- Zminus_mod. reflexivity. }
  clearbody n. assert (0 <= n < 64) as Rn by (rewrite En; apply Z.mod_pos_bound; lia). replace (Z.to_nat (n + 1)) with (S (Z.to_nat n)) by lia. rewrite firstn_pad by lia.
  pose proof (append_ok _ _ ([128] ++ repeat 0 (Z.to_nat n)) H) as H1. pose proof (append_ok _ _ (le_bytes 8 ((8 * Z.of_nat (length m)) mod 2 ^ 64)) H1) as H2. set (s2 := md5_append (md5_append _ _) _) in *. cbn [fst snd].
  exists ((m ++ [128] ++ repeat 0 (Z.to_nat n)) ++ le_bytes 8 ((8 * Z.of_nat (length m)) mod 2 ^ 64)). 
  assert ((length m + 1 + Z.to_nat n) mod 64 = 56)%nat as Len.
  { apply Nat2Z.inj. rewrite Nat2Z.inj_mod. rewrite !Nat2Z.inj_add, Z2Nat.id, En by lia. change (Z.of_nat 1) with 1. change (Z.of_nat 64) with 64. change (Z.of_nat 56) with 56. rewrite Zplus_mod_idemp_r. replace (Z.of_nat (length m) + 1 + (55 - Z.of_nat (length m))) with 56 by lia. reflexivity. }
  split. { exists (Z.to_nat n). split; [lia|]. split; [exact Len|]. rewrite <- !app_assoc. reflexivity. }
  split; [rewrite <- !app_assoc in *; exact H2|]. destruct H2 as (full & tail & E & [k K] & Tl & _ & _ & Wr & Q & _). assert (tail = []) as Tn.
  { assert ((length (full ++ tail)) mod 64 = 0)%nat as M. { rewrite <- E. rewrite !app_length. change (length (le_bytes 8 _)) with 8%nat. rewrite repeat_length. cbn [length]. replace (length m + (1 + Z.to_nat n) + 8)%nat with (length m + 1 + Z.to_nat n + 8)%nat by lia. rewrite <- Nat.add_mod_idemp_l, Len by lia. reflexivity. }
    rewrite app_length, K, (Nat.add_comm (64 * k)), (Nat.mul_comm 64), Nat.mod_add, Nat.mod_small in M by lia. destruct tail; [reflexivity|discriminate M]. }
  rewrite Tn, app_nil_r in E. rewrite E, <- Q. unfold quad_of, digest_bytes. destruct Wr as (A & B & C & D). rewrite !bytes_of_le by assumption. reflexivity.
Qed.
Lemma finish_ok s m : Inv s m -> is_md5 T_of m (snd (md5_finish s)).
Proof. intros H. destruct (finish_all _ _ H) as (p & P & _ & D). exists p. split; [exact P|exact D]. Qed.
Lemma finish_state s m : Inv s m -> exists p, padded m p /\ Inv (fst (md5_finish s)) p.
Proof. intros H. destruct (finish_all _ _ H) as (p & P & I & _). exists p. split; [exact P|exact I]. Qed.
Lemma chunks_ok : forall chunks s m, Inv s m -> Inv (fold_left md5_append chunks s) (m ++ concat chunks).
Proof. induction chunks as [|c l IH]; intros s m H; cbn [fold_left concat]; [rewrite app_nil_r; exact H|]. rewrite app_assoc. apply IH, append_ok, H. Qed.
(** Only T(1)..T(64) matter. *)
Lemma process_ext T T' q b : (forall i, (1 <= i <= 64)%nat -> T i = T' i) -> process T q b = process T' q b.
Proof.
  intros H. unfold process. destruct q as [[[a b0] c] d]. replace (fold_left (step T (word b)) (seq 0 64) (a, b0, c, d)) with (fold_left (step T' (word b)) (seq 0 64) (a, b0, c, d)); [reflexivity|].
  assert (forall l, (forall i, In i l -> (i < 64)%nat) -> forall q, fold_left (step T' (word b)) l q = fold_left (step T (word b)) l q) as G.
  { induction l as [|i l IH]; intros Hl q; [reflexivity|]. cbn [fold_left]. rewrite IH by (intros; apply Hl; right; assumption). f_equal. unfold step. destruct q as [[[? ?] ?] ?]. rewrite (H (S i)); [reflexivity|]. specialize (Hl i (or_introl eq_refl)). lia. }
  apply G. intros i Hi. apply in_seq in Hi. lia.
Qed.
Lemma absorb_ext T T' l : (forall i, (1 <= i <= 64)%nat -> T i = T' i) -> forall q, absorb T q l = absorb T' q l.
Proof. intros H. unfold absorb. induction (seq 0 (length l / 64)) as [|i r IH]; intros q; [reflexivity|]. cbn [fold_left]. rewrite IH. f_equal. apply process_ext, H. Qed.
Lemma is_md5_ext T T' m d : (forall i, (1 <= i <= 64)%nat -> T i = T' i) -> is_md5 T m d -> is_md5 T' m d.
Proof. intros H (p & P & ->). exists p. split; [exact P|]. rewrite (absorb_ext T T') by exact H. reflexivity. Qed.
