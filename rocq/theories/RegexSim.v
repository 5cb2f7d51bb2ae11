(** RegexSim.v -- both passes of the compiler follow the pure parser. *)
From Coq Require Import List Ascii Bool Arith Lia.
Import ListNotations.
From Verif Require Import Base RegexModel RegexSpec RegexAst RegexGen RegexPass.

Lemma class_loop_ok : forall k rest prev done acc, length rest <= k ->
  match p_cls prev rest with
  | Some (em, it, q) => exists d', class_loop (prev :: done) rest acc = COk (d', "]"%char :: q, acc ++ em)
  | None => class_loop (prev :: done) rest acc = CFail \/ exists d' acc', class_loop (prev :: done) rest acc = COk (d', [], acc')
  end.
Proof.
  induction k as [|k IH]; intros rest prev done acc H.
  - destruct rest; [|cbn in H; lia]. cbn. right. eauto.
  - destruct rest as [|c r]; [cbn; right; eauto|]. cbn [p_cls class_loop].
    destruct (Ascii.eqb_spec c "]").
    + subst. exists (prev :: done). now rewrite app_nil_r.
    + destruct (Ascii.eqb_spec c "-").
      * destruct r as [|f r']; [right; eauto|].
        destruct (Ascii.eqb_spec f "]"); [subst; eauto|].
        destruct (S (nat_of_ascii f) <? S (nat_of_ascii prev)); [now left|].
        cbn [length] in H. specialize (IH r' f (c :: prev :: done) (acc ++ range (S (nat_of_ascii prev)) (nat_of_ascii f))).
        destruct (p_cls f r') as [[[em it] q]|].
        -- destruct IH as [d' E]; [lia|]. exists d'. rewrite E, <- app_assoc. reflexivity.
        -- apply IH. lia.
      * cbn [length] in H. specialize (IH r c (prev :: done) (acc ++ [c])).
        destruct (p_cls c r) as [[[em it] q]|].
        -- destruct IH as [d' E]; [lia|]. exists d'. rewrite E, <- app_assoc. reflexivity.
        -- apply IH. lia.
Qed.
(** From the first character of the class on. *)
Definition cls_rest (s1 : rst) : cres rst :=
  let* s2 := (if (Ascii.eqb (peek s1) "]" || Ascii.eqb (peek s1) "-")%bool then let* s2 := regc (peek s1) s1 in COk (adv s2) else COk s1) in
  let* (done, rest, cs) := class_loop (r_done s2) (r_rest s2) [] in
  let* s3 := regcs cs (mkR done rest (r_npar s2) (r_code s2) (r_size s2)) in
  let* s4 := regc NUL s3 in
  if negb (Ascii.eqb (peek s4) "]") then CFail else COk (adv s4).
Lemma cls_atom_rest : forall s, cls_atom s =
  (let* (s1, ret) := (if Ascii.eqb (peek s) "^" then let* (s1, ret) := regnode oANYBUT s in COk (adv s1, ret) else regnode oANYOF s) in
   let* s4 := cls_rest s1 in COk (s4, ret, mkF true true false)).
Proof.
  intro s. unfold cls_atom, cls_rest.
  destruct (if Ascii.eqb (peek s) "^" then _ else _) as [[s1 ret]| | |]; cbn [cbind]; try reflexivity.
  destruct (if (Ascii.eqb (peek s1) "]" || _)%bool then _ else _) as [s2| | |]; cbn [cbind]; try reflexivity.
  destruct (class_loop _ _ _) as [[[dn rs] cs]| | |]; cbn [cbind]; try reflexivity.
  destruct (regcs _ _) as [s3| | |]; cbn [cbind]; try reflexivity.
  destruct (regc _ s3) as [s4| | |]; cbn [cbind]; try reflexivity.
  destruct (negb _); reflexivity.
Qed.
Lemma class_loop_none : forall t d, length t = 0 -> class_loop d t [] = COk (d, [], []).
Proof. intros [|] d H; [reflexivity|discriminate]. Qed.
Lemma cls_rest_ok : forall d t np c z X,
  match p_set t with
  | Some (em, it, q) => okc c z (length X + length em + 1) -> exists d', cls_rest (st d t np c z X) = COk (st d' q np c z (X ++ em ++ [NUL]))
  | None => c = None -> cls_rest (st d t np c z X) = CFail
  end.
Proof.
  intros d [|p r] np c z X; unfold p_set.
  - intros ->. reflexivity.
  - (* both starts lead to class_loop (p :: d) r with p already emitted or accumulated *)
    pose proof (class_loop_ok (length r) r p d [] (le_n _)) as K0.
    pose proof (class_loop_ok (length r) r p d [p] (le_n _)) as K1.
    unfold cls_rest, peek. rewrite st_rest.
    destruct (Ascii.eqb p "]" || Ascii.eqb p "-")%bool eqn:F.
    + destruct (p_cls p r) as [[[em it] q]|].
      * intro O. cbn [length] in O. rewrite regc_st by (eapply okc_le; [exact O|lia]). cbn [cbind].
        unfold adv, st at 1. cbn [r_rest r_done r_npar r_code r_size cbind].
        destruct K0 as [d' E]. unfold st at 1 2. cbn [r_rest r_done]. rewrite E. cbn [cbind].
        change (mkR d' ("]"%char :: q) _ _ _) with (st d' ("]"%char :: q) np c z (X ++ [p])).
        rewrite regcs_st by (rewrite app_length; cbn [length app]; eapply okc_le; [exact O|lia]). cbn [cbind].
        rewrite regc_st by (rewrite !app_length; cbn [length app]; eapply okc_le; [exact O|lia]). cbn [cbind].
        rewrite st_rest. cbn [negb Ascii.eqb]. eexists. unfold st. cbn [r_rest r_done r_npar r_code r_size]. rewrite <- !app_assoc. reflexivity.
      * intros ->. cbn [cbind regc st r_code putc with_code adv r_rest r_done].
        destruct K0 as [E|(d' & acc' & E)]; rewrite E; cbn [cbind]; [reflexivity|].
        rewrite (st_nil d' []). rewrite regcs_st by exact I. cbn [cbind]. rewrite regc_st by exact I. reflexivity.
    + apply orb_false_iff in F. destruct F as [F1 F2].
      assert (CL : class_loop d (p :: r) [] = class_loop (p :: d) r [p]) by (cbn [class_loop]; rewrite F1, F2; reflexivity).
      destruct (p_cls p r) as [[[em it] q]|].
      * intro O. cbn [length] in O. cbn [cbind]. unfold st at 1 2. cbn [r_rest r_done].
        destruct K1 as [d' E]. rewrite CL, E. cbn [cbind].
        change (mkR d' ("]"%char :: q) _ _ _) with (st d' ("]"%char :: q) np c z X).
        rewrite regcs_st by (rewrite app_length; cbn [length app]; eapply okc_le; [exact O|lia]). cbn [cbind].
        rewrite regc_st by (rewrite !app_length; cbn [length app]; eapply okc_le; [exact O|lia]). cbn [cbind].
        rewrite st_rest. cbn [negb Ascii.eqb]. eexists. unfold st. cbn [adv r_rest r_done r_npar r_code r_size]. rewrite <- !app_assoc. reflexivity.
      * intros ->. cbn [cbind]. unfold st at 1 2. cbn [r_rest r_done]. rewrite CL.
        destruct K1 as [E|(d' & acc' & E)]; rewrite E; cbn [cbind]; [reflexivity|].
        change (mkR d' [] _ _ _) with (st d' [] np None z X).
        rewrite regcs_st by exact I. cbn [cbind]. rewrite regc_st by exact I. reflexivity.
Qed.
Lemma cls_atom_ok : forall d t np c z X,
  match p_class t with
  | Some (neg, em, it, q) => okc c z (length X + length (gatom (ACls neg em it) None)) -> exists d', cls_atom (st d t np c z X) = COk (st d' q np c z (X ++ gatom (ACls neg em it) None), atc c (length X), mkF true true false)
  | None => c = None -> cls_atom (st d t np c z X) = CFail
  end.
Proof.
  intros d t np c z X. rewrite cls_atom_rest. unfold p_class, peek. rewrite st_rest.
  destruct t as [|p r].
  - intros ->. reflexivity.
  - destruct (Ascii.eqb p "^").
    + pose proof (fun X' => cls_rest_ok (p :: d) r np c z X') as K.
      destruct (p_set r) as [[[em it] q]|].
      * intro O. cbn [gatom] in *. rewrite !app_length, len_node in O. cbn [length] in O.
        rewrite regnode_st by (eapply okc_le; [exact O|lia]). cbn [cbind]. unfold adv at 1. unfold st at 1. cbn [r_rest r_done r_npar r_code r_size].
        destruct (K (X ++ node oANYBUT 0)) as [d' E]; [rewrite app_length, len_node; eapply okc_le; [exact O|lia]|].
        unfold st in E |- *. cbn [r_rest r_done r_npar r_code r_size]. rewrite E. cbn [cbind]. exists d'. rewrite <- !app_assoc. reflexivity.
      * intros ->. rewrite regnode_st by exact I. cbn [cbind]. unfold adv at 1. unfold st at 1. cbn [r_rest r_done r_npar r_code r_size].
        pose proof (K (X ++ node oANYBUT 0) eq_refl) as E. unfold st in E |- *. cbn [r_rest r_done r_npar r_code r_size]. rewrite E. reflexivity.
    + pose proof (fun X' => cls_rest_ok d (p :: r) np c z X') as K.
      destruct (p_set (p :: r)) as [[[em it] q]|].
      * intro O. cbn [gatom] in *. rewrite !app_length, len_node in O. cbn [length] in O.
        rewrite regnode_st by (eapply okc_le; [exact O|lia]). cbn [cbind].
        destruct (K (X ++ node oANYOF 0)) as [d' E]; [rewrite app_length, len_node; eapply okc_le; [exact O|lia]|].
        rewrite E. cbn [cbind]. exists d'. rewrite <- !app_assoc. reflexivity.
      * intros ->. rewrite regnode_st by exact I. cbn [cbind]. rewrite (K (X ++ node oANYOF 0) eq_refl). reflexivity.
Qed.
Lemma lit_atom_ok : forall d ch t0 np c z X, existsb (Ascii.eqb ch) META = false -> let t := ch :: t0 in
  okc c z (length X + length (gatom (ALit (firstn (p_run t) t)) None)) ->
  exists d', lit_atom (st d t np c z X) = COk (st d' (skipn (p_run t) t) np c z (X ++ gatom (ALit (firstn (p_run t) t)) None), atc c (length X), mkF true (length (firstn (p_run t) t) =? 1) false).
Proof.
  intros d ch t0 np c z X M t O.
  assert (P1 : length (take_while (fun c => negb (existsb (Ascii.eqb c) META)) t) <> 0) by (unfold t; cbn [take_while]; rewrite M; cbn; lia).
  assert (P2 : length (take_while (fun c => negb (existsb (Ascii.eqb c) META)) t) <= length t).
  { clear. induction t as [|x t IH]; [cbn; lia|]. cbn [take_while]. destruct (negb _); cbn [length]; lia. }
  clearbody t. unfold lit_atom. rewrite !st_rest.
  destruct (Nat.eqb_spec (length (take_while (fun c => negb (existsb (Ascii.eqb c) META)) t)) 0); [contradiction|].
  unfold p_run, pk in *. set (len := length (take_while (fun c => negb (existsb (Ascii.eqb c) META)) t)) in *.
  assert (Q : exists k, (if (1 <? len) && is_mult match skipn len t with [] => NUL | c0 :: _ => c0 end then len - 1 else len) = k /\ k <= length t /\ k <> 0).
  { destruct (Nat.ltb_spec 1 len); cbn [andb]; [|exists len; lia]. destruct (is_mult _); [exists (len - 1)|exists len]; lia. }
  destruct Q as (k & Ek & Lk & Nk). rewrite Ek in *.
  cbn [gatom] in *. rewrite !app_length, len_node in O. cbn [length] in O.
  rewrite regnode_st by (eapply okc_le; [exact O|lia]). cbn [cbind]. rewrite st_rest.
  rewrite regcs_st by (rewrite app_length, len_node; eapply okc_le; [exact O|lia]). cbn [cbind].
  unfold st at 1 2 3 4 5. cbn [r_rest r_done r_npar r_code r_size].
  change (mkR (rev (firstn k t) ++ d) (skipn k t) np _ _) with (st (rev (firstn k t) ++ d) (skipn k t) np c z ((X ++ node oEXACTLY 0) ++ firstn k t)).
  rewrite regc_st by (rewrite !app_length, len_node; eapply okc_le; [exact O|lia]). cbn [cbind].
  eexists. rewrite firstn_length, Nat.min_l by exact Lk. rewrite <- !app_assoc. reflexivity.
Qed.

(** Parsed trees are well formed. *)
Lemma in_range : forall lo hi c, hi < 256 -> existsb (Ascii.eqb c) (range lo hi) = ((lo <=? nat_of_ascii c) && (nat_of_ascii c <=? hi))%bool.
Proof.
  intros lo hi c Hh. apply eq_true_iff_eq. rewrite existsb_exists, andb_true_iff, !Nat.leb_le. unfold range. split.
  - intros (x & Hx & E). apply in_map_iff in Hx. destruct Hx as (y & <- & Hy). apply in_seq in Hy.
    apply Ascii.eqb_eq in E. subst. rewrite nat_byte by lia. lia.
  - intros [A B]. exists c. split; [|apply Ascii.eqb_refl]. apply in_map_iff. exists (nat_of_ascii c). rewrite byte_nat. split; [reflexivity|]. apply in_seq. lia.
Qed.
Definition btw (c : ascii) (x : ascii * ascii) : bool := let '(lo, hi) := x in ((nat_of_ascii lo <=? nat_of_ascii c) && (nat_of_ascii c <=? nat_of_ascii hi))%bool.
Lemma p_cls_wf : forall k t prev em it q, length t <= k -> p_cls prev t = Some (em, it, q) -> ~ In NUL (prev :: t) ->
  (forall c, (Ascii.eqb c prev || existsb (Ascii.eqb c) em = Ascii.eqb c prev || existsb (btw c) it)%bool) /\ ~ In NUL em /\ ~ In NUL q.
Proof.
  assert (E1 : forall c d, Ascii.eqb c d = btw c (d, d)).
  { intros c d. apply eq_true_iff_eq. cbn. rewrite Ascii.eqb_eq, andb_true_iff, !Nat.leb_le. split; [intros ->; lia|]. intro. rewrite <- (byte_nat c), <- (byte_nat d). f_equal. lia. }
  assert (E2 : forall c p d, nat_of_ascii p <= nat_of_ascii d -> (Ascii.eqb c p || existsb (Ascii.eqb c) (range (S (nat_of_ascii p)) (nat_of_ascii d)) = Ascii.eqb c p || btw c (p, d))%bool).
  { intros c p d H. rewrite in_range by apply nat_lt256. rewrite E1. apply eq_true_iff_eq. cbn [btw]. rewrite !orb_true_iff, !andb_true_iff, !Nat.leb_le. lia. }
  assert (E3 : forall p d c, nat_of_ascii p <= nat_of_ascii d -> btw c (p, d) = true -> btw d (p, d) = true).
  { intros p d c H _. cbn. rewrite andb_true_iff, !Nat.leb_le. lia. }
  induction k as [|k IH]; intros t prev em it q Hk E N; destruct t as [|c r]; cbn [p_cls] in E; try discriminate; [cbn in Hk; lia|].
  cbn [length] in Hk.
  destruct (Ascii.eqb_spec c "]").
  - injection E as <- <- <-. cbn in *. tauto.
  - destruct (Ascii.eqb_spec c "-").
    + destruct r as [|f r']; [discriminate|]. destruct (Ascii.eqb_spec f "]").
      * injection E as <- <- <-. split; [|cbn in *; split; [intros [Q|[]]; discriminate|tauto]].
        intro x. change (L "-") with ["-"%char]. cbn [existsb]. rewrite (E1 x "-"%char). reflexivity.
      * destruct (Nat.ltb_spec (S (nat_of_ascii f)) (S (nat_of_ascii prev))) as [|G]; [discriminate|].
        destruct (p_cls f r') as [[[em' it'] q']|] eqn:P; [|discriminate]. injection E as <- <- <-.
        destruct (IH r' f em' it' q') as (A & B & D); [cbn in Hk; lia|exact P|cbn in *; tauto|].
        split; [|split; [|exact D]].
        -- intro x. cbn [existsb]. rewrite existsb_app, !orb_assoc, (E2 x prev f) by lia.
           specialize (A x). destruct (Ascii.eqb_spec x f) as [Q|Q].
           ++ rewrite Q. rewrite (E3 prev f f) by (try lia; cbn; rewrite andb_true_iff, !Nat.leb_le; lia). rewrite orb_true_r. reflexivity.
           ++ cbn [orb] in A. rewrite A. reflexivity.
        -- rewrite in_app_iff. intros [Q|Q]; [|contradiction].
           apply in_map_iff in Q. destruct Q as (y & Q & Hy). apply in_seq in Hy. pose proof (nat_lt256 f).
           assert (nat_of_ascii (byte y) = y) by (apply nat_byte; lia). rewrite Q in H0. cbn in H0. lia.
    + destruct (p_cls c r) as [[[em' it'] q']|] eqn:P; [|discriminate]. injection E as <- <- <-.
      destruct (IH r c em' it' q') as (A & B & D); [lia|exact P|cbn in *; tauto|].
      split; [|split; [|exact D]].
      * intro x. cbn [existsb]. rewrite <- (E1 x c). specialize (A x). rewrite A. reflexivity.
      * cbn in *. intros [Q|Q]; [|contradiction]. apply N. now right; left.
Qed.
Lemma p_set_wf : forall t em it q, p_set t = Some (em, it, q) -> ~ In NUL t -> (forall c, in_set em c = existsb (btw c) it) /\ ~ In NUL em /\ ~ In NUL q.
Proof.
  intros [|p r] em it q E N; [discriminate|]. cbn [p_set] in E. destruct (p_cls p r) as [[[em' it'] q']|] eqn:P; [|discriminate]. injection E as <- <- <-.
  destruct (p_cls_wf (length r) r p em' it' q' (le_n _) P N) as (A & B & D). split; [|split; [|exact D]].
  - intro c. unfold in_set. cbn [existsb]. rewrite A. f_equal. apply eq_true_iff_eq. cbn. rewrite Ascii.eqb_eq, andb_true_iff, !Nat.leb_le. split; [intros ->; lia|]. intro. rewrite <- (byte_nat c), <- (byte_nat p). f_equal. lia.
  - cbn in *. intros [Q|Q]; tauto.
Qed.
Lemma p_class_wf : forall t neg em it q, p_class t = Some (neg, em, it, q) -> ~ In NUL t -> wf_atom (ACls neg em it) /\ ~ In NUL q.
Proof.
  intros [|p r] neg em it q E N; [discriminate|]. cbn [p_class] in E. destruct (Ascii.eqb p "^").
  - destruct (p_set r) as [[[em' it'] q']|] eqn:P; [|discriminate]. injection E as <- <- <- <-. apply p_set_wf in P; [|cbn in N; tauto]. cbn [wf_atom]. tauto.
  - destruct (p_set (p :: r)) as [[[em' it'] q']|] eqn:P; [|discriminate]. injection E as <- <- <- <-. apply p_set_wf in P; [|cbn in N; tauto]. cbn [wf_atom]. tauto.
Qed.
