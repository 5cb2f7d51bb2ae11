(** RegexGrammar3.v -- completeness of the pure parser. *)
From Coq Require Import List Ascii Bool Arith Lia.
Import ListNotations.
From Verif Require Import Base RegexModel RegexSpec RegexAst RegexGen RegexSim RegexSim2 RegexGrammar RegexGrammar2.

Definition headok (c : ascii) : Prop := c <> "|"%char /\ c <> ")"%char /\ is_mult c = false.
Lemma nonspecial_head : forall c, ~ special c -> headok c.
Proof.
  intros c H. unfold headok. rewrite special_iff in H. repeat split; try (intros ->; apply H; reflexivity).
  destruct (is_mult c) eqn:E; [|reflexivity]. apply is_mult_meta in E. contradiction.
Qed.
Lemma atom_head : forall n t r n', g_atom n t r n' -> exists c u, t = c :: u /\ headok c.
Proof.
  intros n t r n' H. destruct H; try (eexists; eexists; split; [reflexivity|repeat split; discriminate]).
  - eexists; eexists; split; [reflexivity|]. now apply nonspecial_head.
Qed.
Lemma piece_head : forall n t r n', g_piece n t r n' -> exists c u, t = c :: u /\ headok c.
Proof.
  intros n t r n' H. destruct H; match goal with H : g_atom _ _ _ _ |- _ => apply atom_head in H; destruct H as (c & u & -> & K) end; eexists; eexists; (split; [reflexivity|exact K]).
Qed.
Lemma branch_next : forall n t r n' rest, g_branch n t r n' -> stop rest = true -> is_mult (pk (t ++ rest)) = false.
Proof.
  intros n t r n' rest H S1. destruct H.
  - destruct rest as [|c u]; [reflexivity|]. cbn in *. rewrite orb_true_iff, !Ascii.eqb_eq in S1. destruct S1; subst; reflexivity.
  - apply piece_head in H. destruct H as (c & u & -> & K). apply K.
Qed.
(** A run of ordinary characters is the run of pieces it denotes. *)
Lemma peel1 : forall n c u r n', ~ special c -> is_mult (pk u) = false -> g_branch n (c :: u) r n' -> exists r', r = Seq (Chr c) r' /\ g_branch n u r' n'.
Proof.
  intros n c u r n' NS NM G. inversion G as [|? t1 r1 n1 t2 r2 n2 P B]; subst.
  match goal with H : _ ++ _ = c :: u |- _ => rename H into Q end.
  assert (SP : forall d, special d -> c <> d) by (intros d Hd ->; contradiction).
  assert (AT : forall m t ra m' x, g_atom m t ra m' -> t ++ x = c :: u -> t = [c] /\ ra = Chr c /\ m' = m /\ x = u).
  { intros m t ra m' x A E. inversion A; subst; cbn in E; injection E as E1 E2; subst; try (exfalso; eapply SP; [|reflexivity]; apply special_iff; reflexivity). auto. }
  inversion P as [? ? ? ? A|? ? ? ? A|? ? ? ? A|? ? ? ? A]; subst.
  - destruct (AT _ _ _ _ _ A Q) as (-> & -> & -> & ->). eauto.
  - rewrite <- app_assoc in Q. destruct (AT _ _ _ _ _ A Q) as (_ & _ & _ & <-). discriminate.
  - rewrite <- app_assoc in Q. destruct (AT _ _ _ _ _ A Q) as (_ & _ & _ & <-). discriminate.
  - rewrite <- app_assoc in Q. destruct (AT _ _ _ _ _ A Q) as (_ & _ & _ & <-). discriminate.
Qed.
Lemma peel : forall s n u r n', (forall c, In c s -> ~ special c) -> is_mult (pk u) = false -> g_branch n (s ++ u) r n' -> exists r', r = chars_then s r' /\ g_branch n u r' n'.
Proof.
  induction s as [|c s IH]; intros n u r n' NS NM G; [exists r; split; [reflexivity|exact G]|]. cbn [app] in G.
  apply peel1 in G; [|apply NS; now left|].
  - destruct G as (r' & -> & G). apply IH in G; [|intros x Hx; apply NS; now right|exact NM]. destruct G as (r'' & -> & G). exists r''. split; [reflexivity|exact G].
  - destruct s as [|d s]; [exact NM|]. cbn. apply nonspecial_head. apply NS. right. now left.
Qed.
Lemma run_prefix : forall a rest, stop rest = true -> p_run (a ++ rest) <= length a.
Proof.
  intros a rest S1. assert (K : length (take_while (fun c => negb (existsb (Ascii.eqb c) META)) (a ++ rest)) <= length a).
  { induction a as [|c a IH].
    - destruct rest as [|c u]; [reflexivity|]. cbn [stop] in S1. rewrite orb_true_iff, !Ascii.eqb_eq in S1. destruct S1; subst; apply Nat.le_refl.
    - cbn [app take_while]. destruct (negb _); cbn [length]; lia. }
  unfold p_run. destruct (_ && _)%bool; lia.
Qed.
Lemma nonspecial_tests : forall c, ~ special c -> Ascii.eqb c "^" = false /\ Ascii.eqb c "$" = false /\ Ascii.eqb c "." = false /\ Ascii.eqb c "[" = false /\ Ascii.eqb c "(" = false /\
  (Ascii.eqb c "|" || Ascii.eqb c ")")%bool = false /\ is_mult c = false /\ Ascii.eqb c "\" = false.
Proof.
  intros c H. pose proof (nonspecial_head c H) as (A & B & C).
  rewrite !Ascii.eqb_neq, orb_false_iff, !Ascii.eqb_neq. rewrite special_iff in H.
  repeat split; auto; intros ->; apply H; reflexivity.
Qed.
Lemma pa_lit : forall n c u np, ~ special c -> pa_atom (S n) (c :: u) np = COk (ALit (firstn (p_run (c :: u)) (c :: u)), skipn (p_run (c :: u)) (c :: u), np).
Proof. intros n c u np H. destruct (nonspecial_tests c H) as (-> & -> & -> & -> & -> & -> & -> & ->) || (destruct (nonspecial_tests c H) as (D1 & D2 & D3 & D4 & D5 & D6 & D7 & D8); cbn [pa_atom]; rewrite D1, D2, D3, D4, D5, D6, D7, D8; reflexivity). Qed.
Lemma p_run_one : forall c u, ~ special c -> is_mult (pk u) = true -> p_run (c :: u) = 1.
Proof.
  intros c u H M. rewrite special_iff in H. unfold p_run. set (p := fun c => negb (existsb (Ascii.eqb c) META)).
  assert (E : take_while p (c :: u) = [c]).
  { cbn [take_while]. unfold p at 1. destruct (existsb (Ascii.eqb c) META); [congruence|]. cbn [negb]. f_equal.
    destruct u as [|d u]; [discriminate|]. cbn in M. cbn [take_while]. unfold p. rewrite (is_mult_meta d M). reflexivity. }
  rewrite E. reflexivity.
Qed.
Lemma pa_complete : forall n,
  (forall txt r np np' rest, g_alt (S np) txt r np' -> np < 10 -> 1 <= np -> ~ In NUL (txt ++ ")"%char :: rest) -> 6 * length (txt ++ ")"%char :: rest) + 6 <= n ->
     exists l, pa_reg n true (txt ++ ")"%char :: rest) np = COk (l, rest, np') /\ den_alts l = r) /\
  (forall txt r np np', g_alt np txt r np' -> 1 <= np -> ~ In NUL txt -> 6 * length txt + 6 <= n -> exists l, pa_reg n false txt np = COk (l, [], np') /\ den_alts l = r) /\
  (forall b txt r np np' rest, g_alt np txt r np' -> stop rest = true -> pk rest <> "|"%char -> 1 <= np -> ~ In NUL (txt ++ rest) -> 6 * length ("|"%char :: txt ++ rest) + 5 <= n ->
     exists l, pa_alts n b ("|"%char :: txt ++ rest) np = COk (More b l, rest, np') /\ den_alts l = r) /\
  (forall txt r np np' rest, g_branch np txt r np' -> stop rest = true -> 1 <= np -> ~ In NUL (txt ++ rest) -> 6 * length (txt ++ rest) + 4 <= n ->
     exists b, pa_branch n (txt ++ rest) np = COk (b, rest, np') /\ den_branch b = r) /\
  (forall txt r np np' rest, g_branch np txt r np' -> stop rest = true -> 1 <= np -> ~ In NUL (txt ++ rest) -> 6 * length (txt ++ rest) + 3 <= n ->
     exists b, pa_pieces n (txt ++ rest) np = COk (b, rest, np') /\ den_branch b = r) /\
  (forall t1 r1 np n1 t2 r2 n2 rest, g_piece np t1 r1 n1 -> g_branch n1 t2 r2 n2 -> stop rest = true -> 1 <= np -> ~ In NUL (t1 ++ t2 ++ rest) -> 6 * length (t1 ++ t2 ++ rest) + 2 <= n ->
     exists p t3 r3 n3, pa_piece n (t1 ++ t2 ++ rest) np = COk (p, t3 ++ rest, n3) /\ g_branch n3 t3 r3 n2 /\ Seq r1 r2 = den_then p r3) /\
  (forall txt r np np' rest, g_atom np txt r np' -> 1 <= np -> ~ In NUL (txt ++ rest) -> 6 * length (txt ++ rest) + 1 <= n ->
     (exists c, txt = [c] /\ ~ special c /\ r = Chr c /\ np' = np) \/ exists a, pa_atom n (txt ++ rest) np = COk (a, rest, np') /\ den_atom a = r /\ forall x, den_then (PAtom a) x = Seq r x).
Proof.
  induction n as [|n (IR1 & IR2 & IA & IB & IPS & IP & IT)]; [repeat split; intros; lia|].
  assert (REG : forall paren txt r np np' rest, g_alt (if paren : bool then S np else np) txt r np' -> (paren = true -> np < 10) -> 1 <= np -> stop rest = true -> pk rest <> "|"%char -> ~ In NUL (txt ++ rest) -> 6 * length (txt ++ rest) + 6 <= S n ->
     exists l b t1 np1, pa_branch n (txt ++ rest) (if paren then S np else np) = COk (b, t1, np1) /\ pa_alts n b t1 np1 = COk (l, rest, np') /\ den_alts l = r).
  { intros paren txt r np np' rest G L10 P ST NB N H. assert (P0 : 1 <= if paren then S np else np) by (destruct paren; lia).
    inversion G as [? ? ? ? B|? x1 r1 m x2 r2 m2 B A]; subst.
    - destruct (IB _ _ _ _ rest B ST P0 N ltac:(lia)) as (b & E & D). exists (One b), b, rest, np'. repeat split; auto.
      destruct n; [lia|]. cbn [pa_alts]. destruct (Ascii.eqb_spec (pk rest) "|"); [contradiction|reflexivity].
    - rewrite <- !app_assoc in *. destruct (IB _ _ _ _ (L "|" ++ x2 ++ rest) B ltac:(reflexivity) P0 N ltac:(rewrite !app_length in *; lia)) as (b & E & D).
      pose proof (proj1 (proj2 (proj2 (pa_wf n))) _ _ _ _ _ N P0 E) as (_ & N1 & Q1).
      destruct (IA b _ _ _ _ rest A ST NB Q1) as (l & E2 & D2); [intro K; apply N1; now right|rewrite !app_length in *; cbn [length] in *; rewrite ?app_length; change (length (L "|")) with 1 in *; lia|].
      exists (More b l), b, (L "|" ++ x2 ++ rest), m. repeat split; auto. cbn [den_alts]. congruence. }
  split; [|split; [|split; [|split; [|split; [|split]]]]].
  - intros txt r np np' rest G L10 P N H. destruct (REG true txt r np np' (")"%char :: rest) G ltac:(auto) P eq_refl ltac:(discriminate) N H) as (l & b & t1 & np1 & E1 & E2 & D).
    exists l. split; [|exact D]. cbn [pa_reg andb]. destruct (Nat.leb_spec NSUBEXP np); [unfold NSUBEXP in *; lia|]. rewrite E1. cbn [cbind]. rewrite E2. reflexivity.
  - intros txt r np np' G P N H. destruct (REG false txt r np np' [] G ltac:(discriminate) P eq_refl ltac:(discriminate)) as (l & b & t1 & np1 & E1 & E2 & D); [now rewrite app_nil_r|now rewrite app_nil_r|].
    exists l. split; [|exact D]. rewrite app_nil_r in E1. cbn [pa_reg andb]. rewrite E1. cbn [cbind]. rewrite E2. reflexivity.
  - intros b txt r np np' rest G ST NB P N H. cbn [length] in H. destruct (REG false txt r np np' rest G ltac:(discriminate) P ST NB N ltac:(lia)) as (l & b' & t1 & np1 & E1 & E2 & D).
    exists l. split; [|exact D]. cbn [pa_alts pk tl]. rewrite Ascii.eqb_refl. rewrite E1. cbn [cbind]. rewrite E2. reflexivity.
  - intros txt r np np' rest G ST P N H. destruct (IPS _ _ _ _ rest G ST P N ltac:(lia)) as (b & E & D). exists b. auto.
  - intros txt r np np' rest G ST P N H. inversion G as [|? t1 r1 n1 t2 r2 n2 GP GB]; subst.
    + exists BNil. cbn [app pa_pieces]. rewrite ST. auto.
    + rewrite <- app_assoc in *. destruct (IP _ _ _ _ _ _ _ rest GP GB ST P N ltac:(lia)) as (p & t3 & r3 & n3 & E & G3 & D).
      pose proof (proj1 (proj2 (proj2 (proj2 (proj2 (pa_wf n))))) _ _ _ _ _ N P E) as (_ & N1 & Q1).
      pose proof (proj1 (proj2 (proj2 (proj2 (proj2 (pa_fuel n))))) (t1 ++ t2 ++ rest) np ltac:(lia)) as F. rewrite E in F.
      destruct (IPS _ _ _ _ rest G3 ST Q1 N1 ltac:(lia)) as (b & E2 & D2).
      exists (BCons p b). cbn [pa_pieces].
      assert (NS : stop (t1 ++ t2 ++ rest) = false).
      { apply piece_head in GP. destruct GP as (c & u & -> & K1 & K2 & _). cbn. now rewrite (proj2 (Ascii.eqb_neq _ _) K1), (proj2 (Ascii.eqb_neq _ _) K2). }
      rewrite NS, E. cbn [cbind]. rewrite E2. cbn [cbind den_branch]. split; [reflexivity|]. congruence.
  - intros t1 r1 np n1 t2 r2 n2 rest GP GB ST P N H. pose proof (branch_next _ _ _ _ rest GB ST) as NM.
    assert (MUL : forall ta ra op, g_atom np ta ra n1 -> t1 = ta ++ [op] -> is_mult op = true ->
       exists a, pa_atom n (ta ++ op :: t2 ++ rest) np = COk (a, op :: t2 ++ rest, n1) /\ den_atom a = ra /\ wf_atom a).
    { intros ta ra op GA -> M. rewrite <- app_assoc in *. cbn [app] in *.
      destruct (IT _ _ _ _ (op :: t2 ++ rest) GA P N ltac:(lia)) as [(c & -> & NSp & -> & ->)|(a & E & D & _)].
      - destruct n as [|n]; [lia|]. cbn [app] in *. exists (ALit [c]). rewrite pa_lit by exact NSp. rewrite p_run_one by assumption. cbn [firstn skipn]. repeat split; auto; [discriminate|].
        intros [K|[]]. apply N. now left.
      - exists a. repeat split; auto. eapply (proj2 (proj2 (proj2 (proj2 (proj2 (pa_wf n))))) _ _ _ _ _ N P E). }
    inversion GP as [? ? ? ? GA|? ta ra ? GA NW|? ta ra ? GA NW|? ta ra ? GA]; subst.
    + destruct (IT _ _ _ _ (t2 ++ rest) GA P N ltac:(lia)) as [(c & -> & NSp & -> & ->)|(a & E & D & DT)].
      * destruct n as [|n]; [lia|]. cbn [app pa_piece] in *. rewrite pa_lit by exact NSp. cbn [cbind].
        set (k := p_run (c :: t2 ++ rest)).
        assert (K1 : k <= length (c :: t2)) by (unfold k; change (c :: t2 ++ rest) with ((c :: t2) ++ rest); now apply run_prefix).
        assert (K2 : 1 <= k) by (unfold k; apply p_run_pos; rewrite special_iff in NSp; destruct (existsb _ _); congruence).
        assert (K3 : is_mult (pk (skipn k (c :: t2 ++ rest))) = false).
        { destruct (is_mult (pk (skipn k (c :: t2 ++ rest)))) eqn:M; [|reflexivity]. unfold k in M. pose proof (p_run_mult _ M) as K3. fold k in K3. fold k in M. replace k with 1 in M by lia. cbn [skipn] in M. congruence. }
        assert (K4 : skipn k (c :: t2 ++ rest) = skipn k (c :: t2) ++ rest).
        { change (c :: t2 ++ rest) with ((c :: t2) ++ rest). rewrite skipn_app. replace (k - length (c :: t2)) with 0 by lia. reflexivity. }
        assert (K5 : firstn k (c :: t2 ++ rest) = firstn k (c :: t2)).
        { change (c :: t2 ++ rest) with ((c :: t2) ++ rest). rewrite firstn_app. replace (k - length (c :: t2)) with 0 by lia. cbn [firstn]. apply app_nil_r. }
        rewrite K3. cbn [negb]. rewrite K4.
        assert (GF : g_branch np (firstn k (c :: t2) ++ skipn k (c :: t2)) (Seq (Chr c) r2) n2).
        { rewrite firstn_skipn. change (c :: t2) with ([c] ++ t2). apply gb_cons with np; [exact GP|exact GB]. }
        assert (NSf : forall x, In x (firstn k (c :: t2)) -> ~ special x) by (intros x Hx; rewrite <- K5 in Hx; revert Hx; apply p_run_nonspecial).
        assert (NMf : is_mult (pk (skipn k (c :: t2))) = false).
        { rewrite K4 in K3. destruct (skipn k (c :: t2)); [reflexivity|exact K3]. }
        destruct (peel _ _ _ _ _ NSf NMf GF) as (r' & D & G').
        exists (PAtom (ALit (firstn k (c :: t2 ++ rest)))), (skipn k (c :: t2)), r', np. split; [reflexivity|]. split; [exact G'|]. cbn [den_then]. rewrite K5. exact D.
      * exists (PAtom a), t2, r2, n1. cbn [pa_piece]. rewrite E. cbn [cbind]. rewrite NM. cbn [negb]. repeat split; auto; congruence.
    + destruct (MUL ta ra "*"%char GA eq_refl eq_refl) as (a & E & D & W). exists (PStar a), t2, r2, n1. rewrite <- app_assoc. change (L "*" ++ t2 ++ rest) with ("*"%char :: t2 ++ rest). cbn [pa_piece]. rewrite E. cbn [cbind pk tl].
      assert (WT : w_atom a = true) by (destruct (w_atom a) eqn:Q; [reflexivity|]; exfalso; apply NW; rewrite <- D; now apply (proj1 width_nil a W)).
      rewrite WT, NM. cbn [den_then]. rewrite D. repeat split; auto.
    + destruct (MUL ta ra "+"%char GA eq_refl eq_refl) as (a & E & D & W). exists (PPlus a), t2, r2, n1. rewrite <- app_assoc. change (L "+" ++ t2 ++ rest) with ("+"%char :: t2 ++ rest). cbn [pa_piece]. rewrite E. cbn [cbind pk tl].
      assert (WT : w_atom a = true) by (destruct (w_atom a) eqn:Q; [reflexivity|]; exfalso; apply NW; rewrite <- D; now apply (proj1 width_nil a W)).
      rewrite WT, NM. cbn [den_then]. rewrite D. repeat split; auto.
    + destruct (MUL ta ra "?"%char GA eq_refl eq_refl) as (a & E & D & W). exists (POpt a), t2, r2, n1. rewrite <- app_assoc. change (L "?" ++ t2 ++ rest) with ("?"%char :: t2 ++ rest). cbn [pa_piece]. rewrite E. cbn [cbind pk tl].
      rewrite NM. cbn [den_then]. rewrite D. replace (negb (Ascii.eqb "?" "?")) with false by reflexivity. rewrite andb_false_r. repeat split; auto.
  - intros txt r np np' rest G P N H. destruct G as [| | |m c NSp|m c|m t cs B F|m t cs B|m t r m' L10 GA].
    + right. exists ABol. repeat split; reflexivity.
    + right. exists AEol. repeat split; reflexivity.
    + right. exists AAny. repeat split; reflexivity.
    + left. exists c. auto.
    + right. exists (ALit [c]). repeat split; reflexivity.
    + right. rewrite <- !app_assoc. destruct (p_class_complete_pos t cs rest B F) as [em E]. exists (ACls false em cs). change (L "[" ++ t ++ L "]" ++ rest) with ("["%char :: t ++ "]"%char :: rest).
      cbn [pa_atom]. replace (Ascii.eqb "[" "^") with false by reflexivity. replace (Ascii.eqb "[" "$") with false by reflexivity. replace (Ascii.eqb "[" ".") with false by reflexivity. rewrite Ascii.eqb_refl, E. repeat split; reflexivity.
    + right. rewrite <- !app_assoc. destruct (p_class_complete_neg t cs rest B) as [em E]. exists (ACls true em cs). change (L "[^" ++ t ++ L "]" ++ rest) with ("["%char :: "^"%char :: t ++ "]"%char :: rest).
      cbn [pa_atom]. replace (Ascii.eqb "[" "^") with false by reflexivity. replace (Ascii.eqb "[" "$") with false by reflexivity. replace (Ascii.eqb "[" ".") with false by reflexivity. rewrite Ascii.eqb_refl, E. repeat split; reflexivity.
    + right. rewrite <- !app_assoc in *. change (L "(" ++ t ++ L ")" ++ rest) with ("("%char :: t ++ ")"%char :: rest) in *.
      destruct (IR1 t r m m' rest GA L10 P) as (l & E & D); [intro K; apply N; now right|cbn [length] in H; lia|].
      exists (AGrp m l). cbn [pa_atom]. replace (Ascii.eqb "(" "^") with false by reflexivity. replace (Ascii.eqb "(" "$") with false by reflexivity. replace (Ascii.eqb "(" ".") with false by reflexivity. replace (Ascii.eqb "(" "[") with false by reflexivity. rewrite Ascii.eqb_refl, E. cbn [cbind den_atom den_then]. rewrite D. repeat split; reflexivity.
Qed.
