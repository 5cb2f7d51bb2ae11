(** CmdProps2.v -- C106: memory, and the theorems. *)
From Coq Require Import List Bool Arith Ascii ZArith Lia Permutation.
Import ListNotations.
From Verif Require Import Base RegexModel RegexProps CmdModel CmdSpec CmdProps.

Definition LIM : Z := (2 ^ 30)%Z.
Definition loc {A} (b : cbuf A) : list nat := match b_loc b with None => [] | Some p => [p] end.
Definition blen {A} (b : cbuf A) : Z := Z.of_nat (length (b_data b)).
Record binv {A} (K : Z) (b : cbuf A) : Prop := { bi_pos : (0 < b_size b)%Z; bi_fit : (blen b <= b_size b)%Z; bi_max : (blen b <= K)%Z }.
(** [l]: the blocks that are allocated. *)
Record linv (m : cmem) (l : list nat) : Prop := { li_perm : Permutation (cm_live m) l; li_nd : NoDup (cm_live m); li_lt : forall p, In p (cm_live m) -> p < cm_calls m }.
Definition allok (ok : nat -> bool) (m : cmem) : Prop := forall n, n < cm_calls m -> ok n = true.
Definition anybad (ok : nat -> bool) (m : cmem) : Prop := exists n, n < cm_calls m /\ ok n = false.

Lemma linv_perm m l l' : linv m l -> Permutation l l' -> linv m l'.
Proof. intros [P N L] Q. constructor; auto. etransitivity; eauto. Qed.
Lemma malloc_spec ok m l : linv m l ->
  match malloc ok m with
  | (Some p, m') => linv m' (p :: l) /\ (allok ok m -> allok ok m') /\ (anybad ok m -> anybad ok m') /\ cm_calls m <= cm_calls m'
  | (None, m') => linv m' l /\ anybad ok m' /\ cm_calls m <= cm_calls m'
  end.
Proof.
  intros [P N L]. unfold malloc. destruct (ok (cm_calls m)) eqn:O.
  - split; [|split; [|split]].
    + constructor; cbn [cm_live cm_calls].
      * rewrite <- P. symmetry. apply Permutation_cons_append.
      * apply (Permutation_NoDup (l := cm_calls m :: cm_live m)); [apply Permutation_cons_append|]. constructor; [|exact N]. intro I. apply L in I. lia.
      * intros p I. apply in_app_or in I. destruct I as [I|[<-|[]]]; [apply L in I; lia|lia].
    + intros A n H. cbn [cm_calls] in H. destruct (Nat.eq_dec n (cm_calls m)) as [->|D]; [exact O|apply A; lia].
    + intros (n & H & B). exists n. cbn [cm_calls]. split; [lia|exact B].
    + cbn. lia.
  - split; [|split].
    + constructor; cbn [cm_live cm_calls]; auto. intros p I. apply L in I. lia.
    + exists (cm_calls m). cbn [cm_calls]. split; [lia|exact O].
    + cbn. lia.
Qed.
Lemma remove_perm p l : NoDup l -> In p l -> Permutation l (p :: remove Nat.eq_dec p l).
Proof.
  induction l as [|x l IH]; intros ND I; [destruct I|]. inversion ND as [|? ? NI ND']; subst. cbn [remove]. destruct (Nat.eq_dec p x) as [->|D].
  - rewrite (notin_remove _ _ _ NI). reflexivity.
  - destruct I as [I|I]; [congruence|]. rewrite (IH ND' I) at 1. apply perm_swap.
Qed.
Lemma cfree_spec m p l : linv m (p :: l) -> exists m', cfree m p = Some m' /\ linv m' l /\ cm_calls m' = cm_calls m.
Proof.
  intros [P N L]. assert (I : In p (cm_live m)) by (eapply Permutation_in; [symmetry; exact P|now left]).
  unfold cfree. assert (X : existsb (Nat.eqb p) (cm_live m) = true) by (apply existsb_exists; exists p; split; [exact I|apply Nat.eqb_refl]). rewrite X.
  eexists. split; [reflexivity|]. split; [|reflexivity]. pose proof (remove_perm p _ N I) as R. constructor; cbn [cm_live cm_calls].
  - apply (Permutation_cons_inv (a := p)). rewrite <- R. exact P.
  - apply (Permutation_NoDup R) in N. inversion N; assumption.
  - intros q Q. apply L. apply (Permutation_in (l := p :: remove Nat.eq_dec p (cm_live m))); [symmetry; exact R|now right].
Qed.
Lemma allok_calls ok m m' : cm_calls m' = cm_calls m -> (allok ok m' <-> allok ok m) /\ (anybad ok m' <-> anybad ok m).
Proof. intro E. unfold allok, anybad. rewrite E. tauto. Qed.
Lemma anybad_le ok m m' : cm_calls m <= cm_calls m' -> anybad ok m -> anybad ok m'.
Proof. intros H (n & A & B). exists n. split; [lia|exact B]. Qed.
Lemma grow_spec {A} ok mi m (b : cbuf A) K rest : binv K b -> (K < LIM)%Z -> linv m (loc b ++ rest) ->
  match grow ok mi m b with
  | COk b' m' => b_data b' = b_data b /\ (blen b' < b_size b')%Z /\ (0 < b_size b')%Z /\ linv m' (loc b' ++ rest) /\ (allok ok m -> allok ok m') /\ (anybad ok m -> anybad ok m')
  | CFail m' => linv m' (loc b ++ rest) /\ anybad ok m'
  | CUB => False
  end.
Proof.
  intros [BP BF BM] LT LI. unfold grow, blen in *. destruct (Z.leb_spec (b_size b) (Z.of_nat (length (b_data b)))) as [G|G].
  - assert (SZ : (b_size b * 2 <= INT_MAX)%Z) by (unfold INT_MAX, LIM in *; lia).
    destruct (Z.ltb_spec INT_MAX (b_size b * 2)) as [Q|_]; [lia|]. rewrite andb_false_r.
    pose proof (malloc_spec ok m _ LI) as MS. destruct (malloc ok m) as [[p|] m1].
    + destruct MS as (L1 & A1 & B1 & C1). destruct (Z.ltb_spec (b_size b * 2) (Z.of_nat (length (b_data b)))) as [Q|_]; [lia|].
      unfold loc in L1. destruct (b_loc b) as [q|].
      * cbn [app] in L1. destruct (cfree_spec m1 q (p :: rest)) as (m2 & E2 & L2 & C2); [eapply linv_perm; [exact L1|apply perm_swap]|]. rewrite E2.
        cbn [b_data b_size loc b_loc app]. destruct (allok_calls ok _ _ C2) as (AA & BB). split; [reflexivity|]. split; [lia|]. split; [lia|]. split; [exact L2|]. rewrite AA, BB. auto.
      * cbn [b_data b_size loc b_loc app] in *. split; [reflexivity|]. split; [lia|]. split; [lia|]. auto.
    + destruct MS as (L1 & B1 & _). auto.
  - split; [reflexivity|]. split; [exact G|]. auto.
Qed.
Record minv (K : Z) (s : cst) (m : cmem) : Prop := {
  mi_b : binv K (c_buf s); mi_a : binv K (c_args s);
  mi_l : linv m (loc (c_args s) ++ loc (c_buf s) ++ map fst (b_data (c_args s))) }.
Definition same_but_buf (s s' : cst) : Prop := b_data (c_args s') = b_data (c_args s) /\ c_arg s' = c_arg s /\ c_esc s' = c_esc s /\ c_single s' = c_single s /\ c_double s' = c_double s.
Lemma step_byte_spec ok K s m c : minv K s m -> (K < LIM)%Z ->
  match step_byte ok s m c with
  | OK s' m' => minv (K + 1) s' m' /\ b_data (c_buf s') = b_data (c_buf s) ++ [c] /\ same_but_buf s s' /\ c_args s' = c_args s /\ (allok ok m -> allok ok m') /\ (anybad ok m -> anybad ok m')
  | Failed s' m' => s' = s /\ minv K s m' /\ anybad ok m'
  | OUB => False
  end.
Proof.
  intros [MB MA ML] LT. unfold step_byte, append_byte.
  assert (P1 : Permutation (loc (c_args s) ++ loc (c_buf s) ++ map fst (b_data (c_args s))) (loc (c_buf s) ++ loc (c_args s) ++ map fst (b_data (c_args s)))).
  { rewrite !app_assoc. apply Permutation_app_tail, Permutation_app_comm. }
  pose proof (grow_spec ok true m (c_buf s) K _ MB LT (linv_perm _ _ _ ML P1)) as G. destruct (grow ok true m (c_buf s)) as [b' m'|m'|]; [| |exact G].
  - destruct G as (DE & RM & PS & L & A & B). unfold put. destruct (Z.leb_spec (b_size b') (Z.of_nat (length (b_data b')))) as [Q|_]; [unfold blen in RM; lia|].
    cbn [with_buf c_buf b_data]. rewrite DE in *. split; [|split; [reflexivity|split; [repeat split|split; [reflexivity|auto]]]]. constructor; cbn [with_buf c_buf c_args].
    + destruct MB as [_ _ BM]. unfold blen in *. rewrite DE in RM. constructor; unfold blen; cbn [b_size b_data]; rewrite ?app_length; cbn [length]; lia.
    + destruct MA as [X Y Z]. constructor; auto. lia.
    + unfold loc at 2. cbn [b_loc]. fold (loc b'). eapply linv_perm; [exact L|]. rewrite !app_assoc. apply Permutation_app_tail, Permutation_app_comm.
  - destruct G as (L & B). split; [reflexivity|]. split; [|exact B]. constructor; auto. eapply linv_perm; [exact L|symmetry; exact P1].
Qed.
Lemma minv_flags K s m a e q d : minv K s m <-> minv K (with_flags s a e q d) m.
Proof. split; intros [X Y Z]; constructor; auto. Qed.
Lemma minv_le K K' s m : minv K s m -> (K <= K')%Z -> minv K' s m.
Proof. intros [[A B C] [D E F] L] H. constructor; [constructor; auto; lia|constructor; auto; lia|exact L]. Qed.
Lemma append_argument_spec ok K s m : minv K s m -> (K + 1 < LIM)%Z ->
  match append_argument ok s m with
  | OK s' m' => minv (K + 1) s' m' /\ b_data (c_buf s') = [] /\ map snd (b_data (c_args s')) = map snd (b_data (c_args s)) ++ [b_data (c_buf s) ++ [NUL]] /\
      c_arg s' = c_arg s /\ c_esc s' = c_esc s /\ c_single s' = c_single s /\ c_double s' = c_double s /\ (allok ok m -> allok ok m') /\ (anybad ok m -> anybad ok m')
  | Failed s' m' => minv (K + 1) s' m' /\ anybad ok m'
  | OUB => False
  end.
Proof.
  intros MI LT. unfold append_argument. pose proof (step_byte_spec ok K s m NUL MI ltac:(lia)) as SB. destruct (step_byte ok s m NUL) as [s1 m1|s1 m1|]; [| |exact SB].
  2: { destruct SB as (-> & M1 & B1). split; [|exact B1]. eapply minv_le; [exact M1|lia]. }
  destruct SB as (M1 & D1 & (AD & AF & EF & SF & DF) & AE & A1 & B1). pose proof M1 as [MB MA ML]. rewrite AE in MA, ML.
  assert (MA0 : binv K (c_args s)) by apply MI.
  rewrite AE. pose proof (grow_spec ok false m1 (c_args s) K _ MA0 ltac:(lia) ML) as G. destruct (grow ok false m1 (c_args s)) as [a m2|m2|]; [| |exact G].
  2: { destruct G as (L & B). split; [|exact B]. constructor; rewrite ?AE; auto. }
  destruct G as (DE & RM & PS & L2 & A2 & B2). cbn [with_args c_buf]. pose proof (malloc_spec ok m2 _ L2) as MS. destruct (malloc ok m2) as [[p|] m3].
  - destruct MS as (L3 & A3 & B3 & _). unfold put. destruct (Z.leb_spec (b_size a) (Z.of_nat (length (b_data a)))) as [Q|_]; [unfold blen in RM; lia|].
    cbn [with_buf with_args c_buf c_args c_arg c_esc c_single c_double b_data]. split; [|split; [reflexivity|split; [|split; [exact AF|split; [exact EF|split; [exact SF|split; [exact DF|split; auto]]]]]]].
    + constructor; cbn [with_buf with_args c_buf c_args].
      * destruct MB as [X Y Z]. constructor; unfold blen in *; cbn [b_size b_data length]; lia.
      * destruct MA0 as [X Y Z]. unfold blen in *. rewrite DE in RM. constructor; unfold blen; cbn [b_size b_data]; rewrite ?app_length, ?DE; cbn [length]; lia.
      * unfold loc at 1 2. cbn [b_loc b_data]. fold (loc a). fold (loc (c_buf s1)). rewrite map_app, DE. cbn [map fst]. eapply linv_perm; [exact L3|]. rewrite !app_assoc. apply Permutation_cons_append.
    + rewrite map_app, DE, D1. reflexivity.
  - destruct MS as (L3 & B3 & _). destruct (Z.leb_spec (b_size a) (Z.of_nat (length (b_data a)))) as [Q|_]; [unfold blen in RM; lia|].
    split; [|exact B3]. constructor; cbn [with_args c_buf c_args].
    + exact MB.
    + destruct MA0 as [X Y Z]. unfold blen in *. constructor; unfold blen; rewrite ?DE in *; lia.
    + rewrite DE. exact L3.
Qed.
(** The state of the parser without memory. *)
Definition sim (p : pst) (s : cst) : Prop :=
  map snd (b_data (c_args s)) = map (fun a => a ++ [NUL]) (p_args p) /\ b_data (c_buf s) = p_buf p /\
  c_arg s = p_arg p /\ c_esc s = p_e p /\ c_single s = p_s p /\ c_double s = p_d p.
Lemma sim_flags p s a e q d : sim p s -> sim (mkP (p_args p) (p_buf p) a e q d) (with_flags s a e q d).
Proof. intros (A & B & _). split; [exact A|]. split; [exact B|]. repeat split. Qed.
Lemma step_char_spec ok K p s m c : minv K s m -> (K + 1 < LIM)%Z -> sim p s ->
  match step_char ok s m c with
  | OK s' m' => minv (K + 1) s' m' /\ sim (pstep p c) s' /\ (allok ok m -> allok ok m') /\ (anybad ok m -> anybad ok m')
  | Failed s' m' => minv (K + 1) s' m' /\ anybad ok m'
  | OUB => False
  end.
Proof.
  intros MI LT SM. destruct p as [pa pb par pe pq pd]. pose proof SM as (SA & SB & F1 & F2 & F3 & F4). cbn [p_args p_buf p_arg p_e p_s p_d] in *.
  assert (MI1 : minv (K + 1) s m) by (eapply minv_le; [exact MI|lia]).
  assert (BYTE : forall e q d, match step_byte ok (with_flags s true e q d) m c with
      | OK s' m' => minv (K + 1) s' m' /\ (forall e', sim (mkP pa (pb ++ [c]) true e' q d) (with_flags s' (c_arg s') e' (c_single s') (c_double s'))) /\ sim (mkP pa (pb ++ [c]) true e q d) s' /\ (allok ok m -> allok ok m') /\ (anybad ok m -> anybad ok m')
      | Failed s' m' => minv (K + 1) s' m' /\ anybad ok m' | OUB => False end).
  { intros e q d. pose proof (step_byte_spec ok K (with_flags s true e q d) m c (proj1 (minv_flags K s m true e q d) MI) ltac:(lia)) as H.
    destruct (step_byte ok (with_flags s true e q d) m c) as [s1 m1|s1 m1|]; [| |exact H].
    - destruct H as (M1 & D1 & (AD & AF & EF & SF & DF) & _ & A1 & B1). cbn [with_flags c_args c_buf c_arg c_esc c_single c_double] in *.
      split; [exact M1|]. split; [|split; [|auto]].
      + intro e'. unfold sim. cbn [with_flags c_args c_buf c_arg c_esc c_single c_double p_args p_buf p_arg p_e p_s p_d]. rewrite AD, D1, SB, AF, SF, DF. auto 10.
      + unfold sim. cbn [p_args p_buf p_arg p_e p_s p_d]. rewrite AD, D1, SB, AF, SF, DF, EF. auto 10.
    - destruct H as (-> & M1 & B1). split; [|exact B1]. eapply minv_le; [exact M1|lia]. }
  assert (FL : forall a e q d, minv (K + 1) (with_flags s a e q d) m /\ sim (mkP pa pb a e q d) (with_flags s a e q d) /\ (allok ok m -> allok ok m) /\ (anybad ok m -> anybad ok m)).
  { intros. split; [apply -> minv_flags; exact MI1|]. split; [exact (sim_flags _ _ a e q d SM)|auto]. }
  unfold step_char, pstep. rewrite F1, F2, F3, F4. destruct pe.
  { specialize (BYTE true pq pd). destruct (step_byte ok (with_flags s true true pq pd) m c) as [s1 m1|s1 m1|]; [|exact BYTE|exact BYTE]. destruct BYTE as (M1 & S1 & _ & A1 & B1). split; [apply -> minv_flags; exact M1|]. split; [apply S1|auto]. }
  destruct (Ascii.eqb c "\"); [apply FL|]. destruct (Ascii.eqb c "'" && negb pd); [destruct pq; apply FL|]. destruct (Ascii.eqb c """" && negb pq); [destruct pd; apply FL|].
  destruct (is_space c).
  - destruct par.
    + destruct (pq || pd).
      * specialize (BYTE false pq pd). assert (WF : with_flags s true false pq pd = s) by (clear - F1 F2 F3 F4; destruct s as [x1 x2 x3 x4 x5 x6]; unfold with_flags; cbn [c_args c_buf c_arg c_esc c_single c_double] in *; subst; reflexivity). rewrite WF in BYTE. destruct (step_byte ok s m c) as [s1 m1|s1 m1|]; [|exact BYTE|exact BYTE]. tauto.
      * pose proof (append_argument_spec ok K s m MI LT) as H. destruct (append_argument ok s m) as [s1 m1|s1 m1|]; [|exact H|exact H].
        destruct H as (M1 & D1 & A1 & AF & EF & SF & DF & O1 & B1). split; [apply -> minv_flags; exact M1|]. split; [|auto].
        unfold sim. cbn [with_flags c_args c_buf c_arg c_esc c_single c_double p_args p_buf p_arg p_e p_s p_d]. rewrite A1, D1, SA, SB, SF, DF, EF, map_app. cbn [map]. auto 10.
    + split; [exact MI1|]. split; [exact SM|auto].
  - specialize (BYTE false pq pd). destruct (step_byte ok (with_flags s true false pq pd) m c) as [s1 m1|s1 m1|]; [|exact BYTE|exact BYTE]. tauto.
Qed.
Lemma parse_loop_spec ok cmd : forall K p s m, minv K s m -> (K + Z.of_nat (length cmd) < LIM)%Z -> sim p s ->
  match parse_loop ok cmd s m with
  | OK s' m' => minv (K + Z.of_nat (length cmd)) s' m' /\ sim (prun p cmd) s' /\ (allok ok m -> allok ok m') /\ (anybad ok m -> anybad ok m')
  | Failed s' m' => minv (K + Z.of_nat (length cmd)) s' m' /\ anybad ok m'
  | OUB => False
  end.
Proof.
  induction cmd as [|c r IH]; intros K p s m MI LT SM.
  - cbn [parse_loop length]. split; [eapply minv_le; [exact MI|lia]|]. split; [exact SM|auto].
  - cbn [parse_loop]. cbn [length] in *. rewrite Nat2Z.inj_succ in *. pose proof (step_char_spec ok K p s m c MI ltac:(lia) SM) as H. destruct (step_char ok s m c) as [s1 m1|s1 m1|]; [| |exact H].
    + destruct H as (M1 & S1 & A1 & B1). specialize (IH (K + 1)%Z (pstep p c) s1 m1 M1 ltac:(lia) S1). replace (K + Z.succ (Z.of_nat (length r)))%Z with (K + 1 + Z.of_nat (length r))%Z by lia.
      destruct (parse_loop ok r s1 m1) as [s2 m2|s2 m2|]; [|exact IH|exact IH]. destruct IH as (M2 & S2 & A2 & B2). rewrite prun_cons. split; [exact M2|]. split; [exact S2|]. auto.
    + destruct H as (M1 & B1). split; [|exact B1]. eapply minv_le; [exact M1|lia].
Qed.
Lemma free_args_spec rest args : forall m, linv m (map fst args ++ rest) -> exists m', free_args m args = Some m' /\ linv m' rest /\ cm_calls m' = cm_calls m.
Proof.
  induction args as [|[p t] args IH]; intros m L; [exists m; auto|]. cbn [map fst app] in L. destruct (cfree_spec m p _ L) as (m1 & E1 & L1 & C1). cbn [free_args]. rewrite E1. destruct (IH m1 L1) as (m2 & E2 & L2 & C2). exists m2. split; [exact E2|]. split; [exact L2|congruence].
Qed.
Lemma free_loc_spec {A} (b : cbuf A) m rest : linv m (loc b ++ rest) -> exists m', free_loc m b = Some m' /\ linv m' rest /\ cm_calls m' = cm_calls m.
Proof.
  intro L. unfold free_loc, loc in *. destruct (b_loc b) as [p|]; [apply cfree_spec; exact L|exists m; auto].
Qed.
Lemma finish_core ok s m (failed : bool) K : minv K s m -> (failed = true -> anybad ok m) ->
  match (let '(cmdblock, m) := if failed then (None, m) else malloc ok m in
         let m2 := match cmdblock with Some _ => Some m | None => free_args m (rev (b_data (c_args s))) end in
         match m2 with
         | None => CUndef
         | Some m => match free_loc m (c_args s) with None => CUndef | Some m => match free_loc m (c_buf s) with None => CUndef | Some m => match cmdblock with Some p => CArray p (b_data (c_args s)) m | None => CNull m end end end
         end) with
  | CUndef => False
  | CNull m' => cm_live m' = [] /\ anybad ok m'
  | CArray p a m' => failed = false /\ a = b_data (c_args s) /\ linv m' (p :: map fst a) /\ (allok ok m -> allok ok m')
  end.
Proof.
  intros [_ _ ML] FB.
  assert (NULLCASE : forall m0, linv m0 (loc (c_args s) ++ loc (c_buf s) ++ map fst (b_data (c_args s))) -> anybad ok m0 ->
    match match free_args m0 (rev (b_data (c_args s))) with None => CUndef | Some m => match free_loc m (c_args s) with None => CUndef | Some m => match free_loc m (c_buf s) with None => CUndef | Some m => CNull m end end end with
    | CNull m' => cm_live m' = [] /\ anybad ok m' | _ => False end).
  { intros m0 L0 B0. destruct (free_args_spec (loc (c_args s) ++ loc (c_buf s)) (rev (b_data (c_args s))) m0) as (m1 & E1 & L1 & C1).
    { eapply linv_perm; [exact L0|]. rewrite app_assoc. etransitivity; [apply Permutation_app_comm|]. apply Permutation_app_tail, Permutation_map, Permutation_rev. }
    rewrite E1. destruct (free_loc_spec (c_args s) m1 _ L1) as (m2 & E2 & L2 & C2). rewrite E2. rewrite <- (app_nil_r (loc (c_buf s))) in L2. destruct (free_loc_spec (c_buf s) m2 _ L2) as (m3 & E3 & L3 & C3). rewrite E3.
    split; [destruct L3 as [P3 _ _]; apply Permutation_nil; symmetry; exact P3|]. apply (allok_calls ok m0 m3); [congruence|exact B0]. }
  destruct failed.
  - specialize (NULLCASE m ML (FB eq_refl)). cbn beta iota zeta in *. destruct (free_args m (rev (b_data (c_args s)))) as [m1|]; [|exact NULLCASE]. destruct (free_loc m1 (c_args s)) as [m2|]; [|exact NULLCASE]. destruct (free_loc m2 (c_buf s)) as [m3|]; exact NULLCASE.
  - pose proof (malloc_spec ok m _ ML) as MS. destruct (malloc ok m) as [[p|] m1].
    + destruct MS as (L1 & A1 & B1 & _). cbn beta iota zeta.
      destruct (free_loc_spec (c_args s) m1 (p :: loc (c_buf s) ++ map fst (b_data (c_args s)))) as (m2 & E2 & L2 & C2). { eapply linv_perm; [exact L1|]. apply Permutation_middle. }
      rewrite E2. destruct (free_loc_spec (c_buf s) m2 (p :: map fst (b_data (c_args s)))) as (m3 & E3 & L3 & C3). { eapply linv_perm; [exact L2|]. apply Permutation_middle. }
      rewrite E3. split; [reflexivity|]. split; [reflexivity|]. split; [exact L3|]. intro A. apply (allok_calls ok m1 m3); [congruence|auto].
    + destruct MS as (L1 & B1 & _). specialize (NULLCASE m1 L1 B1). cbn beta iota zeta in *. destruct (free_args m1 (rev (b_data (c_args s)))) as [m2|]; [|exact NULLCASE]. destruct (free_loc m2 (c_args s)) as [m3|]; [|exact NULLCASE]. destruct (free_loc m3 (c_buf s)) as [m4|]; exact NULLCASE.
Qed.

(** C106.  Any command line of less than 2^30 - 2 characters, any pattern of
    malloc failures: nothing undefined; NULL exactly if some malloc failed, and
    then nothing is left allocated; otherwise an array of the arguments the text
    means, each NUL-terminated in a block of its own, these and the array being
    all that is allocated. *)
Theorem C106_parse (ok : nat -> bool) (cmd : str) : (Z.of_nat (length (c_str cmd)) + 2 < 2 ^ 30)%Z ->
  match parse_command ok cmd 0 with
  | CUndef => False
  | CNull m => cm_live m = [] /\ exists n, n < cm_calls m /\ ok n = false
  | CArray p a m =>
    (exists args, means (c_str cmd) args /\ (forall args', means (c_str cmd) args' -> args' = args) /\ map snd a = map (fun x => x ++ [NUL]) args) /\
    Permutation (cm_live m) (p :: map fst a) /\ NoDup (p :: map fst a) /\ forall n, n < cm_calls m -> ok n = true
  end.
Proof.
  intro LT. unfold parse_command. cbn [Z.eqb negb]. set (t := c_str cmd) in *. clearbody t.
  assert (M0 : minv 0 cst0 cmem0).
  { constructor; [constructor; unfold blen; cbn; lia|constructor; unfold blen; cbn; lia|]. constructor; [constructor|constructor|]. intros p []. }
  assert (S0 : sim pst0 cst0) by (repeat split).
  pose proof (parse_loop_spec ok t 0 pst0 cst0 cmem0 M0 ltac:(unfold LIM; lia) S0) as PL. cbn [Z.add] in PL.
  set (K := Z.of_nat (length t)) in *.
  assert (A0 : allok ok cmem0) by (intros n H; cbn in H; lia).
  unfold finish. destruct (parse_loop ok t cst0 cmem0) as [s m|s m|]; [| |exact PL].
  - destruct PL as (MI & SM & AL & _). specialize (AL A0). destruct SM as (SA & SB & F1 & _). fold (pwords t).
    assert (FIN : forall s' m', minv (K + 1) s' m' -> allok ok m' -> map snd (b_data (c_args s')) = map (fun x => x ++ [NUL]) (pwords t) ->
      match (let '(cmdblock, m) := malloc ok m' in
         let m2 := match cmdblock with Some _ => Some m | None => free_args m (rev (b_data (c_args s'))) end in
         match m2 with
         | None => CUndef
         | Some m => match free_loc m (c_args s') with None => CUndef | Some m => match free_loc m (c_buf s') with None => CUndef | Some m => match cmdblock with Some p => CArray p (b_data (c_args s')) m | None => CNull m end end end
         end) with
      | CUndef => False
      | CNull m => cm_live m = [] /\ exists n, n < cm_calls m /\ ok n = false
      | CArray p a m => (exists args, means t args /\ (forall args', means t args' -> args' = args) /\ map snd a = map (fun x => x ++ [NUL]) args) /\ Permutation (cm_live m) (p :: map fst a) /\ NoDup (p :: map fst a) /\ forall n, n < cm_calls m -> ok n = true
      end).
    { intros s' m' MI' AL' AR. pose proof (finish_core ok s' m' false _ MI' ltac:(discriminate)) as FC. cbn beta iota in FC.
      match type of FC with match ?X with _ => _ end => destruct X as [m2|p a m2|] end; [exact FC| |exact FC].
      destruct FC as (_ & -> & [LP LN LL] & A2). split; [|split; [exact LP|split; [eapply Permutation_NoDup; [exact LP|exact LN]|apply A2; exact AL']]].
      exists (pwords t). split; [apply pwords_complete|]. split; [|exact AR]. intros args' H. apply means_iff in H. exact H. }
    destruct (c_arg s) eqn:CA.
    + pose proof (append_argument_spec ok K s m MI ltac:(unfold LIM; lia)) as AA. destruct (append_argument ok s m) as [s1 m1|s1 m1|]; [| |exact AA].
      * destruct AA as (M1 & D1 & AR & _ & _ & _ & _ & A1 & _). apply FIN; [exact M1|auto|]. rewrite AR, SA, SB. unfold pwords, pfin. rewrite <- F1. rewrite map_app. reflexivity.
      * destruct AA as (M1 & B1). pose proof (finish_core ok s1 m1 true _ M1 ltac:(auto)) as FC. cbn beta iota zeta in *.
        match type of FC with match ?X with _ => _ end => destruct X as [m2|p a m2|] end; [exact FC| |exact FC]. destruct FC as (X & _). discriminate.
    + apply FIN; [eapply minv_le; [exact MI|lia]|exact AL|]. rewrite SA. unfold pwords, pfin. rewrite <- F1. reflexivity.
  - destruct PL as (MI & AB).
    assert (FIN : forall s' m', minv (K + 1) s' m' -> anybad ok m' -> 
      match (let '(cmdblock, m) := (@None nat, m') in
         let m2 := match cmdblock with Some _ => Some m | None => free_args m (rev (b_data (c_args s'))) end in
         match m2 with
         | None => CUndef
         | Some m => match free_loc m (c_args s') with None => CUndef | Some m => match free_loc m (c_buf s') with None => CUndef | Some m => match cmdblock with Some p => CArray p (b_data (c_args s')) m | None => CNull m end end end
         end) with
      | CUndef => False
      | CNull m => cm_live m = [] /\ exists n, n < cm_calls m /\ ok n = false
      | CArray p a m => (exists args, means t args /\ (forall args', means t args' -> args' = args) /\ map snd a = map (fun x => x ++ [NUL]) args) /\ Permutation (cm_live m) (p :: map fst a) /\ NoDup (p :: map fst a) /\ forall n, n < cm_calls m -> ok n = true
      end).
    { intros s' m' MI' AL'. pose proof (finish_core ok s' m' true _ MI' ltac:(auto)) as FC. cbn beta iota zeta in *.
      match type of FC with match ?X with _ => _ end => destruct X as [m2|p a m2|] end; [exact FC| |exact FC]. destruct FC as (X & _). discriminate. }
    destruct (c_arg s) eqn:CA.
    + pose proof (append_argument_spec ok K s m MI ltac:(unfold LIM; lia)) as AA. destruct (append_argument ok s m) as [s1 m1|s1 m1|]; [| |exact AA].
      * destruct AA as (M1 & _ & _ & _ & _ & _ & _ & _ & B1). apply FIN; auto.
      * destruct AA as (M1 & B1). apply FIN; auto.
    + apply FIN; [eapply minv_le; [exact MI|lia]|exact AB].
Qed.
Print Assumptions C106_parse.

(** Other flags: NULL, and nothing was allocated. *)
Theorem C106_flags (ok : nat -> bool) (cmd : str) (flags : Z) : flags <> 0%Z -> parse_command ok cmd flags = CNull cmem0.
Proof. intro H. unfold parse_command. rewrite (proj2 (Z.eqb_neq flags 0) H). reflexivity. Qed.
Print Assumptions C106_flags.

(** A way to write any list of arguments: quote each, with a backslash before
    every quote and backslash, and put spaces between. *)
Definition quote (a : str) : str := "'"%char :: flat_map (fun c => if Ascii.eqb c "'" || Ascii.eqb c "\" then ["\"%char; c] else [c]) a ++ ["'"%char].
Fixpoint line (args : list str) : str := match args with [] => [] | [a] => quote a | a :: r => quote a ++ " "%char :: line r end.
Lemma quote_word a : word (quote a) a.
Proof.
  split; [discriminate|]. apply piece_pieces. apply p_single. induction a as [|c a IH]; [apply q_nil|]. cbn [flat_map].
  destruct (Ascii.eqb_spec c "'") as [->|N1]; cbn [orb app]; [apply q_esc; exact IH|]. destruct (Ascii.eqb_spec c "\") as [->|N2]; cbn [app]; [apply q_esc; exact IH|apply q_char; auto].
Qed.
Lemma line_command args : command (line args) args.
Proof.
  induction args as [|a r IH]; [apply cm_end; intros x []|]. destruct r as [|b r].
  - cbn [line]. rewrite <- (app_nil_r (quote a)). apply (cm_word [] (quote a) a [] []); [intros x []|apply quote_word|auto|apply cm_end; intros x []].
  - change (line (a :: b :: r)) with (quote a ++ " "%char :: line (b :: r)). apply (cm_word [] (quote a) a (" "%char :: line (b :: r))); [intros x []|apply quote_word|right; eauto|]. apply command_space; [reflexivity|exact IH].
Qed.
Lemma quoted_settled q r o : q <> "\"%char -> quoted q r o -> settled (q :: r ++ [q]).
Proof. intros N H. apply st_char; [exact N|]. induction H; cbn [app]; [apply st_char; [exact N|apply st_nil]|apply st_char; auto|apply st_esc; auto]. Qed.
Lemma settled_app a b : settled a -> settled b -> settled (a ++ b).
Proof. intros A B. induction A; cbn [app]; [exact B|apply st_char; auto|apply st_esc; auto]. Qed.
Lemma pieces_settled r o : pieces r o -> settled r.
Proof.
  induction 1 as [|a o r o' P H IH]; [apply st_nil|]. apply settled_app; [|exact IH]. destruct P; [apply st_char; [assumption|apply st_nil]|apply st_esc, st_nil| |]; eapply quoted_settled; try eassumption; discriminate.
Qed.
Lemma spaces_settled sp : spaces sp -> settled sp.
Proof. induction sp as [|c r IH]; intro H; [apply st_nil|]. apply st_char; [apply (proj1 (is_space_not c (H c (or_introl eq_refl))))|]. apply IH. intros x I. apply H. now right. Qed.
Lemma command_settled cmd args : command cmd args -> settled cmd.
Proof. induction 1 as [sp SP|sp raw o rest args SP (_ & W) _ H IH]; [apply spaces_settled; exact SP|]. apply settled_app; [apply spaces_settled; exact SP|]. apply settled_app; [eapply pieces_settled; exact W|exact IH]. Qed.
Lemma nonul_flat a : ~ In NUL a -> ~ In NUL (quote a).
Proof.
  intros N [I|I]; [discriminate|]. apply in_app_or in I. destruct I as [I|[I|[]]]; [|discriminate]. apply in_flat_map in I as (c & IC & I). destruct (Ascii.eqb c "'" || Ascii.eqb c "\").
  - destruct I as [I|[I|[]]]; [discriminate|]. subst c. auto.
  - destruct I as [I|[]]. subst c. auto.
Qed.
Lemma line_nonul args : (forall a, In a args -> ~ In NUL a) -> ~ In NUL (line args).
Proof.
  induction args as [|a r IH]; intros N; [intros []|]. destruct r as [|b r]; [apply nonul_flat, N; now left|].
  change (line (a :: b :: r)) with (quote a ++ " "%char :: line (b :: r)). intro I. apply in_app_or in I. destruct I as [I|[I|I]].
  - revert I. apply nonul_flat, N. now left.
  - discriminate.
  - revert I. apply IH. intros x X. apply N. now right.
Qed.
(** Complete command lines mean what the grammar says -- through the parser. *)
Theorem C106_complete (cmd : str) (args : list str) : ~ In NUL cmd -> (Z.of_nat (length cmd) + 2 < 2 ^ 30)%Z -> command cmd args ->
  exists p a m, parse_command (fun _ => true) cmd 0 = CArray p a m /\ map snd a = map (fun x => x ++ [NUL]) args.
Proof.
  intros NN LT C. pose proof (C106_parse (fun _ => true) cmd) as H. rewrite c_str_id in H by exact NN. specialize (H LT). destruct (parse_command (fun _ => true) cmd 0) as [m|p a m|]; [| |contradiction].
  - destruct H as (_ & n & _ & X). discriminate.
  - destruct H as ((args' & _ & U & E) & _). exists p, a, m. split; [reflexivity|]. rewrite E. f_equal. symmetry. apply U. exists cmd. split; [eapply command_settled; exact C|]. auto.
Qed.
Theorem C106_round_trip (args : list str) : (forall a, In a args -> ~ In NUL a) -> (Z.of_nat (length (line args)) + 2 < 2 ^ 30)%Z ->
  exists p a m, parse_command (fun _ => true) (line args) 0 = CArray p a m /\ map snd a = map (fun x => x ++ [NUL]) args.
Proof. intros NN LT. apply C106_complete; [apply line_nonul; exact NN|exact LT|apply line_command]. Qed.
Print Assumptions C106_complete.
Print Assumptions C106_round_trip.

(** Failure "never due to content": a word of 2^30 characters or more makes the
    size computation overflow. *)
Definition plain (c : ascii) : Prop := c <> "\"%char /\ c <> "'"%char /\ c <> """"%char /\ is_space c = false.
Lemma long_loop cmd : (forall c, In c cmd -> plain c) -> forall s m k, c_esc s = false -> c_single s = false -> c_double s = false -> (c_arg s = true \/ cmd <> []) ->
  (0 <= k <= 20)%Z -> b_size (c_buf s) = (2 ^ (10 + k))%Z -> (blen (c_buf s) <= b_size (c_buf s))%Z -> (2 ^ 30 <= blen (c_buf s) + Z.of_nat (length cmd))%Z ->
  finish (fun _ => true) (parse_loop (fun _ => true) cmd s m) = CUndef.
Proof.
  assert (GR : forall (b : cbuf ascii) m k c, (0 <= k <= 20)%Z -> b_size b = (2 ^ (10 + k))%Z -> (blen b <= b_size b)%Z ->
    append_byte (fun _ => true) m b c = CUB \/ exists b' m' k', append_byte (fun _ => true) m b c = COk b' m' /\ (0 <= k' <= 20)%Z /\ b_size b' = (2 ^ (10 + k'))%Z /\ (blen b' <= b_size b')%Z /\ blen b' = (blen b + 1)%Z /\ (blen b < 2 ^ 30)%Z).
  { intros b m k c KR SZ FIT. unfold append_byte, grow, blen in *. destruct (Z.leb_spec (b_size b) (Z.of_nat (length (b_data b)))) as [G|G].
    - assert (LE : Z.of_nat (length (b_data b)) = b_size b) by lia. cbn [andb].
      destruct (Z.ltb_spec INT_MAX (b_size b * 2)) as [Q|Q]; [auto|]. cbn [malloc].
      assert (K19 : (k < 20)%Z). { destruct (Z.eq_dec k 20) as [->|]; [|lia]. exfalso. rewrite SZ in Q. unfold INT_MAX in Q. change (2 ^ (10 + 20))%Z with (2 ^ 30)%Z in Q. lia. }
      assert (SZ2 : (b_size b * 2 = 2 ^ (10 + (k + 1)))%Z). { rewrite SZ. replace (10 + (k + 1))%Z with (Z.succ (10 + k)) by lia. rewrite Z.pow_succ_r by lia. lia. }
      assert (P1 : (0 < b_size b)%Z) by (rewrite SZ; apply Z.pow_pos_nonneg; lia).
      assert (B30 : (b_size b < 2 ^ 30)%Z) by (rewrite SZ; apply Z.pow_lt_mono_r; lia).
      destruct (Z.ltb_spec (b_size b * 2) (Z.of_nat (length (b_data b)))) as [Q2|_]; [lia|].
      assert (PUT : forall m1, put m1 (mkB (Some (cm_calls m)) (b_size b * 2)%Z (b_data b)) c = COk (mkB (Some (cm_calls m)) (b_size b * 2)%Z (b_data b ++ [c])) m1).
      { intro m1. unfold put. cbn [b_size b_data b_loc]. destruct (Z.leb_spec (b_size b * 2) (Z.of_nat (length (b_data b)))); [lia|reflexivity]. }
      assert (DONE : forall m1, exists b' m' k', COk (mkB (Some (cm_calls m)) (b_size b * 2)%Z (b_data b ++ [c])) m1 = COk b' m' /\ (0 <= k' <= 20)%Z /\ b_size b' = (2 ^ (10 + k'))%Z /\ (Z.of_nat (length (b_data b')) <= b_size b')%Z /\ Z.of_nat (length (b_data b')) = (Z.of_nat (length (b_data b)) + 1)%Z /\ (Z.of_nat (length (b_data b)) < 2 ^ 30)%Z).
      { intro m1. do 2 eexists. exists (k + 1)%Z. split; [reflexivity|]. cbn [b_size b_data]. rewrite app_length. cbn [length]. rewrite SZ2. repeat split; try lia. }
      destruct (b_loc b) as [q|].
      + destruct (cfree _ q) as [m2|]; [|auto]. right. rewrite PUT. apply DONE.
      + right. rewrite PUT. apply DONE.
    - right. unfold put. destruct (Z.leb_spec (b_size b) (Z.of_nat (length (b_data b)))) as [Q|_]; [lia|]. do 2 eexists. exists k. split; [reflexivity|]. cbn [b_size b_data]. rewrite app_length. cbn [length]. repeat split; try lia. assert (b_size b <= 2 ^ 30)%Z by (rewrite SZ; apply Z.pow_le_mono_r; lia). lia. }
  induction cmd as [|c r IH]; intros PL s m k E1 E2 E3 AR KR SZ FIT BIG.
  - cbn [parse_loop finish]. destruct AR as [AR|AR]; [|contradiction]. rewrite AR. unfold append_argument, step_byte. destruct (GR (c_buf s) m k NUL KR SZ FIT) as [H|(b' & m' & k' & H & _ & _ & _ & _ & LT)]; [rewrite H; reflexivity|]. cbn [length] in BIG. lia.
  - cbn [parse_loop]. destruct (PL c (or_introl eq_refl)) as (N1 & N2 & N3 & NS). unfold step_char. rewrite E1, (eqb_ne _ _ N1), (eqb_ne _ _ N2), (eqb_ne _ _ N3), NS. cbn [andb]. unfold step_byte. cbn [with_flags c_buf].
    destruct (GR (c_buf s) m k c KR SZ FIT) as [H|(b' & m' & k' & H & KR' & SZ' & FIT' & LEN & _)]; rewrite H; [reflexivity|].
    apply (IH (fun x I => PL x (or_intror I)) _ _ k'); cbn [with_buf with_flags c_esc c_single c_double c_arg c_buf]; auto. cbn [length] in BIG. lia.
Qed.
Theorem C106_long_word_refuted (cmd : str) : (forall c, In c cmd -> plain c /\ c <> NUL) -> (2 ^ 30 <= Z.of_nat (length cmd))%Z ->
  means cmd [cmd] /\ parse_command (fun _ => true) cmd 0 = CUndef.
Proof.
  intros PL BIG. assert (NE : cmd <> []) by (intros ->; cbn in BIG; lia). split.
  - exists cmd. assert (W : pieces cmd cmd). { clear BIG NE. induction cmd as [|c r IH]; [apply ps_nil|]. destruct (PL c (or_introl eq_refl)) as ((N1 & N2 & N3 & NS) & _). change (c :: r) with ([c] ++ r). apply ps_cons; [apply p_plain; assumption|]. apply IH. intros x I. apply PL. now right. }
    split; [eapply pieces_settled; exact W|]. split; [auto|]. left. rewrite <- (app_nil_r cmd) at 1. apply (cm_word [] cmd cmd [] []); [intros x []|split; assumption|auto|apply cm_end; intros x []].
  - unfold parse_command. cbn [Z.eqb negb]. rewrite c_str_id by (intro I; destruct (PL _ I) as (_ & X); congruence).
    apply (long_loop cmd) with (k := 0%Z); try reflexivity; auto; try lia. + intros c I. apply PL. exact I. + unfold blen. cbn. lia.
Qed.
Print Assumptions C106_long_word_refuted.
Example ex_long : exists cmd, (forall c, In c cmd -> plain c /\ c <> NUL) /\ (2 ^ 30 <= Z.of_nat (length cmd))%Z.
Proof.
  exists (repeat "a"%char (Z.to_nat (2 ^ 30))). split.
  - intros c I. apply repeat_spec in I. subst c. repeat split; discriminate.
  - rewrite repeat_length, Z2Nat.id by lia. lia.
Qed.

Example ex_command : command (L " prog 'a b\'c' ""d""e\ f  ''") [L "prog"; L "a b'c"; L "de f"; L ""].
Proof.
  assert (SP : forall n, spaces (repeat " "%char n)) by (intros n c I; apply repeat_spec in I; subst c; reflexivity).
  assert (PW : forall s, (forall c, In c s -> plain c) -> pieces s s).
  { induction s as [|c r IH]; intro H; [apply ps_nil|]. destruct (H c (or_introl eq_refl)) as (N1 & N2 & N3 & NS). change (c :: r) with ([c] ++ r). apply ps_cons; [apply p_plain; auto|]. apply IH. intros x I. apply H. now right. }
  change (L " prog 'a b\'c' ""d""e\ f  ''") with (repeat " "%char 1 ++ L "prog" ++ repeat " "%char 1 ++ L "'a b\'c'" ++ repeat " "%char 1 ++ L """d""e\ f" ++ repeat " "%char 2 ++ L "''" ++ []).
  apply cm_word; [apply SP|split; [discriminate|]|right; do 2 eexists; split; reflexivity|].
  { apply PW. intros c I. change (L "prog") with ["p"%char; "r"%char; "o"%char; "g"%char] in I. repeat (destruct I as [<-|I]; [repeat split; discriminate || reflexivity|]). destruct I. }
  apply cm_word; [apply SP|split; [discriminate|]|right; do 2 eexists; split; reflexivity|].
  { apply piece_pieces. apply (p_single (L "a b\'c")). repeat (apply q_char; [discriminate|discriminate|]). apply q_esc. apply q_char; [discriminate|discriminate|]. apply q_nil. }
  apply cm_word; [apply SP|split; [discriminate|]|right; do 2 eexists; split; reflexivity|].
  { apply (ps_cons (L """d""") (L "d") (L "e\ f") (L "e f")); [apply (p_double (L "d")); apply q_char; [discriminate|discriminate|apply q_nil]|].
    apply (ps_cons (L "e") (L "e") (L "\ f") (L " f")); [apply p_plain; discriminate || reflexivity|]. apply (ps_cons (L "\ ") (L " ") (L "f") (L "f")); [apply p_esc|]. apply piece_pieces. apply p_plain; discriminate || reflexivity. }
  apply cm_word; [apply SP|split; [discriminate|]|auto|apply cm_end; intros x []].
  apply piece_pieces. apply (p_single []). apply q_nil.
Qed.
(** Open ends. *)
Example ex_open : pwords (L "a 'b c") = [L "a"; L "b c"] /\ pwords (L "a b\") = [L "a"; L "b"] /\ pwords (L "\") = [] /\ pwords (L """\") = [L ""].
Proof. repeat split; reflexivity. Qed.
(** The fourth malloc fails: two arguments are given back. *)
Example ex_nomem : exists m, parse_command (fun n => negb (n =? 3)) (L "a b c") 0 = CNull m /\ cm_live m = [] /\ cm_calls m = 4.
Proof. exists (mkCM 4 []). split; [vm_compute; reflexivity|]. split; reflexivity. Qed.
