(** RegexCompile2.v -- the result of compile. *)
From Coq Require Import List Ascii Bool Arith Lia.
Import ListNotations.
From Verif Require Import Base RegexModel RegexSpec RegexAst RegexGen RegexPass RegexSim RegexSim2 RegexSim3 RegexSim4 RegexGrammar RegexGrammar2 RegexGrammar3 RegexCompile.

(** The hints are those of the first branch when there is only one. *)
Definition hints (l : alts_t) (x : regexp) : Prop :=
  match l with
  | More _ _ => x_start x = NUL /\ x_anch x = false /\ x_must x = None
  | One b =>
    (x_start x = NUL \/ exists c s b', b = BCons (PAtom (ALit (c :: s))) b' /\ x_start x = c) /\
    (x_anch x = false \/ exists b', b = BCons (PAtom ABol) b') /\
    must_in (x_prog x) (lits b) (x_must x, x_mlen x)
  end.
Lemma first_op : forall p k, wf_piece p -> exists op rest, gpiece p k = byte op :: rest /\ op < 256 /\
  (op = oEXACTLY -> exists c s rest', p = PAtom (ALit (c :: s)) /\ rest = rest' /\ nth 3 (gpiece p k) NUL = c) /\ (op = oBOL -> p = PAtom ABol).
Proof.
  intros p k W.
  assert (AT : forall a, wf_atom a -> exists op rest, gatom a k = byte op :: rest /\ op < 256 /\ (op = oEXACTLY -> exists c s rest', a = ALit (c :: s) /\ rest = rest' /\ nth 3 (gatom a k) NUL = c) /\ (op = oBOL -> a = ABol)).
  { intros a Wa. destruct a as [| | |neg em cs|s|n l]; cbn [gatom].
    - exists oBOL. eexists. split; [reflexivity|]. split; [ops|]. split; [discriminate|reflexivity].
    - exists oEOL. eexists. split; [reflexivity|]. split; [ops|]. split; discriminate.
    - exists oANY. eexists. split; [reflexivity|]. split; [ops|]. split; discriminate.
    - exists (if neg then oANYBUT else oANYOF). eexists. split; [reflexivity|]. split; [destruct neg; ops|]. destruct neg; split; discriminate.
    - destruct Wa as [Ws _]. destruct s as [|c s]; [congruence|]. exists oEXACTLY. eexists. split; [reflexivity|]. split; [ops|]. split; [|discriminate]. intros _. eexists; eexists; eexists. repeat split; reflexivity.
    - destruct Wa as [Wn _]. exists (oOPEN + n). eexists. split; [reflexivity|]. split; [ops|]. split; intro; exfalso; ops. }
  destruct p as [a|a|a|a]; cbn [gpiece].
  - destruct (AT a W) as (op & rest & E & L1 & A & B). exists op, rest. rewrite E in *. repeat split; auto.
    + intro Q. destruct (A Q) as (c & s & r' & -> & K). exists c, s, r'. auto.
    + intro Q. now rewrite (B Q).
  - destruct (simple a).
    + exists oSTAR. eexists. split; [reflexivity|]. split; [ops|]. split; discriminate.
    + exists oBRANCH. eexists. split; [reflexivity|]. split; [ops|]. split; discriminate.
  - destruct (simple a) eqn:Sa.
    + exists oPLUS. eexists. split; [reflexivity|]. split; [ops|]. split; discriminate.
    + destruct W as (Wa & Ww & Wl). destruct a as [| | |neg em cs|s|n l]; try discriminate.
      * cbn in Sa. rewrite (Wl s eq_refl) in Sa. discriminate.
      * destruct Wa as [Wn _]. exists (oOPEN + n). eexists. split; [reflexivity|]. split; [ops|]. split; intro; exfalso; ops.
  - exists oBRANCH. eexists. split; [reflexivity|]. split; [ops|]. split; discriminate.
Qed.
Lemma first_op_b : forall b k, wf_branch b -> exists op rest, gbranch b k = byte op :: rest /\ op < 256 /\
  (op = oEXACTLY -> exists c s b', b = BCons (PAtom (ALit (c :: s))) b' /\ nth 3 (gbranch b k) NUL = c) /\ (op = oBOL -> exists b', b = BCons (PAtom ABol) b').
Proof.
  intros [|p b] k W.
  - exists oNOTHING. eexists. split; [reflexivity|]. split; [ops|]. split; discriminate.
  - destruct W as [Wp Wb]. destruct b as [|p' b']; cbn [gbranch].
    + destruct (first_op p k Wp) as (op & rest & E & L1 & A & B). exists op, rest. repeat split; auto.
      * intro Q. destruct (A Q) as (c & s & _ & -> & _ & K). exists c, s, BNil. auto.
      * intro Q. rewrite (B Q). eauto.
    + destruct (first_op p (Some 0) Wp) as (op & rest & E & L1 & A & B). exists op, (rest ++ gbranch (BCons p' b') k). rewrite E. repeat split; auto.
      * intro Q. destruct (A Q) as (c & s & _ & -> & _ & K). exists c, s, (BCons p' b'). split; [reflexivity|]. rewrite <- E. rewrite app_nth1; [exact K|]. cbn [gpiece gatom]. rewrite !app_length, len_node. cbn [length]. lia.
      * intro Q. rewrite (B Q). eauto.
Qed.
Definition okpass (e : str) (l : alts_t) (np : nat) : Prop := pa_reg (compile_fuel e) false e 1 = COk (l, [], np).
Lemma compile_ok : forall e, ~ In NUL e ->
  (exists l np, okpass e l np /\ wf_alts l /\
     if LIMIT <=? length (prog l) then compile e = COk None else exists x, compile e = COk (Some x) /\ x_prog x = prog l /\ hints l x) \/
  (pa_reg (compile_fuel e) false e 1 = CFail /\ compile e = COk None).
Proof.
  intros e N. pose proof B64_big as BB.
  pose proof (proj1 (sim_all (compile_fuel e))) as SR.
  pose proof (SR false [] e 1 None 0 [MAGIC] N (le_n _)) as K1.
  pose proof (fun z => SR false [] e 1 (Some []) z [MAGIC] N (le_n _)) as K2.
  pose proof (proj1 (pa_fuel (compile_fuel e)) false e 1 ltac:(unfold compile_fuel; lia)) as F.
  pose proof (proj1 (pa_wf (compile_fuel e)) false e 1) as W.
  unfold compile, okpass in *.
  change (regc MAGIC (mkR [] e 1 None 0)) with (COk (st [] e 1 None 0 [MAGIC])). cbn [cbind].
  destruct (pa_reg (compile_fuel e) false e 1) as [[[l t'] np']| | |] eqn:Q; try contradiction.
  2: { right. split; [reflexivity|]. now rewrite (K1 eq_refl). }
  left. assert (t' = []) by (destruct (compile_fuel e); [discriminate|]; cbn [pa_reg andb] in Q; cds Q; destruct s0; [|discriminate]; congruence). subst t'.
  destruct (W _ _ _ N (le_n _) eq_refl) as (Wl & _ & _). exists l, np'. split; [reflexivity|]. split; [exact Wl|].
  destruct (K1 I) as [d' E1]. rewrite E1.
  assert (LP : length (prog l) = 0 + length ([MAGIC] ++ greg false 1 l)) by reflexivity.
  assert (RS : r_size (st d' [] np' None 0 ([MAGIC] ++ greg false 1 l)) = length (prog l)) by reflexivity. rewrite !RS.
  destruct (LIMIT <=? length (prog l)) eqn:LIM0; [reflexivity|]. apply lim in LIM0.
  assert (RC : regc MAGIC (mkR [] e 1 (Some []) (length (prog l))) = COk (st [] e 1 (Some []) (length (prog l)) [MAGIC])).
  { unfold regc. cbn [r_code r_size length Nat.add]. destruct (Nat.leb_spec 1 (length (prog l))); [reflexivity|]. cbn in *. lia. }
  rewrite RC. cbn [cbind].
  destruct (K2 (length (prog l))) as [d2 E2]; [cbn [okc length]; rewrite LP in *; rewrite app_length in *; cbn [length] in *; lia|]. rewrite E2.
  unfold st at 1. cbn [r_code putc].
  change ([] ++ [MAGIC] ++ greg false 1 l) with (prog l).
  (* node 1 *)
  assert (LL : length (prog l) = 1 + length (galts l None None) + 3) by (unfold prog; cbn [length]; rewrite app_length, len_node, (len_alts l (Some 0) (Some 0)); lia).
  destruct l as [b|b l'].
  - cbn [wf_alts] in Wl. cbn [galts] in LL. rewrite app_length, len_node in LL.
    assert (PE : prog (One b) = [MAGIC] ++ node oBRANCH (3 + length (gbranch b None)) ++ gbranch b (Some 0) ++ node oEND 0).
    { unfold prog. cbn [galts link app]. rewrite Nat.add_0_r. reflexivity. }
    assert (N1 : node_at (prog (One b)) 1 = Some (oBRANCH, Some (4 + length (gbranch b None)))).
    { rewrite PE. match goal with |- node_at ([MAGIC] ++ _ ++ ?Y) _ = _ => pose proof (node_at_node [MAGIC] oBRANCH (3 + length (gbranch b None)) Y ltac:(ops) ltac:(ops) ltac:(lia)) as NN end. change (length [MAGIC]) with 1 in NN. rewrite NN. destruct (Nat.eqb_spec (3 + length (gbranch b None)) 0); [lia|reflexivity]. }
    rewrite N1.
    assert (N2 : node_at (prog (One b)) (4 + length (gbranch b None)) = Some (oEND, None)).
    { rewrite PE. replace ([MAGIC] ++ node oBRANCH (3 + length (gbranch b None)) ++ gbranch b (Some 0) ++ node oEND 0) with (([MAGIC] ++ node oBRANCH (3 + length (gbranch b None)) ++ gbranch b (Some 0)) ++ node oEND 0 ++ []) by (rewrite app_nil_r, <- !app_assoc; reflexivity).
      replace (4 + length (gbranch b None)) with (length ([MAGIC] ++ node oBRANCH (3 + length (gbranch b None)) ++ gbranch b (Some 0))) by (rewrite !app_length, len_node, (len_branch b (Some 0)); cbn [length]; lia).
      apply node_at_node; [ops|ops|lia]. }
    rewrite N2. rewrite Nat.eqb_refl.
    destruct (first_op_b b (Some 0) Wl) as (op & rest & EB & LO & A & B).
    assert (N4 : nth_error (prog (One b)) 4 = Some (byte op)) by (rewrite PE, EB; reflexivity).
    assert (N7 : nth 7 (prog (One b)) NUL = nth 3 (gbranch b (Some 0) ++ node oEND 0) NUL) by (rewrite PE; reflexivity).
    rewrite N4. rewrite nat_byte by exact LO.
    assert (N7' : op = oEXACTLY -> exists c s b', b = BCons (PAtom (ALit (c :: s))) b' /\ nth 7 (prog (One b)) NUL = c).
    { intro Qo. destruct (A Qo) as (c & s & b' & -> & K). exists c, s, b'. split; [reflexivity|]. rewrite N7, app_nth1; [exact K|].
      assert (3 < length (gbranch (BCons (PAtom (ALit (c :: s))) b') (Some 0))); [|lia]. rewrite len_branch. pose proof (szp_cons (PAtom (ALit (c :: s))) b') as SZ. cbn [szp] in SZ. rewrite SZ. cbn [gpiece gatom]. rewrite !app_length, len_node. cbn [length]. lia. }
    assert (ST : (if op =? oEXACTLY then nth 7 (prog (One b)) NUL else NUL) = NUL \/ exists c s b', b = BCons (PAtom (ALit (c :: s))) b' /\ (if op =? oEXACTLY then nth 7 (prog (One b)) NUL else NUL) = c).
    { destruct (Nat.eqb_spec op oEXACTLY) as [Qo|]; [right; exact (N7' Qo)|now left]. }
    assert (AN : (if op =? oEXACTLY then false else op =? oBOL) = false \/ exists b', b = BCons (PAtom ABol) b').
    { destruct (op =? oEXACTLY); [now left|]. destruct (Nat.eqb_spec op oBOL) as [Qo|]; [right; exact (B Qo)|now left]. }
    cbn [f_sp]. destruct (sp_alts (One b)).
    + destruct (must_b b ([MAGIC] ++ node oBRANCH (3 + length (gbranch b None))) (lits b) Wl ltac:(lia) (prog (One b)) ltac:(rewrite PE, <- app_assoc; reflexivity) (incl_refl _) (S (length (prog (One b)))) None 0 ltac:(lia) I) as ((must & len) & EM & MI).
      change (length ([MAGIC] ++ node oBRANCH (3 + length (gbranch b None)))) with 4 in EM. rewrite EM. cbn [cbind]. eexists. split; [reflexivity|]. split; [reflexivity|]. cbn [hints x_start x_anch x_must x_mlen x_prog]. auto.
    + eexists. split; [reflexivity|]. split; [reflexivity|]. cbn [hints x_start x_anch x_must x_mlen x_prog]. repeat split; auto.
  - destruct Wl as [Wb Wl]. destruct (len_one_more b l') as [_ LM].
    assert (PE : prog (More b l') = [MAGIC] ++ node oBRANCH (3 + length (gbranch b None)) ++ (gbranch b (Some (length (galts l' None None) + 0)) ++ galts l' (Some 0) (Some 0) ++ node oEND 0)).
    { unfold prog. cbn [galts plusk app]. f_equal. rewrite <- !app_assoc. reflexivity. }
    rewrite LM in LL. cbn [galts] in LL. rewrite app_length, len_node in LL.
    assert (N1 : node_at (prog (More b l')) 1 = Some (oBRANCH, Some (4 + length (gbranch b None)))).
    { rewrite PE. match goal with |- node_at ([MAGIC] ++ _ ++ ?Y) _ = _ => pose proof (node_at_node [MAGIC] oBRANCH (3 + length (gbranch b None)) Y ltac:(ops) ltac:(ops) ltac:(lia)) as NN end. change (length [MAGIC]) with 1 in NN. rewrite NN. destruct (Nat.eqb_spec (3 + length (gbranch b None)) 0); [lia|reflexivity]. }
    rewrite N1.
    assert (N2 : exists nx, node_at (prog (More b l')) (4 + length (gbranch b None)) = Some (oBRANCH, nx)).
    { assert (GE : exists off Y, galts l' (Some 0) (Some 0) = node oBRANCH off ++ Y /\ off < B64).
      { destruct l' as [b2|b2 l2]; cbn [galts link] in *; eexists; eexists; (split; [rewrite <- ?app_assoc; reflexivity|]); rewrite !app_length, len_node in LL; cbn [plusk] in LL; lia. }
      destruct GE as (off & Y & GE & LO). rewrite PE, GE. rewrite <- app_assoc.
      set (B1 := gbranch b (Some (length (galts l' None None) + 0))). assert (LB : length B1 = length (gbranch b None)) by apply len_branch.
      replace ([MAGIC] ++ node oBRANCH (3 + length (gbranch b None)) ++ B1 ++ node oBRANCH off ++ Y ++ node oEND 0) with (([MAGIC] ++ node oBRANCH (3 + length (gbranch b None)) ++ B1) ++ node oBRANCH off ++ Y ++ node oEND 0) by asc.
      replace (4 + length (gbranch b None)) with (length ([MAGIC] ++ node oBRANCH (3 + length (gbranch b None)) ++ B1)) by (rewrite !app_length, len_node, LB; cbn [length]; lia).
      rewrite node_at_node by (try ops; lia). eexists. reflexivity. }
    destruct N2 as [nx N2]. rewrite N2. cbn [Nat.eqb oBRANCH oEND]. eexists. split; [reflexivity|]. split; [reflexivity|]. cbn. auto.
Qed.
