(** RegexMatch.v -- regmatch realises the first of the ways. *)
From Coq Require Import List Ascii Bool Arith Lia.
Import ListNotations.
From Verif Require Import Base RegexModel RegexSpec RegexAst RegexGen RegexGrammar RegexGrammar2 RegexCompile RegexLayout RegexWays.

Definition BL : list (option nat) := repeat None NSUBEXP.
Definition arr (f : nat -> list ev -> option nat) (e : list ev) : list (option nat) := map (fun n => f n e) (seq 0 NSUBEXP).
Definition okr (l : list way) (r : mres) : Prop :=
  match l with [] => exists i, r = MRes false (mkG i BL BL) | (j, e) :: _ => r = MRes true (mkG j (arr entered e) (arr left_at e)) end.
Lemma okr_app : forall a b r, a <> [] -> okr a r -> okr (a ++ b) r.
Proof. intros [|[j e] a] b r N H; [congruence|exact H]. Qed.
Lemma okr_true : forall l g, okr l (MRes true g) -> exists j e t, l = (j, e) :: t /\ g = mkG j (arr entered e) (arr left_at e).
Proof. intros [|[j e] t] g H; cbn in H; [destruct H; discriminate|]. injection H as ->. eauto. Qed.
Lemma okr_false : forall l g, okr l (MRes false g) -> l = [] /\ exists i, g = mkG i BL BL.
Proof. intros [|[j e] t] g H; cbn in H; [|discriminate]. destruct H as [i H]. injection H as ->. eauto. Qed.
Lemma okr_cases : forall l r, okr l r -> (l = [] /\ exists i, r = MRes false (mkG i BL BL)) \/ (exists j e t, l = (j, e) :: t /\ r = MRes true (mkG j (arr entered e) (arr left_at e))).
Proof. intros [|[j e] t] r H; [left; auto|right; eauto 6]. Qed.

Lemma lu_eq : forall {A} (l : list A) m x d, m < length l -> nth m (lupd l m x) d = x.
Proof. intros A l. induction l as [|a l IH]; intros m x d H; cbn in H; [lia|]. destruct m; [reflexivity|]. cbn. apply IH. lia. Qed.
Lemma lu_ne : forall {A} (l : list A) m n x d, n <> m -> nth n (lupd l m x) d = nth n l d.
Proof. intros A l. induction l as [|a l IH]; intros m n x d H; [destruct m; reflexivity|]. destruct m, n; try reflexivity; [congruence|]. cbn. apply IH. congruence. Qed.
Lemma hd_skipn : forall (l : str) n, hd NUL (skipn n l) = nth n l NUL.
Proof. induction l as [|a l IH]; intros [|n]; try reflexivity. cbn. apply IH. Qed.
Section M.
Context (s code : str).
Definition real (p i : nat) (l : list way) : Prop := exists n0, forall n, n0 <= n -> okr l (regmatch s code n (Some p) (mkG i BL BL)).
Definition branches_f (rm : option nat -> gst -> mres) : nat -> nat -> gst -> mres :=
  fix branches (k : nat) (p : nat) (g : gst) : mres :=
    match k with
    | O => MNoFuel
    | S k' =>
      match rm (Some (p + 3)) g with
      | MRes true g1 => MRes true g1
      | MRes false g1 =>
        let g2 := set_in g1 (g_in g) in
        match node_at code p with
        | None => MUB
        | Some (_, None) => MRes false g2
        | Some (_, Some q) =>
          match nth_error code q with
          | None => MUB
          | Some oq => if nat_of_ascii oq =? oBRANCH then branches k' q g2 else MRes false g2
          end
        end
      | e => e
      end
    end.
Lemma rm_branch : forall n p q oq g, is_node code p oBRANCH (Some q) -> nth_error code q = Some oq ->
  regmatch s code (S n) (Some p) g = if negb (nat_of_ascii oq =? oBRANCH) then regmatch s code n (Some (p + 3)) g else branches_f (regmatch s code n) (length code) p g.
Proof. intros n p q oq g H E. unfold is_node in H. cbn [regmatch]. rewrite H. cbn -[regmatch branches_f nat_of_ascii]. rewrite E. reflexivity. Qed.
Lemma node_op : forall p op nx, is_node code p op nx -> exists o, nth_error code p = Some o /\ nat_of_ascii o = op.
Proof.
  intros p op nx H. unfold is_node, node_at in H. destruct (nth_error code p) as [o|]; [|discriminate]. exists o. split; [reflexivity|].
  destruct (nth_error code (p + 1)); [|discriminate]. destruct (nth_error code (p + 2)); [|discriminate].
  destruct (_ =? 0); [congruence|]. destruct (_ =? oBACK); [destruct (_ <=? _)|]; congruence.
Qed.
Lemma node_lt : forall p op nx, is_node code p op nx -> p < length code.
Proof. intros p op nx H. destruct (node_op p op nx H) as (o & E & _). apply nth_error_Some. congruence. Qed.

(** Single nodes. *)
Lemma real_fail : forall p i, (forall n, exists i', regmatch s code (S n) (Some p) (mkG i BL BL) = MRes false (mkG i' BL BL)) -> real p i [].
Proof. intros p i H. exists 1. intros [|n] Hn; [lia|]. cbn [okr]. apply H. Qed.
Lemma real_step : forall p q i j l, (forall n, regmatch s code (S n) (Some p) (mkG i BL BL) = regmatch s code n (Some q) (mkG j BL BL)) -> real q j l -> real p i l.
Proof. intros p q i j l H [n0 R]. exists (S n0). intros [|n] Hn; [lia|]. rewrite H. apply R. lia. Qed.
Lemma real_pass : forall p q i l op, is_node code p op (Some q) -> op = oNOTHING \/ op = oBACK -> real q i l -> real p i l.
Proof. intros p q i l op H O R. apply (real_step p q i i); [|exact R]. intro n. unfold is_node in H. cbn [regmatch]. rewrite H. destruct O as [-> | ->]; reflexivity. Qed.
Lemma real_end : forall p i, is_node code p oEND None -> real p i [(i, [])].
Proof. intros p i H. exists 1. intros [|n] Hn; [lia|]. unfold is_node in H. cbn [regmatch]. rewrite H. reflexivity. Qed.
Lemma arr_nth : forall f e n, n < NSUBEXP -> nth n (arr f e) None = f n e.
Proof. intros f e n H. unfold arr. rewrite (nth_indep _ None (f 0 e)) by (rewrite map_length, seq_length; exact H). rewrite (map_nth (fun n => f n e)). now rewrite seq_nth. Qed.
Lemma arr_set : forall f e e' m x, m < NSUBEXP -> f m e = None -> f m e' = Some x -> (forall n, n <> m -> f n e' = f n e) -> lupd (arr f e) m (Some x) = arr f e'.
Proof.
  intros f e e' m x H N S1 S2. apply nth_ext with (d := None) (d' := None); [rewrite lupd_length; unfold arr; now rewrite !map_length|].
  intros n Hn. rewrite lupd_length in Hn. assert (L : length (arr f e) = NSUBEXP) by (unfold arr; now rewrite map_length, seq_length). rewrite L in Hn.
  rewrite (arr_nth f e' n Hn). destruct (Nat.eq_dec n m) as [->|Q].
  - rewrite lu_eq by lia. congruence.
  - rewrite lu_ne by congruence. rewrite arr_nth by exact Hn. symmetry. now apply S2.
Qed.
Lemma arr_same : forall f e e', (forall n, f n e' = f n e) -> arr f e = arr f e'.
Proof. intros. unfold arr. apply map_ext. intro. symmetry. auto. Qed.
Lemma rm_open : forall n p q m i l, is_node code p (oOPEN + m) (Some q) -> 1 <= m <= 9 -> okr l (regmatch s code n (Some q) (mkG i BL BL)) ->
  okr (map (fun '(j, e) => (j, e ++ [Enter m i])) l) (regmatch s code (S n) (Some p) (mkG i BL BL)).
Proof.
  intros n p q m i l H Hm R. unfold is_node in H. cbn [regmatch]. rewrite H. cbn [g_in].
  repeat match goal with |- context [if ?b then _ else _] => let B := fresh in assert (B : b = false) by (apply Nat.eqb_neq; ops) + (rewrite orb_false_iff, !Nat.eqb_neq; ops); rewrite B; clear B end.
  replace ((oOPEN + 1 <=? oOPEN + m) && (oOPEN + m <=? oOPEN + 9)) with true by (symmetry; rewrite andb_true_iff, !Nat.leb_le; ops).
  apply okr_cases in R. destruct R as [(-> & i' & ->)|(j & e & t & -> & ->)]; cbn [map okr].
  - eauto.
  - replace (oOPEN + m - oOPEN) with m by lia. cbn [g_start g_end g_in]. rewrite arr_nth by (unfold NSUBEXP; lia).
    rewrite <- (arr_same left_at e (e ++ [Enter m i])) by (intro; rewrite lef_app; cbn; now destruct (left_at n0 e)).
    destruct (entered m e) as [x|] eqn:Q.
    + rewrite <- (arr_same entered e (e ++ [Enter m i])); [reflexivity|]. intro k. rewrite ent_app. cbn. destruct (entered k e) eqn:Qk; [reflexivity|]. destruct (Nat.eqb_spec m k); [congruence|reflexivity].
    + rewrite <- (arr_set entered e (e ++ [Enter m i]) m i); [reflexivity|unfold NSUBEXP; lia|exact Q| |].
      * rewrite ent_app, Q. cbn. now rewrite Nat.eqb_refl.
      * intros k Hk. rewrite ent_app. cbn. destruct (entered k e); [reflexivity|]. destruct (Nat.eqb_spec m k); [congruence|reflexivity].
Qed.
Lemma rm_close : forall n p q m i l, is_node code p (oCLOSE + m) (Some q) -> 1 <= m <= 9 -> okr l (regmatch s code n (Some q) (mkG i BL BL)) ->
  okr (map (fun '(j, e) => (j, e ++ [Leave m i])) l) (regmatch s code (S n) (Some p) (mkG i BL BL)).
Proof.
  intros n p q m i l H Hm R. unfold is_node in H. cbn [regmatch]. rewrite H. cbn [g_in].
  assert (X : ((oOPEN + 1 <=? oCLOSE + m) && (oCLOSE + m <=? oOPEN + 9)) = false) by (rewrite andb_false_iff, !Nat.leb_gt; right; ops).
  repeat match goal with |- context [if ?b then _ else _] => first [rewrite X|let B := fresh in assert (B : b = false) by (apply Nat.eqb_neq; ops) + (rewrite orb_false_iff, !Nat.eqb_neq; ops); rewrite B; clear B] end.
  replace ((oCLOSE + 1 <=? oCLOSE + m) && (oCLOSE + m <=? oCLOSE + 9)) with true by (symmetry; rewrite andb_true_iff, !Nat.leb_le; ops).
  apply okr_cases in R. destruct R as [(-> & i' & ->)|(j & e & t & -> & ->)]; cbn [map okr].
  - eauto.
  - replace (oCLOSE + m - oCLOSE) with m by lia. cbn [g_start g_end g_in]. rewrite arr_nth by (unfold NSUBEXP; lia).
    rewrite <- (arr_same entered e (e ++ [Leave m i])) by (intro; rewrite ent_app; cbn; now destruct (entered n0 e)).
    destruct (left_at m e) as [x|] eqn:Q.
    + rewrite <- (arr_same left_at e (e ++ [Leave m i])); [reflexivity|]. intro k. rewrite lef_app. cbn. destruct (left_at k e) eqn:Qk; [reflexivity|]. destruct (Nat.eqb_spec m k); [congruence|reflexivity].
    + rewrite <- (arr_set left_at e (e ++ [Leave m i]) m i); [reflexivity|unfold NSUBEXP; lia|exact Q| |].
      * rewrite lef_app, Q. cbn. now rewrite Nat.eqb_refl.
      * intros k Hk. rewrite lef_app. cbn. destruct (left_at k e); [reflexivity|]. destruct (Nat.eqb_spec m k); [congruence|reflexivity].
Qed.
Lemma real_open : forall p q m i l, is_node code p (oOPEN + m) (Some q) -> 1 <= m <= 9 -> real q i l -> real p i (map (fun '(j, e) => (j, e ++ [Enter m i])) l).
Proof. intros p q m i l H Hm [n0 R]. exists (S n0). intros [|n] Hn; [lia|]. eapply rm_open; eauto. apply R. lia. Qed.
Lemma real_close : forall p q m i l, is_node code p (oCLOSE + m) (Some q) -> 1 <= m <= 9 -> real q i l -> real p i (map (fun '(j, e) => (j, e ++ [Leave m i])) l).
Proof. intros p q m i l H Hm [n0 R]. exists (S n0). intros [|n] Hn; [lia|]. eapply rm_close; eauto. apply R. lia. Qed.

(** Branches. *)
Definition notbr (q : nat) : Prop := exists o, nth_error code q = Some o /\ nat_of_ascii o <> oBRANCH.
Lemma real_last : forall p q i l, is_node code p oBRANCH (Some q) -> notbr q -> real (p + 3) i l -> real p i l.
Proof.
  intros p q i l H (o & E & N) R. apply (real_step p (p + 3) i i); [|exact R]. intro n. rewrite (rm_branch n p q o _ H E). now rewrite (proj2 (Nat.eqb_neq _ _) N).
Qed.
(** [chain p ps]: the branches from p on. *)
Inductive chain : nat -> list nat -> Prop :=
| ch_last p q : is_node code p oBRANCH (Some q) -> notbr q -> chain p [p]
| ch_more p q ps : is_node code p oBRANCH (Some q) -> p < q -> chain q ps -> chain p (p :: ps).
Lemma chain_head : forall p ps, chain p ps -> exists q, is_node code p oBRANCH (Some q).
Proof. intros p ps H. destruct H; eauto. Qed.
Lemma branches_ok : forall n i p ps ls, chain p ps -> Forall2 (fun p l => okr l (regmatch s code n (Some (p + 3)) (mkG i BL BL))) ps ls ->
  forall k, length code <= k + p -> okr (concat ls) (branches_f (regmatch s code n) k p (mkG i BL BL)).
Proof.
  intros n i p ps ls C. revert ls. induction C as [p q H N|p q ps H L1 C IH]; intros ls F k Hk; pose proof (node_lt _ _ _ H) as LT; destruct k as [|k]; try lia.
  - inversion F as [|? l ? ? O F']; subst. inversion F'; subst. cbn [concat branches_f]. rewrite app_nil_r. unfold is_node in H. rewrite H. destruct N as (o & E & N). rewrite E, (proj2 (Nat.eqb_neq _ _) N).
    apply okr_cases in O. destruct O as [(-> & i' & ->)|(j & e & t & -> & ->)]; [eexists; reflexivity|reflexivity].
  - inversion F as [|? l ? ls' O F']; subst. cbn [concat branches_f]. unfold is_node in H. rewrite H. destruct (chain_head _ _ C) as [q' HQ]. destruct (node_op _ _ _ HQ) as (o & E & N). rewrite E, N, Nat.eqb_refl.
    apply okr_cases in O. destruct O as [(-> & i' & ->)|(j & e & t & -> & ->)]; cbn [app okr set_in g_in g_start g_end].
    + apply IH; [exact F'|lia].
    + reflexivity.
Qed.
Lemma real_many : forall A (P : A -> nat -> Prop) (l : list A), (forall x, In x l -> exists n0, forall n, n0 <= n -> P x n) -> exists n0, forall n, n0 <= n -> forall x, In x l -> P x n.
Proof.
  intros A P l. induction l as [|x l IH]; intro H; [exists 0; intros n _ x []|].
  destruct (H x (or_introl eq_refl)) as [a Ha]. destruct IH as [b Hb]; [intros; apply H; now right|]. exists (max a b). intros n Hn y [<-|I0]; [apply Ha; lia|apply Hb; [lia|exact I0]].
Qed.
Lemma real_chain : forall i p ps ls, chain p ps -> Forall2 (fun p l => real (p + 3) i l) ps ls -> real p i (concat ls).
Proof.
  intros i p ps ls C F. inversion C as [p' q H N|p' q ps' H L1 C' E1 E2]; subst.
  - inversion F as [|? l ? ? O F']; subst. inversion F'; subst. cbn [concat]. rewrite app_nil_r. eapply real_last; eauto.
  - assert (FF : exists n0, forall n, n0 <= n -> Forall2 (fun p l => okr l (regmatch s code n (Some (p + 3)) (mkG i BL BL))) (p :: ps') ls).
    { clear - F. induction F as [|x l xs ls R F IH]; [exists 0; constructor|]. destruct R as [a R]. destruct IH as [b IH]. exists (max a b). intros n Hn. constructor; [apply R; lia|apply IH; lia]. }
    destruct FF as [n0 FF]. exists (S n0). intros [|n] Hn; [lia|]. destruct (chain_head _ _ C') as [q' HQ]. destruct (node_op _ _ _ HQ) as (o & E & N).
    rewrite (rm_branch n p q o _ H E). rewrite N, Nat.eqb_refl. cbn [negb]. apply branches_ok with (ps := p :: ps'); [exact C|apply FF; lia|lia].
Qed.
Lemma real_two : forall p b q i l1 l2, is_node code p oBRANCH (Some b) -> is_node code b oBRANCH (Some q) -> notbr q -> p < b -> real (p + 3) i l1 -> real (b + 3) i l2 -> real p i (l1 ++ l2).
Proof.
  intros p b q i l1 l2 H1 H2 N L1 R1 R2. rewrite <- (app_nil_r l2). change (l1 ++ l2 ++ []) with (concat [l1; l2]). apply real_chain with (ps := [p; b]).
  - eapply ch_more; [exact H1|exact L1|]. eapply ch_last; eauto.
  - repeat constructor; assumption.
Qed.

(** Repetition of one character. *)
Fixpoint lst (min i no : nat) : list way :=
  if no <? min then [] else (i + no, []) :: match no with O => [] | S n' => lst min i n' end.
Lemma star_ok : forall rest nextch min i no K,
  (forall d, min <= d <= no -> okr (K (i + d)) (rest (mkG (i + d) BL BL))) ->
  (forall d, min <= d <= no -> nextch <> NUL -> subj s (i + d) <> nextch -> K (i + d) = []) ->
  okr (ways_then (lst min i no) K) (star_loop rest s nextch min i no (mkG (i + no) BL BL)).
Proof.
  intros rest nextch min i no K. induction no as [|no IH]; intros R SK.
  - cbn [lst star_loop]. destruct (Nat.ltb_spec 0 min) as [L1|L1]; [cbn; eauto|].
    cbn [g_in]. rewrite wt_one. specialize (R 0 ltac:(lia)). specialize (SK 0 ltac:(lia)).
    destruct (Ascii.eqb_spec nextch NUL) as [Q|Q]; [|destruct (Ascii.eqb_spec (subj s (i + 0)) nextch) as [Q2|Q2]].
    + cbn [orb]. apply okr_cases in R. destruct R as [(-> & i' & ->)|(j & e & t & -> & ->)]; [eexists; reflexivity|reflexivity].
    + cbn [orb]. apply okr_cases in R. destruct R as [(-> & i' & ->)|(j & e & t & -> & ->)]; [eexists; reflexivity|reflexivity].
    + cbn [orb]. rewrite SK by assumption. cbn. eauto.
  - cbn [lst star_loop]. destruct (Nat.ltb_spec (S no) min) as [L1|L1]; [cbn; eauto|].
    cbn [g_in]. change ((i + S no, []) :: lst min i no) with ([(i + S no, @nil ev)] ++ lst min i no). rewrite wt_app, wt_one.
    pose proof (R (S no) ltac:(lia)) as R1. pose proof (SK (S no) ltac:(lia)) as S1.
    assert (G : forall i', okr (ways_then (lst min i no) K) (star_loop rest s nextch min i no (set_in (mkG i' BL BL) (i + no)))).
    { intro i'. unfold set_in. cbn [g_start g_end]. apply IH; [intros; apply R; lia|intros; apply SK; auto; lia]. }
    destruct (Ascii.eqb_spec nextch NUL) as [Q|Q]; [|destruct (Ascii.eqb_spec (subj s (i + S no)) nextch) as [Q2|Q2]].
    + cbn [orb]. apply okr_cases in R1. destruct R1 as [(-> & i' & ->)|(j & e & t & -> & ->)]; [cbn [app]; apply G|reflexivity].
    + cbn [orb]. apply okr_cases in R1. destruct R1 as [(-> & i' & ->)|(j & e & t & -> & ->)]; [cbn [app]; apply G|reflexivity].
    + cbn [orb]. rewrite S1 by assumption. cbn [app]. apply G.
Qed.
Lemma real_skip : forall q j l, real q j l -> forall o, nth_error code q = Some o -> nat_of_ascii o = oEXACTLY -> nth (q + 3) code NUL <> NUL -> subj s j <> nth (q + 3) code NUL -> l = [].
Proof.
  intros q j l [n0 R] o E O N1 N2. specialize (R (S n0) ltac:(lia)). cbn [regmatch] in R. destruct (node_at code q) as [[op nx]|] eqn:NA; [|destruct l as [|[? ?] ?]; cbn in R; [destruct R; discriminate|discriminate]].
  destruct (node_op q op nx NA) as (o' & E' & O'). assert (op = oEXACTLY) by congruence. subst op. cbn -[regmatch c_string] in R.
  rewrite H in R. cbn -[regmatch c_string] in R.
  destruct (c_string code (q + 3)) as [t|] eqn:CS; [|destruct l as [|[? ?] ?]; cbn in R; [destruct R; discriminate|discriminate]].
  assert (TH : (match t with [] => NUL | x :: _ => x end) = nth (q + 3) code NUL).
  { unfold c_string in CS. destruct (_ <? _); [|discriminate]. injection CS as <-. rewrite <- (hd_skipn code (q + 3)). destruct (skipn (q + 3) code) as [|c r]; [reflexivity|]. cbn [take_while hd]. destruct (Ascii.eqb_spec c NUL) as [->|]; [reflexivity|reflexivity]. }
  rewrite TH in R. destruct (Ascii.eqb_spec (nth (q + 3) code NUL) (subj s j)) as [Q|Q]; [congruence|]. cbn [negb] in R. apply okr_false in R. tauto.
Qed.
End M.
