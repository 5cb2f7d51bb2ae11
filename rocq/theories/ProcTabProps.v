(** ProcTabProps.v -- C137: the table of processes and the signal handlers. *)
From Coq Require Import List Arith ZArith Bool Lia.
Import ListNotations.
From Verif Require Import Base ProcTabModel ProcTabSpec.
Open Scope nat_scope.

Lemma slot_app a pre x post : cells a = pre ++ Some x :: post -> slot a (length pre) = Some x.
Proof. intro E. unfold slot. rewrite E, nth_error_app2, Nat.sub_diag by lia. reflexivity. Qed.
Lemma lupd_app {A} (pre : list A) x v post : lupd (pre ++ x :: post) (length pre) v = pre ++ v :: post.
Proof. induction pre as [|y pre IH]; [reflexivity|]. cbn [app length lupd]. now rewrite IH. Qed.
Lemma put_app a pre x post v : cells a = pre ++ x :: post -> exists a', put_slot a (length pre) v = Some a' /\ cells a' = pre ++ Some v :: post.
Proof.
  intro E. unfold put_slot. rewrite E. replace (length pre <? length (pre ++ x :: post)) with true by (symmetry; apply Nat.ltb_lt; rewrite app_length; cbn; lia).
  eexists. split; [reflexivity|]. cbn [cells]. apply lupd_app.
Qed.
Lemma mem_in q l : mem q l = true <-> In q l.
Proof.
  unfold mem. rewrite existsb_exists. split.
  - intros (x & I & E). apply Nat.eqb_eq in E. now subst.
  - intro I. exists q. split; [exact I|apply Nat.eqb_refl].
Qed.
Lemma notify_spec l : forall pre a p rest, cells a = pre ++ map Some l ++ rest ->
  exists p', notify (length l) (length pre) a p = Some p' /\ forall q, p' q = if mem q l then Nat.max 1 (p q) else p q.
Proof.
  induction l as [|x l IH]; intros pre a p rest E; cbn [length notify].
  - exists p. split; [reflexivity|]. reflexivity.
  - cbn [map app] in E. rewrite (slot_app _ _ _ _ E). destruct (IH (pre ++ [Some x]) a (set_pend p x (p x - 1 + 1)) rest) as (p' & N & V).
    { rewrite <- app_assoc. exact E. }
    rewrite app_length, Nat.add_1_r in N. exists p'. split; [exact N|]. intro q. rewrite V. unfold set_pend. cbn [mem existsb]. fold (mem q l).
    destruct (Nat.eqb_spec q x) as [Q|Q]; cbn [orb]; [subst q; destruct (mem x l); lia|reflexivity].
Qed.
Lemma find_spec l : forall pre a rest cp, cells a = map Some pre ++ map Some l ++ rest ->
  (find_slot (length l) (length pre) a cp = Some None /\ ~ In cp l) \/
  exists x y, l = x ++ cp :: y /\ ~ In cp x /\ find_slot (length l) (length pre) a cp = Some (Some (length pre + length x)).
Proof.
  induction l as [|z l IH]; intros pre a rest cp E; cbn [length find_slot].
  - left. split; [reflexivity|]. intros [].
  - cbn [map app] in E. pose proof (slot_app _ _ _ _ E) as SL. rewrite map_length in SL. rewrite SL. destruct (Nat.eqb_spec z cp) as [Q|Q].
    + subst z. right. exists [], l. split; [reflexivity|]. split; [intros []|]. cbn [length]. now rewrite Nat.add_0_r.
    + destruct (IH (pre ++ [z]) a rest cp) as [(F & N)|(x & y & L & N & F)].
      * rewrite map_app, <- app_assoc. exact E.
      * left. rewrite app_length, Nat.add_1_r in F. split; [exact F|]. intros [X|X]; contradiction.
      * right. exists (z :: x), y. rewrite app_length, Nat.add_1_r in F. split; [cbn; congruence|]. split; [intros [X|X]; contradiction|]. rewrite F. cbn [length]. f_equal. f_equal. lia.
Qed.
Lemma shift_spec j : forall pre a c y rest, cells a = pre ++ Some c :: map Some y ++ rest -> j <= length y ->
  exists a' c', shift j (length pre) a = Some a' /\ cells a' = pre ++ map Some (firstn j y) ++ Some c' :: map Some (skipn j y) ++ rest /\ (c' = c \/ In c' y).
Proof.
  induction j as [|j IH]; intros pre a c y rest E J; cbn [shift].
  - exists a, c. split; [reflexivity|]. cbn [firstn skipn map app]. auto.
  - destruct y as [|y0 y]; [cbn in J; lia|]. cbn [length] in J. cbn [map app] in E.
    assert (SL : slot a (S (length pre)) = Some y0).
    { pose proof (slot_app a (pre ++ [Some c]) y0 (map Some y ++ rest)) as H. rewrite app_length, Nat.add_1_r in H. apply H. rewrite <- app_assoc. exact E. }
    rewrite SL. destruct (put_app _ _ _ _ y0 E) as (a1 & P & E1). rewrite P.
    destruct (IH (pre ++ [Some y0]) a1 y0 y rest) as (a' & c' & S1 & E' & C).
    { rewrite <- app_assoc. exact E1. }
    { lia. }
    rewrite app_length, Nat.add_1_r in S1. exists a', c'. split; [exact S1|]. cbn [firstn skipn map app]. rewrite <- app_assoc in E'. split; [exact E'|].
    right. destruct C as [C|C]; [left; congruence|right; exact C].
Qed.
Lemma remove_first_not cp l : ~ In cp l -> remove_first cp l = l.
Proof. induction l as [|y l IH]; intro N; [reflexivity|]. cbn. destruct (Nat.eqb_spec y cp); [destruct N; now left|]. f_equal. apply IH. intro X. apply N. now right. Qed.
Lemma remove_first_app cp x y : ~ In cp x -> remove_first cp (x ++ cp :: y) = x ++ y.
Proof. induction x as [|z x IH]; intro N; cbn; [now rewrite Nat.eqb_refl|]. destruct (Nat.eqb_spec z cp); [destruct N; now left|]. f_equal. apply IH. intro X. apply N. now right. Qed.

Record tinv (c0 i0 t0 : action) (l : list nat) (b m : nat -> bool) (cyc : nat) (t : tab) : Prop := {
  ti_count : count t = length l;
  ti_cells : exists rest, cells (arr t) = map Some l ++ rest;
  ti_size : length (cells (arr t)) = size t;
  ti_empty : l = [] -> arr t = None;
  ti_le : forall q, pend t q <= 1;
  ti_told : forall q, b q = true -> pend t q = 1;
  ti_not : forall q, m q = false -> pend t q = 0;
  ti_oldt : old_term t = Default;
  ti_on : l <> [] -> act_chld t = Ours /\ act_int t = Ours /\ act_term t = Ours /\ old_chld t = c0 /\ old_int t = match cyc with 0 => t0 | _ => Default end;
  ti_off : l = [] -> act_chld t = c0 /\ act_int t = match cyc with 0 => i0 | 1 => t0 | _ => Default end /\ act_term t = match cyc with 0 => t0 | _ => Default end }.
Definition cyc_step (l : list nat) (ev : tev * Z) : nat := if nonempty l && negb (nonempty (reg_step l ev)) then 1 else 0.
Lemma on_child_spec c0 i0 t0 l b m cyc t l' a rest : tinv c0 i0 t0 l b m cyc t -> length l' = length l -> cells a = map Some l' ++ rest ->
  exists p, on_child (count t) a t = Some p /\ forall q, p q = if mem q l' then 1 else pend t q.
Proof.
  intros I LN E. unfold on_child. rewrite (ti_count _ _ _ _ _ _ _ _ I), <- LN. destruct l' as [|x l'].
  - destruct (act_chld t); exists (pend t); split; reflexivity.
  - destruct (ti_on _ _ _ _ _ _ _ _ I) as (A & _); [intro Z0; subst l; discriminate|]. rewrite A. destruct (notify_spec (x :: l') [] a (pend t) rest E) as (p & N & V).
    exists p. split; [exact N|]. intro q. rewrite V. pose proof (ti_le _ _ _ _ _ _ _ _ I q). destruct (mem q (x :: l')); lia.
Qed.
Lemma step_spec c0 i0 t0 l b m cyc t e : tinv c0 i0 t0 l b m cyc t -> exists t' v, tab_step e t = Some (t', v) /\
  tinv c0 i0 t0 (reg_step l (e, v)) (fun q => told_step q (b q) (l, (e, v))) (fun q => maybe_step q (m q) (l, (e, v))) (cyc + cyc_step l (e, v)) t' /\
  match e with EAdd _ pipes alloc => (v = 0 \/ v = 1)%Z /\ (pipes && alloc = true -> v = 1%Z) /\ (pipes = false -> v = 0%Z) | _ => v = 0%Z end.
Proof.
  intro I. pose proof I as [CN CE SZ EM LE TD NT OT ON OFF]. destruct e as [cp pipes alloc|cp sig| |cp]; cbn [tab_step].
  - unfold tab_add. cbn [count size arr act_chld act_int act_term old_chld old_int old_term pend].
    assert (FAIL : tinv c0 i0 t0 l (fun q => if q =? cp then false else b q) (fun q => if q =? cp then false else m q) (cyc + 0)
      (Tab (count t) (size t) (arr t) (act_chld t) (act_int t) (act_term t) (old_chld t) (old_int t) (old_term t) (set_pend (pend t) cp 0))).
    { rewrite Nat.add_0_r. constructor; cbn [count size arr act_chld act_int act_term old_chld old_int old_term pend]; auto; unfold set_pend; intro q; destruct (Nat.eqb q cp); auto; discriminate. }
    assert (CF : cyc_step l (EAdd cp pipes alloc, 0%Z) = 0) by (unfold cyc_step; cbn; destruct l; reflexivity).
    destruct pipes; cbn [negb].
    2: { eexists _, _. split; [reflexivity|]. split; [rewrite CF; exact FAIL|]. split; [auto|]. split; [discriminate|reflexivity]. }
    destruct CE as (rest & CE). assert (GR : (count t =? size t) = true -> rest = []).
    { intro G. apply Nat.eqb_eq in G. rewrite CE, app_length, map_length in SZ. destruct rest; [reflexivity|cbn in SZ; lia]. }
    set (grow := count t =? size t) in *. destruct (grow && negb alloc) eqn:GA.
    { eexists _, _. split; [reflexivity|]. split; [rewrite CF; exact FAIL|]. split; [auto|]. split; [|discriminate]. apply andb_true_iff in GA. destruct GA as (_ & GA). cbn [andb]. intro A. rewrite A in GA. discriminate. }
    set (size' := if grow then if size t =? 0 then 4 else size t * 2 else size t).
    assert (S1 : count t < size').
    { unfold size'. destruct grow eqn:G; unfold grow in G; [apply Nat.eqb_eq in G; destruct (Nat.eqb_spec (size t) 0); lia|apply Nat.eqb_neq in G]. rewrite CE, app_length, map_length in SZ. lia. }
    assert (OB : grow && negb ((count t <=? length (cells (arr t))) && (count t <=? size')) = false).
    { replace (count t <=? size') with true by (symmetry; apply Nat.leb_le; lia). rewrite andb_true_r.
      replace (count t <=? length (cells (arr t))) with true; [apply andb_false_r|]. symmetry. apply Nat.leb_le. rewrite CE, app_length, map_length. lia. }
    rewrite OB. set (a := if grow then _ else _).
    assert (CA : exists x rest', cells a = map Some l ++ x :: rest' /\ length (cells a) = size').
    { unfold a. destruct grow eqn:G.
      - rewrite (GR eq_refl), app_nil_r in CE. cbn [cells]. rewrite CE, firstn_all2 by (rewrite map_length; lia). destruct (size' - count t) as [|k] eqn:K; [lia|].
        exists None, (repeat None k). split; [reflexivity|]. rewrite app_length, map_length, repeat_length. lia.
      - rewrite CE. unfold size' in S1. rewrite CE, app_length, map_length in SZ. destruct rest as [|x rest]; [cbn in SZ; lia|]. exists x, rest. split; [reflexivity|]. rewrite app_length, map_length. unfold size'. lia. }
    destruct CA as (x & rest' & CA & LA). destruct (put_app a (map Some l) x rest' cp CA) as (a' & P & CA'). rewrite map_length in P. rewrite CN, P.
    assert (LA' : length (cells a') = size') by (rewrite <- LA, CA, CA', !app_length; reflexivity).
    assert (C1 : cyc_step l (EAdd cp true alloc, 1%Z) = 0) by (unfold cyc_step; cbn [reg_step]; destruct l; reflexivity).
    assert (REST : forall t', (count t' = S (length l) /\ size t' = size' /\ arr t' = a' /\ pend t' = set_pend (pend t) cp 0 /\ old_term t' = Default /\
      act_chld t' = Ours /\ act_int t' = Ours /\ act_term t' = Ours /\ old_chld t' = c0 /\ old_int t' = match cyc with 0 => t0 | _ => Default end) ->
      tinv c0 i0 t0 (l ++ [cp]) (fun q => if q =? cp then false else b q) (fun q => if q =? cp then false else m q) (cyc + 0) t').
    { intros t' (T1 & T2 & T3 & T4 & T5 & T6). rewrite Nat.add_0_r. constructor; rewrite ?T1, ?T2, ?T3, ?T4.
      - rewrite app_length. cbn. lia.
      - exists rest'. rewrite CA', map_app, <- app_assoc. reflexivity.
      - exact LA'.
      - intro X. destruct l; discriminate.
      - intro q. unfold set_pend. destruct (Nat.eqb q cp); [lia|apply LE].
      - intro q. unfold set_pend. destruct (Nat.eqb q cp); [discriminate|apply TD].
      - intro q. unfold set_pend. destruct (Nat.eqb q cp); [reflexivity|apply NT].
      - exact T5.
      - intro. exact T6.
      - intro X. destruct l; discriminate. }
    assert (FIN : exists t' v, (if S (length l) =? 1 then Some (Tab (S (length l)) size' a' Ours Ours Ours (act_chld t) (act_term t) (old_term t) (set_pend (pend t) cp 0), 1%Z)
       else Some (Tab (S (length l)) size' a' (act_chld t) (act_int t) (act_term t) (old_chld t) (old_int t) (old_term t) (set_pend (pend t) cp 0), 1%Z)) = Some (t', v) /\ v = 1%Z /\
       tinv c0 i0 t0 (l ++ [cp]) (fun q => if q =? cp then false else b q) (fun q => if q =? cp then false else m q) (cyc + 0) t').
    { destruct l as [|z l]; cbn [length Nat.eqb].
      - destruct (OFF eq_refl) as (O1 & O2 & O3). eexists _, _. split; [reflexivity|]. split; [reflexivity|]. apply REST. cbn. rewrite O1, O3. repeat split; try assumption.
      - destruct ON as (O1 & O2 & O3 & O4 & O5); [discriminate|]. eexists _, _. split; [reflexivity|]. split; [reflexivity|]. apply REST. cbn. rewrite O1, O2, O3, O4, O5. repeat split; assumption. }
    destruct FIN as (t' & v & F & V & T). exists t', v. split; [exact F|]. subst v. split; [rewrite C1; exact T|]. split; [auto|]. split; [reflexivity|discriminate].
  - destruct CE as (rest & CE). unfold tab_remove. pose proof (find_spec l [] (arr t) rest cp CE) as F. cbn [length Nat.add] in F. rewrite CN. destruct F as [(F & N)|(x & y & LX & NX & F)]; rewrite F.
    + assert (C1 : cyc_step l (ERemove cp sig, 0%Z) = 0) by (unfold cyc_step; cbn [reg_step]; rewrite (remove_first_not cp l N); destruct l; reflexivity).
      destruct sig as [j|].
      * destruct (on_child_spec _ _ _ _ _ _ _ _ l (arr t) rest I eq_refl CE) as (p & P & V). rewrite CN in P. rewrite P. eexists _, _. split; [reflexivity|]. split; [|reflexivity]. rewrite C1, Nat.add_0_r.
        cbn [reg_step told_step maybe_step fst snd]. rewrite (remove_first_not cp l N). constructor; cbn [count size arr act_chld act_int act_term old_chld old_int old_term pend]; auto.
        -- exists rest. exact CE.
        -- intro q. rewrite V. destruct (mem q l); [lia|apply LE].
        -- intro q. rewrite V. destruct (mem q l); [reflexivity|apply TD].
        -- intro q. rewrite V. destruct (mem q l); [discriminate|apply NT].
      * exists t, 0%Z. split; [reflexivity|]. split; [|reflexivity]. rewrite C1, Nat.add_0_r. cbn [reg_step told_step maybe_step fst snd]. rewrite (remove_first_not cp l N).
        constructor; auto. exists rest. exact CE.
    + assert (CEX : cells (arr t) = map Some x ++ Some cp :: map Some y ++ rest) by (rewrite CE, LX, map_app, <- app_assoc; reflexivity).
      assert (LL : length l - 1 - length x = length y) by (rewrite LX, app_length; cbn; lia). rewrite LL.
      assert (SEEN : exists p, match sig with None => Some (pend t) | Some j => match shift (Nat.min j (length y)) (length x) (arr t) with Some a => on_child (length l) a t | None => None end end = Some p /\
        (forall q, p q <= 1) /\ (forall q, told_step q (b q) (l, (ERemove cp sig, 0%Z)) = true -> p q = 1) /\ (forall q, maybe_step q (m q) (l, (ERemove cp sig, 0%Z)) = false -> p q = 0)).
      { destruct sig as [j|].
        - destruct (shift_spec (Nat.min j (length y)) (map Some x) (arr t) cp y rest CEX ltac:(lia)) as (a' & c' & SH & CA & CC). rewrite map_length in SH. rewrite SH.
          set (k := Nat.min j (length y)) in *. set (lv := x ++ firstn k y ++ c' :: skipn k y).
          assert (LLV : length lv = length l). { unfold lv. rewrite LX, !app_length. cbn [length]. pose proof (firstn_skipn k y) as FS. apply (f_equal (@length nat)) in FS. rewrite app_length in FS. lia. }
          destruct (on_child_spec _ _ _ _ _ _ _ _ lv a' rest I LLV) as (p & P & V).
          { rewrite CA. unfold lv. rewrite !map_app. cbn [map]. rewrite <- !app_assoc. reflexivity. }
          rewrite CN in P. exists p. split; [exact P|]. cbn [told_step maybe_step fst snd].
          assert (SUB : forall q, mem q (remove_first cp l) = true -> mem q lv = true).
          { intros q H. rewrite LX, (remove_first_app _ _ _ NX) in H. rewrite mem_in in H |- *. unfold lv. apply in_app_or in H. destruct H as [H|H]; [apply in_or_app; now left|].
            rewrite <- (firstn_skipn k y) in H. apply in_or_app. right. apply in_app_or in H. apply in_or_app. destruct H as [H|H]; [now left|right; now right]. }
          assert (SUP : forall q, mem q lv = true -> mem q l = true).
          { intros q H. rewrite mem_in in H |- *. rewrite LX. unfold lv in H. apply in_app_or in H. destruct H as [H|H]; [apply in_or_app; now left|]. apply in_or_app. right.
            apply in_app_or in H. destruct H as [H|[H|H]].
            - right. rewrite <- (firstn_skipn k y). apply in_or_app. now left.
            - subst c'. destruct CC as [C|C]; [left; congruence|now right].
            - right. rewrite <- (firstn_skipn k y). apply in_or_app. now right. }
          split; [|split].
          + intro q. rewrite V. destruct (mem q lv); [lia|apply LE].
          + intro q. rewrite V. destruct (mem q (remove_first cp l)) eqn:MR; [rewrite (SUB _ MR); reflexivity|]. intro B. destruct (mem q lv); [reflexivity|apply TD; exact B].
          + intro q. rewrite V. destruct (mem q l) eqn:ML; [discriminate|]. intro B. destruct (mem q lv) eqn:MV; [apply SUP in MV; congruence|apply NT; exact B].
        - exists (pend t). split; [reflexivity|]. cbn [told_step maybe_step fst snd]. auto. }
      destruct SEEN as (p & SE & PL & PT & PN). rewrite SE.
      destruct (shift_spec (length y) (map Some x) (arr t) cp y rest CEX (le_n _)) as (a' & c' & SH & CA & _). rewrite map_length in SH. rewrite SH. rewrite firstn_all, skipn_all in CA. cbn [map app] in CA.
      assert (RR : reg_step l (ERemove cp sig, 0%Z) = x ++ y) by (cbn [reg_step]; rewrite LX; apply remove_first_app; exact NX).
      destruct ON as (O1 & O2 & O3 & O4 & O5). { rewrite LX. destruct x; discriminate. }
      destruct (Nat.eqb_spec (length l - 1) 0) as [Z0|Z0].
      * assert (XY : x = [] /\ y = []). { rewrite LX, app_length in Z0. cbn [length] in Z0. destruct x; [|cbn in Z0; lia]. destruct y; [auto|cbn in Z0; lia]. }
        destruct XY; subst x y. cbn [app] in RR, LX. assert (C1 : cyc_step l (ERemove cp sig, 0%Z) = 1) by (unfold cyc_step; rewrite RR, LX; reflexivity).
        eexists _, _. split; [reflexivity|]. split; [|reflexivity]. rewrite C1, RR, Nat.add_1_r. constructor; cbn [count size arr act_chld act_int act_term old_chld old_int old_term pend]; auto.
        -- exists []. reflexivity.
        -- intro X. contradiction.
      * assert (NE : x ++ y <> []). { intro X. apply app_eq_nil in X. destruct X; subst x y. rewrite LX in Z0. cbn in Z0. lia. }
        assert (C1 : cyc_step l (ERemove cp sig, 0%Z) = 0) by (unfold cyc_step; rewrite RR; destruct (x ++ y); [contradiction|destruct l; reflexivity]).
        eexists _, _. split; [reflexivity|]. split; [|reflexivity]. rewrite C1, RR, Nat.add_0_r. constructor; cbn [count size arr act_chld act_int act_term old_chld old_int old_term pend]; auto.
        -- rewrite LX, !app_length. cbn [length]. lia.
        -- exists (Some c' :: rest). rewrite CA, map_app, <- app_assoc. reflexivity.
        -- rewrite <- SZ, CA, CEX, !app_length. cbn [length]. rewrite app_length. lia.
        -- intro X. contradiction.
        -- intro X. contradiction.
  - destruct CE as (rest & CE). destruct (on_child_spec _ _ _ _ _ _ _ _ l (arr t) rest I eq_refl CE) as (p & P & V). rewrite P. eexists _, _. split; [reflexivity|]. split; [|reflexivity].
    assert (C1 : cyc_step l (EChild, 0%Z) = 0) by (unfold cyc_step; cbn; destruct l; reflexivity). rewrite C1, Nat.add_0_r. cbn [reg_step told_step maybe_step fst snd].
    constructor; cbn [count size arr act_chld act_int act_term old_chld old_int old_term pend]; auto.
    + exists rest. exact CE.
    + intro q. rewrite V. destruct (mem q l); [lia|apply LE].
    + intro q. rewrite V. destruct (mem q l); [reflexivity|apply TD].
    + intro q. rewrite V. destruct (mem q l); [discriminate|apply NT].
  - eexists _, _. split; [reflexivity|]. split; [|reflexivity]. assert (C1 : cyc_step l (EDrain cp, 0%Z) = 0) by (unfold cyc_step; cbn; destruct l; reflexivity). rewrite C1, Nat.add_0_r. cbn [reg_step told_step maybe_step fst snd].
    constructor; cbn [count size arr act_chld act_int act_term old_chld old_int old_term pend]; auto; unfold set_pend; intro q; pose proof (LE cp); destruct (Nat.eqb_spec q cp) as [Q|Q]; auto; try discriminate; try (intros; lia); lia.
Qed.

Lemma run_spec c0 i0 t0 es : forall l b m cyc t, tinv c0 i0 t0 l b m cyc t -> exists t' vs, tab_run es t = Some (t', vs) /\ length vs = length es /\
  tinv c0 i0 t0 (fold_left reg_step (combine es vs) l) (fun q => fold_left (told_step q) (with_reg l (combine es vs)) (b q)) (fun q => fold_left (maybe_step q) (with_reg l (combine es vs)) (m q))
    (cyc + length (filter (fun x => nonempty (fst x) && negb (nonempty (reg_step (fst x) (snd x)))) (with_reg l (combine es vs)))) t' /\
  forall n cp pipes alloc, nth_error es n = Some (EAdd cp pipes alloc) -> exists v, nth_error vs n = Some v /\ (v = 0 \/ v = 1)%Z /\ (pipes && alloc = true -> v = 1%Z) /\ (pipes = false -> v = 0%Z).
Proof.
  induction es as [|e es IH]; intros l b m cyc t I; cbn [tab_run].
  - exists t, []. split; [reflexivity|]. split; [reflexivity|]. split; [cbn; rewrite Nat.add_0_r; exact I|]. intros [|] ? ? ? ?; discriminate.
  - destruct (step_spec _ _ _ _ _ _ _ _ e I) as (t1 & v & E & I1 & R). rewrite E. destruct (IH _ _ _ _ _ I1) as (t' & vs & E' & LN & I' & R'). rewrite E'. exists t', (v :: vs).
    split; [reflexivity|]. split; [cbn; congruence|]. split.
    + cbn [combine fold_left with_reg filter fst snd]. unfold cyc_step in I'. destruct (nonempty l && negb (nonempty (reg_step l (e, v)))); cbn [length].
      * replace (cyc + S _) with (cyc + 1 + length (filter (fun x => nonempty (fst x) && negb (nonempty (reg_step (fst x) (snd x)))) (with_reg (reg_step l (e, v)) (combine es vs)))) by lia. exact I'.
      * rewrite Nat.add_0_r in I'. exact I'.
    + intros [|n] cp pipes alloc N; cbn [nth_error] in N |- *.
      * injection N as ->. exists v. auto.
      * apply (R' n cp pipes alloc N).
Qed.
Lemma init_spec c0 i0 t0 : tinv c0 i0 t0 [] (fun _ => false) (fun _ => false) 0 (tab0 c0 i0 t0).
Proof. constructor; cbn; auto; try contradiction; try discriminate. exists []. reflexivity. Qed.
(** The processes the handler visits. *)
Definition visible (t : tab) : list (option nat) := firstn (count t) (cells (arr t)).

(** C137.  Whatever is added, removed, refused and signalled, in any order: no slot
    outside the block and no unwritten slot is used; the handler visits exactly the
    registered processes; adding succeeds if the pipe and memory are available and
    fails without the pipe. *)
Theorem C137_table (c0 i0 t0 : action) (es : list tev) : exists t vs, tab_run es (tab0 c0 i0 t0) = Some (t, vs) /\ length vs = length es /\
  visible t = map Some (registered (combine es vs)) /\ count t = length (registered (combine es vs)) /\ (registered (combine es vs) = [] -> arr t = None) /\
  forall n cp pipes alloc, nth_error es n = Some (EAdd cp pipes alloc) -> exists v, nth_error vs n = Some v /\ (v = 0 \/ v = 1)%Z /\ (pipes && alloc = true -> v = 1%Z) /\ (pipes = false -> v = 0%Z).
Proof.
  destruct (run_spec c0 i0 t0 es _ _ _ _ _ (init_spec c0 i0 t0)) as (t & vs & E & LN & [CN (rest & CE) SZ EM _ _ _ _ _ _] & R). exists t, vs. split; [exact E|]. split; [exact LN|]. fold (registered (combine es vs)) in *.
  split; [|split; [exact CN|split; [exact EM|exact R]]]. unfold visible. rewrite CE, CN. rewrite firstn_app, map_length, Nat.sub_diag, firstn_O, app_nil_r. apply firstn_all2. rewrite map_length. lia.
Qed.
Print Assumptions C137_table.
(** C137.  However many children end, there is at most one byte in a process's
    signal pipe; there is one if a child ended while the process was registered
    and it has not looked since -- also if the signal came while another process
    was being taken out of the table -- and none if no child did. *)
Theorem C137_told (c0 i0 t0 : action) (es : list tev) (t : tab) (vs : list Z) (q : nat) : tab_run es (tab0 c0 i0 t0) = Some (t, vs) ->
  pend t q <= 1 /\ (told q (combine es vs) = true -> pend t q = 1) /\ (maybe q (combine es vs) = false -> pend t q = 0).
Proof.
  intro E. destruct (run_spec c0 i0 t0 es _ _ _ _ _ (init_spec c0 i0 t0)) as (t1 & vs1 & E1 & _ & [_ _ _ _ LE TD NT _ _ _] & _). rewrite E in E1. injection E1 as <- <-.
  split; [apply LE|]. split; [apply TD|apply NT].
Qed.
Print Assumptions C137_told.
(** C137.  While a process is registered all three signals are the library's.  When
    none is left, SIGCHLD has its first action again; SIGINT has the action SIGTERM
    had at first (after the first time) or the default one (later), and SIGTERM the
    default one. *)
Theorem C137_actions (c0 i0 t0 : action) (es : list tev) (t : tab) (vs : list Z) : tab_run es (tab0 c0 i0 t0) = Some (t, vs) ->
  (registered (combine es vs) <> [] -> act_chld t = Ours /\ act_int t = Ours /\ act_term t = Ours) /\
  (registered (combine es vs) = [] -> act_chld t = c0 /\
    match cycles (combine es vs) with
    | 0 => act_int t = i0 /\ act_term t = t0
    | 1 => act_int t = t0 /\ act_term t = Default
    | _ => act_int t = Default /\ act_term t = Default
    end).
Proof.
  intro E. destruct (run_spec c0 i0 t0 es _ _ _ _ _ (init_spec c0 i0 t0)) as (t1 & vs1 & E1 & _ & [_ _ _ _ _ _ _ _ ON OFF] & _). rewrite E in E1. injection E1 as <- <-.
  fold (registered (combine es vs)) in *. unfold cycles. cbn [Nat.add] in *. split.
  - intro N. destruct (ON N) as (A & B & C & _). auto.
  - intro N. destruct (OFF N) as (A & B & C). split; [exact A|]. destruct (length _) as [|[|]]; auto.
Qed.
Print Assumptions C137_actions.
(** C137.  It is not so that the actions of before come back: the saved action of
    SIGTERM is stored over that of SIGINT. *)
Theorem C137_actions_restored_refuted : ~ forall c0 i0 t0 es t vs, tab_run es (tab0 c0 i0 t0) = Some (t, vs) -> registered (combine es vs) = [] -> act_int t = i0 /\ act_term t = t0.
Proof.
  intro H. assert (E : exists t vs, tab_run [EAdd 7 true true; ERemove 7 None] (tab0 Default (User 1) (User 2)) = Some (t, vs) /\ vs = [1; 0]%Z /\ act_int t = User 2).
  { vm_compute. eexists _, _. split; [reflexivity|]. split; reflexivity. }
  destruct E as (t & vs & E & V & A). subst vs. destruct (H _ _ _ _ _ _ E eq_refl) as (B & _). rewrite A in B. discriminate.
Qed.
(** Examples.  Six processes (the table grows), a child ends while the second one is
    being removed, after one slot has been shifted. *)
Definition es1 : list tev :=
  [EAdd 1 true true; EAdd 2 true true; EAdd 3 true true; EAdd 4 true true; EAdd 9 true false; EAdd 5 true true; EAdd 6 true false; ERemove 2 (Some 1); EDrain 4; EChild; EDrain 1].
Example C137_ex : match tab_run es1 (tab0 Default (User 1) (User 2)) with
  | Some (t, vs) => vs = [1; 1; 1; 1; 0; 1; 1; 0; 0; 0; 0]%Z /\ size t = 8 /\
      visible t = [Some 1; Some 3; Some 4; Some 5; Some 6] /\ map (pend t) [1; 2; 3; 4; 5; 6] = [0; 0; 1; 1; 1; 1] /\ act_term t = Ours
  | None => False
  end.
Proof. vm_compute. repeat split. Qed.
Example C137_ex2 : told 3 (combine es1 [1; 1; 1; 1; 0; 1; 1; 0; 0; 0; 0]%Z) = true /\ maybe 2 (combine es1 [1; 1; 1; 1; 0; 1; 1; 0; 0; 0; 0]%Z) = true /\
  told 2 (combine es1 [1; 1; 1; 1; 0; 1; 1; 0; 0; 0; 0]%Z) = false /\ maybe 1 (combine es1 [1; 1; 1; 1; 0; 1; 1; 0; 0; 0; 0]%Z) = false /\ cycles (combine es1 [1; 1; 1; 1; 0; 1; 1; 0; 0; 0; 0]%Z) = 0.
Proof. repeat split. Qed.
Print Assumptions C137_actions_restored_refuted.
