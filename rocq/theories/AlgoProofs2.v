(** Proofs about nested configurations. *)
From Coq Require Import List Lia Bool.
Import ListNotations.
From Verif Require Import Base ConfigModel ConfigSpec ConfigProofs ConfigProofs2 ConfigProofs3 ConfigProofs4 AlgoModel AlgoSpec AlgoProofs.

Lemma root_entry h h' r k : nth_error h r = nth_error h' r -> (forall b, nth_error h r = Some b -> b_parent b = None) -> entry h r k = entry h' r k.
Proof.
  intros E P. unfold entry, get_string, get_value, has_value, i_get_value, get_description, fuel. cbn [has_value_f i_get_value_f get_description_f].
  rewrite <- E. destruct (nth_error h r) as [b|]; [|reflexivity]. rewrite (P b eq_refl). reflexivity.
Qed.
Lemma resolves_root_parent h id r p : resolves h id r p -> forall b, nth_error h r = Some b -> b_parent b = None.
Proof. induction 1; intros b' Hb'; [congruence|]. auto. Qed.
Lemma resolves_root_self h id r p : resolves h id r p -> resolves h r r [].
Proof. induction 1; [econstructor; eauto|]. auto. Qed.
Lemma resolves_lt h id r p : resolves h id r p -> id < length h /\ r < length h.
Proof. induction 1; [apply nth_error_lt in H; auto|]. apply nth_error_lt in H. tauto. Qed.
Lemma kept_shape h h' : (forall id, id < length h -> nth_error h' id = nth_error h id) -> same_shape h h'.
Proof. intros H i b Hb. exists b. rewrite H; auto. apply nth_error_lt in Hb. auto. Qed.
Lemma kept_entry h h' f f' id r p : (forall j, j < length h -> nth_error h' j = nth_error h j) -> R h f -> R h' f' -> resolves h id r p ->
  forall K, fentry f' r K = fentry f r K.
Proof.
  intros H HR HR' Hres K. pose proof (resolves_root_self _ _ _ _ Hres) as Hr. pose proof (same_shape_resolves _ _ _ _ _ (kept_shape _ _ H) Hr) as Hr'.
  rewrite <- (entry_at h f r K HR Hr), <- (entry_at h' f' r K HR' Hr'). symmetry. apply root_entry.
  - symmetry. apply H. apply resolves_lt in Hres. tauto.
  - eapply resolves_root_parent; eauto.
Qed.
Lemma view_lemma h cfg r p n : reachable h -> resolves h cfg r p ->
  exists h1, subblock_view h cfg n = (h1, Ok (length h)) /\ reachable h1 /\ resolves h1 (length h) r (p ++ [n]) /\
   (forall id, id < length h -> nth_error h1 id = nth_error h id) /\ block_view h cfg n h1 (length h).
Proof.
  intros Hre Hres. destruct (resolves_some _ _ _ _ Hres) as [b Hb]. exists (h ++ [new_block n (Some cfg)]).
  assert (E : subblock_view h cfg n = (h ++ [new_block n (Some cfg)], Ok (length h))) by (unfold subblock_view; rewrite Hb; reflexivity).
  assert (Hre1 : reachable (h ++ [new_block n (Some cfg)])).
  { pose proof (reachable_step h (OView cfg n) Hre) as X. cbn [step] in X. rewrite E in X. exact X. }
  assert (Hk : forall id, id < length h -> nth_error (h ++ [new_block n (Some cfg)]) id = nth_error h id) by (intros id Hid; apply nth_error_app1; auto).
  assert (Hres1 : resolves (h ++ [new_block n (Some cfg)]) (length h) r (p ++ [n])).
  { apply (resolves_view _ (length h) (new_block n (Some cfg)) cfg r p).
    - rewrite nth_error_app2, PeanoNat.Nat.sub_diag by lia. reflexivity.
    - reflexivity.
    - eapply same_shape_resolves; [apply kept_shape; exact Hk|auto]. }
  repeat (split; auto). 
  - intro HG. destruct (reachable_R _ Hre) as [f HR]. destruct (reachable_R _ Hre1) as [f1 HR1].
    rewrite (get_at _ f HR _ _ _ Hres). rewrite (get_at _ f1 HR1 _ _ _ Hres1) in HG. rewrite abs_key_snoc in HG.
    rewrite (kept_entry _ _ _ _ _ _ _ Hk HR HR1 Hres) in HG. destruct (fentry f r _) as [[v0 d0]|]; congruence.
  - intro HG. destruct (reachable_R _ Hre) as [f HR]. destruct (reachable_R _ Hre1) as [f1 HR1].
    rewrite (get_at _ f HR _ _ _ Hres) in HG. rewrite (get_at _ f1 HR1 _ _ _ Hres1). rewrite abs_key_snoc.
    rewrite (kept_entry _ _ _ _ _ _ _ Hk HR HR1 Hres). destruct (fentry f r _) as [[v0 d0]|]; congruence.
Qed.
Lemma has_iff_get h id r p k : reachable h -> resolves h id r p -> (has_value h id k = Ok true /\ exists v, get_string h id k = Ok v) \/ has_value h id k = Ok false.
Proof.
  intros Hre Hres. destruct (reachable_R _ Hre) as [f HR]. rewrite (has_at _ f HR _ _ _ Hres), (get_at _ f HR _ _ _ Hres).
  destruct (fentry f r _) as [[v d]|]; [left|right]; eauto.
Qed.
Lemma get_has h id k v : get_string h id k = Ok v -> has_value h id k = Ok true.
Proof. unfold get_string, get_value. destruct (has_value h id k) as [[|]| | |]; cbn; try discriminate. auto. Qed.
Lemma has_get h id r p k : reachable h -> resolves h id r p -> has_value h id k = Ok true -> exists v, get_string h id k = Ok v.
Proof. intros Hre Hres H. destruct (has_iff_get h id r p k Hre Hres) as [[_ X]|X]; [auto|congruence]. Qed.

Section Algo.
Variable A : Type.
Variable vt : vtable A.
Notation inv := (inv A vt).

Lemma has_impl_latest g l t i : inv g l -> t <> [] -> plain t -> plain_types l -> has_impl_name g t i = match latest t i l with Some _ => true | None => false end.
Proof.
  intros HI H1 H2 H3. pose proof (proj2 (names_lemma A vt g l t HI H1 H2 H3) i) as HN. destruct (has_impl_name g t i) eqn:E.
  - apply has_impl_iff in E. apply HN in E as [o Hin]. destruct (latest t i l) eqn:E2; auto. apply latest_none with (o := o) in E2. contradiction.
  - destruct (latest t i l) as [o|] eqn:E2; auto. apply latest_in in E2. assert (X : In i (registered_names g t)) by (apply HN; eauto). apply has_impl_iff in X. congruence.
Qed.
Definition after_set (g : reg A) (a : A) (out : heap * res A) : reg A * heap * option nat * res unit :=
  let fresh := length (g_objs g) in
  match out with
  | (h2, Ok a') => (mkReg (g_objs g ++ [a']) (g_alg g) (g_def g), h2, Some fresh, Ok tt)
  | (h2, Throw e) => (mkReg (g_objs g ++ [a]) (g_alg g) (g_def g), h2, Some fresh, Throw e)
  | (h2, UB) => (mkReg (g_objs g ++ [a]) (g_alg g) (g_def g), h2, Some fresh, UB)
  | (h2, NoFuel) => (mkReg (g_objs g ++ [a]) (g_alg g) (g_def g), h2, Some fresh, NoFuel)
  end.
Lemma lupd_snoc (l : list A) x y : lupd (l ++ [x]) (length l) y = l ++ [y].
Proof. induction l as [|z l IH]; cbn [app length lupd]; [reflexivity|]. f_equal. apply IH. Qed.
Lemma set_selects g l h t name cfg nested i o a r p : inv g l -> reachable h -> resolves h cfg r p -> t <> [] -> plain t -> plain_types l ->
  get_string h cfg (name ++ L ":type") = Ok i -> latest t i l = Some o -> nth_error (g_objs g) o = Some a ->
  exists h1 view, block_view h cfg (name ++ L ":" ++ i) h1 view /\ reachable h1 /\ resolves h1 view r (p ++ [name ++ L ":" ++ i]) /\
    set_nested vt g h t name cfg nested = after_set g a (v_set vt a h1 view).
Proof.
  intros HI Hre Hres Ht Hp Hl Hg Hla Ha. destruct (view_lemma h cfg r p (name ++ L ":" ++ i) Hre Hres) as (h1 & Ev & Hre1 & Hres1 & Hk & HB).
  exists h1, (length h). repeat (split; [assumption|]). unfold set_nested. change (type_key name) with (name ++ L ":type").
  rewrite (get_has _ _ _ _ Hg), Hg. rewrite (has_impl_latest g l t i) by auto. rewrite Hla.
  destruct (create_lemma A vt g l t i HI Hp Hl) as [Ec _]. rewrite Ec, Hla. cbn [fresh_copy]. rewrite Ha.
  change (impl_block name i) with (name ++ L ":" ++ i). rewrite Ev. cbn [g_objs g_alg g_def]. rewrite nth_error_app2, PeanoNat.Nat.sub_diag by lia. cbn [nth_error].
  unfold after_set. destruct (v_set vt a h1 (length h)) as [h2 [a'|e| |]]; try reflexivity. rewrite lupd_snoc. reflexivity.
Qed.
Lemma set_leaves g l h t name cfg nested r p : inv g l -> reachable h -> resolves h cfg r p -> t <> [] -> plain t -> plain_types l ->
  has_value h cfg (name ++ L ":type") = Ok false \/ (exists i, get_string h cfg (name ++ L ":type") = Ok i /\ latest t i l = None) ->
  set_nested vt g h t name cfg nested = (g, h, nested, Ok tt).
Proof.
  intros HI Hre Hres Ht Hp Hl [H|(i & Hg & Hla)]; unfold set_nested; change (type_key name) with (name ++ L ":type").
  - rewrite H. reflexivity.
  - rewrite (get_has _ _ _ _ Hg), Hg. rewrite (has_impl_latest g l t i) by auto. rewrite Hla. reflexivity.
Qed.
Lemma check_lemma g l h t name cfg r p : inv g l -> reachable h -> resolves h cfg r p -> t <> [] -> plain t -> plain_types l ->
  match get_string h cfg (name ++ L ":type") with
  | Ok i =>
    match latest t i l with
    | Some o => exists a h1 view, nth_error (g_objs g) o = Some a /\ block_view h cfg (name ++ L ":" ++ i) h1 view /\ reachable h1 /\
                  check_nested vt g h t name cfg = v_check vt a h1 view
    | None => check_nested vt g h t name cfg = (h, Ok false)
    end
  | _ => check_nested vt g h t name cfg = (h, Ok false)
  end.
Proof.
  intros HI Hre Hres Ht Hp Hl. unfold check_nested. change (type_key name) with (name ++ L ":type").
  destruct (has_iff_get h cfg r p (name ++ L ":type") Hre Hres) as [[H1 [i Hg]]|H1].
  - rewrite H1, Hg. rewrite (has_impl_latest g l t i) by auto. destruct (latest t i l) as [o|] eqn:Hla; [|reflexivity].
    assert (Ef : find_alg g (t ++ L ":" ++ i) = Some o). { unfold find_alg. rewrite (proj1 (proj2 (proj2 (proj2 HI)))). rewrite latest_q_plain by auto. auto. }
    rewrite Ef. pose proof (alg_live A vt g l _ _ HI Ef) as Hlive. destruct (nth_error (g_objs g) o) as [a|]; [|congruence].
    destruct (view_lemma h cfg r p (name ++ L ":" ++ i) Hre Hres) as (h1 & Ev & Hre1 & Hres1 & Hk & HB).
    exists a, h1, (length h). repeat (split; [auto|]). change (impl_block name i) with (name ++ L ":" ++ i). rewrite Ev. reflexivity.
  - rewrite H1. destruct (get_string h cfg (name ++ L ":type")) as [v|e| |] eqn:Hg; try reflexivity. apply get_has in Hg. congruence.
Qed.
Lemma comment_ok g l t names acc : inv g l -> t <> [] -> (forall i, In i names -> In i (registered_names g t)) -> exists c, comment_loop vt g t names acc = Ok c.
Proof.
  intros HI Ht. revert acc. induction names as [|n names IH]; intros acc H; cbn [comment_loop]; eauto.
  pose proof (listed_found A g t n Ht (H n (or_introl eq_refl))) as Hf. destruct (find_alg g (t ++ L ":" ++ n)) as [o|] eqn:Ef; [|congruence].
  pose proof (alg_live A vt g l _ _ HI Ef) as Hlive. destruct (nth_error (g_objs g) o) as [a|]; [|congruence]. apply IH. intros; apply H; right; auto.
Qed.
Lemma no_type_colon n i k : n ++ L ":" ++ i ++ L ":" ++ k <> n ++ L ":type".
Proof.
  intro E. apply app_inv_head in E. change (L ":type") with (":"%char :: L "type") in E. change (L ":" ++ i ++ L ":" ++ k) with (":"%char :: i ++ L ":" ++ k) in E. injection E as E.
  assert (X : In ":"%char (L "type")) by (rewrite <- E; apply in_or_app; right; left; auto). vm_compute in X. intuition discriminate.
Qed.
Lemma get_nested_lemma g l h t name cfg o a conf r p : inv g l -> reachable h -> resolves h cfg r p -> t <> [] ->
  nth_error (g_objs g) o = Some a -> is_trim (v_impl vt a) (v_impl vt a) -> has_configuration vt a conf ->
  (forall k, is_read_only h r k = Ok false) ->
  exists h4, get_nested vt g h t name cfg (Some o) = (h4, Ok tt) /\ reachable h4 /\ resolves h4 cfg r p /\
    get_string h4 cfg (name ++ L ":type") = Ok (v_impl vt a) /\
    (forall k v, In (k, v) conf -> get_string h4 cfg (name ++ L ":" ++ v_impl vt a ++ L ":" ++ k) = Ok v) /\
    (forall K, K <> name ++ L ":type" -> (forall k v, In (k, v) conf -> K <> name ++ L ":" ++ v_impl vt a ++ L ":" ++ k) ->
       get_string h4 cfg K = get_string h cfg K).
Proof.
  intros HI Hre Hres Ht Ha Htr HC Hro. unfold get_nested, type_comment.
  destruct (comment_ok g l t (registered_names g t) (L "Algorithm to use for '" ++ name ++ L "'." ++ ["010"%char] ++ L "Must be one of the following options:") HI Ht (fun i H => H)) as [comment ->].
  rewrite Ha. change (type_key name) with (name ++ L ":type").
  destruct (set_outcome h cfg (name ++ L ":type") (v_impl vt a) comment r p Hre Hres) as [[_ Eset]|[X _]]; [|rewrite Hro in X; discriminate].
  destruct (i_set_value h cfg (name ++ L ":type") (v_impl vt a) comment) as [h1 r1] eqn:Es. cbn [snd] in Eset. subst r1.
  pose proof (set_get_lemma _ _ _ _ _ _ Hre Es) as (S1 & S2 & _ & S4).
  assert (Hre1 : reachable h1) by (pose proof (reachable_set h cfg (name ++ L ":type") (v_impl vt a) comment Hre) as X; rewrite Es in X; exact X).
  assert (Sh1 : same_shape h h1) by (pose proof (set_shape (fuel h) h cfg (name ++ L ":type") (v_impl vt a) comment) as X; unfold i_set_value in Es; rewrite Es in X; exact X).
  assert (Hres1 : resolves h1 cfg r p) by (eapply same_shape_resolves; eauto).
  destruct (view_lemma h1 cfg r p (impl_block name (v_impl vt a)) Hre1 Hres1) as (h2 & Ev & Hre2 & Hres2 & Hk2 & HB2). rewrite Ev.
  assert (Hc2 : resolves h2 cfg r p) by (eapply same_shape_resolves; [apply kept_shape; exact Hk2|auto]).
  destruct (HC h2 Hre2) as (h3 & c & rc & pc & ops & Eg & Eh3 & Hk3 & Hc & Hrc & Hav & Hvals). rewrite Eg.
  assert (Hre3 : reachable h3) by (rewrite Eh3; apply reachable_run; auto).
  assert (Hv3 : resolves h3 (length h1) r (p ++ [impl_block name (v_impl vt a)])) by (eapply same_shape_resolves; [apply kept_shape; exact Hk3|auto]).
  assert (Hc3 : resolves h3 cfg r p) by (eapply same_shape_resolves; [apply kept_shape; exact Hk3|auto]).
  assert (Hr2 : r < length h2) by (apply resolves_lt in Hres2; tauto).
  assert (Hcl : cfg < length h3) by (apply resolves_lt in Hc3; tauto).
  assert (Hne : r <> rc) by lia.
  assert (Hro3 : forall k, is_read_only h3 r k = Ok false).
  { intro k. unfold is_read_only. rewrite Hk3 by auto. assert (Hr1 : r < length h1) by (apply resolves_lt in Hres1; tauto). rewrite Hk2 by auto.
    pose proof (proj1 (S4 r k)) as X. rewrite Hro in X. exact X. }
  destruct (merge_lemma h3 (length h1) c r rc (p ++ [impl_block name (v_impl vt a)]) pc (map fst conf) Hre3 Hv3 Hc Hne Hav) as (l1 & l2 & El & M1 & M2 & M3 & M4 & M5).
  { intros k Hin. apply in_map_iff in Hin as ([k' v'] & <- & Hin). eapply get_has. eapply Hvals; eauto. }
  assert (l2 = []) by (destruct l2 as [|k l2]; auto; destruct M2 as [X _]; rewrite Hro3 in X; discriminate). subst l2. rewrite app_nil_r in El. subst l1.
  destruct (merge_config h3 (length h1) c) as [h4 r4] eqn:Em. cbn [fst snd] in *. subst r4. exists h4. split; [reflexivity|].
  assert (Hre4 : reachable h4) by (pose proof (reachable_step h3 (OMerge (length h1) c) Hre3) as X; cbn [step] in X; rewrite Em in X; exact X).
  assert (Sh4 : same_shape h3 h4) by (pose proof (step_shape h3 (OMerge (length h1) c)) as X; cbn [step] in X; rewrite Em in X; exact X).
  assert (Hc4 : resolves h4 cfg r p) by (eapply same_shape_resolves; eauto).
  assert (Hv4 : resolves h4 (length h1) r (p ++ [impl_block name (v_impl vt a)])) by (eapply same_shape_resolves; eauto).
  split; auto. split; auto.
  (* reading through cfg in h3 is reading in h1 *)
  assert (G31 : forall K, get_string h3 cfg K = get_string h1 cfg K).
  { intro K. destruct (reachable_R _ Hre1) as [f1 R1]. destruct (reachable_R _ Hre2) as [f2 R2]. destruct (reachable_R _ Hre3) as [f3 R3].
    rewrite (get_at _ _ R3 _ _ _ Hc3), (get_at _ _ R1 _ _ _ Hres1). rewrite (kept_entry _ _ _ _ _ _ _ Hk3 R2 R3 Hc2), (kept_entry _ _ _ _ _ _ _ Hk2 R1 R2 Hres1). reflexivity. }
  assert (Eabs : forall k, abs_key (p ++ [impl_block name (v_impl vt a)]) k = abs_key p (name ++ L ":" ++ v_impl vt a ++ L ":" ++ k)).
  { intro k. rewrite abs_key_snoc. unfold impl_block, block_sep. rewrite <- !app_assoc. reflexivity. }
  assert (Other : forall K, (forall k, In k (map fst conf) -> K <> name ++ L ":" ++ v_impl vt a ++ L ":" ++ k) -> get_string h4 cfg K = get_string h1 cfg K).
  { intros K HK. rewrite <- G31. apply M4; auto. intros k Hin (r' & p1 & p2 & X1 & X2 & X3). 
    destruct (resolves_det _ _ _ _ X1 _ _ Hv3) as [-> ->]. destruct (resolves_det _ _ _ _ X2 _ _ Hc3) as [_ ->]. rewrite Eabs in X3. apply abs_key_inj in X3.
    apply (HK k Hin). auto. }
  split; [|split].
  - rewrite Other by (intros k _ X; apply (no_type_colon name (v_impl vt a) k); auto).
    destruct (S1 cfg (name ++ L ":type")) as (v & Hv & ->); [exists r, p, p; auto|]. f_equal. rewrite (is_trim_unique _ _ Hv). symmetry. apply is_trim_unique. auto.
  - intros k v Hin. assert (Hk : In k (map fst conf)) by (apply in_map_iff; exists (k, v); auto).
    assert (X : get_string h4 (length h1) k = Ok v) by (apply (proj1 (M3 k Hk)); eapply Hvals; eauto).
    eapply (proj2 (proj2 (alias_agree_lemma h4 cfg _ (length h1) k Hre4 _))); [exact X]. Unshelve. exists r, p, (p ++ [impl_block name (v_impl vt a)]). rewrite Eabs. auto.
  - intros K HK1 HK2. rewrite Other.
    + apply S2; [apply resolves_lt in Hres; tauto|]. intros (r' & p1 & p2 & X1 & X2 & X3). destruct (resolves_det _ _ _ _ X1 _ _ X2) as [_ ->]. apply abs_key_inj in X3. congruence.
    + intros k Hin. apply in_map_iff in Hin as ([k' v'] & <- & Hin). eapply HK2; eauto.
Qed.
End Algo.
