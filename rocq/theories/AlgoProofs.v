(** Proofs about the registry. *)
From Coq Require Import List Lia Bool Sorting.
Import ListNotations.
From Verif Require Import Base ConfigModel ConfigSpec ConfigProofs ConfigProofs2 ConfigProofs3 ConfigProofs4 AlgoModel AlgoSpec.

Fixpoint latest_q (q : str) (l : list (str * str * nat)) : option nat :=
  match l with
  | [] => None
  | (T, i, o) :: r => match latest_q q r with Some o' => Some o' | None => if str_eqb (T ++ L ":" ++ i) q then Some o else None end
  end.
Lemma latest_snoc T i l T' i' o : latest T i (l ++ [(T', i', o)]) = if str_eqb T' T && str_eqb i' i then Some o else latest T i l.
Proof. induction l as [|[[T1 i1] o1] l IH]; cbn [app latest]; [reflexivity|]. rewrite IH. destruct (str_eqb T' T && str_eqb i' i); auto. Qed.
Lemma latest_q_snoc q l T' i' o : latest_q q (l ++ [(T', i', o)]) = if str_eqb (T' ++ L ":" ++ i') q then Some o else latest_q q l.
Proof. induction l as [|[[T1 i1] o1] l IH]; cbn [app latest_q]; [reflexivity|]. rewrite IH. destruct (str_eqb (T' ++ L ":" ++ i') q); auto. Qed.
Lemma latest_in T i o l : latest T i l = Some o -> In (T, i, o) l.
Proof.
  induction l as [|[[T1 i1] o1] l IH]; cbn [latest]; [discriminate|]. destruct (latest T i l) as [o2|] eqn:E.
  - intro H. injection H as ->. right; auto.
  - destruct (str_eqb_spec T1 T); [|discriminate]. destruct (str_eqb_spec i1 i); [|discriminate]. cbn. intro H. injection H as ->. subst. left. auto.
Qed.
Lemma latest_none T i l : latest T i l = None <-> forall o, ~ In (T, i, o) l.
Proof.
  split.
  - induction l as [|[[T1 i1] o1] l IH]; cbn [latest]; [intros _ o []|]. destruct (latest T i l) as [o2|] eqn:E; [discriminate|].
    destruct (str_eqb_spec T1 T) as [ET|NT]; [destruct (str_eqb_spec i1 i) as [Ei|Ni]|]; cbn; try discriminate.
    + intros _ o [H|H]; [congruence|]. eapply IH; eauto.
    + intros _ o [H|H]; [congruence|]. eapply IH; eauto.
  - intro H. destruct (latest T i l) as [o|] eqn:E; auto. apply latest_in in E. destruct (H o E).
Qed.
Lemma split_colon a b c d : plain a -> plain c -> a ++ L ":" ++ b = c ++ L ":" ++ d -> a = c /\ b = d.
Proof.
  revert c. induction a as [|x a IH]; intros [|y c] Ha Hc E; cbn [app] in E.
  - injection E as E. auto.
  - exfalso. injection E as E _. apply Hc. left. auto.
  - exfalso. injection E as E _. apply Ha. left. auto.
  - injection E as -> E. destruct (IH c) as [-> ->]; auto; intros X; [apply Ha|apply Hc]; right; auto.
Qed.
Lemma latest_q_plain T i l : plain T -> plain_types l -> latest_q (T ++ L ":" ++ i) l = latest T i l.
Proof.
  intro HT. induction l as [|[[T1 i1] o1] l IH]; intro Hl; cbn [latest latest_q]; [reflexivity|].
  rewrite IH by (intros T2 i2 o2 H2; apply (Hl T2 i2 o2); right; auto). destruct (latest T i l); auto.
  assert (HT1 : plain T1) by (eapply Hl; left; auto).
  destruct (str_eqb_spec (T1 ++ L ":" ++ i1) (T ++ L ":" ++ i)) as [E|N].
  - apply split_colon in E as [-> ->]; auto. rewrite !str_eqb_refl. reflexivity.
  - destruct (str_eqb_spec T1 T); [|reflexivity]. destruct (str_eqb_spec i1 i); [|reflexivity]. congruence.
Qed.

Section Algo.
Variable A : Type.
Variable vt : vtable A.

Definition inv (g : reg A) (l : list (str * str * nat)) : Prop :=
  ssorted (g_alg g) /\ ssorted (g_def g) /\ (forall T, ssorted (def_map g T)) /\
  (forall q, sfind q (g_alg g) = latest_q q l) /\ (forall T i, sfind i (def_map g T) = latest T i l) /\
  (forall T i o, In (T, i, o) l -> exists a, nth_error (g_objs g) o = Some a /\ v_type vt a = T).
Lemma inv0 : inv reg0 [].
Proof. repeat split; auto. intros T i o []. Qed.
Lemma inv_objs g l objs : inv g l -> (forall o a, nth_error (g_objs g) o = Some a -> exists a', nth_error objs o = Some a' /\ v_type vt a' = v_type vt a) ->
  inv (mkReg objs (g_alg g) (g_def g)) l.
Proof.
  intros (H1 & H2 & H3 & H4 & H5 & H6) Hle. split; [|split; [|split; [|split; [|split]]]]; auto. intros T i o Hin. cbn [g_objs]. destruct (H6 T i o Hin) as (a & Ea & <-).
  apply Hle. auto.
Qed.
Lemma snoc_objs (l : list A) x : forall o a, nth_error l o = Some a -> exists a', nth_error (l ++ [x]) o = Some a' /\ v_type vt a' = v_type vt a.
Proof. intros o a H. exists a. split; auto. rewrite nth_error_app1; auto. apply nth_error_lt in H. auto. Qed.
Lemma reg_eta (g : reg A) : mkReg (g_objs g) (g_alg g) (g_def g) = g.
Proof. destruct g. reflexivity. Qed.
Lemma inv_change g l o a b : inv g l -> nth_error (g_objs g) o = Some b -> v_type vt b = v_type vt a -> inv (mkReg (lupd (g_objs g) o a) (g_alg g) (g_def g)) l.
Proof.
  intros HI Hb Ht. apply inv_objs; auto. intros o' a' H. destruct (PeanoNat.Nat.eq_dec o o') as [<-|N].
  - exists a. split; [apply nth_lupd_eq; apply nth_error_lt in Hb; auto|]. congruence.
  - exists a'. rewrite nth_lupd_ne by auto. auto.
Qed.
Lemma registrations_app a b : registrations (a ++ b) = registrations a ++ registrations b.
Proof. induction a as [|[|T i o|] a IH]; cbn [app registrations]; rewrite ?IH; auto. Qed.
Lemma inv_clone g l o : inv g l -> inv (fst (clone g o)) l.
Proof.
  intro HI. unfold clone. destruct (nth_error (g_objs g) o); cbn [fst]; auto. apply inv_objs; auto. apply snoc_objs.
Qed.
Lemma inv_step g l op g' e : inv g l -> rstep vt g op = (g', e) -> inv g' (l ++ registrations [e]).
Proof.
  intros HI E. destruct op as [a|o a|inst|t i|t i]; cbn [rstep] in E.
  - injection E as <- <-. cbn [registrations]. rewrite app_nil_r. apply inv_objs; auto. apply snoc_objs.
  - destruct (nth_error (g_objs g) o) as [b|] eqn:Eb; [destruct (str_eqb_spec (v_type vt b) (v_type vt a))|]; injection E as <- <-; cbn [registrations]; rewrite app_nil_r; auto.
    eapply inv_change; eauto.
  - unfold register_instance in E. destruct inst as [o|].
    2:{ injection E as <- <-. cbn. rewrite app_nil_r. auto. }
    destruct (nth_error (g_objs g) o) as [a|] eqn:Eo.
    2:{ injection E as <- <-. cbn. rewrite app_nil_r. auto. }
    cbv zeta in E. injection E as <- <-. cbn [registrations].
    destruct HI as (H1 & H2 & H3 & H4 & H5 & H6).
    assert (D : forall T, def_map (mkReg (g_objs g) (sset (v_type vt a ++ L ":" ++ v_impl vt a) o (g_alg g))
             (sset (v_type vt a) (sset (v_impl vt a) o (def_map g (v_type vt a))) (g_def g))) T =
             if str_eqb (v_type vt a) T then sset (v_impl vt a) o (def_map g T) else def_map g T).
    { intro T. unfold def_map at 1. cbn [g_def]. destruct (str_eqb_spec (v_type vt a) T) as [<-|N].
      - rewrite sfind_set_eq. reflexivity.
      - rewrite sfind_set_ne by congruence. reflexivity. }
    split; [|split; [|split; [|split; [|split]]]].
    + cbn [g_alg]. apply sset_sorted; auto.
    + cbn [g_def]. apply sset_sorted; auto.
    + intro T. rewrite D. destruct (str_eqb _ _); auto. apply sset_sorted; auto.
    + intro q. cbn [g_alg]. rewrite latest_q_snoc. destruct (str_eqb_spec (v_type vt a ++ L ":" ++ v_impl vt a) q) as [<-|N].
      * apply sfind_set_eq.
      * rewrite sfind_set_ne by (intro X; apply N; symmetry; exact X). auto.
    + intros T i. rewrite D, latest_snoc. destruct (str_eqb_spec (v_type vt a) T) as [<-|N]; cbn [andb]; auto.
      destruct (str_eqb_spec (v_impl vt a) i) as [<-|N2]; [apply sfind_set_eq|]. rewrite sfind_set_ne by congruence. auto.
    + intros T i o' Hin. cbn [g_objs]. apply in_app_or in Hin as [Hin|[X|[]]]; [eapply H6; eauto|]. injection X as <- _ <-. eauto.
  - injection E as <- <-. cbn [registrations]. rewrite app_nil_r. unfold create. destruct (find_alg _ _) as [o|]; auto.
    apply inv_clone; auto.
  - injection E as <- <-. cbn [registrations]. rewrite app_nil_r. unfold create_def. destruct (find_def _ _) as [o|]; auto.
    apply inv_clone; auto.
Qed.
Lemma inv_run ops : forall g l, inv g l -> inv (fst (rrun vt g ops)) (l ++ registrations (snd (rrun vt g ops))).
Proof.
  induction ops as [|op ops IH]; intros g l HI; cbn [rrun].
  - cbn. rewrite app_nil_r. auto.
  - destruct (rstep vt g op) as [g1 e] eqn:E. pose proof (inv_step g l op g1 e HI E) as H1. specialize (IH g1 _ H1).
    destruct (rrun vt g1 ops) as [g2 es]. cbn [fst snd] in *. rewrite <- app_assoc in IH.
    change (e :: es) with ([e] ++ es). rewrite registrations_app. exact IH.
Qed.
Lemma inv_reach ops g es : rrun vt reg0 ops = (g, es) -> inv g (registrations es).
Proof. intro E. pose proof (inv_run ops reg0 [] inv0) as H. rewrite E in H. exact H. Qed.

Definition fresh_copy (g : reg A) (o : option nat) : reg A * res (option nat) :=
  match o with
  | None => (g, Ok None)
  | Some o => match nth_error (g_objs g) o with
              | Some a => (mkReg (g_objs g ++ [a]) (g_alg g) (g_def g), Ok (Some (length (g_objs g))))
              | None => (g, UB)
              end
  end.
Lemma create_lemma g l t i : inv g l -> plain t -> plain_types l -> create g t i = fresh_copy g (latest t i l) /\ forall o, latest t i l = Some o -> nth_error (g_objs g) o <> None.
Proof.
  intros (_ & _ & _ & H4 & _ & H6) Ht Hl. unfold create, find_alg. rewrite H4, latest_q_plain by auto. split.
  - destruct (latest t i l); reflexivity.
  - intros o E. apply latest_in in E. destruct (H6 _ _ _ E) as (a & -> & _). discriminate.
Qed.
Lemma create_def_lemma g l t i : inv g l -> create_def g t i = fresh_copy g (latest t i l) /\ forall o, latest t i l = Some o -> nth_error (g_objs g) o <> None.
Proof.
  intros (_ & _ & _ & _ & H5 & H6). unfold create_def, find_def. rewrite H5. split.
  - destruct (latest t i l); reflexivity.
  - intros o E. apply latest_in in E. destruct (H6 _ _ _ E) as (a & -> & _). discriminate.
Qed.
Lemma skipn_prefix (p q : str) : is_prefix p q = true -> q = p ++ skipn (length p) q.
Proof. intro H. apply is_prefix_app in H as [r ->]. rewrite skip_app. reflexivity. Qed.
Lemma str_cmp_prefix p a b : str_cmp (p ++ a) (p ++ b) = str_cmp a b.
Proof. induction p as [|c p IH]; cbn [app str_cmp]; auto. unfold ascii_cmp; rewrite N.compare_refl. auto. Qed.
Lemma sorted_filter_map p : forall m : list str, StronglySorted (fun a b => str_cmp a b = Lt) m ->
  StronglySorted (fun a b => str_cmp a b = Lt) (map (skipn (length p)) (filter (is_prefix p) m)).
Proof.
  induction 1 as [|q m HS IH HF]; cbn [filter map]; [constructor|]. destruct (is_prefix p q) eqn:E; auto. cbn [map]. constructor; auto.
  apply Forall_forall. intros x Hx. apply in_map_iff in Hx as (q' & <- & Hq'). apply filter_In in Hq' as [Hq' Pq'].
  rewrite Forall_forall in HF. specialize (HF q' Hq'). rewrite (skipn_prefix p q E), (skipn_prefix p q' Pq') in HF. rewrite str_cmp_prefix in HF. exact HF.
Qed.
Definition names_spec (ls : list str) (P : str -> Prop) : Prop := StronglySorted (fun a b => str_cmp a b = Lt) ls /\ forall i, In i ls <-> P i.
Lemma latest_q_in q l : latest_q q l <> None <-> exists T i o, In (T, i, o) l /\ q = T ++ L ":" ++ i.
Proof.
  induction l as [|[[T i] o] l IH]; cbn [latest_q].
  - split; [congruence|intros (? & ? & ? & [] & _)].
  - destruct (latest_q q l) as [o'|] eqn:E.
    + split; [intros _|congruence]. destruct (proj1 IH) as (T' & i' & o'' & Hin & Eq); [congruence|]. exists T', i', o''. split; auto. right; auto.
    + destruct (str_eqb_spec (T ++ L ":" ++ i) q) as [<-|N].
      * split; [intros _|congruence]. exists T, i, o. split; auto. left; auto.
      * split; [congruence|]. intros (T' & i' & o' & [X|Hin] & Eq); [congruence|]. apply IH. eauto 6.
Qed.
Lemma names_lemma g l t : inv g l -> t <> [] -> plain t -> plain_types l -> names_spec (registered_names g t) (fun i => exists o, In (t, i, o) l).
Proof.
  intros (H1 & _ & _ & H4 & _ & _) Hne Ht Hl. unfold registered_names. rewrite (proj2 (str_eqb_neq t [])) by auto. cbv zeta. split.
  - apply sorted_filter_map. apply ssorted_StronglySorted. auto.
  - intro i. rewrite in_map_iff. split.
    + intros (q & <- & Hq). apply filter_In in Hq as [Hq Pq]. apply sfind_keys in Hq. rewrite H4 in Hq. apply latest_q_in in Hq as (T & j & o & Hin & ->).
      apply is_prefix_app in Pq as [r E]. rewrite <- app_assoc in E. pose proof E as E'. apply split_colon in E' as [-> ->]; auto; [|eapply Hl; eauto].
      exists o. rewrite (app_assoc t). rewrite skip_app. auto.
    + intros [o Hin]. exists (t ++ L ":" ++ i). rewrite app_assoc. rewrite skip_app. split; auto. apply filter_In. split.
      * apply sfind_keys. rewrite H4. apply latest_q_in. exists t, i, o. split; auto. rewrite <- app_assoc. auto.
      * apply is_prefix_self.
Qed.
Lemma names_all_lemma g l : inv g l -> names_spec (registered_names g []) (fun q => exists T i o, In (T, i, o) l /\ q = T ++ L ":" ++ i).
Proof.
  intros (H1 & _ & _ & H4 & _ & _). unfold registered_names. cbn [str_eqb]. split; [apply ssorted_StronglySorted; auto|].
  intro q. change (str_eqb [] []) with true. cbv iota. rewrite sfind_keys, H4. apply latest_q_in.
Qed.
Lemma names_def_lemma g l T : inv g l -> names_spec (registered_names_def g T) (fun i => exists o, In (T, i, o) l).
Proof.
  intros (_ & _ & H3 & _ & H5 & _). unfold registered_names_def. split; [apply ssorted_StronglySorted; auto|].
  intro i. rewrite sfind_keys, H5. split.
  - destruct (latest T i l) as [o|] eqn:E; [|congruence]. intros _. exists o. apply latest_in. auto.
  - intros [o Hin] E. apply latest_none with (o := o) in E. auto.
Qed.
Lemma has_impl_iff (g : reg A) t i : has_impl_name g t i = true <-> In i (registered_names g t).
Proof. unfold has_impl_name. rewrite existsb_exists. split; [intros (x & H & E); apply str_eqb_eq in E; subst; auto|intro H; exists i; split; auto; apply str_eqb_refl]. Qed.
Lemma has_impl_def_iff (g : reg A) t i : has_impl_name_def g t i = true <-> In i (registered_names_def g t).
Proof. unfold has_impl_name_def. rewrite existsb_exists. split; [intros (x & H & E); apply str_eqb_eq in E; subst; auto|intro H; exists i; split; auto; apply str_eqb_refl]. Qed.
Lemma has_type_iff (g : reg A) t : has_type_name g t = true <-> exists i, In i (registered_names g t).
Proof. unfold has_type_name. destruct (registered_names g t) as [|x r]; split; try discriminate; try (intros [? []]); auto. exists x. left. auto. Qed.
(** A listed name can always be found again when the type is not empty. *)
Lemma listed_found (g : reg A) t i : t <> [] -> In i (registered_names g t) -> find_alg g (t ++ L ":" ++ i) <> None.
Proof.
  intros Hne H. unfold registered_names in H. rewrite (proj2 (str_eqb_neq t [])) in H by auto. cbv zeta in H. apply in_map_iff in H as (q & <- & Hq).
  apply filter_In in Hq as [Hq Pq]. unfold find_alg. apply sfind_keys. rewrite app_assoc. rewrite <- (skipn_prefix _ _ Pq). auto.
Qed.
Lemma alg_live g l q o : inv g l -> find_alg g q = Some o -> nth_error (g_objs g) o <> None.
Proof.
  intros (_ & _ & _ & H4 & _ & H6) E. unfold find_alg in E. rewrite H4 in E.
  assert (X : exists T i, In (T, i, o) l).
  { clear H4 H6. induction l as [|[[T i] o'] l IH]; cbn [latest_q] in E; [discriminate|]. destruct (latest_q q l) as [o2|].
    - injection E as ->. destruct (IH eq_refl) as (T' & i' & H). exists T', i'. right; auto.
    - destruct (str_eqb _ q); [|discriminate]. injection E as ->. exists T, i. left; auto. }
  destruct X as (T & i & Hin). destruct (H6 _ _ _ Hin) as (a & -> & _). discriminate.
Qed.
End Algo.
