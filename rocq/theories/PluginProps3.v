(** PluginProps3.v -- C91: the detailed listing of plugin_explorer. *)
From Coq Require Import List Lia Bool ZArith Arith Sorting.
Import ListNotations.
From Verif Require Import Base ConfigModel AlgoModel AlgoSpec AlgoProofs AlgoProps TokenizeModel TokenizeSpec TokenizeProofs IoProps PluginModel.

Lemma Forall2_impl {A B} (P Q : A -> B -> Prop) l r : (forall a b, P a b -> Q a b) -> Forall2 P l r -> Forall2 Q l r.
Proof. intro H. induction 1; constructor; auto. Qed.
Definition plain_impls (l : list (str * str * nat)) : Prop := forall T i o, In (T, i, o) l -> plain i.
Lemma tokens_of T i : plain T -> plain i -> tokenize (T ++ L ":" ++ i) [] (L ":") false = [T; i].
Proof.
  intros HT Hi. destruct (C26_tokenize_splits (T ++ L ":" ++ i) [] (L ":")) as (ts & Hs & -> & _). cbn [app].
  eapply (splits_unique (fun c => In c (L ":"))); [|exact Hs|].
  - intro c. apply in_dec. apply ascii_dec.
  - change (T ++ L ":" ++ i) with (T ++ ":"%char :: i). assert (H : forall x, In x (L ":") -> x = ":"%char) by (intros x [X|[]]; auto).
    constructor; [intros x Hx Hc; apply HT; rewrite <- (H _ Hc); exact Hx|left; reflexivity|]. constructor. intros x Hx Hc. apply Hi. rewrite <- (H _ Hc). exact Hx.
Qed.
(** What is shown for a name: its two parts and a new object, a copy of the
    one registered last under that name. *)
Definition shown {A} (g : reg A) (regs : list (str * str * nat)) (g' : reg A) (q : str) (d : str * str * nat) : Prop :=
  exists T i o o' a, d = (T, i, o') /\ q = T ++ L ":" ++ i /\ latest T i regs = Some o /\ nth_error (g_objs g) o = Some a /\
    length (g_objs g) <= o' /\ nth_error (g_objs g') o' = Some a.
Lemma details_shown {A} (vt : vtable A) regs : plain_types regs -> plain_impls regs -> forall names g, inv A vt g regs ->
  (forall q, In q names -> exists T i o, In (T, i, o) regs /\ q = T ++ L ":" ++ i) ->
  exists objs ds, details g names = (mkReg (g_objs g ++ objs) (g_alg g) (g_def g), Ok ds) /\ length objs = length names /\
    Forall2 (shown g regs (mkReg (g_objs g ++ objs) (g_alg g) (g_def g))) names ds.
Proof.
  intros HT Hi. induction names as [|q names IH]; intros g HI Hn.
  - exists [], []. rewrite app_nil_r, reg_eta. split; [reflexivity|]. split; [reflexivity|constructor].
  - destruct (Hn q (or_introl eq_refl)) as (T & i & o & Hin & ->). cbn [details]. unfold detail. rewrite (tokens_of T i (HT _ _ _ Hin) (Hi _ _ _ Hin)).
    destruct (create_lemma A vt g regs T i HI (HT _ _ _ Hin) HT) as [-> Hl]. destruct (latest T i regs) as [o1|] eqn:El; [|exfalso; exact (proj1 (latest_none T i regs) El o Hin)].
    specialize (Hl o1 eq_refl). unfold fresh_copy. destruct (nth_error (g_objs g) o1) as [a|] eqn:Ea; [|congruence]. clear Hl.
    destruct (IH (mkReg (g_objs g ++ [a]) (g_alg g) (g_def g))) as (objs & ds & -> & Hlen & Hf).
    + apply (inv_objs A vt g regs); [exact HI|]. apply snoc_objs.
    + intros q Hq. apply Hn. right. exact Hq.
    + exists (a :: objs), ((T, i, length (g_objs g)) :: ds). cbn [g_objs g_alg g_def] in *. rewrite <- app_assoc in *. cbn [app] in *. split; [reflexivity|]. split; [cbn; lia|].
      constructor.
      * exists T, i, o1, (length (g_objs g)), a. repeat split; auto. cbn [g_objs]. rewrite nth_error_app2 by lia. rewrite Nat.sub_diag. reflexivity.
      * eapply Forall2_impl; [|exact Hf]. intros q d (T2 & i2 & o2 & o' & b & -> & -> & Hl2 & Hb & Hle & Hn'). exists T2, i2, o2, o', b. cbn [g_objs] in *. repeat split; auto.
        -- destruct HI as (_ & _ & _ & _ & _ & H6). apply latest_in in Hl2. destruct (H6 _ _ _ Hl2) as (c & Hc & _). rewrite nth_error_app1 in Hb by (eapply nth_error_lt; exact Hc). exact Hb.
        -- rewrite app_length in Hle. cbn in Hle. lia.
Qed.
(** C91: when no definition or implementation name contains ':', the listing
    names each registered implementation once, in order, each with a copy of the
    instance registered last. *)
Theorem C91_detailed_listing {A} (vt : vtable A) ops g es : rrun vt reg0 ops = (g, es) -> plain_types (registrations es) -> plain_impls (registrations es) ->
  exists g' ds, detailed_algo g = (g', Ok ds) /\ Forall2 (shown g (registrations es) g') (registered_names g []) ds /\
    (forall o a, nth_error (g_objs g) o = Some a -> nth_error (g_objs g') o = Some a).
Proof.
  intros E HT Hi. pose proof (inv_reach A vt ops g es E) as HI. destruct (details_shown vt _ HT Hi (registered_names g []) g HI) as (objs & ds & Hd & _ & Hf).
  - intros q Hq. apply (proj2 (C39_all_names vt ops g es E)) in Hq. exact Hq.
  - do 2 eexists. split; [exact Hd|]. split; [exact Hf|]. intros o a Ho. cbn [g_objs]. rewrite nth_error_app1; [exact Ho|eapply nth_error_lt; exact Ho].
Qed.
Print Assumptions C91_detailed_listing.
Example C91_nonvacuous : plain_types (registrations (snd (rrun demo_vt reg0 demo_ops))) /\ plain_impls (registrations (snd (rrun demo_vt reg0 demo_ops))) /\
  snd (detailed_algo demo_reg) = Ok [(L "detect", L "fast", 4); (L "detect", L "slow", 5)].
Proof.
  split; [|split; [|vm_compute; reflexivity]]; intros T i o H; vm_compute in H; destruct H as [H|[H|[H|[]]]]; injection H as <- <- _; intro X; vm_compute in X; repeat (destruct X as [X|X]; [discriminate|]); destruct X.
Qed.
(** An implementation name with ':' makes the listing dereference a null pointer. *)
Theorem C91_colon_refuted : exists (ops : list (rop demo_alg)) g es, rrun demo_vt reg0 ops = (g, es) /\ plain_types (registrations es) /\
  In (L "detect:gpu:fast") (registered_names g []) /\ snd (detailed_algo g) = UB.
Proof.
  exists [RNew (mkDemo (L "detect") (L "gpu:fast") []); RRegister (Some 0)]. do 2 eexists. split; [reflexivity|]. split; [|vm_compute; auto].
  intros T i o H. vm_compute in H. destruct H as [H|[]]. injection H as <- _ _. intro X; vm_compute in X; repeat (destruct X as [X|X]; [discriminate|]); destruct X.
Qed.
Print Assumptions C91_colon_refuted.
