(** AlgoProps.v -- C39, C40. *)
From Coq Require Import List Lia Bool Sorting.
Import ListNotations.
From Verif Require Import Base ConfigModel ConfigSpec ConfigProofs ConfigProofs2 ConfigProofs3 ConfigProofs4 AlgoModel AlgoSpec AlgoProofs AlgoProofs2.

(** A demonstration: an implementation with one parameter "x". *)
Record demo_alg := mkDemo { d_type : str; d_impl : str; d_x : str }.
Definition demo_vt : vtable demo_alg := mkVT _ d_type d_impl (fun _ => [])
  (fun a h => let '(h1, _) := empty_config h (d_type a) in match i_set_value h1 (length h) (L "x") (d_x a) [] with (h2, Ok _) => (h2, Ok (length h)) | (h2, _) => (h2, UB) end)
  (fun a h c => (h, match get_string h c (L "x") with Ok v => Ok (mkDemo (d_type a) (d_impl a) v) | Throw e => Throw e | UB => UB | NoFuel => NoFuel end))
  (fun a h c => (h, has_value h c (L "x"))).
Definition demo_ops : list (rop demo_alg) :=
  [RNew (mkDemo (L "detect") (L "fast") (L "1")); RNew (mkDemo (L "detect") (L "slow") (L "2")); RNew (mkDemo (L "detect") (L "fast") (L "3"));
   RRegister (Some 0); RRegister (Some 1); RRegister None; RRegister (Some 2); RCreate (L "detect") (L "fast")].
Definition demo_reg := fst (rrun demo_vt reg0 demo_ops).

(** C39: create and the lists of names, after any history. *)
Theorem C39_create {A} (vt : vtable A) ops g es t i :
  rrun vt reg0 ops = (g, es) -> plain t -> plain_types (registrations es) ->
  match latest t i (registrations es) with
  | None => create g t i = (g, Ok None)
  | Some o => exists a, nth_error (g_objs g) o = Some a /\ v_type vt a = t /\
      create g t i = (mkReg (g_objs g ++ [a]) (g_alg g) (g_def g), Ok (Some (length (g_objs g))))
  end.
Proof.
  intros E Ht Hl. pose proof (inv_reach A vt ops g es E) as HI. destruct (create_lemma A vt g _ t i HI Ht Hl) as [-> _].
  destruct (latest t i (registrations es)) as [o|] eqn:El; [|reflexivity]. apply latest_in in El. destruct HI as (_ & _ & _ & _ & _ & H6).
  destruct (H6 _ _ _ El) as (a & Ea & Et). exists a. cbn [fresh_copy]. rewrite Ea. auto.
Qed.
Print Assumptions C39_create.
Theorem C39_create_def {A} (vt : vtable A) ops g es t i :
  rrun vt reg0 ops = (g, es) ->
  match latest t i (registrations es) with
  | None => create_def g t i = (g, Ok None)
  | Some o => exists a, nth_error (g_objs g) o = Some a /\ v_type vt a = t /\
      create_def g t i = (mkReg (g_objs g ++ [a]) (g_alg g) (g_def g), Ok (Some (length (g_objs g))))
  end.
Proof.
  intros E. pose proof (inv_reach A vt ops g es E) as HI. destruct (create_def_lemma A vt g _ t i HI) as [-> _].
  destruct (latest t i (registrations es)) as [o|] eqn:El; [|reflexivity]. apply latest_in in El. destruct HI as (_ & _ & _ & _ & _ & H6).
  destruct (H6 _ _ _ El) as (a & Ea & Et). exists a. cbn [fresh_copy]. rewrite Ea. auto.
Qed.
Print Assumptions C39_create_def.
Theorem C39_names {A} (vt : vtable A) ops g es t :
  rrun vt reg0 ops = (g, es) -> t <> [] -> plain t -> plain_types (registrations es) ->
  StronglySorted (fun a b => str_cmp a b = Lt) (registered_names g t) /\
  (forall i, In i (registered_names g t) <-> exists o, In (t, i, o) (registrations es)) /\
  (forall i, has_impl_name g t i = true <-> exists o, In (t, i, o) (registrations es)) /\
  (has_type_name g t = true <-> exists i o, In (t, i, o) (registrations es)).
Proof.
  intros E Hne Ht Hl. pose proof (inv_reach A vt ops g es E) as HI. destruct (names_lemma A vt g _ t HI Hne Ht Hl) as [H1 H2].
  split; [exact H1|]. split; [exact H2|]. split.
  - intro i. rewrite has_impl_iff. auto.
  - rewrite has_type_iff. split; [intros [i Hi]; exists i; apply H2; auto|intros (i & o & Hi); exists i; apply H2; eauto].
Qed.
Print Assumptions C39_names.
Theorem C39_names_def {A} (vt : vtable A) ops g es t :
  rrun vt reg0 ops = (g, es) ->
  StronglySorted (fun a b => str_cmp a b = Lt) (registered_names_def g t) /\
  (forall i, In i (registered_names_def g t) <-> exists o, In (t, i, o) (registrations es)) /\
  (forall i, has_impl_name_def g t i = true <-> exists o, In (t, i, o) (registrations es)).
Proof.
  intros E. pose proof (inv_reach A vt ops g es E) as HI. destruct (names_def_lemma A vt g _ t HI) as [H1 H2].
  split; [exact H1|]. split; [exact H2|]. intro i. rewrite has_impl_def_iff. auto.
Qed.
Print Assumptions C39_names_def.
(** With the empty type name: all qualified names. *)
Theorem C39_all_names {A} (vt : vtable A) ops g es :
  rrun vt reg0 ops = (g, es) ->
  StronglySorted (fun a b => str_cmp a b = Lt) (registered_names g []) /\
  forall q, In q (registered_names g []) <-> exists T i o, In (T, i, o) (registrations es) /\ q = T ++ L ":" ++ i.
Proof. intros E. exact (names_all_lemma A vt g _ (inv_reach A vt ops g es E)). Qed.
Print Assumptions C39_all_names.
Example C39_nonvacuous : plain_types (registrations (snd (rrun demo_vt reg0 demo_ops))) /\ plain (L "detect") /\
  latest (L "detect") (L "fast") (registrations (snd (rrun demo_vt reg0 demo_ops))) = Some 2 /\
  registered_names demo_reg (L "detect") = [L "fast"; L "slow"] /\
  create demo_reg (L "detect") (L "none") = (demo_reg, Ok None).
Proof.
  split; [|split; [|split; [|split]]]; try (vm_compute; reflexivity).
  - intros T i o H. vm_compute in H. destruct H as [H|[H|[H|[]]]]; injection H as <- _ _; intro X; vm_compute in X; intuition discriminate.
  - intro X; vm_compute in X; intuition discriminate.
Qed.
(** With ':' in a definition name, an implementation is listed and created
    under a type it does not belong to. *)
Theorem C39_colon_refuted : exists (ops : list (rop demo_alg)) g es, rrun demo_vt reg0 ops = (g, es) /\
  (forall o, ~ In (L "a", L "b:c", o) (registrations es)) /\ registered_names g (L "a") = [L "b:c"] /\
  exists g' a, create g (L "a") (L "b:c") = (g', Ok (Some 1)) /\ nth_error (g_objs g') 1 = Some a /\ d_type a = L "a:b".
Proof.
  exists [RNew (mkDemo (L "a:b") (L "c") []); RRegister (Some 0)]. do 2 eexists. split; [reflexivity|]. split; [|split].
  - intros o H. vm_compute in H. destruct H as [H|[]]. discriminate.
  - vm_compute. reflexivity.
  - do 2 eexists. split; [vm_compute; reflexivity|]. split; reflexivity.
Qed.
Print Assumptions C39_colon_refuted.

(** C40: set_nested_algo_configuration makes and configures the selected
    implementation ... *)
Theorem C40_set_selected {A} (vt : vtable A) ops g es h t name cfg nested i o a :
  rrun vt reg0 ops = (g, es) -> reachable h -> cfg < length h -> t <> [] -> plain t -> plain_types (registrations es) ->
  get_string h cfg (name ++ L ":type") = Ok i -> latest t i (registrations es) = Some o -> nth_error (g_objs g) o = Some a ->
  exists h1 view, block_view h cfg (name ++ L ":" ++ i) h1 view /\
    set_nested vt g h t name cfg nested =
      match v_set vt a h1 view with
      | (h2, Ok a') => (mkReg (g_objs g ++ [a']) (g_alg g) (g_def g), h2, Some (length (g_objs g)), Ok tt)
      | (h2, Throw e) => (mkReg (g_objs g ++ [a]) (g_alg g) (g_def g), h2, Some (length (g_objs g)), Throw e)
      | (h2, UB) => (mkReg (g_objs g ++ [a]) (g_alg g) (g_def g), h2, Some (length (g_objs g)), UB)
      | (h2, NoFuel) => (mkReg (g_objs g ++ [a]) (g_alg g) (g_def g), h2, Some (length (g_objs g)), NoFuel)
      end.
Proof.
  intros E Hre Hc Ht Hp Hl Hg Hla Ha. destruct (resolves_total h cfg Hre Hc) as (r & p & Hres).
  destruct (set_selects A vt g _ h t name cfg nested i o a r p (inv_reach A vt ops g es E) Hre Hres Ht Hp Hl Hg Hla Ha) as (h1 & view & H1 & _ & _ & H2).
  exists h1, view. split; auto.
Qed.
Print Assumptions C40_set_selected.
(** ... and leaves everything alone if the selection is missing or unknown. *)
Theorem C40_set_unselected {A} (vt : vtable A) ops g es h t name cfg nested :
  rrun vt reg0 ops = (g, es) -> reachable h -> cfg < length h -> t <> [] -> plain t -> plain_types (registrations es) ->
  has_value h cfg (name ++ L ":type") = Ok false \/
  (exists i, get_string h cfg (name ++ L ":type") = Ok i /\ forall o, ~ In (t, i, o) (registrations es)) ->
  set_nested vt g h t name cfg nested = (g, h, nested, Ok tt).
Proof.
  intros E Hre Hc Ht Hp Hl H. destruct (resolves_total h cfg Hre Hc) as (r & p & Hres).
  apply (set_leaves A vt g _ h t name cfg nested r p (inv_reach A vt ops g es E) Hre Hres Ht Hp Hl).
  destruct H as [H|(i & Hg & Hn)]; auto. right. exists i. split; auto. apply latest_none. auto.
Qed.
Print Assumptions C40_set_unselected.
(** The algorithm_def version keeps the caller's pointer when an exception is
    thrown, and never yields a null pointer for a plain name. *)
Theorem C40_def_pointer {A} (vt : vtable A) ops g es h t name cfg nested :
  rrun vt reg0 ops = (g, es) -> reachable h -> cfg < length h -> t <> [] -> plain t -> plain_types (registrations es) ->
  (forall o, nested = Some o -> exists a, nth_error (g_objs g) o = Some a /\ v_type vt a = t) ->
  (forall a h c h' a', v_set vt a h c = (h', Ok a') -> v_type vt a' = v_type vt a) ->
  let '(g', h', nested', out) := set_nested_def vt g h t name cfg nested in
  match out with
  | Ok _ => nested' = nested \/ (nested' = Some (length (g_objs g)) /\ exists a, nth_error (g_objs g') (length (g_objs g)) = Some a /\ v_type vt a = t)
  | _ => nested' = nested
  end.
Proof.
  intros E Hre Hc Ht Hp Hl Hn Hty. destruct (resolves_total h cfg Hre Hc) as (r & p & Hres). pose proof (inv_reach A vt ops g es E) as HI.
  unfold set_nested_def. destruct (has_iff_get h cfg r p (name ++ L ":type") Hre Hres) as [[_ [i Hg]]|Hf].
  - destruct (latest t i (registrations es)) as [o|] eqn:Hla.
    + pose proof (latest_in _ _ _ _ Hla) as Hin. destruct (proj2 (proj2 (proj2 (proj2 (proj2 HI)))) _ _ _ Hin) as (a & Ea & Et).
      destruct (set_selects A vt g _ h t name cfg nested i o a r p HI Hre Hres Ht Hp Hl Hg Hla Ea) as (h1 & view & _ & _ & _ & ->).
      unfold after_set. destruct (v_set vt a h1 view) as [h2 [a'|e| |]] eqn:Ev; try reflexivity.
      cbn [g_objs]. rewrite nth_error_app2, PeanoNat.Nat.sub_diag by lia. cbn [nth_error]. rewrite (Hty _ _ _ _ _ Ev), Et, str_eqb_refl. right. split; auto.
      exists a'. cbn [g_objs]. rewrite nth_error_app2, PeanoNat.Nat.sub_diag by lia. cbn [nth_error]. rewrite (Hty _ _ _ _ _ Ev). auto.
    + rewrite (set_leaves A vt g _ h t name cfg nested r p HI Hre Hres Ht Hp Hl) by (right; eauto). destruct nested as [o1|]; [|left; reflexivity]. destruct (Hn o1 eq_refl) as (a1 & Ea1 & Et1). rewrite Ea1, Et1, str_eqb_refl. left. reflexivity.
  - rewrite (set_leaves A vt g _ h t name cfg nested r p HI Hre Hres Ht Hp Hl) by (left; auto). destruct nested as [o1|]; [|left; reflexivity]. destruct (Hn o1 eq_refl) as (a1 & Ea1 & Et1). rewrite Ea1, Et1, str_eqb_refl. left. reflexivity.
Qed.
Print Assumptions C40_def_pointer.
(** check_nested_algo_configuration asks the selected implementation about the
    same block, and says no if there is none. *)
Theorem C40_check {A} (vt : vtable A) ops g es h t name cfg :
  rrun vt reg0 ops = (g, es) -> reachable h -> cfg < length h -> t <> [] -> plain t -> plain_types (registrations es) ->
  match get_string h cfg (name ++ L ":type") with
  | Ok i =>
    match latest t i (registrations es) with
    | Some o => exists a h1 view, nth_error (g_objs g) o = Some a /\ block_view h cfg (name ++ L ":" ++ i) h1 view /\
                  check_nested vt g h t name cfg = v_check vt a h1 view
    | None => check_nested vt g h t name cfg = (h, Ok false)
    end
  | _ => check_nested vt g h t name cfg = (h, Ok false)
  end.
Proof.
  intros E Hre Hc Ht Hp Hl. destruct (resolves_total h cfg Hre Hc) as (r & p & Hres).
  pose proof (check_lemma A vt g _ h t name cfg r p (inv_reach A vt ops g es E) Hre Hres Ht Hp Hl) as H.
  destruct (get_string h cfg (name ++ L ":type")) as [i|e| |]; auto. destruct (latest t i (registrations es)) as [o|]; auto.
  destruct H as (a & h1 & view & H1 & H2 & _ & H4). exists a, h1, view. auto.
Qed.
Print Assumptions C40_check.
(** get_nested_algo_configuration then set_nested_algo_configuration: the
    implementation of the object is selected again, and the block it is
    configured from has the object's configuration. *)
Theorem C40_round_trip {A} (vt : vtable A) ops g es h t name cfg r p o a conf o' a' nested :
  rrun vt reg0 ops = (g, es) -> reachable h -> resolves h cfg r p -> (forall k, is_read_only h r k = Ok false) ->
  t <> [] -> plain t -> plain_types (registrations es) ->
  nth_error (g_objs g) o = Some a -> is_trim (v_impl vt a) (v_impl vt a) -> has_configuration vt a conf ->
  latest t (v_impl vt a) (registrations es) = Some o' -> nth_error (g_objs g) o' = Some a' ->
  exists h4 h5 view, get_nested vt g h t name cfg (Some o) = (h4, Ok tt) /\
    get_string h4 cfg (name ++ L ":type") = Ok (v_impl vt a) /\
    (forall k, get_string h4 cfg k <> get_string h cfg k -> k = name ++ L ":type" \/ exists k' v, In (k', v) conf /\ k = name ++ L ":" ++ v_impl vt a ++ L ":" ++ k') /\
    block_view h4 cfg (name ++ L ":" ++ v_impl vt a) h5 view /\
    (forall k v, In (k, v) conf -> get_string h5 view k = Ok v) /\
    set_nested vt g h4 t name cfg nested =
      match v_set vt a' h5 view with
      | (h6, Ok b) => (mkReg (g_objs g ++ [b]) (g_alg g) (g_def g), h6, Some (length (g_objs g)), Ok tt)
      | (h6, Throw e) => (mkReg (g_objs g ++ [a']) (g_alg g) (g_def g), h6, Some (length (g_objs g)), Throw e)
      | (h6, UB) => (mkReg (g_objs g ++ [a']) (g_alg g) (g_def g), h6, Some (length (g_objs g)), UB)
      | (h6, NoFuel) => (mkReg (g_objs g ++ [a']) (g_alg g) (g_def g), h6, Some (length (g_objs g)), NoFuel)
      end.
Proof.
  intros E Hre Hres Hro Ht Hp Hl Ha Htr HC Hla Ha'. pose proof (inv_reach A vt ops g es E) as HI.
  destruct (get_nested_lemma A vt g _ h t name cfg o a conf r p HI Hre Hres Ht Ha Htr HC Hro) as (h4 & G1 & G2 & G3 & G4 & G5 & G6).
  destruct (set_selects A vt g _ h4 t name cfg nested (v_impl vt a) o' a' r p HI G2 G3 Ht Hp Hl G4 Hla Ha') as (h5 & view & S1 & _ & _ & S2).
  exists h4, h5, view. split; auto. split; auto. split.
  - intros k Hk. destruct (str_dec k (name ++ L ":type")) as [->|N]; auto. right.
    destruct (existsb (fun kv => str_eqb k (name ++ L ":" ++ v_impl vt a ++ L ":" ++ fst kv)) conf) eqn:Ex.
    + apply existsb_exists in Ex as ([k' v] & Hin & Ek). apply str_eqb_eq in Ek. exists k', v. auto.
    + exfalso. apply Hk. apply G6; auto. intros k' v Hin ->. apply not_true_iff_false in Ex. apply Ex. apply existsb_exists. exists (k', v). split; auto. apply str_eqb_refl.
  - split; auto. split; auto. intros k v Hin. destruct S1 as (_ & _ & S1). apply S1. rewrite <- !app_assoc. apply G5. auto.
Qed.
Print Assumptions C40_round_trip.

(** The demonstration implementation has the configuration {x}. *)
Example demo_configuration a : is_trim (d_x a) (d_x a) -> has_configuration demo_vt a [(L "x", d_x a)].
Proof.
  intros Htr h Hre.
  assert (Hre1 : reachable (h ++ [new_block (d_type a) None])) by exact (reachable_step h (ONew (d_type a)) Hre).
  assert (Hn : nth_error (h ++ [new_block (d_type a) None]) (length h) = Some (new_block (d_type a) None)) by (rewrite nth_error_app2, PeanoNat.Nat.sub_diag by lia; reflexivity).
  assert (Hr1 : resolves (h ++ [new_block (d_type a) None]) (length h) (length h) []) by (econstructor; [exact Hn|reflexivity]).
  set (b := mkBlock None (d_type a) [(L "x", trim (d_x a))] [(L "x", [])] [] []).
  assert (Es : i_set_value (h ++ [new_block (d_type a) None]) (length h) (L "x") (d_x a) [] = (lupd (h ++ [new_block (d_type a) None]) (length h) b, Ok tt)).
  { unfold i_set_value, fuel. cbn [i_set_value_f]. rewrite Hn. reflexivity. }
  assert (El : lupd (h ++ [new_block (d_type a) None]) (length h) b = h ++ [b]).
  { clear. induction h as [|x h IH]; cbn [app length lupd]; [reflexivity|]. f_equal. exact IH. }
  rewrite El in Es.
  assert (Hb : nth_error (h ++ [b]) (length h) = Some b) by (rewrite nth_error_app2, PeanoNat.Nat.sub_diag by lia; reflexivity).
  exists (h ++ [b]), (length h), (length h), [], [ONew (d_type a); OSet (length h) (L "x") (d_x a) []].
  split. { unfold demo_vt. cbn [v_get]. unfold empty_config. rewrite Es. reflexivity. }
  split. { cbn [run step]. unfold lift, empty_config. cbn [fst snd]. rewrite Es. reflexivity. }
  split. { intros id Hid. apply nth_error_app1. auto. }
  split. { econstructor; [exact Hb|reflexivity]. }
  split; [lia|]. split.
  - unfold available_values, fuel. cbn [available_values_f]. rewrite Hb. reflexivity.
  - intros k v [X|[]]. injection X as <- <-. unfold get_string, get_value, has_value, i_get_value, fuel. cbn [has_value_f i_get_value_f]. rewrite Hb.
    change (trim (d_x a)) with (trim (d_x a)) in b. unfold b. cbn [b_parent b_store]. change (shas (L "x") [(L "x", trim (d_x a))]) with true. cbn [rbind].
    change (sfind (L "x") [(L "x", trim (d_x a))]) with (Some (trim (d_x a))). rewrite <- (is_trim_unique _ _ Htr). reflexivity.
Qed.
Definition demo_heap : heap := fst (run [] [ONew (L "main"); OSet 0 (L "det:type") (L "fast") []; OSet 0 (L "det:fast:x") (L "42") []]).
Example C40_nonvacuous : reachable demo_heap /\ resolves demo_heap 0 0 [] /\ get_string demo_heap 0 (L "det" ++ L ":type") = Ok (L "fast") /\
  (exists g h, set_nested demo_vt demo_reg demo_heap (L "detect") (L "det") 0 None = (g, h, Some 4, Ok tt) /\ nth_error (g_objs g) 4 = Some (mkDemo (L "detect") (L "fast") (L "42"))) /\
  snd (check_nested demo_vt demo_reg demo_heap (L "detect") (L "det") 0) = Ok true /\
  snd (check_nested demo_vt demo_reg demo_heap (L "detect") (L "other") 0) = Ok false /\
  is_trim (L "fast") (L "fast") /\ (forall k, is_read_only demo_heap 0 k = Ok false).
Proof.
  split; [eexists; reflexivity|]. split; [econstructor; reflexivity|]. split; [vm_compute; reflexivity|]. split; [do 2 eexists; split; vm_compute; reflexivity|].
  split; [vm_compute; reflexivity|]. split; [vm_compute; reflexivity|]. split; [|intro k; reflexivity].
  exists [], []. split; [reflexivity|]. split; [intros c []|]. split; [intros c []|]. split; intros c r X.
  - injection X as <- _. reflexivity.
  - assert (c = "t"%char) as ->; [|reflexivity]. apply (f_equal (@rev _)) in X. rewrite rev_app_distr in X. cbn in X. injection X as X _. auto.
Qed.
(** The names are trimmed by the configuration: an implementation whose name
    ends with a space is not selected again. *)
Theorem C40_untrimmed_name_refuted : exists (ops : list (rop demo_alg)) g es h h4, rrun demo_vt reg0 ops = (g, es) /\ reachable h /\
  latest (L "detect") (L "fast ") (registrations es) = Some 0 /\ get_nested demo_vt g h (L "detect") (L "det") 0 (Some 0) = (h4, Ok tt) /\
  set_nested demo_vt g h4 (L "detect") (L "det") 0 None = (g, h4, None, Ok tt).
Proof.
  exists [RNew (mkDemo (L "detect") (L "fast ") (L "1")); RRegister (Some 0)]. do 2 eexists. exists (fst (run [] [ONew (L "main")])). eexists. split; [reflexivity|].
  split; [eexists; reflexivity|]. split; [vm_compute; reflexivity|]. split; vm_compute; reflexivity.
Qed.
Print Assumptions C40_untrimmed_name_refuted.
(** With the empty type name the qualified names are taken for implementation
    names, and a null pointer is dereferenced. *)
Theorem C40_empty_type_refuted : exists h, reachable h /\ has_impl_name demo_reg [] (L "detect:fast") = true /\
  snd (set_nested demo_vt demo_reg h [] (L "det") 0 None) = UB /\ snd (check_nested demo_vt demo_reg h [] (L "det") 0) = UB /\
  snd (get_nested demo_vt demo_reg h [] (L "det") 0 None) = UB.
Proof.
  exists (fst (run [] [ONew (L "main"); OSet 0 (L "det:type") (L "detect:fast") []])). split; [eexists; reflexivity|].
  split; [vm_compute; reflexivity|]. split; [vm_compute; reflexivity|]. split; vm_compute; reflexivity.
Qed.
Print Assumptions C40_empty_type_refuted.
