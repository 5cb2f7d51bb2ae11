(** AlgoProps2.v -- C40, continued: get_nested_algo_configuration without a
    nested algorithm, and the text put on the type key. *)
From Coq Require Import List Lia Bool Sorting.
Import ListNotations.
From Verif Require Import Base ConfigModel ConfigSpec ConfigProofs ConfigProofs2 ConfigProofs3 ConfigProofs4 AlgoModel AlgoSpec AlgoProofs AlgoProofs2 AlgoProps.

(** ---- specification: one line for every registered implementation, with
    its description if it has one ---- *)
Definition option_line (n d : str) : str := ["010"%char; "009"%char] ++ L "- " ++ n ++ (match d with [] => [] | _ => L " :: " ++ d end).
Fixpoint option_lines (descr : str -> str) (names : list str) : str :=
  match names with [] => [] | n :: r => option_line n (descr n) ++ option_lines descr r end.
(** The description of the implementation registered last for (t, n). *)
Definition description_of {A} (vt : vtable A) (g : reg A) (l : list (str * str * nat)) (t n : str) : str :=
  match latest t n l with Some o => match nth_error (g_objs g) o with Some a => v_descr vt a | None => [] end | None => [] end.
Definition choices {A} (vt : vtable A) (g : reg A) (l : list (str * str * nat)) (t name : str) : str :=
  L "Algorithm to use for '" ++ name ++ L "'." ++ ["010"%char] ++ L "Must be one of the following options:" ++ option_lines (description_of vt g l t) (registered_names g t).

(** ---- proofs ---- *)
Lemma comment_text {A} (vt : vtable A) g l t : inv A vt g l -> t <> [] -> plain t -> plain_types l ->
  forall names acc, (forall i, In i names -> In i (registered_names g t)) ->
  comment_loop vt g t names acc = Ok (acc ++ option_lines (description_of vt g l t) names).
Proof.
  intros HI Ht Hp Hl. induction names as [|n names IH]; intros acc H; cbn [comment_loop option_lines]; [rewrite app_nil_r; reflexivity|].
  pose proof (proj1 (proj2 (names_lemma A vt g l t HI Ht Hp Hl) n) (H n (or_introl eq_refl))) as (o0 & Hin).
  destruct HI as (I1 & I2 & I3 & I4 & I5 & I6). assert (HI : inv A vt g l) by (repeat split; auto).
  assert (Ef : find_alg g (t ++ L ":" ++ n) = latest t n l) by (unfold find_alg; rewrite I4, latest_q_plain by auto; reflexivity).
  rewrite Ef. unfold description_of at 1. destruct (latest t n l) as [o|] eqn:El; [|exfalso; apply (proj1 (latest_none t n l) El o0); auto].
  destruct (I6 _ _ _ (latest_in _ _ _ _ El)) as (a & Ha & _). rewrite Ha.
  rewrite IH by (intros i Hi; apply H; right; auto). f_equal. unfold option_line. destruct (v_descr vt a) as [|c d]; cbn [str_eqb].
  - change (str_eqb [] []) with true. cbn iota. rewrite <- !app_assoc. rewrite app_nil_l. reflexivity.
  - destruct (str_eqb_spec (c :: d) []); [discriminate|]. rewrite <- !app_assoc. reflexivity.
Qed.
(** C40: without a nested algorithm, a type that the configuration already has
    is left alone; otherwise the type is set to the empty string, described by
    the list of choices, and no other key changes. *)
Theorem C40_get_without_algorithm {A} (vt : vtable A) ops g es h t name cfg r p :
  rrun vt reg0 ops = (g, es) -> reachable h -> resolves h cfg r p -> t <> [] -> plain t -> plain_types (registrations es) ->
  let key := name ++ L ":type" in
  (has_value h cfg key = Ok true -> get_nested vt g h t name cfg None = (h, Ok tt)) /\
  (has_value h cfg key = Ok false -> is_read_only h r (abs_key p key) = Ok false ->
    exists h', get_nested vt g h t name cfg None = (h', Ok tt) /\ get_string h' cfg key = Ok [] /\
      get_description h' cfg key = Ok (choices vt g (registrations es) t name) /\
      forall k, k <> key -> get_string h' cfg k = get_string h cfg k /\ has_value h' cfg k = has_value h cfg k /\ get_description h' cfg k = get_description h cfg k).
Proof.
  intros E Hre Hres Ht Hp Hl key. pose proof (inv_reach A vt ops g es E) as HI.
  assert (Et : type_comment vt g t name = Ok (choices vt g (registrations es) t name)).
  { unfold type_comment. rewrite (comment_text vt g (registrations es) t HI Ht Hp Hl) by auto. unfold choices. rewrite <- !app_assoc. reflexivity. }
  unfold get_nested. rewrite Et. change (type_key name) with key. split; [intros ->; reflexivity|]. intros -> Hro.
  destruct (set_outcome h cfg key [] (choices vt g (registrations es) t name) r p Hre Hres) as [[_ Eset]|[X _]]; [|congruence].
  destruct (i_set_value h cfg key [] (choices vt g (registrations es) t name)) as [h1 r1] eqn:Es. cbn [snd] in Eset. subst r1.
  pose proof (set_get_lemma _ _ _ _ _ _ Hre Es) as (S1 & S2 & S3 & _). exists h1. split; auto.
  assert (Sm : same_entry h cfg key cfg key) by (exists r, p, p; auto). split; [|split].
  - destruct (S1 cfg key Sm) as (v & Hv & ->). f_equal. destruct Hv as (u & w & Hv & _). destruct u; [|discriminate]. destruct v; [reflexivity|discriminate].
  - rewrite (S3 cfg key Sm). unfold choices. reflexivity.
  - intros k Hk. apply S2; [apply resolves_lt in Hres; tauto|]. intros (r' & p1 & p2 & X1 & X2 & X3). destruct (resolves_det _ _ _ _ X1 _ _ X2) as [_ ->]. apply abs_key_inj in X3. congruence.
Qed.
Print Assumptions C40_get_without_algorithm.
Example C40_get_without_nonvacuous : has_value demo_heap 0 (L "other" ++ L ":type") = Ok false /\ has_value demo_heap 0 (L "det" ++ L ":type") = Ok true /\
  choices demo_vt demo_reg (registrations (snd (rrun demo_vt reg0 demo_ops))) (L "detect") (L "other") =
  L "Algorithm to use for 'other'." ++ ["010"%char] ++ L "Must be one of the following options:" ++ ["010"%char; "009"%char] ++ L "- fast" ++ ["010"%char; "009"%char] ++ L "- slow".
Proof. split; [|split]; vm_compute; reflexivity. Qed.
