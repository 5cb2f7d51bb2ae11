(** ConfigProps.v -- property theorems C01..C14 about config blocks. *)
From Coq Require Import Sorting.Sorted.
From Verif Require Import Base ConfigModel ConfigSpec ConfigProofs ConfigProofs2 ConfigProofs3 ConfigProofs4.

(** A concrete history used by the non-vacuity examples: a root, a nested
    view a:b, values with blanks, a global, a read-only key, a second root. *)
Definition demo_ops : list op :=
  [ ONew (L "top"); OView 0 (L "aa"); OView 1 (L "bb");
    OSet 2 (L "key") (L "  v1 ") (L "first"); OSet 0 (L "zed") (L "9") [];
    OSet 0 (L "_global:g") (L "G") []; OMarkRO 0 (L "zed");
    ONew (L "other"); OSet 3 (L "aa:bb:key") (L "v2") []; OSet 3 (L "zz") (L "3") (L "d") ].
Definition demo : heap := fst (run [] demo_ops).
Example demo_reachable : reachable demo.
Proof. exists demo_ops. reflexivity. Qed.
Example demo_resolves : resolves demo 2 0 [L "aa"; L "bb"] /\ resolves demo 0 0 [] /\ resolves demo 3 3 [].
Proof.
  split; [|split; eapply resolves_root; reflexivity].
  change [L "aa"; L "bb"] with ([L "aa"] ++ [L "bb"]).
  apply (resolves_view demo 2 (new_block (L "bb") (Some 1)) 1 0 [L "aa"]); [reflexivity|reflexivity|].
  change [L "aa"] with ([] ++ [L "aa"]).
  apply (resolves_view demo 1 (new_block (L "aa") (Some 0)) 0 0 []); [reflexivity|reflexivity|].
  eapply resolves_root; reflexivity.
Qed.

(** C01: a successful set is seen, trimmed, through every alias of the entry;
    nothing else changes; and a set fails only on a read-only entry. *)
Theorem C01_set_get h id k v d h' :
  reachable h -> i_set_value h id k v d = (h', Ok tt) ->
  (forall id2 k2, same_entry h id k id2 k2 ->
     exists t, is_trim v t /\ get_string h' id2 k2 = Ok t) /\
  (forall id2 k2, id2 < length h -> ~ same_entry h id k id2 k2 ->
     get_string h' id2 k2 = get_string h id2 k2 /\
     has_value h' id2 k2 = has_value h id2 k2 /\
     get_description h' id2 k2 = get_description h id2 k2) /\
  (forall id2 k2, same_entry h id k id2 k2 ->
     get_description h' id2 k2 =
       match d with [] => match get_description h id2 k2 with Ok d0 => Ok d0 | _ => Ok [] end | _ => Ok d end) /\
  (forall id2 k2, is_read_only h' id2 k2 = is_read_only h id2 k2 /\
                  get_location h' id2 k2 = get_location h id2 k2).
Proof. exact (set_get_lemma h id k v d h'). Qed.
Print Assumptions C01_set_get.
Example C01_nonvacuous : exists h', i_set_value demo 2 (L "key") (L " new	") [] = (h', Ok tt) /\
  get_string h' 0 (L "aa:bb:key") = Ok (L "new") /\ get_string h' 3 (L "aa:bb:key") = Ok (L "v2").
Proof. eexists. split; [vm_compute; reflexivity|]. split; vm_compute; reflexivity. Qed.

Theorem C01_set_succeeds_iff h id k v d r p :
  reachable h -> resolves h id r p ->
  (is_read_only h r (abs_key p k) = Ok false /\ snd (i_set_value h id k v d) = Ok tt) \/
  (is_read_only h r (abs_key p k) = Ok true /\
   exists cur, i_set_value h id k v d = (h, Throw (SetOnReadOnly (abs_key p k) cur v))).
Proof. exact (set_outcome h id k v d r p). Qed.
Print Assumptions C01_set_succeeds_iff.

Theorem C01_aliases_agree h id1 k1 id2 k2 :
  reachable h -> same_entry h id1 k1 id2 k2 ->
  has_value h id1 k1 = has_value h id2 k2 /\
  get_description h id1 k1 = get_description h id2 k2 /\
  (forall v, get_string h id1 k1 = Ok v <-> get_string h id2 k2 = Ok v).
Proof. exact (alias_agree_lemma h id1 k1 id2 k2). Qed.
Print Assumptions C01_aliases_agree.
Example C01_alias_nonvacuous : same_entry demo 2 (L "key") 0 (L "aa:bb:key").
Proof. exists 0, [L "aa"; L "bb"], []. destruct demo_resolves as (A & B & _). auto. Qed.

(** C02: every history has exactly the outcomes of the flat one-table-per-root machine. *)
Theorem C02_refines_flat ops : snd (run [] ops) = snd (frun [] ops).
Proof. exact (proj1 (sim_run ops [] [] R_nil)). Qed.
Print Assumptions C02_refines_flat.
Example C02_nonvacuous : nth_error (snd (run [] (demo_ops ++ [OGet 2 (L "key"); OMerge 0 3; OAvail 0]))) 10
    = Some (Ok (VStr (L "v1"))) /\
  nth_error (snd (run [] (demo_ops ++ [OGet 2 (L "key"); OMerge 0 3; OAvail 0]))) 12
    = Some (Ok (VKeys [L "_global:g"; L "aa:bb:key"; L "zed"; L "zz"])).
Proof. split; vm_compute; reflexivity. Qed.

(** C03: a read-only entry of a root keeps its value through every later
    history, and every attempt to set or unset it, through any alias, throws. *)
Theorem C03_read_only_permanent h ops r k :
  reachable h -> resolves h r r [] -> is_read_only h r k = Ok true ->
  let h' := fst (run h ops) in
  is_read_only h' r k = Ok true /\
  get_string h' r k = get_string h r k /\
  has_value h' r k = has_value h r k /\
  get_description h' r k = get_description h r k /\
  forall id p k2, resolves h' id r p -> abs_key p k2 = k ->
    (forall v d, exists cur, i_set_value h' id k2 v d = (h', Throw (SetOnReadOnly k cur v))) /\
    (exists cur, unset_value h' id k2 = (h', Throw (UnsetOnReadOnly k cur))).
Proof. exact (ro_permanent_lemma h ops r k). Qed.
Print Assumptions C03_read_only_permanent.
Example C03_nonvacuous : is_read_only demo 0 (L "zed") = Ok true /\ get_string demo 0 (L "zed") = Ok (L "9").
Proof. split; vm_compute; reflexivity. Qed.

(** C04: a rejected set or unset leaves the whole heap unchanged. *)
Lemma failed_set_f n : forall h id k v d e, snd (i_set_value_f n h id k v d) = Throw e -> fst (i_set_value_f n h id k v d) = h.
Proof.
  induction n as [|n IH]; intros h id k v d e; simpl; auto.
  destruct (nth_error h id) as [b|]; auto. destruct (b_parent b); eauto.
  destruct (is_read_only_b b k); auto. discriminate.
Qed.
Lemma failed_unset_f n : forall h id k e, snd (unset_value_f n h id k) = Throw e -> fst (unset_value_f n h id k) = h.
Proof.
  induction n as [|n IH]; intros h id k e; simpl; auto.
  destruct (nth_error h id) as [b|]; auto. destruct (b_parent b); eauto.
  destruct (is_read_only_b b k); auto. destruct (sfind k (b_store b)); auto.
  destruct (sfind k (b_descr b)); auto. discriminate.
Qed.
Theorem C04_failed_set_unset_no_effect h id k :
  (forall v d e, snd (i_set_value h id k v d) = Throw e -> fst (i_set_value h id k v d) = h) /\
  (forall e, snd (unset_value h id k) = Throw e -> fst (unset_value h id k) = h).
Proof. exact (conj (fun v d => failed_set_f _ h id k v d) (failed_unset_f _ h id k)). Qed.
Print Assumptions C04_failed_set_unset_no_effect.
(** ... and the exact outcome and effect of unset. *)
Theorem C04_unset_outcome h id r p k :
  reachable h -> resolves h id r p ->
  let out := unset_value h id k in
  (is_read_only h r (abs_key p k) = Ok true /\
     fst out = h /\ exists cur, snd out = Throw (UnsetOnReadOnly (abs_key p k) cur)) \/
  (is_read_only h r (abs_key p k) = Ok false /\ has_value h id k = Ok false /\
     fst out = h /\ snd out = Throw (NoSuchValue (abs_key p k))) \/
  (is_read_only h r (abs_key p k) = Ok false /\ has_value h id k = Ok true /\ snd out = Ok tt /\
     (forall id2 k2, same_entry h id k id2 k2 -> has_value (fst out) id2 k2 = Ok false) /\
     (forall id2 k2, id2 < length h -> ~ same_entry h id k id2 k2 ->
        get_string (fst out) id2 k2 = get_string h id2 k2 /\
        has_value (fst out) id2 k2 = has_value h id2 k2 /\
        get_description (fst out) id2 k2 = get_description h id2 k2)).
Proof. exact (unset_lemma h id r p k). Qed.
Print Assumptions C04_unset_outcome.
Example C04_nonvacuous :
  snd (unset_value demo 2 (L "key")) = Ok tt /\
  (exists c, snd (unset_value demo 0 (L "zed")) = Throw (UnsetOnReadOnly (L "zed") c)) /\
  snd (unset_value demo 1 (L "nope")) = Throw (NoSuchValue (L "aa:nope")).
Proof. repeat split; try (vm_compute; reflexivity). eexists; vm_compute; reflexivity. Qed.

(** C05: on live handles no operation of any history reaches undefined
    behaviour (in particular unset_value never erases an end() iterator), and
    a description exists exactly when a value does. *)
Theorem C05_no_undefined_behaviour h o :
  reachable h -> (forall id, In id (op_ids o) -> id < length h) ->
  match snd (step h o) with Ok _ | Throw _ => True | UB | NoFuel => False end.
Proof. exact (no_ub_lemma h o). Qed.
Print Assumptions C05_no_undefined_behaviour.
Lemma desc_iff h id r p k : reachable h -> resolves h id r p ->
  (has_value h id k = Ok true <-> exists d, get_description h id k = Ok d).
Proof.
  intros Hre Hres. destruct (reachable_R _ Hre) as [f HR].
  rewrite (has_at h f HR id r p Hres), (desc_at h f HR id r p Hres).
  destruct (fentry f r (abs_key p k)) as [[v d]|]; split; eauto; [discriminate|intros [d E]; discriminate].
Qed.
Theorem C05_description_iff_value h id r p k :
  reachable h -> resolves h id r p ->
  (has_value h id k = Ok true <-> exists d, get_description h id k = Ok d).
Proof. exact (desc_iff h id r p k). Qed.
Print Assumptions C05_description_iff_value.
Example C05_nonvacuous : snd (step demo (OUnset 2 (L "key"))) = Ok VUnit /\ 2 < length demo.
Proof. split; [vm_compute; reflexivity|vm_compute; auto]. Qed.

(** C06/C07: merge.  [l1] is the part of the source's key list that was
    merged; it is everything iff merge succeeded, otherwise it stops exactly
    at the first key that is read-only in the target. *)
Theorem C06_merge h a b ra rb pa pb keys :
  reachable h -> resolves h a ra pa -> resolves h b rb pb -> ra <> rb ->
  available_values h b = Ok keys -> (forall k, In k keys -> has_value h b k = Ok true) ->
  let out := merge_config h a b in
  exists l1 l2, keys = l1 ++ l2 /\
   (forall k, In k l1 -> is_read_only h ra (abs_key pa k) = Ok false) /\
   (match l2 with
    | [] => snd out = Ok tt
    | k :: _ => is_read_only h ra (abs_key pa k) = Ok true /\
        exists cur v, snd out = Throw (SetOnReadOnly (abs_key pa k) cur v)
    end) /\
   (forall k, In k l1 ->
      (forall v, get_string (fst out) a k = Ok v <-> get_string h b k = Ok v) /\
      get_description (fst out) a k =
        match get_description h b k, get_description h a k with
        | Ok [], Ok d0 => Ok d0
        | r, _ => r
        end) /\
   (forall id k, id < length h -> (forall k1, In k1 l1 -> ~ same_entry h a k1 id k) ->
      get_string (fst out) id k = get_string h id k /\
      has_value (fst out) id k = has_value h id k /\
      get_description (fst out) id k = get_description h id k) /\
   (forall id k, is_read_only (fst out) id k = is_read_only h id k).
Proof. exact (merge_lemma h a b ra rb pa pb keys). Qed.
Print Assumptions C06_merge.
Example C06_nonvacuous : available_values demo 3 = Ok [L "aa:bb:key"; L "zz"] /\
  snd (merge_config demo 0 3) = Ok tt /\
  get_string (fst (merge_config demo 0 3)) 2 (L "key") = Ok (L "v2") /\
  get_description (fst (merge_config demo 0 3)) 2 (L "key") = Ok (L "first").
Proof. repeat split; vm_compute; reflexivity. Qed.
Example C07_nonvacuous : (* merging the block with the read-only "zed" into itself' copy stops at zed *)
  exists h, h = fst (run demo [OSet 3 (L "zed") (L "8") []]) /\
  (exists c, snd (merge_config h 0 3) = Throw (SetOnReadOnly (L "zed") c (L "8"))) /\
  get_string (fst (merge_config h 0 3)) 0 (L "aa:bb:key") = Ok (L "v2") /\
  has_value (fst (merge_config h 0 3)) 0 (L "zz") = Ok false.
Proof. eexists. split; [reflexivity|]. repeat split; try (vm_compute; reflexivity). eexists; vm_compute; reflexivity. Qed.

(** C08: subblock is an exact, independent, unflagged copy. *)
Theorem C08_subblock_copy h r n :
  reachable h -> resolves h r r [] ->
  exists h', subblock h r n = (h', Ok (length h)) /\
   let nw := length h in
   resolves h' nw nw [] /\
   (forall id, id < length h -> nth_error h' id = nth_error h id) /\
   (forall k, is_read_only h' nw k = Ok false /\ get_location h' nw k = Ok None) /\
   (forall k, has_value h' nw k = Ok true <->
      has_value h r (n ++ L ":" ++ k) = Ok true \/
      (global_key k = true /\ is_prefix (n ++ L ":") k = false /\ has_value h r k = Ok true)) /\
   (forall k v, get_string h' nw k = Ok v ->
      get_string h r (n ++ L ":" ++ k) = Ok v \/
      (global_key k = true /\ is_prefix (n ++ L ":") k = false /\ get_string h r k = Ok v)) /\
   (forall k, ~ (global_key k = true /\ is_prefix (n ++ L ":") k = false /\ has_value h r k = Ok true) ->
      entry h' nw k = entry h r (n ++ L ":" ++ k)) /\
   (forall k, global_key k = true -> is_prefix (n ++ L ":") k = false ->
      has_value h r (n ++ L ":" ++ k) = Ok false -> entry h' nw k = entry h r k).
Proof. exact (subblock_lemma h r n). Qed.
Print Assumptions C08_subblock_copy.
(** Independence: no history that does not address (a view of) a root block
    changes anything in that root block -- so neither side of a subblock
    copy is affected by operations on the other. *)
Theorem C08_independence h ops r :
  reachable h -> r < length h -> untouched h ops r ->
  nth_error (fst (run h ops)) r = nth_error h r.
Proof. exact (run_untouched ops h r). Qed.
Print Assumptions C08_independence.
Example C08_nonvacuous :
  get_string (fst (subblock demo 0 (L "aa"))) 4 (L "bb:key") = Ok (L "v1") /\
  get_string (fst (subblock demo 0 (L "aa"))) 4 (L "_global:g") = Ok (L "G") /\
  has_value (fst (subblock demo 0 (L "aa"))) 4 (L "zed") = Ok false.
Proof. repeat split; vm_compute; reflexivity. Qed.
Example C08_untouched_nonvacuous :
  untouched demo [OSet 3 (L "qq") (L "1") []; OUnset 3 (L "zz"); OView 0 (L "x")] 0.
Proof.
  assert (Hd : forall h p, reachable h -> resolves h 3 3 [] -> ~ resolves h 3 0 p).
  { intros h p _ H1 H2. destruct (resolves_det _ _ _ _ H1 _ _ H2). discriminate. }
  assert (R3 : forall ops, resolves (fst (run demo ops)) 3 3 []).
  { intro ops. eapply same_shape_resolves; [apply run_shape|apply demo_resolves]. }
  simpl. repeat split; auto.
  - intros [p H]. eapply (Hd demo); eauto using demo_reachable. apply demo_resolves.
  - intros [p H]. eapply (Hd (fst (run demo [OSet 3 (L "qq") (L "1") []]))); eauto.
    apply reachable_run, demo_reachable.
Qed.

(** C09: a root lists exactly its keys, once, in byte order. *)
Theorem C09_available_values_root h r :
  reachable h -> resolves h r r [] ->
  exists keys, available_values h r = Ok keys /\
    StronglySorted (fun a b => str_cmp a b = Lt) keys /\ NoDup keys /\
    forall k, In k keys <-> has_value h r k = Ok true.
Proof. exact (root_keys_lemma h r). Qed.
Print Assumptions C09_available_values_root.
Example C09_nonvacuous : available_values demo 0 = Ok [L "_global:g"; L "aa:bb:key"; L "zed"].
Proof. vm_compute; reflexivity. Qed.

(** C10: full statement (every key listed by a view can be read through it)
    is FALSE: '_global:' keys of the root are listed but not found. *)
Theorem C10_view_lists_unreadable_key_refuted :
  exists h id keys k, reachable h /\ available_values h id = Ok keys /\ In k keys /\
    has_value h id k = Ok false /\ get_string h id k = Throw (NoSuchValue k) /\
    (exists e, snd (merge_config h 3 id) = Throw e) /\ (exists e, print h id = Throw e) /\
    (exists e, snd (subblock h id (L "bb")) = Throw e).
Proof.
  exists demo, 1, [L "_global:g"; L "bb:key"], (L "_global:g").
  split; [exact demo_reachable|]. repeat split; try (vm_compute; reflexivity); try (simpl; auto);
  eexists; vm_compute; reflexivity.
Qed.
Print Assumptions C10_view_lists_unreadable_key_refuted.
(** What does hold: completeness, and soundness for keys outside '_global:'
    of views whose names are not themselves global. *)
Theorem C10_view_listing_partial h id r p :
  reachable h -> resolves h id r p ->
  (forall n, In n p -> global_name n = false) ->
  exists keys, available_values h id = Ok keys /\
   (forall k, has_value h id k = Ok true -> In k keys) /\
   (forall k, global_key k = false -> In k keys -> has_value h id k = Ok true).
Proof. exact (view_keys_lemma h id r p). Qed.
Print Assumptions C10_view_listing_partial.
Example C10_nonvacuous : available_values demo 2 = Ok [L "_global:g"; L "key"] /\
  has_value demo 2 (L "key") = Ok true /\ global_name (L "aa") = false /\ global_name (L "bb") = false.
Proof. repeat split; vm_compute; reflexivity. Qed.

(** C11: values never carry outer white space. *)
Theorem C11_values_trimmed h id k v : reachable h -> get_string h id k = Ok v -> is_trim v v.
Proof. exact (get_trimmed_lemma h id k v). Qed.
Print Assumptions C11_values_trimmed.
Example C11_nonvacuous : get_string demo 2 (L "key") = Ok (L "v1").
Proof. vm_compute; reflexivity. Qed.

(** C12: FALSE -- marking through a view protects nothing, and a view does
    not report its parent's read-only keys. *)
Theorem C12_view_read_only_refuted :
  exists h v r k, reachable h /\ same_entry h v k r (L "aa:" ++ k) /\
    let h1 := fst (mark_read_only h v k) in
    is_read_only h1 v k = Ok true /\ is_read_only h1 r (L "aa:" ++ k) = Ok false /\
    snd (i_set_value h1 v k (L "changed") []) = Ok tt /\
    get_string (fst (i_set_value h1 v k (L "changed") [])) v k = Ok (L "changed").
Proof.
  exists demo, 1, 0, (L "bb:key"). split; [exact demo_reachable|]. split.
  - exists 0, [L "aa"], []. split; [|split; [apply demo_resolves|reflexivity]].
    change [L "aa"] with ([] ++ [L "aa"]).
    apply (resolves_view demo 1 (new_block (L "aa") (Some 0)) 0 0 []); [reflexivity|reflexivity|]. apply demo_resolves.
  - repeat split; vm_compute; reflexivity.
Qed.
Print Assumptions C12_view_read_only_refuted.
(** What does hold: marking on the root block protects the entry at once. *)
Lemma mark_root_lemma h r k : reachable h -> resolves h r r [] ->
  let h1 := fst (mark_read_only h r k) in
  is_read_only h1 r k = Ok true /\
  (forall v d, exists cur, i_set_value h1 r k v d = (h1, Throw (SetOnReadOnly k cur v))).
Proof.
  intros Hre Hres h1.
  assert (Hre1 : reachable h1) by (exact (reachable_step h (OMarkRO r k) Hre)).
  assert (Hres1 : resolves h1 r r []).
  { eapply same_shape_resolves; [exact (step_shape h (OMarkRO r k))|exact Hres]. }
  assert (Hro : is_read_only h1 r k = Ok true).
  { destruct (resolves_some _ _ _ _ Hres) as [b Hb]. unfold h1, mark_read_only. rewrite Hb. simpl.
    unfold is_read_only, upd. rewrite nth_lupd_eq by (eapply nth_error_lt; eauto).
    unfold is_read_only_b. simpl. rewrite shas_find, sfind_set_eq. reflexivity. }
  split; auto. intros v d.
  destruct (set_outcome h1 r k v d r [] Hre1 Hres1) as [[E _]|[_ E]]; [|exact E].
  rewrite abs_key_nil in E. congruence.
Qed.
Theorem C12_mark_on_root_partial h r k : reachable h -> resolves h r r [] ->
  let h1 := fst (mark_read_only h r k) in
  is_read_only h1 r k = Ok true /\
  (forall v d, exists cur, i_set_value h1 r k v d = (h1, Throw (SetOnReadOnly k cur v))).
Proof. exact (mark_root_lemma h r k). Qed.
Print Assumptions C12_mark_on_root_partial.

(** C13: booleans. *)
Theorem C13_bool_cast v b : bool_cast v = Some b <->
  (b = true /\ (map to_lower v = L "true" \/ map to_lower v = L "yes" \/ map to_lower v = L "1")) \/
  (b = false /\ (map to_lower v = L "false" \/ map to_lower v = L "no" \/ map to_lower v = L "0")).
Proof. exact (bool_cast_lemma v b). Qed.
Print Assumptions C13_bool_cast.
Lemma bool_round_trip_lemma h id k b d h' : reachable h ->
  set_bool_descr h id k b d = (h', Ok tt) \/ set_bool h id k b = (h', Ok tt) ->
  get_value bool_cast h' id k = Ok b.
Proof.
  intros Hre [H|H]; eapply set_then_cast; eauto; destruct b; vm_compute; reflexivity.
Qed.
Theorem C13_bool_round_trip h id k b d h' : reachable h ->
  set_bool_descr h id k b d = (h', Ok tt) \/ set_bool h id k b = (h', Ok tt) ->
  get_value bool_cast h' id k = Ok b.
Proof. exact (bool_round_trip_lemma h id k b d h'). Qed.
Print Assumptions C13_bool_round_trip.
Example C13_nonvacuous : bool_cast (L "YeS") = Some true /\ bool_cast (L "yes ") = None /\
  snd (set_bool demo 2 (L "flag") true) = Ok tt.
Proof. repeat split; vm_compute; reflexivity. Qed.

(** C14: get_value with a default. *)
Lemma get_def_lemma T (cast : str -> option T) h id k def : reachable h -> id < length h ->
  (exists v t, get_string h id k = Ok v /\ cast v = Some t /\ get_value cast h id k = Ok t /\
               get_value_def cast h id k def = Ok t) \/
  ((forall v, get_string h id k = Ok v -> cast v = None) /\
   (exists e, get_value cast h id k = Throw e) /\ get_value_def cast h id k def = Ok def).
Proof.
  intros Hre Hlt. destruct (reachable_R _ Hre) as [f HR].
  destruct (resolves_total h id Hre Hlt) as (r & p & Hres).
  unfold get_value_def. rewrite (get_cast_at cast h f id r p k HR Hres), (get_at h f HR id r p Hres).
  destruct (fentry f r (abs_key p k)) as [[v d]|].
  - destruct (cast v) as [t|] eqn:E.
    + left. exists v, t. auto.
    + right. split; [intros v0 H; congruence|]. eauto.
  - right. split; [discriminate|]. eauto.
Qed.
Theorem C14_get_value_default T (cast : str -> option T) h id k def : reachable h -> id < length h ->
  (exists v t, get_string h id k = Ok v /\ cast v = Some t /\ get_value cast h id k = Ok t /\
               get_value_def cast h id k def = Ok t) \/
  ((forall v, get_string h id k = Ok v -> cast v = None) /\
   (exists e, get_value cast h id k = Throw e) /\ get_value_def cast h id k def = Ok def).
Proof. exact (get_def_lemma T cast h id k def). Qed.
Print Assumptions C14_get_value_default.
Example C14_nonvacuous : get_value_def bool_cast demo 0 (L "zed") true = Ok true /\
  get_value_def bool_cast demo 0 (L "missing") false = Ok false /\
  get_value bool_cast demo 0 (L "zed") = Throw (BadCast (L "zed") (L "9")).
Proof. repeat split; vm_compute; reflexivity. Qed.
