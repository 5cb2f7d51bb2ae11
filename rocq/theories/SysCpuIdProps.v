(** SysCpuIdProps.v -- C144: which processor it is. *)
From Coq Require Import List ZArith Bool Ascii String Lia.
Import ListNotations.
From Verif Require Import Base SysMemModel SysMemSpec SysMemProps SysCpuModel SysCpuSpec SysCpuProps SysCpuIdModel SysCpuIdSpec.
Open Scope Z_scope.
Open Scope list_scope.

Lemma value_first ls w : describes ls -> In w identity_keys -> value w (body ls) = first_value w ls.
Proof.
  intros [F C] I. unfold value. rewrite Forall_forall in C. rewrite value_body; [|split; [|split]|exact F|apply C, I].
  - rewrite looked_value. unfold first_value. destruct (values (L w) ls); reflexivity.
  - cbn in I. intuition (subst; discriminate).
  - cbn in I. intros X. intuition subst; vm_compute in X; intuition discriminate.
  - cbn in I. intros X. intuition subst; vm_compute in X; intuition discriminate.
Qed.
Lemma identity_eq ls f s : describes ls -> one_of "cpu family" "CPU architecture" ls f -> one_of "stepping" "CPU revision" ls s ->
  cpu_identity (cpuinfo ls) = Some (Identity (first_value "vendor_id" ls) (vendor_id (find_manufacturer (first_value "vendor_id" ls) f))
    (if (atoi f =? 0) && match find_manufacturer (first_value "vendor_id" ls) f with HP => true | _ => false end then
       if str_eqb f (L "PA-RISC 1.1a") then 282 else if str_eqb f (L "PA-RISC 2.0") then 512 else atoi f else atoi f)
    (atoi (first_value "model" ls)) (atoi s) (first_value "model name" ls)
    (cache_of (first_value "cache size" ls) + cache_of (first_value "I-cache" ls) + cache_of (first_value "D-cache" ls))).
Proof.
  intros D (FN & F) (SN & S). unfold cpu_identity, cpuinfo. fold (body ls).
  destruct (body ls ++ [NL]) as [|c x] eqn:E; [destruct (body ls); discriminate|]. rewrite <- E, removelast_last. clear E c x.
  repeat rewrite (value_first ls) by (exact D || (cbn; tauto)).
  assert (EF : match first_value "cpu family" ls with [] => first_value "CPU architecture" ls | s => s end = f) by (destruct F as [F|[F1 F2]]; [rewrite F; destruct f; congruence|rewrite F1; exact F2]).
  assert (ES : match first_value "stepping" ls with [] => first_value "CPU revision" ls | s => s end = s) by (destruct S as [S|[S1 S2]]; [rewrite S; destruct s; congruence|rewrite S1; exact S2]).
  rewrite EF, ES. reflexivity.
Qed.
Lemma vendor_table v f name : In (v, name) vendors -> vendor_id (find_manufacturer v f) = name.
Proof. intros I. cbn in I. repeat (destruct I as [I|I]; [inversion I; subst; reflexivity|]). contradiction. Qed.
Lemma vendor_unknown v f : ~ In v (map fst vendors) -> vendor_id (find_manufacturer v f) = if is_prefix (L "PA-RISC") f then L "Hewlett-Packard" else L "Unknown Manufacturer".
Proof.
  intros N. unfold find_manufacturer. assert (Q : forall s, In (L s) (map fst vendors) -> str_eqb v (L s) = false).
  { intros s I. destruct (str_eqb v (L s)) eqn:E; [|reflexivity]. apply str_eqb_eq in E. subst v. tauto. }
  repeat rewrite Q by (cbn; tauto).
  assert (X : str_eqb (firstn 7 f) (L "PA-RISC") = is_prefix (L "PA-RISC") f).
  { destruct (is_prefix (L "PA-RISC") f) eqn:P.
    - apply is_prefix_app in P. destruct P as [r ->]. reflexivity.
    - destruct (str_eqb (firstn 7 f) (L "PA-RISC")) eqn:E; [|reflexivity]. apply str_eqb_eq in E. rewrite <- (firstn_skipn 7 f), E, is_prefix_self in P. discriminate. }
  rewrite X. destruct (is_prefix (L "PA-RISC") f); reflexivity.
Qed.
Lemma written_not v n s : written v n -> (match s with c :: _ => is_digit c = false | [] => True end) -> str_eqb v s = false.
Proof.
  intros W D. destruct (written_decimal _ _ W) as (NE & F & _). destruct (str_eqb v s) eqn:E; [|reflexivity]. apply str_eqb_eq in E. subst v.
  destruct s as [|c s]; [congruence|]. inversion F; congruence.
Qed.
Lemma cache_kb v n : written v n -> cache_of (v ++ L " KB") = n.
Proof.
  intros W. destruct (written_decimal _ _ W) as (NE & F & _). unfold cache_of. destruct (v ++ L " KB") as [|c r] eqn:E; [destruct v; discriminate|]. rewrite <- E. clear E c r.
  assert (X : find (L " KB") (v ++ L " KB") = Some (L " KB")).
  { clear NE W. induction F as [|c v D F IH]; [reflexivity|]. cbn [app find]. replace (is_prefix (L " KB") (c :: v ++ L " KB")) with false; [exact IH|].
    symmetry. change (L " KB") with (" "%char :: L "KB"). cbn [is_prefix]. destruct (Ascii.eqb_spec " " c) as [<-|]; [discriminate|]. reflexivity. }
  rewrite X, app_length, Nat.add_sub, firstn_app, firstn_all, Nat.sub_diag. cbn [firstn]. rewrite app_nil_r. apply atoi_written. exact W.
Qed.
(** The usual case: numbers, one cache. *)
Theorem C144_identity : forall ls f m s c fn mn sn cn, describes ls -> one_of "cpu family" "CPU architecture" ls f -> written f fn ->
  first_value "model" ls = m -> written m mn -> one_of "stepping" "CPU revision" ls s -> written s sn ->
  first_value "cache size" ls = c ++ L " KB" -> written c cn -> first_value "I-cache" ls = [] -> first_value "D-cache" ls = [] ->
  exists id, cpu_identity (cpuinfo ls) = Some id /\ vendor_string id = first_value "vendor_id" ls /\ family_id id = fn /\ model_id id = mn /\ stepping id = sn /\
    model_name id = first_value "model name" ls /\ cache_size id = cn.
Proof.
  intros ls f m s c fn mn sn cn D F FW M MW S SW C CW I1 D1. rewrite (identity_eq _ _ _ D F S). eexists. split; [reflexivity|]. cbn. rewrite (atoi_written _ _ FW), M, (atoi_written _ _ MW), (atoi_written _ _ SW), C, (cache_kb _ _ CW), I1, D1.
  rewrite (written_not _ _ (L "PA-RISC 1.1a") FW eq_refl), (written_not _ _ (L "PA-RISC 2.0") FW eq_refl). repeat split; [destruct (_ && _); reflexivity|cbn; lia].
Qed.
(** The maker. *)
Theorem C144_vendor : forall ls f s, describes ls -> one_of "cpu family" "CPU architecture" ls f -> one_of "stepping" "CPU revision" ls s ->
  exists id, cpu_identity (cpuinfo ls) = Some id /\
    (forall name, In (first_value "vendor_id" ls, name) vendors -> vendor_name id = name) /\
    (~ In (first_value "vendor_id" ls) (map fst vendors) -> ~ (exists r, f = L "PA-RISC" ++ r) -> vendor_name id = L "Unknown Manufacturer").
Proof.
  intros ls f s D F S. rewrite (identity_eq _ _ _ D F S). eexists. split; [reflexivity|]. cbn [vendor_name]. split; [intros name; apply vendor_table|].
  intros N P. rewrite vendor_unknown by exact N. destruct (is_prefix (L "PA-RISC") f) eqn:E; [|reflexivity]. apply is_prefix_app in E. contradiction.
Qed.
(** PA-RISC: the family is a name; there are two caches. *)
Theorem C144_pa_risc : forall ls f s i d n1 n2, describes ls -> one_of "cpu family" "CPU architecture" ls f -> one_of "stepping" "CPU revision" ls s ->
  ~ In (first_value "vendor_id" ls) (map fst vendors) -> f = L "PA-RISC 1.1a" \/ f = L "PA-RISC 2.0" ->
  first_value "cache size" ls = [] -> first_value "I-cache" ls = i ++ L " KB" -> written i n1 -> first_value "D-cache" ls = d ++ L " KB" -> written d n2 ->
  exists id, cpu_identity (cpuinfo ls) = Some id /\ vendor_name id = L "Hewlett-Packard" /\ (f = L "PA-RISC 1.1a" -> family_id id = 282) /\ (f = L "PA-RISC 2.0" -> family_id id = 512) /\ cache_size id = n1 + n2.
Proof.
  intros ls f s i d n1 n2 D F S N PF C I1 W1 D1 W2. rewrite (identity_eq _ _ _ D F S). eexists. split; [reflexivity|]. cbn [vendor_name family_id cache_size].
  assert (V : vendor_id (find_manufacturer (first_value "vendor_id" ls) f) = L "Hewlett-Packard") by (rewrite vendor_unknown by exact N; destruct PF as [-> | ->]; reflexivity).
  rewrite C, I1, D1, (cache_kb _ _ W1), (cache_kb _ _ W2). split; [exact V|].
  destruct (find_manufacturer (first_value "vendor_id" ls) f) eqn:E; try discriminate V. destruct PF as [-> | ->]; (split; [intros H; try reflexivity; discriminate H|split; [intros H; try reflexivity; discriminate H|reflexivity]]).
Qed.
(** Non-vacuity: an Intel, an ARM, a PA-RISC. *)
Definition arm : list line := [Entry (L "processor") [TAB] (L "0"); E1 "model name" "" "ARMv7 Processor rev 3"; E1 "CPU architecture" "" "7"; E1 "CPU revision" "" "3"; Empty].
Definition pa : list line := [Entry (L "processor") [TAB] (L "0"); E1 "cpu family" "" "PA-RISC 2.0"; E1 "stepping" "" "1"; E1 "I-cache" "" "512 KB"; E1 "D-cache" "" "1024 KB"; E1 "model" "" "9000/785"; Empty].
Definition intel : list line := [Entry (L "processor") [TAB] (L "0"); E1 "vendor_id" "" "GenuineIntel"; E1 "cpu family" "" "6"; E1 "model" "" "85"; E1 "model name" "" "Intel(R) Xeon(R) CPU @ 2.20GHz"; E1 "stepping" "" "7"; E1 "cache size" "" "39424 KB"; Empty].
Definition clear_b2 (w : str) (l : line) : bool :=
  match find w (text1 l) with None => true | Some _ => match find w (tl (text1 l)) with None => match l with Entry k _ _ => str_eqb k w || str_eqb (firstn (length w + 2) k) (w ++ L " n") | Empty => false end | Some _ => false end end.
Lemma clear_check2 w l : w <> [] -> clear_b2 w l = true -> clear w l.
Proof.
  intros NE H. unfold clear_b2 in H. destruct (find w (text1 l)) eqn:A; [|left; apply occurs_check; auto]. destruct (find w (tl (text1 l))) eqn:B; [discriminate|]. right. split; [apply occurs_check; auto|].
  destruct l as [|k t v]; [discriminate|]. exists k, t, v. split; [reflexivity|]. apply orb_true_iff in H. destruct H as [H|H]; apply str_eqb_eq in H; [left; exact H|right].
  exists (L " "), "n"%char, (skipn (length w + 2) k). split; [|split; intros X; discriminate X]. rewrite <- (firstn_skipn (length w + 2) k) at 1. rewrite H, <- app_assoc. reflexivity.
Qed.
Lemma describes_check ls : forallb wf_b ls = true -> forallb (fun w => forallb (clear_b2 (L w)) ls) identity_keys = true -> describes ls.
Proof.
  rewrite !forallb_forall. intros A B. split; [apply Forall_forall; intros x X; apply wf_check; auto|]. apply Forall_forall. intros w W. apply Forall_forall. intros l I. apply clear_check2.
  - cbn in W. intuition (subst; discriminate).
  - apply B in W. rewrite forallb_forall in W. apply W, I.
Qed.
Example C144_example :
  describes intel /\ describes arm /\ describes pa /\ one_of "cpu family" "CPU architecture" arm (L "7") /\ one_of "stepping" "CPU revision" arm (L "3") /\
  cpu_identity (cpuinfo intel) = Some (Identity (L "GenuineIntel") (L "Intel Corporation") 6 85 7 (L "Intel(R) Xeon(R) CPU @ 2.20GHz") 39424) /\
  cpu_identity (cpuinfo arm) = Some (Identity [] (L "Unknown Manufacturer") 7 0 3 (L "ARMv7 Processor rev 3") 0) /\
  cpu_identity (cpuinfo pa) = Some (Identity [] (L "Hewlett-Packard") 512 9000 1 [] 1536).
Proof. split; [|split; [|split]]; try (apply describes_check; reflexivity). repeat split; try reflexivity; try discriminate; right; split; reflexivity. Qed.
Print Assumptions C144_identity.
Print Assumptions C144_vendor.
Print Assumptions C144_pa_risc.
