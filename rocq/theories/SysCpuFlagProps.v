(** SysCpuFlagProps.v -- C145: what the processor can do. *)
From Coq Require Import List ZArith Bool Ascii String Lia.
Import ListNotations.
From Verif Require Import Base SysMemModel SysMemSpec SysMemProps SysCpuModel SysCpuSpec SysCpuProps SysCpuIdModel SysCpuIdSpec SysCpuIdProps SysCpuFlagModel SysCpuFlagSpec.
Open Scope Z_scope.
Open Scope list_scope.

Definition spaced (ws : list str) : str := concat (map (fun w => " "%char :: w) ws) ++ L " ".
Lemma spaced_words ws : ws <> [] -> L " " ++ words ws ++ L " " = spaced ws.
Proof.
  induction ws as [|w ws IH]; intros NE; [congruence|]. unfold spaced in *. cbn [map concat]. destruct ws as [|w2 ws].
  - cbn [words map concat]. rewrite app_nil_r. reflexivity.
  - specialize (IH ltac:(discriminate)). change (words (w :: w2 :: ws)) with (w ++ " "%char :: words (w2 :: ws)). 
    transitivity (L " " ++ w ++ (L " " ++ words (w2 :: ws) ++ L " ")); [cbn [L app list_ascii_of_string]; rewrite <- app_assoc; reflexivity|].
    rewrite IH. change (L " ") with [" "%char]. cbn [map concat app]. rewrite <- !app_assoc. cbn [app]. rewrite <- ?app_assoc. reflexivity.
Qed.
Lemma find_no_blank p w rest : ~ In " "%char w -> find (" "%char :: p) (w ++ rest) = find (" "%char :: p) rest.
Proof.
  induction w as [|c w IH]; intros N; [reflexivity|]. cbn [app find]. replace (is_prefix (" "%char :: p) (c :: w ++ rest)) with false; [apply IH; intros I; apply N; right; exact I|].
  symmetry. cbn [is_prefix]. destruct (Ascii.eqb_spec " " c) as [<-|]; [exfalso; apply N; left; reflexivity|reflexivity].
Qed.
Lemma prefix_word f : forall w rest, ~ In " "%char f -> ~ In " "%char w -> is_prefix (f ++ L " ") (w ++ " "%char :: rest) = true <-> f = w.
Proof.
  induction f as [|c f IH]; intros w rest F W.
  - destruct w as [|x w]; [split; reflexivity|]. cbn [app is_prefix L]. split; [|discriminate]. change (L " ") with [" "%char]. cbn [is_prefix]. destruct (Ascii.eqb_spec " " x) as [<-|]; [exfalso; apply W; left; reflexivity|discriminate].
  - destruct w as [|x w]; cbn [app is_prefix].
    + split; [|discriminate]. destruct (Ascii.eqb_spec c " ") as [->|]; [exfalso; apply F; left; reflexivity|discriminate].
    + destruct (Ascii.eqb_spec c x) as [->|N]; cbn [andb].
      * rewrite IH by (intros I; (apply F; right; exact I) || (apply W; right; exact I)). split; [intros ->; reflexivity|intros E; inversion E; reflexivity].
      * split; [discriminate|]. intros E. inversion E. contradiction.
Qed.
Lemma spaced_head ws : exists r, spaced ws = " "%char :: r.
Proof. destruct ws as [|w ws]; unfold spaced; [exists []; reflexivity|]. eexists. reflexivity. Qed.
Lemma find_flag f ws : f <> [] -> ~ In " "%char f -> Forall (fun w => ~ In " "%char w) ws -> (find (L " " ++ f ++ L " ") (spaced ws) <> None <-> In f ws).
Proof.
  intros NE F W. change (L " " ++ f ++ L " ") with (" "%char :: f ++ L " "). induction W as [|w ws N W IH].
  - split; [|contradiction]. intros X. exfalso. apply X. destruct f as [|c f]; [congruence|]. destruct f; reflexivity.
  - assert (E : spaced (w :: ws) = " "%char :: w ++ spaced ws) by (unfold spaced; cbn [map concat app]; rewrite <- app_assoc; reflexivity). rewrite E. cbn [find]. destruct (spaced_head ws) as [r R].
    assert (P : is_prefix (" "%char :: f ++ L " ") (" "%char :: w ++ spaced ws) = is_prefix (f ++ L " ") (w ++ " "%char :: r)) by (rewrite R; reflexivity).
    rewrite P. destruct (is_prefix (f ++ L " ") (w ++ " "%char :: r)) eqn:Q.
    + apply prefix_word in Q; [|exact F|exact N]. subst. split; [left; reflexivity|discriminate].
    + rewrite find_no_blank by exact N. rewrite IH. split; [right; assumption|]. intros [<-|I]; [|exact I]. rewrite (proj2 (prefix_word w w r N N) eq_refl) in Q. discriminate.
Qed.
Lemma has_flag flag ws : L flag <> [] -> ~ In " "%char (L flag) -> ws <> [] -> Forall (fun w => ~ In " "%char w) ws -> (has flag (words ws) = true <-> In (L flag) ws).
Proof.
  intros A B C D. unfold has. rewrite spaced_words by exact C. rewrite <- (find_flag (L flag) ws A B D). destruct (find _ _); split; congruence.
Qed.
Lemma flags_value ls ws : Forall well_formed ls -> flag_words ls ws -> value "flags" (body ls) = words ws.
Proof.
  intros F (_ & _ & C & E). unfold value. rewrite value_body; [|split; [discriminate|split; intros I; vm_compute in I; intuition discriminate]|exact F|exact C].
  rewrite looked_value. unfold first_value in E. destruct (values (L "flags") ls); exact E.
Qed.
Ltac nonblank := vm_compute; intuition discriminate.
(** With a revision (or stepping): a request is supported exactly if one of the flags
    it asks for is listed. *)
Theorem C145_flags : forall ls ws s mask, describes ls -> one_of "stepping" "CPU revision" ls s -> flag_words ls ws -> no_caches mask ->
  exists b, supports (cpuinfo ls) mask = Some b /\ (b = true <-> asked mask ws).
Proof.
  intros ls ws s mask D (SN & S) FW (M15 & M16 & M17). unfold supports, cpuinfo. fold (body ls).
  destruct (body ls ++ [NL]) as [|c x] eqn:E; [destruct (body ls); discriminate|]. rewrite <- E, removelast_last. clear E c x.
  rewrite (flags_value ls ws (proj1 D) FW). rewrite !(value_first ls "stepping"), !(value_first ls "CPU revision") by (exact D || (cbn; tauto)).
  assert (ES : match first_value "stepping" ls with [] => first_value "CPU revision" ls | s => s end = s) by (destruct S as [S|[S1 S2]]; [rewrite S; destruct s; congruence|rewrite S1; exact S2]).
  rewrite ES. destruct s as [|c0 s0]; [congruence|]. rewrite M15, M16, M17. destruct FW as (W1 & W2 & _). eexists. split; [reflexivity|].
  cbn [andb]. rewrite !orb_false_r, !orb_true_iff, !andb_true_iff. rewrite !has_flag by (assumption || nonblank). unfold asked, feature_flags. cbn [map fst snd].
  split.
  - clear. intros H. repeat (destruct H as [H|H]); destruct H as [T I]; (eexists _, _; split; [|split; [exact T|exact I]]); cbn; tauto.
  - clear. intros (k & f & I & T & W). cbn in I. repeat (destruct I as [I|I]; [inversion I; subst; tauto|]). contradiction.
Qed.
(** Without a revision no flag is ever seen, whatever is listed. *)
Theorem C145_no_revision_refuted : forall ls mask, describes ls -> first_value "stepping" ls = [] -> first_value "CPU revision" ls = [] -> no_caches mask -> supports (cpuinfo ls) mask = Some false.
Proof.
  intros ls mask D S1 S2 (M15 & M16 & M17). unfold supports, cpuinfo. fold (body ls).
  destruct (body ls ++ [NL]) as [|c x] eqn:E; [destruct (body ls); discriminate|]. rewrite <- E, removelast_last. clear E c x.
  rewrite !(value_first ls "stepping"), !(value_first ls "CPU revision") by (exact D || (cbn; tauto)). rewrite S1, S2, M15, M16, M17, !andb_false_r. reflexivity.
Qed.
(** Second and third level caches are reported for every machine. *)
Theorem C145_caches_refuted : forall text mask, text <> [] -> Z.testbit mask 16 = true \/ Z.testbit mask 17 = true -> supports text mask = Some true.
Proof.
  intros text mask N M. unfold supports. destruct text as [|c t]; [congruence|]. f_equal. change (negb (0 =? -1)) with true. destruct M as [-> | ->]; cbn [andb]; rewrite ?orb_true_r; reflexivity.
Qed.
(** Non-vacuity. *)
Definition flagged (rev : string) : list line := [Entry (L "processor") [TAB] (L "0"); E1 rev "" "7"; E1 "flags" "" "fpu mmx sse4_2 sse2 apic"; Empty].
Example C145_example :
  describes (flagged "stepping") /\ one_of "stepping" "CPU revision" (flagged "stepping") (L "7") /\ flag_words (flagged "stepping") (map L ["fpu"; "mmx"; "sse4_2"; "sse2"; "apic"]%string) /\ no_caches 12 /\
  supports (cpuinfo (flagged "stepping")) 1 = Some true /\ supports (cpuinfo (flagged "stepping")) 4 = Some false /\ supports (cpuinfo (flagged "stepping")) 12 = Some true /\
  describes (flagged "revision") /\ supports (cpuinfo (flagged "revision")) 1 = Some false /\ supports (cpuinfo (flagged "revision")) 65536 = Some true.
Proof.
  split; [apply describes_check; reflexivity|split; [split; [discriminate|left; reflexivity]|]].
  split; [split; [discriminate|split; [repeat constructor; nonblank|split; [|reflexivity]]]|].
  - repeat (constructor; [apply clear_check; [discriminate|reflexivity]|]). constructor.
  - split; [repeat split|split; [reflexivity|split; [reflexivity|split; [reflexivity|split; [apply describes_check; reflexivity|split; reflexivity]]]]].
Qed.
Print Assumptions C145_flags.
Print Assumptions C145_no_revision_refuted.
Print Assumptions C145_caches_refuted.
