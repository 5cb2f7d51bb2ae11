(** CpuDescProps.v -- C147: the description of the processor. *)
From Coq Require Import List ZArith Bool Ascii String Lia.
Import ListNotations.
From Verif Require Import Base SysCpuModel SysCpuSpec SysCpuProps CpuDescModel CpuDescSpec.
Open Scope list_scope.

Definition blank (c : ascii) : bool := ascii_eqb c " ".
Fixpoint collapse (s : str) : str :=
  match s with
  | [] => []
  | c :: r => if blank c && (match r with d :: _ => blank d | [] => false end) then collapse r else c :: collapse r
  end.
Lemma collapse_two a b : collapse (a ++ L "  " ++ b) = collapse (a ++ L " " ++ b).
Proof.
  induction a as [|c a IH]; [reflexivity|]. cbn [app collapse]. rewrite IH. destruct a as [|d a]; reflexivity.
Qed.
Lemma find_split w s p : find w s = Some p -> s = firstn (length s - length p) s ++ p /\ exists r, p = w ++ r.
Proof.
  induction s as [|c s IH]; cbn [find]; intros H.
  - destruct (is_prefix w []) eqn:P; [|discriminate]. inversion H; subst. split; [reflexivity|]. apply is_prefix_app in P. exact P.
  - destruct (is_prefix w (c :: s)) eqn:P.
    + inversion H; subst. rewrite Nat.sub_diag. split; [reflexivity|]. apply is_prefix_app in P. exact P.
    + destruct (IH H) as [A B]. split; [|exact B]. assert (Le : (length p <= length s)%nat) by (rewrite A, app_length; lia).
      cbn [length]. replace (S (length s) - length p)%nat with (S (length s - length p)) by lia. cbn [firstn app]. rewrite <- A. reflexivity.
Qed.
Lemma no_two s : find (L "  ") s = None -> collapse s = s.
Proof.
  induction s as [|c s IH]; [reflexivity|]. cbn [find]. destruct (is_prefix (L "  ") (c :: s)) eqn:P; [discriminate|]. intros H. specialize (IH H). cbn [collapse]. rewrite IH.
  destruct (blank c && match s with d :: _ => blank d | [] => false end) eqn:B; [|reflexivity]. exfalso. apply andb_true_iff in B. destruct B as [B1 B2]. destruct s as [|d s]; [discriminate|].
  unfold blank, ascii_eqb in B1, B2. apply Ascii.eqb_eq in B1, B2. subst. destruct s; discriminate P.
Qed.
Lemma remove_collapse : forall fuel s, (length s <= fuel)%nat -> remove_extra fuel s = collapse s.
Proof.
  induction fuel as [|fuel IH]; intros s Le; [destruct s; [reflexivity|cbn in Le; lia]|]. cbn [remove_extra]. destruct (find (L "  ") s) as [p|] eqn:E; [|symmetry; apply no_two; exact E].
  destruct (find_split _ _ _ E) as [A (r & R)]. set (a := firstn (length s - length p) s) in *. subst p. change (skipn 2 (L "  " ++ r)) with r. rewrite IH; [rewrite A; symmetry; apply collapse_two|].
  apply (f_equal (@length _)) in A. rewrite !app_length in *. change (length (L "  ")) with 2%nat in A. change (length (L " ")) with 1%nat. clearbody a. clear - A Le. lia.
Qed.
Lemma collapse_run n s : (match s with c :: _ => c <> " "%char | [] => True end) -> collapse (repeat " "%char (S n) ++ s) = " "%char :: collapse s.
Proof.
  intros H. induction n as [|n IH].
  - cbn [repeat app collapse]. destruct s as [|c s]; [reflexivity|]. unfold blank at 2, ascii_eqb. apply Ascii.eqb_neq in H. rewrite H, andb_false_r. reflexivity.
  - change (repeat " "%char (S (S n)) ++ s) with (" "%char :: repeat " "%char (S n) ++ s). cbn [collapse]. rewrite IH. reflexivity.
Qed.
Lemma single_collapse s t : single s t -> collapse s = t.
Proof.
  induction 1 as [|c s t N S IH|n s t H S IH]; [reflexivity| |rewrite collapse_run by exact H; rewrite IH; reflexivity].
  cbn [collapse]. unfold blank at 1, ascii_eqb. apply Ascii.eqb_neq in N. rewrite N, IH. reflexivity.
Qed.
Lemma single_exists : forall s, exists t, single s t.
Proof.
  assert (H : forall s, (exists t, single s t) /\ forall n, exists t, single (repeat " "%char (S n) ++ s) t).
  { induction s as [|c s [[t IH] IR]].
    - split; [exists []; constructor|]. intros n. exists [" "%char]. apply SRun; [exact I|constructor].
    - destruct (Ascii.ascii_dec c " ") as [->|N].
      + split; [exact (IR 0%nat)|]. intros n. destruct (IR (S n)) as [x X]. exists x. replace (repeat " "%char (S n) ++ " "%char :: s) with (repeat " "%char (S (S n)) ++ s); [exact X|].
        change (" "%char :: s) with ([" "%char] ++ s). rewrite app_assoc, <- repeat_cons. reflexivity.
      + split; [exists (c :: t); constructor; assumption|]. intros n. exists (" "%char :: c :: t). apply SRun; [exact N|constructor; assumption]. }
  intros s. apply H.
Qed.
Lemma collapse_single s : single s (collapse s).
Proof. destruct (single_exists s) as [t T]. rewrite (single_collapse _ _ T). exact T. Qed.
Lemma single_no_two s t : single s t -> ~ occurs (L "  ") t.
Proof.
  assert (K : forall c t, ~ occurs (L "  ") t -> (c <> " "%char \/ match t with d :: _ => d <> " "%char | [] => True end) -> ~ occurs (L "  ") (c :: t)).
  { intros c0 t0 N H (a & b & E). destruct a as [|x a]; [cbn in E; inversion E; subst; destruct H as [H|H]; apply H; reflexivity|]. inversion E; subst. apply N. exists a, b. reflexivity. }
  induction 1 as [|c s t N SI IH|n s t H SI IH].
  - intros (a & b & E). destruct a; discriminate.
  - apply K; auto.
  - apply K; [exact IH|]. right. destruct SI as [|c s1 t1 N SI|n2 s1 t1 H2 SI]; [exact I|exact N|cbn in H; congruence].
Qed.
(** "<n> core <model name>", and all runs of blanks are one blank. *)
Theorem C147_description : forall physical model_name mhz vendor name, model_name <> [] ->
  single (physical ++ L " core " ++ model_name) (cpu_description physical model_name mhz vendor name) /\ ~ occurs (L "  ") (cpu_description physical model_name mhz vendor name).
Proof.
  intros p m z v n NE. unfold cpu_description. destruct m as [|c m]; [congruence|]. cbv zeta. rewrite remove_collapse by reflexivity. split; [apply collapse_single|]. eapply single_no_two, collapse_single.
Qed.
(** Without a model name: the frequency, the vendor, the name of the processor. *)
Theorem C147_no_model : forall physical mhz vendor name,
  single (physical ++ L " core " ++ mhz ++ L " MHz " ++ vendor ++ L " " ++ name) (cpu_description physical [] mhz vendor name).
Proof. intros p z v n. unfold cpu_description. cbv zeta. rewrite remove_collapse by reflexivity. apply collapse_single. Qed.
(** There is only one such text: nothing else could be the answer. *)
Theorem C147_unique : forall s t1 t2, single s t1 -> single s t2 -> t1 = t2.
Proof. intros s t1 t2 A B. rewrite <- (single_collapse _ _ A). apply single_collapse. exact B. Qed.
Example C147_example :
  cpu_description (L "4") (L "Intel(R) Core(TM)2 Duo CPU     T9500  @ 2.60GHz") [] [] [] = L "4 core Intel(R) Core(TM)2 Duo CPU T9500 @ 2.60GHz" /\
  cpu_description (L "1") [] (L "0") [] [] = L "1 core 0 MHz ".
Proof. split; reflexivity. Qed.
Print Assumptions C147_description.
Print Assumptions C147_no_model.
