(** C134: environment variables. *)
From Verif Require Import Base EnvModel EnvSpec.
From Coq Require Import Lia.

Lemma c_str_id s : ~ In "000"%char s -> c_str s = s.
Proof. induction s as [|c s IH]; intro H; auto. unfold c_str. cbn [take_while]. destruct (Ascii.eqb_spec c "000"); [exfalso; apply H; left; auto|]. cbn [negb]. f_equal. apply IH. intro; apply H; right; auto. Qed.
Lemma has_eq_false n : ~ In "="%char n -> has_eq n = false.
Proof. intro H. apply Bool.not_true_iff_false. intro E. apply existsb_exists in E. destruct E as (x & I & E). apply Ascii.eqb_eq in E. subst. auto. Qed.
Lemma split_eq_none n : ~ In "="%char n -> split_eq n = None.
Proof. induction n as [|c n IH]; intro H; auto. cbn. destruct (Ascii.eqb_spec c "="); [exfalso; apply H; left; auto|]. rewrite IH; auto. intro; apply H; right; auto. Qed.
Lemma split_eq_app n v : ~ In "="%char n -> split_eq (n ++ "="%char :: v) = Some (n, v).
Proof. induction n as [|c n IH]; intro H; auto. cbn. destruct (Ascii.eqb_spec c "="); [exfalso; apply H; left; auto|]. rewrite IH; auto. intro; apply H; right; auto. Qed.
Lemma value_of_some n : forall e v, value_of n e = Some v -> e = n ++ "="%char :: v.
Proof.
  induction n as [|x n IH]; intros [|c e] v; cbn; try discriminate.
  - destruct (Ascii.eqb_spec c "="); [|discriminate]. intros [= ->]. congruence.
  - destruct (Ascii.eqb_spec x c); [|discriminate]. intro H. apply IH in H. congruence.
Qed.
Lemma value_of_own n v : value_of n (n ++ "="%char :: v) = Some v.
Proof. induction n as [|x n IH]; cbn; auto. rewrite Ascii.eqb_refl. auto. Qed.
Lemma value_of_other n k v : ~ In "="%char n -> ~ In "="%char k -> k <> n -> value_of k (n ++ "="%char :: v) = None.
Proof.
  intros Hn Hk D. destruct (value_of k _) as [w|] eqn:E; auto. exfalso. apply D. apply value_of_some in E.
  pose proof (split_eq_app n v Hn) as S1. rewrite E, (split_eq_app k w Hk) in S1. congruence.
Qed.
Lemma lookup_put env n v k : ~ In "="%char n -> ~ In "="%char k -> lookup (put env n (n ++ "="%char :: v)) k = if str_dec k n then Some v else lookup env k.
Proof.
  intros Hn Hk. induction env as [|e env IH]; cbn [put lookup].
  - destruct (str_dec k n) as [E|D]. { subst. rewrite value_of_own. auto. } rewrite value_of_other; auto.
  - destruct (value_of n e) as [w|] eqn:V; cbn [lookup].
    + destruct (str_dec k n) as [E|D]. { subst. rewrite value_of_own. auto. } rewrite value_of_other by auto. apply value_of_some in V. subst e. rewrite value_of_other; auto.
    + rewrite IH. destruct (str_dec k n) as [E|D]; auto. subst. rewrite V. auto.
Qed.
Lemma lookup_filter env n k : ~ In "="%char n -> ~ In "="%char k -> lookup (filter (fun e => match value_of n e with Some _ => false | None => true end) env) k = if str_dec k n then None else lookup env k.
Proof.
  intros Hn Hk. induction env as [|e env IH]; cbn [filter lookup]. { destruct (str_dec k n); auto. }
  destruct (value_of n e) as [w|] eqn:V; cbn [lookup]; rewrite IH.
  - destruct (str_dec k n) as [E|D]; auto. apply value_of_some in V. subst e. rewrite value_of_other; auto.
  - destruct (str_dec k n) as [E|D]; auto. subst. rewrite V. auto.
Qed.

(** One call. *)
Definition run1 (env : environ) (c : call) : environ * bool :=
  match c with
  | CPut n v => put_env env (n ++ "="%char :: v)
  | CPutName n => put_env env n
  | CUnPut n => un_put_env env n
  | CUnPutBoth n v => un_put_env env (n ++ "="%char :: v)
  end.
(** Every call does what it says to the variable of its name, to no other, and
    returns true; in particular PutEnv("n=") gives n the empty text and does not
    remove it. *)
Theorem C134_call : forall env c, call_ok c -> snd (run1 env c) = true /\ forall k, name_ok k -> get_env (fst (run1 env c)) k = means c (get_env env) k.
Proof.
  intros env c OK.
  assert (G : forall e k, name_ok k -> get_env e k = lookup e k).
  { intros e k (NE & _ & N0). unfold get_env, getenv. rewrite c_str_id by auto. destruct k; [congruence|auto]. }
  assert (Un : forall n, name_ok n -> unsetenv env (c_str n) = filter (fun e => match value_of n e with Some _ => false | None => true end) env).
  { intros n (NE & NQ & N0). rewrite c_str_id by auto. unfold unsetenv. rewrite has_eq_false by auto. destruct n; [congruence|auto]. }
  destruct c as [n v|n|n|n v]; cbn [call_ok run1 means] in *.
  - destruct OK as ((NE & NQ & N0) & V). unfold put_env. rewrite split_eq_app by auto. rewrite !c_str_id by auto. unfold setenv. rewrite has_eq_false by auto.
    destruct n as [|x n]; [congruence|]. cbn [fst snd]. split; auto. intros k Hk. rewrite !G by auto. apply lookup_put; [auto|apply Hk].
  - unfold put_env. rewrite split_eq_none by apply OK. cbn [fst snd]. split; auto. intros k Hk. rewrite !G by auto. unfold un_put_env_raw. rewrite split_eq_none by apply OK. rewrite Un by auto. apply lookup_filter; [apply OK|apply Hk].
  - unfold un_put_env. cbn [fst snd]. split; auto. intros k Hk. rewrite !G by auto. unfold un_put_env_raw. rewrite split_eq_none by apply OK. rewrite Un by auto. apply lookup_filter; [apply OK|apply Hk].
  - destruct OK as (OK & _). unfold un_put_env. cbn [fst snd]. split; auto. intros k Hk. rewrite !G by auto. unfold un_put_env_raw. rewrite split_eq_app by apply OK. rewrite Un by auto. apply lookup_filter; [apply OK|apply Hk].
Qed.
Print Assumptions C134_call.
Fixpoint run (env : environ) (l : list call) : environ := match l with [] => env | c :: l => run (fst (run1 env c)) l end.
(** After any sequence of calls a variable has the value the last call about it
    gave it, or the one it had at the start if there was none. *)
Theorem C134_history : forall l env, Forall call_ok l -> forall k, name_ok k -> get_env (run env l) k = fold_left (fun m c => means c m) l (get_env env) k.
Proof.
  intros l. assert (Ext : forall l (m m' : vars), (forall k, name_ok k -> m k = m' k) -> forall k, name_ok k -> fold_left (fun m c => means c m) l m k = fold_left (fun m c => means c m) l m' k).
  { clear l. induction l as [|c l IH]; intros m m' E k Hk; cbn [fold_left]; auto. apply IH; auto. intros j Hj. destruct c; cbn [means]; destruct (str_dec _ _); auto. }
  induction l as [|c l IH]; intros env F k Hk; [reflexivity|]. inversion F; subst. cbn [run fold_left]. rewrite IH by auto. apply Ext; auto.
  intros j Hj. apply C134_call; auto.
Qed.
Print Assumptions C134_history.
(** Texts without a name: PutEnv("=v") fails, UnPutEnv of them says true; both
    leave the environment as it is, as do GetEnv and its variant with a result,
    which keeps the old text when there is no variable. *)
Theorem C134_nameless : forall env v, put_env env ("="%char :: v) = (env, false) /\ put_env env [] = (env, true) /\ un_put_env env [] = (env, true) /\ un_put_env env ("="%char :: v) = (env, true) /\
  get_env env [] = None /\ (forall k r, get_env_into env k r = match get_env env k with Some x => (true, x) | None => (false, r) end).
Proof. intros env v. repeat split. Qed.
Print Assumptions C134_nameless.
(** A NUL byte in the argument hides the rest of the name, so that another
    variable is set. *)
Theorem C134_nul_refuted : forall env n h v, name_ok n -> ~ In "="%char h -> value_ok v ->
  put_env env (n ++ "000"%char :: h ++ "="%char :: v) = put_env env (n ++ "="%char :: v).
Proof.
  intros env n h v (NE & NQ & N0) H V. unfold put_env. rewrite split_eq_app by auto.
  replace (n ++ "000"%char :: h ++ "="%char :: v) with ((n ++ "000"%char :: h) ++ "="%char :: v) by (rewrite <- app_assoc; reflexivity).
  rewrite split_eq_app. 2:{ intro I. apply in_app_or in I. destruct I as [I|[I|I]]; [auto|discriminate I|auto]. }
  f_equal. rewrite (c_str_id n) by auto. clear -N0. induction n as [|c n IH]; [reflexivity|]. unfold c_str. cbn [app take_while].
  destruct (Ascii.eqb_spec c "000"); [exfalso; apply N0; left; auto|]. cbn [negb]. f_equal. apply IH. intro; apply N0; right; auto.
Qed.
Print Assumptions C134_nul_refuted.
Example C134_ex : let env := [L "A=1"; L "B=x=y"] in
  get_env env (L "B") = Some (L "x=y") /\ fst (put_env env (L "A=")) = [L "A="; L "B=x=y"] /\ fst (put_env env (L "C=2")) = [L "A=1"; L "B=x=y"; L "C=2"] /\
  fst (put_env env (L "A")) = [L "B=x=y"] /\ fst (un_put_env env (L "B=z")) = [L "A=1"] /\ name_ok (L "A") /\ call_ok (CPut (L "A") (L "x=y")).
Proof.
  cbv zeta. do 5 (split; [vm_compute; reflexivity|]). assert (N : name_ok (L "A")). { split; [discriminate|]. split; intros [I|[]]; discriminate I. }
  split; auto. split; auto. intros [I|[I|[I|[]]]]; discriminate I.
Qed.
