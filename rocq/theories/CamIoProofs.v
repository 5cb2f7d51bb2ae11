(** CamIoProofs.v -- reading back what was printed. *)
From Coq Require Import List ZArith Lia Bool.
Import ListNotations.
From Verif Require Import Base Numbers Stream TrackIoModel TrackIoSpec TrackIoProofs CamIoModel.

Definition blank (s : str) : Prop := forallb is_space s = true.
Lemma blank_app a b : blank a -> blank b -> blank (a ++ b).
Proof. unfold blank. intros. rewrite forallb_app, H, H0. auto. Qed.
Lemma blank_repeat n : blank (repeat " "%char n).
Proof. unfold blank. induction n; cbn; auto. Qed.
Lemma blank_ends s r : blank s -> s <> [] -> ends (s ++ r).
Proof. intros H N. destruct s as [|c s]; [congruence|]. cbn in *. apply andb_prop in H. tauto. Qed.

Section P.
Context {D : Type} (show : D -> str) (scan : str -> D * bool * str) (good : D -> Prop) (round : D -> D).
Hypothesis NF : number_format show scan good round.

Lemma extract_d_text sp d r : blank sp -> good d -> ends r -> extract_d scan (open_str (sp ++ show d ++ r)) = (Some (round d), open_str r).
Proof.
  intros Hs Hd Hr. destruct (NF d Hd) as [W S]. unfold extract_d, open_str. cbn [s_fail s_rest]. rewrite skip_word by auto.
  destruct (word_head _ W) as (c & t & E & _). rewrite E in *. cbn [app]. change (c :: t ++ r) with ((c :: t) ++ r). rewrite S by auto. auto.
Qed.
Definition spaced (l : list (str * D)) : str := concat (map (fun p => fst p ++ show (snd p)) l).
Lemma spaced_app a b : spaced (a ++ b) = spaced a ++ spaced b.
Proof. unfold spaced. rewrite map_app, concat_app. auto. Qed.
Lemma spaced_cons s d l : spaced ((s, d) :: l) = s ++ show d ++ spaced l.
Proof. unfold spaced. cbn [map concat fst snd]. rewrite <- app_assoc. auto. Qed.
(** t is the text of the numbers ds with white space between (and perhaps before). *)
Definition lay (ds : list D) (t : str) : Prop :=
  exists l, map snd l = ds /\ spaced l = t /\ ds <> [] /\ (forall p, In p l -> blank (fst p)) /\ (forall p, In p (tl l) -> fst p <> []).
Lemma lay_one w d : lay [d] (pad w (show d)).
Proof.
  exists [(repeat " "%char (w - length (show d)), d)]. cbn. rewrite app_nil_r. repeat split; try discriminate; [|intros p []].
  intros p [<-|[]]. apply blank_repeat.
Qed.
Lemma lay_plain d : lay [d] (show d).
Proof. exists [([], d)]. cbn. rewrite app_nil_r. repeat split; try discriminate; [|intros p []]. intros p [<-|[]]. reflexivity. Qed.
Lemma lay_app sep d1 t1 d2 t2 : lay d1 t1 -> lay d2 t2 -> blank sep -> sep <> [] -> lay (d1 ++ d2) (t1 ++ sep ++ t2).
Proof.
  intros (l1 & M1 & S1 & N1 & B1 & T1) (l2 & M2 & S2 & N2 & B2 & T2) Hs Ns.
  destruct l2 as [|[s d] l2]; [cbn in M2; congruence|]. exists (l1 ++ (sep ++ s, d) :: l2). rewrite map_app, M1. cbn [map snd] in *. rewrite M2. split; auto. split.
  { rewrite spaced_app, S1, spaced_cons, <- S2, spaced_cons, <- !app_assoc. auto. }
  split; [destruct d1; [congruence|discriminate]|]. split.
  - intros p Hp. apply in_app_or in Hp as [Hp|[<-|Hp]]; auto; cbn [fst]; [apply blank_app; auto; apply (B2 (s, d)); left; auto|apply B2; right; auto].
  - intros p Hp. destruct l1 as [|p1 l1]; [cbn in M1; congruence|]. cbn [tl app] in *. apply in_app_or in Hp as [Hp|[<-|Hp]]; auto. cbn. destruct sep; [congruence|discriminate].
Qed.
Lemma lay_sep sep dss : forall ts, Forall2 lay dss ts -> dss <> [] -> blank sep -> sep <> [] -> lay (concat dss) (sep_by sep ts).
Proof.
  induction dss as [|ds dss IH]; intros ts F N Hs Ns; [congruence|]. inversion F as [|? t ? ts' F1 F2]; subst. destruct F2 as [|ds' t' dss' ts' F2 F3].
  - cbn. rewrite app_nil_r. auto.
  - change (concat (ds :: ds' :: dss')) with (ds ++ concat (ds' :: dss')). change (sep_by sep (t :: t' :: ts')) with (t ++ sep ++ sep_by sep (t' :: ts')). apply lay_app; auto. apply IH; auto. discriminate.
Qed.
Lemma lay_row w row : row <> [] -> lay row (sep_by (L " ") (map (fun d => pad w (show d)) row)).
Proof.
  intro N. assert (E : row = concat (map (fun d => [d]) row)) by (clear; induction row; cbn; congruence). rewrite E at 1. apply lay_sep; [|destruct row; [congruence|discriminate]|reflexivity|discriminate].
  clear. induction row; constructor; auto. apply lay_one.
Qed.
Lemma lay_matrix rows : rows <> [] -> (forall r, In r rows -> r <> []) -> lay (concat rows) (matrix_text show rows).
Proof.
  intros N H. unfold matrix_text. apply lay_sep; auto; [|reflexivity|discriminate]. generalize (widest show rows). intro w. clear N. induction rows as [|r rows IH]; constructor; auto.
  - apply lay_row. apply H. left. auto.
  - apply IH. intros x Hx. apply H. right. auto.
Qed.
Lemma spaced_read l r : forall pre, l <> [] -> (forall p, In p l -> blank (fst p)) -> (forall p, In p (tl l) -> fst p <> []) -> Forall good (map snd l) -> blank pre -> ends r ->
  read_coefs scan (length l) (open_str (pre ++ spaced l ++ r)) = Some (map round (map snd l), open_str r).
Proof.
  induction l as [|[s d] l IH]; intros pre N B T G Hp Hr; [congruence|]. cbn [map snd] in G. inversion G as [|? ? G1 G2]; subst. cbn [length read_coefs].
  assert (E : pre ++ spaced ((s, d) :: l) ++ r = (pre ++ s) ++ show d ++ (spaced l ++ r)) by (rewrite spaced_cons, <- !app_assoc; auto).
  rewrite E, extract_d_text; auto.
  - cbn [s_fail open_str]. destruct l as [|[s' d'] l].
    + reflexivity.
    + change (open_str (spaced ((s', d') :: l) ++ r)) with (open_str ([] ++ spaced ((s', d') :: l) ++ r)). rewrite IH; auto; [discriminate| | |reflexivity].
      * intros p P. apply B. right. auto.
      * intros p P. apply T. cbn [tl]. right. auto.
  - apply blank_app; auto. apply (B (s, d)). left. auto.
  - destruct l as [|[s' d'] l]; [exact Hr|]. rewrite spaced_cons, <- !app_assoc. apply blank_ends; [apply (B (s', d')); right; left; auto|apply (T (s', d')); left; auto].
Qed.
Lemma lay_read ds t r pre : lay ds t -> Forall good ds -> blank pre -> ends r -> read_coefs scan (length ds) (open_str (pre ++ t ++ r)) = Some (map round ds, open_str r).
Proof.
  intros (l & <- & <- & N & B & T) G Hp Hr. rewrite map_length. apply spaced_read; auto. intros ->. cbn in N. congruence.
Qed.
(** Reading stops with the exception when the numbers run out or something else comes. *)
Lemma read_short n s : read_coefs scan (S n) (mkS s true) = None.
Proof. reflexivity. Qed.
Lemma read_bad n s : (drop_while is_space (s_rest s) = [] \/ exists d r, scan (drop_while is_space (s_rest s)) = (d, true, r)) -> read_coefs scan (S n) s = None.
Proof.
  intro H. cbn [read_coefs]. unfold extract_d. destruct (s_fail s) eqn:F; [rewrite F; auto|]. destruct (drop_while is_space (s_rest s)) as [|c t]; [reflexivity|].
  destruct H as [H|(d & r & H)]; [discriminate|]. rewrite H. reflexivity.
Qed.
Lemma read_app n m : forall s, read_coefs scan (n + m) s = match read_coefs scan n s with None => None | Some (l, s1) => match read_coefs scan m s1 with None => None | Some (l', s2) => Some (l ++ l', s2) end end.
Proof.
  induction n as [|n IH]; intro s; cbn [Nat.add read_coefs]; [destruct (read_coefs scan m s) as [[? ?]|]; auto|].
  destruct (extract_d scan s) as [d s1]. destruct (s_fail s1); auto. destruct d; auto. rewrite IH. destruct (read_coefs scan n s1) as [[l s2]|]; auto. destruct (read_coefs scan m s2) as [[l' s3]|]; auto.
Qed.
Lemma read_length n : forall s l s1, read_coefs scan n s = Some (l, s1) -> length l = n.
Proof.
  induction n as [|n IH]; intros s l s1 H; cbn [read_coefs] in H; [injection H as <- _; auto|]. destruct (extract_d scan s) as [d s2]. destruct (s_fail s2); [discriminate|]. destruct d; [|discriminate].
  destruct (read_coefs scan n s2) as [[l' s3]|] eqn:E; [|discriminate]. injection H as <- _. cbn. f_equal. eauto.
Qed.
End P.
