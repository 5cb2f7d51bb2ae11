(** TimestampProps.v -- C32, C33, C62. *)
From Coq Require Import ZArith Bool Lia List.
Import ListNotations.
From Verif Require Import Base Numbers Stream TimestampModel.
Local Open Scope Z_scope.

(** Specification: when and by what two timestamps can be compared. *)
Definition by_time (a b : timestamp) : Prop := ts_domain a = ts_domain b /\ ts_valid_time a = true /\ ts_valid_time b = true.
Definition by_frame (a b : timestamp) : Prop :=
  ts_domain a = ts_domain b /\ (ts_valid_time a = false \/ ts_valid_time b = false) /\ ts_valid_frame a = true /\ ts_valid_frame b = true.
Definition comparable (a b : timestamp) : Prop := by_time a b \/ by_frame a b.

Ltac cases a b := unfold ts_lt, ts_gt, ts_eq, ts_ne, comparable, by_time, by_frame in *;
  destruct (Z.eqb_spec (ts_domain a) (ts_domain b)); destruct (ts_valid_time a), (ts_valid_time b); destruct (ts_valid_frame a), (ts_valid_frame b);
  cbn [negb andb] in *.

(** C32 *)
Theorem C32_compares_time_then_frame a b :
  (by_time a b -> (ts_lt a b = true <-> ts_time a < ts_time b) /\ (ts_gt a b = true <-> ts_time a > ts_time b) /\
     (ts_eq a b = true <-> ts_time a = ts_time b) /\ (ts_ne a b = true <-> ts_time a <> ts_time b)) /\
  (by_frame a b -> (ts_lt a b = true <-> ts_frame a < ts_frame b) /\ (ts_gt a b = true <-> ts_frame a > ts_frame b) /\
     (ts_eq a b = true <-> ts_frame a = ts_frame b) /\ (ts_ne a b = true <-> ts_frame a <> ts_frame b)) /\
  (~ comparable a b -> ts_lt a b = false /\ ts_gt a b = false /\ ts_eq a b = false /\ ts_ne a b = false).
Proof.
  cases a b; (split; [|split]); intro H; try (exfalso; intuition (congruence || auto); fail); auto;
    rewrite ?negb_true_iff, ?Z.ltb_lt, ?Z.gtb_lt, ?Z.eqb_eq, ?Z.eqb_neq; intuition lia.
Qed.
Print Assumptions C32_compares_time_then_frame.
Theorem C32_trichotomy a b : comparable a b ->
  (ts_lt a b = true /\ ts_eq a b = false /\ ts_gt a b = false) \/
  (ts_lt a b = false /\ ts_eq a b = true /\ ts_gt a b = false) \/
  (ts_lt a b = false /\ ts_eq a b = false /\ ts_gt a b = true).
Proof.
  cases a b; intro H; try (exfalso; intuition congruence).
  all: rewrite !Z.gtb_ltb;
    repeat match goal with |- context[?x <? ?y] => destruct (Z.ltb_spec x y) end;
    repeat match goal with |- context[?x =? ?y] => destruct (Z.eqb_spec x y) end; try lia; auto.
Qed.
Print Assumptions C32_trichotomy.
Theorem C32_converse a b : ts_lt a b = ts_gt b a /\ ts_eq a b = ts_eq b a /\ ts_ne a b = ts_ne b a.
Proof.
  unfold ts_lt, ts_gt, ts_eq, ts_ne. rewrite (Z.eqb_sym (ts_domain b)), (andb_comm (ts_valid_time b)), (andb_comm (ts_valid_frame b)),
    (Z.eqb_sym (ts_time b)), (Z.eqb_sym (ts_frame b)), !Z.gtb_ltb. auto.
Qed.
Theorem C32_strict a b : ts_lt a a = false /\ (ts_lt a b = true -> ts_lt b a = false).
Proof.
  split.
  - unfold ts_lt. rewrite !Z.ltb_irrefl, Z.eqb_refl. cbn [negb]. destruct (ts_valid_time a), (ts_valid_frame a); reflexivity.
  - cases a b; try discriminate; destruct (Z.eqb_spec (ts_domain b) (ts_domain a)); cbn [negb]; auto; rewrite Z.ltb_lt, Z.ltb_ge; lia.
Qed.
Print Assumptions C32_strict.
Example C32_nonvacuous : comparable (ts_new 5 1) (ts_new 3 9) /\ by_frame (ts_new 5 1) (set_frame ts_default 9) /\
  ts_lt (ts_new 5 1) (ts_new 3 9) = false /\ ts_lt (ts_new 5 1) (set_frame ts_default 9) = true /\
  ts_eq ts_default ts_default = false /\ ts_ne (ts_new 1 1) (set_domain (ts_new 2 2) 7) = false.
Proof. unfold comparable, by_time, by_frame. cbn. auto 10. Qed.

(** C33: within timestamps of one domain that all have a time, or all lack the
    time and have a frame, < is a strict weak order (what std::map needs)... *)
Definition uniform (P : timestamp -> Prop) : Prop :=
  (exists d, forall x, P x -> ts_domain x = d) /\
  ((forall x, P x -> ts_valid_time x = true) \/ (forall x, P x -> ts_valid_time x = false /\ ts_valid_frame x = true)).
Theorem C33_strict_weak_order_on_uniform_sets P a b c : uniform P -> P a -> P b -> P c ->
  (ts_lt a b = true -> ts_lt b c = true -> ts_lt a c = true) /\
  (ts_lt a b = false -> ts_lt b a = false -> ts_lt b c = false -> ts_lt c b = false -> ts_lt a c = false /\ ts_lt c a = false) /\
  (ts_eq a b = true <-> ts_lt a b = false /\ ts_lt b a = false).
Proof.
  intros [[d Hd] Hv] Ha Hb Hc. unfold ts_lt, ts_eq. rewrite (Hd a Ha), (Hd b Hb), (Hd c Hc), !Z.eqb_refl. cbn [negb].
  destruct Hv as [Hv|Hv].
  - rewrite (Hv a Ha), (Hv b Hb), (Hv c Hc). cbn [andb]. rewrite !Z.ltb_lt, !Z.ltb_ge, Z.eqb_eq. lia.
  - destruct (Hv a Ha) as [-> ->], (Hv b Hb) as [-> ->], (Hv c Hc) as [-> ->]. cbn [andb]. rewrite !Z.ltb_lt, !Z.ltb_ge, Z.eqb_eq. lia.
Qed.
Print Assumptions C33_strict_weak_order_on_uniform_sets.
Example C33_nonvacuous : uniform (fun x => exists t f, x = ts_new t f).
Proof. split; [exists 0; intros x (t & f & ->); reflexivity|left; intros x (t & f & ->); reflexivity]. Qed.
(** ... but not in general, even within one domain: three timestamps can form a
    cycle, and == is not transitive. *)
Theorem C33_transitivity_refuted :
  (exists a b c, ts_domain a = ts_domain b /\ ts_domain b = ts_domain c /\ ts_lt a b = true /\ ts_lt b c = true /\ ts_lt c a = true) /\
  (exists a b c, ts_domain a = ts_domain b /\ ts_domain b = ts_domain c /\ ts_eq a b = true /\ ts_eq b c = true /\ ts_lt a c = true).
Proof.
  split.
  - exists (set_frame ts_default 1), (ts_new 5 2), (ts_new 6 0). repeat split.
  - exists (ts_new 1 3), (set_frame ts_default 3), (ts_new 2 3). repeat split.
Qed.
Print Assumptions C33_transitivity_refuted.

(** C62: what the setters make valid; a constructed timestamp is valid, a
    default one and an invalidated one are comparable with nothing. *)
Theorem C62_setters x t f d :
  (ts_time (set_time_usec x t) = t /\ ts_valid_time (set_time_usec x t) = true /\
     ts_frame (set_time_usec x t) = ts_frame x /\ ts_valid_frame (set_time_usec x t) = ts_valid_frame x) /\
  (ts_frame (set_frame x f) = f /\ ts_valid_frame (set_frame x f) = true /\
     ts_time (set_frame x f) = ts_time x /\ ts_valid_time (set_frame x f) = ts_valid_time x) /\
  is_valid (set_frame (set_time_usec x t) f) = true /\ is_valid (ts_new t f) = true /\ is_valid ts_default = false /\
  is_valid (set_invalid x) = false /\ is_valid (set_domain x d) = is_valid x.
Proof. repeat split. Qed.
Theorem C62_invalid_compares_with_nothing x y :
  (~ comparable ts_default y /\ ~ comparable y ts_default) /\ (~ comparable (set_invalid x) y /\ ~ comparable y (set_invalid x)).
Proof. unfold comparable, by_time, by_frame. cbn. intuition congruence. Qed.
Print Assumptions C62_invalid_compares_with_nothing.

(** After any history, each part holds the last value set, and is valid exactly
    when it was set after the last invalidation. *)
Fixpoint last_time (ops : list tsop) (v : bool * Z) : bool * Z :=
  match ops with
  | [] => v
  | TsTime t :: r => last_time r (true, t)
  | TsInvalid :: r => last_time r (false, snd v)
  | _ :: r => last_time r v
  end.
Fixpoint last_frame_set (ops : list tsop) (v : bool * Z) : bool * Z :=
  match ops with
  | [] => v
  | TsFrame f :: r => last_frame_set r (true, f)
  | TsInvalid :: r => last_frame_set r (false, snd v)
  | _ :: r => last_frame_set r v
  end.
Theorem C62_history ops x : let y := fold_left ts_step ops x in
  (ts_valid_time y, ts_time y) = last_time ops (ts_valid_time x, ts_time x) /\
  (ts_valid_frame y, ts_frame y) = last_frame_set ops (ts_valid_frame x, ts_frame x) /\
  (is_valid y = true <-> fst (last_time ops (ts_valid_time x, ts_time x)) = true /\ fst (last_frame_set ops (ts_valid_frame x, ts_frame x)) = true).
Proof.
  assert (G : let y := fold_left ts_step ops x in (ts_valid_time y, ts_time y) = last_time ops (ts_valid_time x, ts_time x) /\
    (ts_valid_frame y, ts_frame y) = last_frame_set ops (ts_valid_frame x, ts_frame x)).
  { revert x. induction ops as [|o ops IH]; intro x; cbn [fold_left last_time last_frame_set]; [auto|].
    destruct (IH (ts_step x o)) as [A B]. destruct o; cbn in *; auto. }
  cbv zeta in *. destruct G as [A B]. split; auto. split; auto. rewrite <- A, <- B. unfold is_valid. rewrite andb_true_iff. tauto.
Qed.
Print Assumptions C62_history.
(** Of a timestamp made without arguments: what was never set is 0 and not valid. *)
Theorem C62_fresh ops : let y := fold_left ts_step ops ts_default in
  ((forall t, ~ In (TsTime t) ops) -> ts_valid_time y = false /\ ts_time y = 0) /\
  ((forall f, ~ In (TsFrame f) ops) -> ts_valid_frame y = false /\ ts_frame y = 0).
Proof.
  assert (T : forall l, (forall t, ~ In (TsTime t) l) -> last_time l (false, 0) = (false, 0)).
  { induction l as [|o l IH]; intro N; [reflexivity|]. destruct o; cbn [last_time snd]; try (apply IH; intros u I; apply (N u); right; exact I). exfalso. eapply N. left. reflexivity. }
  assert (F : forall l, (forall t, ~ In (TsFrame t) l) -> last_frame_set l (false, 0) = (false, 0)).
  { induction l as [|o l IH]; intro N; [reflexivity|]. destruct o; cbn [last_frame_set snd]; try (apply IH; intros u I; apply (N u); right; exact I). exfalso. eapply N. left. reflexivity. }
  destruct (C62_history ops ts_default) as (A & B & _). cbv zeta in *. change (ts_valid_time ts_default, ts_time ts_default) with (false, 0) in A. change (ts_valid_frame ts_default, ts_frame ts_default) with (false, 0) in B.
  split; intro N; [rewrite (T _ N) in A; injection A as -> ->|rewrite (F _ N) in B; injection B as -> ->]; auto.
Qed.
Print Assumptions C62_fresh.
Example C62_demo : let y := fold_left ts_step [TsTime 5; TsFrame 2; TsInvalid; TsTime 7] ts_default in
  ts_valid_time y = true /\ ts_time y = 7 /\ ts_valid_frame y = false /\ is_valid y = false.
Proof. repeat split. Qed.

(** C66: a timestamp put in a configuration comes back with the same time and
    frame (of any int64_t values)... *)
Definition i64 (z : Z) : Prop := - 2 ^ 63 <= z < 2 ^ 63.
Theorem C66_config_round_trip x : i64 (ts_time x) -> i64 (ts_frame x) ->
  exists y, ts_of_text (ts_to_text x) = Some y /\ ts_time y = ts_time x /\ ts_frame y = ts_frame x /\ is_valid y = true /\ ts_domain y = 0.
Proof.
  unfold i64. intros Ht Hf. unfold ts_of_text, ts_to_text. exists (mkTs true true (ts_time x) (ts_frame x) 0). split; [|auto].
  unfold extract_i64. change (open_str (dec (ts_time x) ++ L " " ++ dec (ts_frame x))) with (open_str ([] ++ dec (ts_time x) ++ L " " ++ dec (ts_frame x))).
  rewrite (extract_int_dec (- 2 ^ 63) (2 ^ 63 - 1) [] (ts_time x)) by (try reflexivity; lia).
  pose proof (extract_int_dec (- 2 ^ 63) (2 ^ 63 - 1) (L " ") (ts_frame x) []) as E. rewrite app_nil_r in E. rewrite E by (try reflexivity; lia || exact I). reflexivity.
Qed.
Print Assumptions C66_config_round_trip.
(** ... but always valid and in domain 0, whatever the original was, *)
Theorem C66_validity_lost_refuted : exists x, i64 (ts_time x) /\ i64 (ts_frame x) /\ ts_of_text (ts_to_text x) <> Some x /\
  ts_lt x x = false /\ ts_eq x x = false /\ forall y, ts_of_text (ts_to_text x) = Some y -> ts_eq y y = true.
Proof.
  exists ts_default. unfold i64. cbn [ts_time ts_frame ts_default]. split; [lia|]. split; [lia|]. split; [vm_compute; discriminate|].
  split; [reflexivity|]. split; [reflexivity|]. intros y H. vm_compute in H. injection H as <-. reflexivity.
Qed.
Print Assumptions C66_validity_lost_refuted.
(** and a value with fewer than two numbers makes the reader use an
    uninitialised variable. *)
Theorem C66_short_value_refuted : exists v, v <> [] /\ ts_of_text v = None /\ ts_of_text [] = None.
Proof. exists (L "12"). split; [discriminate|]. split; vm_compute; reflexivity. Qed.
Print Assumptions C66_short_value_refuted.
Example C66_demo : ts_to_text (ts_new (-5) 12) = L "-5 12" /\ ts_of_text (L " 7   -9 x") = Some (ts_new 7 (-9)).
Proof. split; vm_compute; reflexivity. Qed.
