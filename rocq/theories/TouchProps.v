(** C135: comparing and setting the times of files. *)
From Coq Require Import ZArith Lia.
From Verif Require Import Base TouchModel.
Open Scope Z_scope.

(** A time in nanoseconds; the parts below a second are below a second. *)
Definition nanos (e : entry) : Z := e_sec e * 1000000000 + e_nsec e.
Definition sane (e : entry) : Prop := 0 <= e_nsec e < 1000000000.
Definition named (fs : fsys) (p : str) (e : entry) : Prop := p <> [] /\ fs p = Some e.
Definition no_file (fs : fsys) (p : str) : Prop := p = [] \/ fs p = None.
Lemma at_named fs p e : named fs p e -> at_name fs p = Some e.
Proof. intros (N & E). destruct p; [congruence|exact E]. Qed.
Lemma at_none fs p : no_file fs p -> at_name fs p = None.
Proof. intros [->|E]; [reflexivity|]. destruct p; [reflexivity|exact E]. Qed.

(** The stored number is the order of the two times, to the nanosecond. *)
Theorem C135_compare : forall fs f1 f2 e1 e2, named fs f1 e1 -> named fs f2 e2 -> sane e1 -> sane e2 ->
  exists r, file_time_compare fs f1 f2 = (true, r) /\ -1 <= r <= 1 /\ (r < 0 <-> nanos e1 < nanos e2) /\ (r > 0 <-> nanos e1 > nanos e2) /\ (r = 0 <-> nanos e1 = nanos e2).
Proof.
  intros fs f1 f2 e1 e2 H1 H2 S1 S2. unfold file_time_compare. rewrite (at_named _ _ _ H1), (at_named _ _ _ H2). eexists; split; [reflexivity|]. unfold nanos, sane in *.
  destruct (Z.ltb_spec (e_sec e1) (e_sec e2)); [lia|]. destruct (Z.ltb_spec (e_sec e2) (e_sec e1)); [lia|].
  destruct (Z.ltb_spec (e_nsec e1) (e_nsec e2)); [lia|]. destruct (Z.ltb_spec (e_nsec e2) (e_nsec e1)); lia.
Qed.
Print Assumptions C135_compare.
(** So it can be used to sort: opposite for exchanged names and transitive. *)
Theorem C135_order : forall fs f1 f2 f3 r12 r23, file_time_compare fs f1 f2 = (true, r12) -> file_time_compare fs f2 f3 = (true, r23) ->
  file_time_compare fs f2 f1 = (true, - r12) /\
  (r12 <= 0 -> r23 <= 0 -> exists r, file_time_compare fs f1 f3 = (true, r) /\ r <= 0 /\ (r = 0 <-> r12 = 0 /\ r23 = 0)).
Proof.
  intros fs f1 f2 f3 r12 r23. unfold file_time_compare. destruct (at_name fs f1) as [a|]; [|discriminate]. destruct (at_name fs f2) as [b|]; [|discriminate]. destruct (at_name fs f3) as [c|]; [|discriminate].
  intros [= E1] [= E2]. split.
  - f_equal. rewrite <- E1. destruct (Z.ltb_spec (e_sec a) (e_sec b)), (Z.ltb_spec (e_sec b) (e_sec a)); try lia; destruct (Z.ltb_spec (e_nsec a) (e_nsec b)), (Z.ltb_spec (e_nsec b) (e_nsec a)); lia.
  - intros L1 L2. eexists; split; [reflexivity|].
    destruct (Z.ltb_spec (e_sec a) (e_sec b)), (Z.ltb_spec (e_sec b) (e_sec a)); try lia;
    destruct (Z.ltb_spec (e_sec b) (e_sec c)), (Z.ltb_spec (e_sec c) (e_sec b)); try lia;
    destruct (Z.ltb_spec (e_nsec a) (e_nsec b)), (Z.ltb_spec (e_nsec b) (e_nsec a)); try lia;
    destruct (Z.ltb_spec (e_nsec b) (e_nsec c)), (Z.ltb_spec (e_nsec c) (e_nsec b)); try lia;
    destruct (Z.ltb_spec (e_sec a) (e_sec c)), (Z.ltb_spec (e_sec c) (e_sec a)); try lia;
    destruct (Z.ltb_spec (e_nsec a) (e_nsec c)), (Z.ltb_spec (e_nsec c) (e_nsec a)); lia.
Qed.
Print Assumptions C135_order.
(** A missing file: false, and the number says "same time". *)
Theorem C135_missing : forall fs f1 f2, no_file fs f1 \/ no_file fs f2 -> file_time_compare fs f1 f2 = (false, 0).
Proof.
  intros fs f1 f2 [H|H]; unfold file_time_compare; rewrite (at_none _ _ H); [reflexivity|]. destruct (at_name fs f1); reflexivity.
Qed.
Print Assumptions C135_missing.

Section T.
Context (cc : str -> bool) (now : Z * Z).
(** Touch of a readable file: if the caller owns it, its time becomes now, and
    nothing else of it and no other file changes; if not, false and no change. *)
Theorem C135_touch : forall fs p e create, named fs p e -> e_readable e = true ->
  let '(fs', ok) := touch cc now fs p create in
  ok = e_owned e /\ (forall q, q <> p -> fs' q = fs q) /\
  (ok = false -> fs' p = fs p) /\
  (ok = true -> exists e', fs' p = Some e' /\ (e_sec e', e_nsec e') = now /\ e_bytes e' = e_bytes e /\ e_readable e' = e_readable e /\ e_writable e' = e_writable e /\ e_owned e' = e_owned e).
Proof.
  intros fs p e create H R. unfold touch, file_exists, utime_now. rewrite (at_named _ _ _ H). destruct H as (N & E). destruct p as [|c p]; [congruence|]. rewrite R. cbn [negb].
  destruct (e_owned e) eqn:O.
  - split; auto. split. { intros q D. unfold set_entry. destruct (str_dec q (c :: p)); [congruence|auto]. } split; [discriminate|]. intros _.
    eexists. unfold set_entry. destruct (str_dec (c :: p) (c :: p)); [|congruence]. split; [reflexivity|]. cbn. destruct now; auto.
  - split; auto. split; auto. split; auto. discriminate.
Qed.
(** After a successful Touch of a file that can be read, it is not older than any
    file whose time is not in the future. *)
Theorem C135_newest : forall fs p e create fs' q eq, named fs p e -> e_readable e = true -> touch cc now fs p create = (fs', true) ->
  named fs q eq -> sane eq -> 0 <= snd now < 1000000000 -> nanos eq <= fst now * 1000000000 + snd now ->
  exists r, file_time_compare fs' p q = (true, r) /\ r >= 0.
Proof.
  intros fs p e create fs' q eq H R T Q S1 S2 F. pose proof (C135_touch fs p e create H R) as K. rewrite T in K. destruct K as (_ & Oth & _ & K).
  destruct (K eq_refl) as (e' & E' & Nw & _).
  assert (Se : sane e') by (unfold sane; rewrite <- Nw in S2; exact S2).
  assert (Ne : nanos e' = fst now * 1000000000 + snd now) by (unfold nanos; rewrite <- Nw; reflexivity).
  assert (Hp : named fs' p e') by (split; [apply H|exact E']).
  destruct (str_dec q p) as [D|D].
  - subst q. destruct (C135_compare fs' p p e' e' Hp Hp Se Se) as (r & C & B & L & G & Z0). exists r. split; auto. lia.
  - assert (Hq : named fs' q eq) by (split; [apply Q|rewrite Oth by auto; apply Q]).
    destruct (C135_compare fs' p q e' eq Hp Hq Se S1) as (r & C & B & L & G & Z0). exists r. split; auto. lia.
Qed.
(** With create, a missing file is made, empty and with the present time, or the
    answer is false; no other file changes. *)
Theorem C135_create : forall fs p, no_file fs p ->
  let '(fs', ok) := touch cc now fs p true in
  (ok = true <-> p <> [] /\ cc p = true) /\ (forall q, q <> p -> fs' q = fs q) /\ (ok = false -> fs' p = fs p) /\
  (ok = true -> exists e, named fs' p e /\ file_exists fs' p = true /\ e_bytes e = [] /\ (e_sec e, e_nsec e) = now).
Proof.
  intros fs p H. unfold touch, file_exists, fopen_append. rewrite (at_none _ _ H). destruct p as [|c p].
  - cbn. split. { split; [discriminate|]. intros (A & _); congruence. } split; auto. split; auto. discriminate.
  - cbn [negb]. destruct (cc (c :: p)) eqn:C.
    + split. { split; auto. split; [discriminate|auto]. } split. { intros q D. unfold set_entry. destruct (str_dec q (c :: p)); [congruence|auto]. } split; [discriminate|]. intros _.
      eexists. split. { split; [discriminate|]. unfold set_entry. destruct (str_dec (c :: p) (c :: p)); [reflexivity|congruence]. }
      split. { unfold at_name, set_entry. destruct (str_dec (c :: p) (c :: p)); [reflexivity|congruence]. } cbn. destruct now; auto.
    + split. { split; [discriminate|]. intros (_ & A). discriminate A. } split; auto. split; auto. discriminate.
Qed.
(** A file that may not be read counts as missing, but none can be made. *)
Theorem C135_unreadable : forall fs p e, named fs p e -> e_readable e = false -> touch cc now fs p true = (fs, false).
Proof.
  intros fs p e H R. unfold touch, file_exists, fopen_append. rewrite (at_named _ _ _ H), R. destruct p; reflexivity.
Qed.
(** Without create, true does not mean that a time was set: so it is for a name
    that does not exist, and for a file the caller may not read. *)
Theorem C135_touched_refuted : forall fs p, no_file fs p \/ (exists e, named fs p e /\ e_readable e = false) -> touch cc now fs p false = (fs, true).
Proof.
  intros fs p [H|(e & H & R)]; unfold touch, file_exists; [rewrite (at_none _ _ H)|rewrite (at_named _ _ _ H), R]; destruct p; reflexivity.
Qed.
End T.
Print Assumptions C135_touch. Print Assumptions C135_newest. Print Assumptions C135_create. Print Assumptions C135_unreadable. Print Assumptions C135_touched_refuted.
Example C135_ex : let fs : fsys := fun p => if str_eqb p (L "a") then Some (Entry true true true 5 7 (L "x")) else if str_eqb p (L "b") then Some (Entry true true false 5 8 []) else None in
  file_time_compare fs (L "a") (L "b") = (true, -1) /\ named fs (L "a") (Entry true true true 5 7 (L "x")) /\ no_file fs (L "c") /\
  file_time_compare (fst (touch (fun _ => true) (9, 0) fs (L "a") false)) (L "a") (L "b") = (true, 1) /\ snd (touch (fun _ => true) (9, 0) fs (L "b") true) = false /\
  snd (touch (fun _ => true) (9, 0) fs (L "c") true) = true.
Proof. cbv zeta. split; [reflexivity|]. split; [split; [discriminate|reflexivity]|]. split; [right; reflexivity|]. split; [reflexivity|]. split; reflexivity. Qed.
