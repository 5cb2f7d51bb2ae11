(** DescProps2.v -- C112: who owns a descriptor's memory. *)
From Coq Require Import Ascii List Bool NArith Arith Lia.
Import ListNotations.
From Verif Require Import Base DescModel DescProps.
Local Open Scope N_scope.

Section C.
Context {D : Type} (conv : list ascii -> D).
Notation step := (step conv). Notation run := (run conv). Notation reachable := (reachable conv).

(** ---- specification ---- *)
(** What the caller has to respect: live objects, writes inside the array,
    doubles only of elements that were written. *)
Definition legal (s : st) (o : op) : Prop :=
  match o with
  | NewFixed _ _ | NewDyn _ _ => True
  | CopyCtor h => alive s h
  | Assign h1 h2 => alive s h1 /\ alive s h2
  | Write h i v => alive s h /\ forall n, step s (Size h) = Some (s, ONum n) -> i < n
  | Destroy h | Size h | NumBytes h | AsBytes h => alive s h
  | AsDouble h => alive s h /\ forall b, step s (AsBytes h) = Some (s, OBytes b) -> ~ In None b
  end.
(** Copying a descriptor_dynamic, or assigning one to another. *)
Definition duplicates (s : st) (o : op) : Prop :=
  match o with
  | CopyCtor h => dynamic s h
  | Assign h1 h2 => h1 <> h2 /\ dynamic s h1 /\ dynamic s h2
  | _ => False
  end.

Lemma single_init : single_owner st0.
Proof. split. - intros h h' (a & b & c & d & e & X & _). destruct h; discriminate. - intros h sz p l X. destruct h; discriminate. Qed.
Lemma raw_of s h x : single_owner s -> get s h = Some x -> exists b, o_raw s x = Some b.
Proof.
  intros [_ Lv] G. destruct x as [sz n d|sz p l|]; cbn; [eauto| |apply get_nth in G; destruct G; congruence].
  destruct (Lv h sz p l G) as [b Hb]. unfold bkt. rewrite Hb. eauto.
Qed.
Lemma bytes_of s h : reachable s -> single_owner s -> alive s h -> exists b, step s (AsBytes h) = Some (s, OBytes b).
Proof.
  intros R O [x G]. destruct (raw_of s h x O G) as [b Hb]. exists b. apply (as_bytes_step conv); [apply (reach_wf conv); exact R|eauto].
Qed.

Lemma single_step s o s' r : reachable s -> single_owner s -> ~ duplicates s o -> step s o = Some (s', r) -> single_owner s'.
Proof.
  intros R [U Lv] Nd H. pose proof (reach_wf conv s R) as W. apply (step_cases conv) in H.
  destruct H as [->|[(sz & n & -> & Hs & Hm & ->)|[(sz & l & -> & Hs & Hm & ->)|[(h & x & -> & G & ->)|[(h1 & h2 & x & y & -> & G1 & G2 & -> & T)|[(h & i & v & sz & n & d & -> & G & Lv' & B & ->)|[(h & i & v & sz & p & l & d & -> & G & Hp & Lv' & B & ->)|[(h & sz & p & l & b & -> & G & Hp & ->)|(h & sz & n & d & -> & G & ->)]]]]]]]].
  - split; assumption.
  - assert (forall h sz0 p l, get (new_obj s (DFixed sz n (indet (n * sz)))) h = Some (DDyn sz0 p l) -> get s h = Some (DDyn sz0 p l)) as K.
    { intros h sz0 p l X. apply get_nth in X. destruct X as [X N0]. apply get_nth. split; [|exact N0]. cbn in X. apply nth_snoc in X. destruct X as [X|[_ X]]; [exact X|discriminate]. }
    split; [intros h h' (a & b & c & d & e & X & Y); apply U; do 5 eexists; split; eauto|]. intros h sz0 p l X. apply K in X. exact (Lv h sz0 p l X).
  - assert (forall h sz0 p l0, get (St (heap s ++ [Live (indet (l * sz))]) (objs s ++ [DDyn sz (length (heap s)) l])) h = Some (DDyn sz0 p l0) ->
       (get s h = Some (DDyn sz0 p l0) /\ (p < length (heap s))%nat) \/ (h = length (objs s) /\ p = length (heap s))) as K.
    { intros h sz0 p l0 X. apply get_nth in X. destruct X as [X N0]. cbn in X. apply nth_snoc in X. destruct X as [X|[-> X]].
      - left. split; [apply get_nth; auto|]. specialize (W h _ X). cbn in W. tauto.
      - right. injection X as _ -> _. auto. }
    split.
    + intros h h' (a & p & c & d & e & X & Y). destruct (K _ _ _ _ X) as [[X1 X2]|[X1 X2]]; destruct (K _ _ _ _ Y) as [[Y1 Y2]|[Y1 Y2]]; try lia.
      apply U. do 5 eexists; split; eauto.
    + intros h sz0 p l0 X. cbn [heap]. destruct (K _ _ _ _ X) as [[X1 X2]|[X1 X2]].
      * rewrite nth_error_app1 by exact X2. exact (Lv _ _ _ _ X1).
      * subst p. rewrite nth_error_app2, Nat.sub_diag by lia. cbn. eauto.
  - assert (forall sz p l, x <> DDyn sz p l) as Nx. { intros sz p l ->. apply Nd. cbn. exists sz, p, l. exact G. }
    assert (forall k sz0 p l, get (new_obj s x) k = Some (DDyn sz0 p l) -> get s k = Some (DDyn sz0 p l)) as K.
    { intros k sz0 p l X. apply get_nth in X. destruct X as [X N0]. apply get_nth. split; [|exact N0]. cbn in X. apply nth_snoc in X. destruct X as [X|[_ X]]; [exact X|symmetry in X; apply Nx in X; contradiction]. }
    split; [intros k h' (a & b & c & d & e & X & Y); apply U; do 5 eexists; split; eauto|]. intros k sz0 p l X. apply K in X. exact (Lv k sz0 p l X).
  - assert (forall k sz0 p l, get (set_obj s h1 y) k = Some (DDyn sz0 p l) -> get s k = Some (DDyn sz0 p l)) as K.
    { intros k sz0 p l X. unfold set_obj in X. rewrite get_lupd in X. destruct (Nat.eqb_spec h1 k) as [<-|]; [|exact X].
      destruct (h1 <? length (objs s))%nat; cbn [andb] in X; [|exact X].
      assert (y = DDyn sz0 p l) as -> by (destruct y; congruence).
      destruct T as [(a & b & c & d & _ & T)|(a & b & c & d & e & Tx & Ty)]; [discriminate|]. subst x.
      destruct (Nat.eq_dec h1 h2) as [<-|Nh]; [congruence|]. exfalso. apply Nd. cbn. split; [exact Nh|]. split; do 3 eexists; eassumption. }
    split; [intros k h' (a & b & c & d & e & X & Y); apply U; do 5 eexists; split; eauto|]. intros k sz0 p l X. apply K in X. exact (Lv k sz0 p l X).
  - assert (forall k sz0 p l, get (set_obj s h (DFixed sz n (splice d (i * sz) (map Some v)))) k = Some (DDyn sz0 p l) -> get s k = Some (DDyn sz0 p l)) as K.
    { intros k sz0 p l X. unfold set_obj in X. rewrite get_lupd in X. destruct (Nat.eqb_spec h k) as [<-|]; [|exact X]. destruct (h <? length (objs s))%nat; cbn [andb] in X; [discriminate|exact X]. }
    split; [intros k h' (a & b & c & d0 & e & X & Y); apply U; do 5 eexists; split; eauto|]. intros k sz0 p l X. apply K in X. exact (Lv k sz0 p l X).
  - split.
    + intros k h' (a & b & c & d0 & e & X & Y). apply U. do 5 eexists; split; [exact X|exact Y].
    + intros k sz0 p0 l0 X. cbn [heap]. destruct (Nat.eq_dec p p0) as [<-|Np].
      * rewrite nth_lupd_eq by (apply nth_error_Some; congruence). eauto.
      * rewrite nth_lupd_ne by exact Np. exact (Lv k sz0 p0 l0 X).
  - assert (forall k sz0 p0 l0, get (St (lupd (heap s) p Freed) (lupd (objs s) h Dead)) k = Some (DDyn sz0 p0 l0) -> get s k = Some (DDyn sz0 p0 l0) /\ h <> k) as K.
    { intros k sz0 p0 l0 X. rewrite get_lupd in X. destruct (Nat.eqb_spec h k) as [<-|]; [|auto]. destruct (Nat.ltb_spec h (length (objs s))) as [_|Ge]; cbn [andb] in X; [discriminate|]. apply get_lt in G. lia. }
    split.
    + intros k h' (a & q & c & d0 & e & X & Y). apply K in X, Y. apply U. do 5 eexists; split; [exact (proj1 X)|exact (proj1 Y)].
    + intros k sz0 p0 l0 X. apply K in X. destruct X as [X Nk]. cbn [heap]. rewrite nth_lupd_ne; [exact (Lv k sz0 p0 l0 X)|].
      intros <-. apply Nk. apply U. do 5 eexists; split; [exact G|exact X].
  - assert (forall k sz0 p0 l0, get (set_obj s h Dead) k = Some (DDyn sz0 p0 l0) -> get s k = Some (DDyn sz0 p0 l0)) as K.
    { intros k sz0 p0 l0 X. unfold set_obj in X. rewrite get_lupd in X. destruct (Nat.eqb_spec h k) as [<-|]; [|auto]. destruct (h <? length (objs s))%nat; cbn [andb] in X; [discriminate|exact X]. }
    split; [intros k h' (a & b & c & d0 & e & X & Y); apply U; do 5 eexists; split; eauto|]. intros k sz0 p l X. apply K in X. exact (Lv k sz0 p l X).
Qed.

(** As long as no descriptor_dynamic is copied, every legal operation is
    defined, and each array keeps one owner. *)
Theorem C112_safe : forall s o, reachable s -> single_owner s -> legal s o ->
  exists s' r, step s o = Some (s', r) /\ (~ duplicates s o -> single_owner s').
Proof.
  intros s o R O Lg. enough (exists s' r, step s o = Some (s', r)) as (s' & r & H). { exists s', r. split; [exact H|]. intros Nd. exact (single_step s o s' r R O Nd H). }
  pose proof (reach_wf conv s R) as W. destruct o as [sz n|sz l|h|h1 h2|h i v|h|h|h|h|h]; cbn [legal] in Lg; cbn [DescModel.step].
  - destruct ((0 <? sz) && (0 <? n) && (n * sz <=? max_array)); eauto.
  - destruct (negb (0 <? sz)); eauto. destruct (l * sz <=? max_array); eauto.
  - destruct Lg as [x ->]. eauto.
  - destruct Lg as [[x Gx] [y Gy]]. rewrite Gx, Gy. assert (x <> Dead /\ y <> Dead) as [Nx Ny] by (apply get_nth in Gx, Gy; tauto).
    destruct x; try congruence; destruct y; try congruence; eauto; [destruct (_ && _)|destruct (_ =? _)]; eauto.
  - destruct Lg as [[x Gx] Hi]. rewrite Gx. destruct (N.eqb_spec (N.of_nat (length v)) (o_sz x)) as [Ev|]; cbn [negb]; [|eauto].
    destruct (raw_of s h x O Gx) as [b Hb]. rewrite Hb. destruct (raw_len s h x b W Gx Hb) as (L1 & L2 & L3).
    assert (i < o_size x) as Lt. { apply Hi. cbn [DescModel.step]. rewrite Gx. reflexivity. }
    assert ((i + 1) * o_sz x <=? N.of_nat (length b) = true) as ->. { apply N.leb_le. rewrite L1. apply N.mul_le_mono_r. lia. }
    destruct x; eauto. apply get_nth in Gx; destruct Gx; congruence.
  - destruct Lg as [x Gx]. rewrite Gx. destruct x as [|sz p l|]; eauto. destruct O as [_ Lv]. destruct (Lv _ _ _ _ Gx) as [b Hb]. unfold bkt. rewrite Hb. eauto.
  - destruct Lg as [x ->]. eauto.
  - destruct Lg as [x ->]. eauto.
  - destruct (bytes_of s h R O Lg) as [b Hb]. cbn [DescModel.step] in Hb. rewrite Hb. eauto.
  - destruct Lg as [[x Gx] Hb]. rewrite Gx. unfold as_double. destruct (raw_of s h x O Gx) as [b Rb]. rewrite Rb.
    destruct (raw_len s h x b W Gx Rb) as (L1 & L2 & L3).
    destruct (doubles_spec conv b (o_sz x) (N.to_nat (o_size x)) L3 0) as [_ C]; [rewrite Nnat.N2Nat.id, N.add_0_l; lia|].
    destruct (doubles conv b (o_sz x) 0 (N.to_nat (o_size x))) as [l|] eqn:E; [eauto|]. exfalso. destruct (proj1 C eq_refl) as (j & Hj & Hi).
    apply (Hb b). { apply (as_bytes_step conv); eauto. } unfold chunk in Hi.
    assert (forall A (l : list A) n a, In a (firstn n l) -> In a l) as F1. { clear. intros A l; induction l as [|y l IH]; intros [|n] a X; cbn in *; try tauto. destruct X; eauto. }
    assert (forall A (l : list A) n a, In a (skipn n l) -> In a l) as F2. { clear. intros A l; induction l as [|y l IH]; intros [|n] a X; cbn in *; try tauto. eauto. }
    exact (F2 _ _ _ _ (F1 _ _ _ _ Hi)).
Qed.
Print Assumptions C112_safe.
(** So is a whole program that keeps to this; and when its last object is gone,
    all memory is. *)
Fixpoint careful (s : st) (p : list op) : Prop :=
  match p with
  | [] => True
  | o :: r => legal s o /\ ~ duplicates s o /\ forall s' x, step s o = Some (s', x) -> careful s' r
  end.
Lemma leak_step s o s' r : reachable s -> single_owner s -> ~ duplicates s o -> no_leak s -> step s o = Some (s', r) -> no_leak s'.
Proof.
  intros R [U Lv] Nd NL H. pose proof (reach_wf conv s R) as W. apply (step_cases conv) in H.
  destruct H as [->|[(sz & n & -> & Hs & Hm & ->)|[(sz & l & -> & Hs & Hm & ->)|[(h & x & -> & G & ->)|[(h1 & h2 & x & y & -> & G1 & G2 & -> & T)|[(h & i & v & sz & n & d & -> & G & Lv' & B & ->)|[(h & i & v & sz & p & l & d & -> & G & Hp & Lv' & B & ->)|[(h & sz & p & l & b & -> & G & Hp & ->)|(h & sz & n & d & -> & G & ->)]]]]]]]]; intros q c Hq.
  - exact (NL q c Hq).
  - destruct (NL q c Hq) as (k & a & e & K). exists k, a, e. unfold new_obj. rewrite get_snoc by congruence. exact K.
  - cbn [heap] in Hq. apply nth_snoc in Hq. destruct Hq as [Hq|[-> _]].
    + destruct (NL q c Hq) as (k & a & e & K). exists k, a, e. rewrite get_snoc by congruence. exact K.
    + exists (length (objs s)), sz, l. apply get_last. discriminate.
  - destruct (NL q c Hq) as (k & a & e & K). exists k, a, e. unfold new_obj. rewrite get_snoc by congruence. exact K.
  - destruct (NL q c Hq) as (k & a & e & K). unfold set_obj. destruct (Nat.eq_dec h1 k) as [<-|Nk].
    + destruct T as [(sz & n & d & d' & -> & ->)|(sz & p & l & p' & l' & -> & ->)]; [congruence|].
      destruct (Nat.eq_dec h1 h2) as [<-|Nh]; [|exfalso; apply Nd; cbn; split; [exact Nh|]; split; do 3 eexists; eassumption].
      exists h1, a, e. rewrite get_lupd, Nat.eqb_refl. destruct (h1 <? length (objs s))%nat; cbn [andb]; congruence.
    + exists k, a, e. rewrite get_lupd. destruct (Nat.eqb_spec h1 k); [congruence|exact K].
  - destruct (NL q c Hq) as (k & a & e & K). exists k, a, e. unfold set_obj. rewrite get_lupd. destruct (Nat.eqb_spec h k); [congruence|exact K].
  - cbn [heap] in Hq. apply nth_lupd in Hq. destruct Hq as [(<- & _ & _)|[_ Hq]]; [exists h, sz, l; exact G|]. destruct (NL q c Hq) as (k & a & e & K). exists k, a, e. exact K.
  - cbn [heap] in Hq. apply nth_lupd in Hq. destruct Hq as [(_ & X & _)|[Nq Hq]]; [discriminate|]. destruct (NL q c Hq) as (k & a & e & K).
    exists k, a, e. rewrite get_lupd. destruct (Nat.eqb_spec h k) as [->|]; [|exact K]. congruence.
  - destruct (NL q c Hq) as (k & a & e & K). exists k, a, e. unfold set_obj. rewrite get_lupd. destruct (Nat.eqb_spec h k); [congruence|exact K].
Qed.
Theorem C112_program : forall p, careful st0 p -> exists s, run st0 p = Some s /\
  ((forall h, ~ alive s h) -> forall q b, nth_error (heap s) q = Some b -> b = Freed).
Proof.
  assert (forall p s, reachable s -> single_owner s -> no_leak s -> careful s p -> exists s', run s p = Some s' /\ no_leak s') as K.
  { induction p as [|o p IH]; intros s R O NL C; cbn [DescModel.run]; [eauto|]. destruct C as (Lg & Nd & C).
    destruct (C112_safe s o R O Lg) as (s' & r & H & O'). rewrite H. apply IH; eauto using (reach_step conv), leak_step. }
  intros p C. destruct (K p st0) as (s & H & NL); auto.
  - exists []. reflexivity.
  - exact single_init.
  - intros q b X. destruct q; discriminate.
  - exists s. split; [exact H|]. intros Dd q [b|] Hq; [|reflexivity]. exfalso. destruct (NL q b Hq) as (h & sz & l & G). apply (Dd h). eexists; exact G.
Qed.
Print Assumptions C112_program.

(** ---- what the generated copy operations do ---- *)
(** Two objects hold one array, or an object holds a deleted one. *)
Definition broken (s : st) : Prop :=
  (exists h h', h <> h' /\ shares s h h') \/ (exists h sz p l, get s h = Some (DDyn sz p l) /\ nth_error (heap s) p = Some Freed).
Lemma broken_step s o s' r : wf s -> broken s -> step s o = Some (s', r) -> broken s'.
Proof.
  intros W B H. apply (step_cases conv) in H.
  (* keeping all dynamic objects and freed blocks is enough *)
  assert (forall s2, (forall k sz p l, get s k = Some (DDyn sz p l) -> get s2 k = Some (DDyn sz p l)) -> (forall p, nth_error (heap s) p = Some Freed -> nth_error (heap s2) p = Some Freed) -> broken s2) as Keep.
  { intros s2 K1 K2. destruct B as [(h & h' & N0 & a & p & c & d & e & X & Y)|(h & sz & p & l & X & Y)].
    - left. exists h, h'. split; [exact N0|]. do 5 eexists. split; eauto.
    - right. exists h, sz, p, l. auto. }
  destruct H as [->|[(sz & n & -> & Hs & Hm & ->)|[(sz & l & -> & Hs & Hm & ->)|[(h & x & -> & G & ->)|[(h1 & h2 & x & y & -> & G1 & G2 & -> & T)|[(h & i & v & sz & n & d & -> & G & Lv' & Bd & ->)|[(h & i & v & sz & p & l & d & -> & G & Hp & Lv' & Bd & ->)|[(h & sz & p & l & b & -> & G & Hp & ->)|(h & sz & n & d & -> & G & ->)]]]]]]]].
  - exact B.
  - apply Keep; [|auto]. intros k sz0 p l X. unfold new_obj. rewrite get_snoc by congruence. exact X.
  - apply Keep.
    + intros k sz0 p l0 X. rewrite get_snoc by congruence. exact X.
    + intros p X. cbn [heap]. rewrite nth_error_app1; [exact X|]. apply nth_error_Some. congruence.
  - apply Keep; [|auto]. intros k sz0 p l X. unfold new_obj. rewrite get_snoc by congruence. exact X.
  - destruct T as [(sz & n & d & d' & -> & ->)|(sz & p & l & p' & l' & -> & ->)].
    + apply Keep; [|auto]. intros k sz0 p l X. unfold set_obj. rewrite get_lupd. destruct (Nat.eqb_spec h1 k) as [->|]; [congruence|exact X].
    + destruct (Nat.eq_dec h1 h2) as [<-|Nh].
      * apply Keep; [|auto]. intros k sz0 q l0 X. unfold set_obj. rewrite get_lupd. destruct (Nat.eqb_spec h1 k) as [->|]; [|exact X]. destruct (k <? length (objs s))%nat; cbn [andb]; congruence.
      * left. exists h1, h2. split; [exact Nh|]. exists sz, p', l', sz, l'. unfold set_obj. rewrite !get_lupd, Nat.eqb_refl.
        destruct (Nat.ltb_spec h1 (length (objs s))) as [_|Ge]; [|apply get_lt in G1; lia]. cbn [andb]. split; [reflexivity|].
        destruct (Nat.eqb_spec h1 h2); [congruence|exact G2].
  - apply Keep; [|auto]. intros k sz0 p l X. unfold set_obj. rewrite get_lupd. destruct (Nat.eqb_spec h k) as [->|]; [congruence|exact X].
  - apply Keep; [auto|]. intros q X. cbn [heap]. rewrite nth_lupd_ne; [exact X|]. intros ->. congruence.
  - assert (p < length (heap s))%nat as Lp by (apply nth_error_Some; congruence).
    assert (forall k sz0 q l0, k <> h -> get s k = Some (DDyn sz0 q l0) -> get (St (lupd (heap s) p Freed) (lupd (objs s) h Dead)) k = Some (DDyn sz0 q l0)) as K.
    { intros k sz0 q l0 Nk X. rewrite get_lupd. destruct (Nat.eqb_spec h k); [congruence|exact X]. }
    destruct B as [(k & k' & N0 & a & q & c & d & e & X & Y)|(k & sz0 & q & l0 & X & Y)].
    + destruct (Nat.eq_dec q p) as [->|Nq].
      * right. destruct (Nat.eq_dec k h) as [->|Nk].
        -- exists k', d, p, e. split; [apply K; auto|]. cbn [heap]. apply nth_lupd_eq. exact Lp.
        -- exists k, a, p, c. split; [apply K; auto|]. cbn [heap]. apply nth_lupd_eq. exact Lp.
      * left. exists k, k'. split; [exact N0|]. exists a, q, c, d, e. split; apply K; auto; intros ->; congruence.
    + right. exists k, sz0, q, l0. assert (q <> p) as Nq by (intros ->; congruence). split; [apply K; auto; intros ->; congruence|]. cbn [heap]. rewrite nth_lupd_ne by congruence. exact Y.
  - apply Keep; [|auto]. intros k sz0 p l X. unfold set_obj. rewrite get_lupd. destruct (Nat.eqb_spec h k) as [->|]; [congruence|exact X].
Qed.
Lemma broken_dup s o s' r : step s o = Some (s', r) -> duplicates s o -> r <> OIllTyped -> broken s'.
Proof.
  intros H Du Nr. left. destruct o as [sz n|sz l|h|h1 h2|h i v|h|h|h|h|h]; try contradiction; cbn [duplicates] in Du; cbn [DescModel.step] in H.
  - destruct Du as (sz & p & l & G). rewrite G in H. injection H as <- <-. exists h, (length (objs s)).
    split; [apply get_lt in G; lia|]. exists sz, p, l, sz, l. unfold new_obj. rewrite get_snoc by congruence. rewrite get_last by discriminate. auto.
  - destruct Du as (Nh & (sz & p & l & G1) & (sz' & p' & l' & G2)). rewrite G1, G2 in H. destruct (sz =? sz'); [|injection H as <- <-; congruence]. injection H as <- <-.
    exists h1, h2. split; [exact Nh|]. exists sz, p', l', sz', l'. unfold set_obj. rewrite !get_lupd, Nat.eqb_refl.
    destruct (Nat.ltb_spec h1 (length (objs s))) as [_|Ge]; [|apply get_lt in G1; lia]. cbn [andb]. split; [reflexivity|].
    destruct (Nat.eqb_spec h1 h2); [congruence|exact G2].
Qed.
(** Once a descriptor_dynamic has been copied, or assigned to another one, no
    continuation destroys all objects: it is undefined before, or leaves one. *)
Theorem C112_copy_refuted : forall p1 o p2 s1 s', run st0 p1 = Some s1 -> duplicates s1 o ->
  (forall s2, step s1 o <> Some (s2, OIllTyped)) -> run st0 (p1 ++ o :: p2) = Some s' -> exists h, alive s' h.
Proof.
  intros p1 o p2 s1 s' H1 Du Ni H. rewrite (run_app conv), H1 in H. cbn [DescModel.run] in H.
  destruct (step s1 o) as [[s2 r]|] eqn:E; [|discriminate].
  assert (broken s2) as B. { apply (broken_dup s1 o s2 r E Du). intros ->. exact (Ni s2 eq_refl). }
  assert (wf s2 /\ broken s2) as WB. { split; [|exact B]. eapply (step_wf conv); [|exact E]. apply (reach_wf conv). exists p1; exact H1. }
  assert (wf s' /\ broken s') as [_ B'].
  { revert H. apply (run_ind conv (fun s => wf s /\ broken s)); [|exact WB]. intros s a t x [W B0] X. split; [eapply (step_wf conv); eauto|eapply broken_step; eauto]. }
  destruct B' as [(h & h' & _ & a & q & c & d & e & X & _)|(h & sz & q & l & X & _)]; exists h; eexists; exact X.
Qed.
Print Assumptions C112_copy_refuted.
(** Assigning loses the array the target had for good, unless another object
    holds it too. *)
Theorem C112_assign_leaks_refuted : forall s1 h1 h2 s2 sz q l b, reachable s1 -> step s1 (Assign h1 h2) = Some (s2, ODone) ->
  get s1 h1 = Some (DDyn sz q l) -> nth_error (heap s1) q = Some (Live b) -> (forall k, k <> h1 -> ~ shares s1 h1 k) -> h1 <> h2 ->
  forall p s', run s2 p = Some s' -> exists b', nth_error (heap s') q = Some (Live b').
Proof.
  intros s1 h1 h2 s2 sz q l b R1 H G1 Hq Alone Nh p s' Hr. pose proof (reach_wf conv s1 R1) as W1.
  set (P := fun s => wf s /\ (exists b', nth_error (heap s) q = Some (Live b')) /\ forall k sz0 l0, get s k <> Some (DDyn sz0 q l0)).
  assert (P s2) as P2.
  { split; [eapply (step_wf conv); eauto|]. cbn [DescModel.step] in H. rewrite G1 in H. destruct (get s1 h2) as [[|sz' p' l'|]|] eqn:G2; try discriminate.
    destruct (sz =? sz'); [|discriminate]. injection H as <-. split; [eexists; exact Hq|].
    intros k sz0 l0 X. unfold set_obj in X. rewrite get_lupd in X. destruct (Nat.eqb_spec h1 k) as [->|Nk].
    - destruct (Nat.ltb_spec k (length (objs s1))) as [_|Ge]; [|apply get_lt in G1; lia]. cbn [andb] in X. injection X as -> -> ->.
      apply (Alone h2); [congruence|]. do 5 eexists; split; eassumption.
    - cbn [andb] in X. apply (Alone k); [congruence|]. do 5 eexists; split; eassumption. }
  assert (P s') as (_ & K & _); [|exact K]. revert Hr. apply (run_ind conv P); [|exact P2]. clear - conv.
  intros s o s' r (W & (b & Hq) & Un) H. split; [eapply (step_wf conv); eauto|]. apply (step_cases conv) in H.
  assert (q < length (heap s))%nat as Lq by (apply nth_error_Some; congruence).
  destruct H as [->|[(sz & n & -> & Hs & Hm & ->)|[(sz & l & -> & Hs & Hm & ->)|[(h & x & -> & G & ->)|[(h1 & h2 & x & y & -> & G1 & G2 & -> & T)|[(h & i & v & sz & n & d & -> & G & Lv' & Bd & ->)|[(h & i & v & sz & p & l & d & -> & G & Hp & Lv' & Bd & ->)|[(h & sz & p & l & b0 & -> & G & Hp & ->)|(h & sz & n & d & -> & G & ->)]]]]]]]].
  - eauto.
  - split; [eauto|]. intros k sz0 l0 X. apply get_nth in X. destruct X as [X _]. cbn in X. apply nth_snoc in X. destruct X as [X|[_ X]]; [|discriminate]. apply (Un k sz0 l0). apply get_nth. split; [exact X|discriminate].
  - split; [exists b; cbn [heap]; rewrite nth_error_app1; auto|]. intros k sz0 l0 X. apply get_nth in X. destruct X as [X _]. cbn in X. apply nth_snoc in X. destruct X as [X|[_ X]]; [|injection X as _ X _; lia]. apply (Un k sz0 l0). apply get_nth. split; [exact X|discriminate].
  - split; [eauto|]. intros k sz0 l0 X. apply get_nth in X. destruct X as [X _]. cbn in X. apply nth_snoc in X. destruct X as [X|[_ X]]; [|subst x; exact (Un h sz0 l0 G)]. apply (Un k sz0 l0). apply get_nth. split; [exact X|discriminate].
  - split; [eauto|]. intros k sz0 l0 X. unfold set_obj in X. rewrite get_lupd in X. destruct ((h1 =? k)%nat && (h1 <? length (objs s))%nat); [|exact (Un k sz0 l0 X)].
    apply (Un h2 sz0 l0). rewrite G2. destruct y; congruence.
  - split; [eauto|]. intros k sz0 l0 X. unfold set_obj in X. rewrite get_lupd in X. destruct ((h =? k)%nat && (h <? length (objs s))%nat); [discriminate|exact (Un k sz0 l0 X)].
  - split; [|exact Un]. cbn [heap]. destruct (Nat.eq_dec p q) as [->|Np]; [exfalso; exact (Un h sz l G)|]. rewrite nth_lupd_ne by exact Np. eauto.
  - split.
    + cbn [heap]. destruct (Nat.eq_dec p q) as [->|Np]; [exfalso; exact (Un h sz l G)|]. rewrite nth_lupd_ne by exact Np. eauto.
    + intros k sz0 l0 X. rewrite get_lupd in X. destruct ((h =? k)%nat && (h <? length (objs s))%nat); [discriminate|exact (Un k sz0 l0 X)].
  - split; [eauto|]. intros k sz0 l0 X. unfold set_obj in X. rewrite get_lupd in X. destruct ((h =? k)%nat && (h <? length (objs s))%nat); [discriminate|exact (Un k sz0 l0 X)].
Qed.
Print Assumptions C112_assign_leaks_refuted.
End C.

(** ---- the hypotheses are met ---- *)
Definition conv1 (v : list ascii) : list ascii := v.
Definition B (n : nat) : ascii := ascii_of_nat n.
Definition prog1 : list op := [NewDyn 2 3; Write 0 1 [B 7; B 8]; NewFixed 1 2; Write 1 0 [B 5]; Write 1 1 [B 6]; CopyCtor 1; Write 2 0 [B 9]].
Example C112_ex1 : exists s, run conv1 st0 prog1 = Some s /\
  step conv1 s (AsBytes 0) = Some (s, OBytes [None; None; Some (B 7); Some (B 8); None; None]) /\
  step conv1 s (AsDouble 0) = None /\ step conv1 s (NumBytes 0) = Some (s, ONum 6) /\
  step conv1 s (AsDouble 1) = Some (s, ODoubles [[B 5]; [B 6]]) /\ step conv1 s (AsDouble 2) = Some (s, ODoubles [[B 9]; [B 6]]) /\
  alive s 0 /\ dynamic s 0 /\ duplicates s (CopyCtor 0) /\ ~ duplicates s (CopyCtor 1) /\ single_owner s.
Proof.
  eexists. split; [reflexivity|]. split; [reflexivity|]. split; [reflexivity|]. split; [reflexivity|]. split; [reflexivity|]. split; [reflexivity|].
  split; [eexists; reflexivity|]. split; [do 3 eexists; reflexivity|]. split; [do 3 eexists; reflexivity|]. split; [intros (a & b & c & X); discriminate X|].
  split.
  - intros h h' (a & b & c & d & e & X & Y). destruct h as [|[|[|h]]]; [|discriminate|discriminate|destruct h; discriminate]. destruct h' as [|[|[|h']]]; [reflexivity|discriminate|discriminate|destruct h'; discriminate].
  - intros h sz p l X. destruct h as [|[|[|h]]]; [|discriminate|discriminate|destruct h; discriminate]. injection X as <- <- <-. eexists; reflexivity.
Qed.
Example C112_ex2 : run conv1 st0 [NewDyn 1 2; CopyCtor 0; Destroy 0; Destroy 1] = None /\
  run conv1 st0 [NewDyn 1 2; NewDyn 1 2; Assign 0 1; Destroy 0; Destroy 1] = None /\
  exists s, run conv1 st0 [NewDyn 1 2; Write 0 0 [B 1]; CopyCtor 0; Write 1 0 [B 2]] = Some s /\ step conv1 s (AsBytes 0) = Some (s, OBytes [Some (B 2); None]).
Proof. split; [reflexivity|]. split; [reflexivity|]. eexists. split; reflexivity. Qed.
Example C112_ex3 : careful conv1 st0 [NewDyn 1 2; Write 0 1 [B 1]; Destroy 0].
Proof.
  cbn [careful]. split; [exact I|]. split; [intros []|]. intros s x H. injection H as <- <-. split.
  - split; [eexists; reflexivity|]. intros n H. injection H as <-. lia.
  - split; [intros []|]. intros s x H. injection H as <- <-. split; [eexists; reflexivity|]. split; [intros []|]. intros; exact I.
Qed.
