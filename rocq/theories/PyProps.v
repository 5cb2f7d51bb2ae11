(** PyProps.v -- C102: ownership in the Python interface. *)
From Coq Require Import ZArith List Bool Lia.
Import ListNotations.
From Verif Require Import Base CacheModel CacheProofs PyModel.

(** ---- specification ---- *)
(** Object i exists and refers to handle s. *)
Definition refers (w : py) (i : nat) (s : sptr) : Prop := exists o, obj_at w i = Some o /\ cell_at w (o_cell o) = s.
Definition exists_obj (w : py) (i : nat) : Prop := exists s, refers w i s.
(** What may happen next.  A C++ object that Python still refers to keeps its
    address for itself; Python collects no object that another one names as its
    parent; shallow copies name their parent. *)
Definition may (w : py) (o : pyop) : Prop :=
  match o with
  | PNew s => s_addr s <> 0%Z /\ forall i t, refers w i t -> s_addr t = s_addr s -> t = s
  | PSetConfig i s => exists_obj w i /\ s_addr s <> 0%Z /\ forall j t, refers w j t -> s_addr t <> s_addr s
  | PNull => True
  | PCopy i => exists_obj w i
  | PAlias _ => False
  | PDel i => exists_obj w i /\ forall j o, obj_at w j = Some o -> o_parent o <> Some i
  end.
Inductive py_history : list pyop -> Prop :=
| ph_nil : py_history []
| ph_snoc ops o : py_history ops -> may (py_run ops) o -> py_history (ops ++ [o]).

(** ---- proofs ---- *)
Arguments cell_at : simpl never.
Arguments obj_at : simpl never.
Definition owner_of (w : py) (p : Z) (o : option pyobj) : bool :=
  match o with Some x => match o_parent x with None => (s_addr (cell_at w (o_cell x)) =? p)%Z | Some _ => false end | None => false end.
Definition owners (w : py) (p : Z) : nat := length (filter (owner_of w p) (y_objs w)).
Record pinv (w : py) : Prop := {
  pi_cell : forall i o, obj_at w i = Some o -> o_cell o < length (y_cells w);
  pi_own : forall i j o o', obj_at w i = Some o -> obj_at w j = Some o' -> o_parent o = None -> o_parent o' = None -> o_cell o = o_cell o' -> i = j;
  pi_parent : forall i o j, obj_at w i = Some o -> o_parent o = Some j -> j < i /\ exists o', obj_at w j = Some o' /\ o_cell o' = o_cell o;
  pi_same : forall i j s t, refers w i s -> refers w j t -> s_addr s = s_addr t -> s_addr s <> 0%Z -> s = t;
  pi_cache : forall p, p <> 0%Z -> match owners w p with
     | O => c_ptr (y_cache w) p = None /\ c_ref (y_cache w) p = None
     | S _ => c_ref (y_cache w) p = Some (Z.of_nat (owners w p)) /\ exists s, c_ptr (y_cache w) p = Some s /\ exists i, refers w i s /\ s_addr s = p
     end }.
Lemma obj_lt w i o : obj_at w i = Some o -> i < length (y_objs w).
Proof. unfold obj_at. intro H. destruct (le_lt_dec (length (y_objs w)) i) as [G|G]; [rewrite nth_overflow in H by exact G; discriminate|exact G]. Qed.
(** Every object leads to an owner of the same cell. *)
Lemma owner_exists w : pinv w -> forall i o, obj_at w i = Some o -> exists j o', obj_at w j = Some o' /\ o_parent o' = None /\ o_cell o' = o_cell o.
Proof.
  intros V i. induction i as [i IH] using lt_wf_ind. intros o E. destruct (o_parent o) as [j|] eqn:P; [|exists i, o; auto].
  destruct (pi_parent w V i o j E P) as (L & o' & E' & C). destruct (IH j L o' E') as (k & o'' & ? & ? & ?). exists k, o''. repeat split; auto. congruence.
Qed.
Lemma owners_pos w i o p : obj_at w i = Some o -> o_parent o = None -> s_addr (cell_at w (o_cell o)) = p -> owners w p > 0.
Proof.
  intros E P A. unfold owners. assert (In (Some o) (filter (owner_of w p) (y_objs w))).
  { apply filter_In. split; [rewrite <- E; apply nth_In; eapply obj_lt; exact E|]. cbn. rewrite P. apply Z.eqb_eq. exact A. }
  destruct (filter (owner_of w p) (y_objs w)); [easy|cbn; lia].
Qed.
Lemma owners_some w p : owners w p > 0 -> exists i o, obj_at w i = Some o /\ o_parent o = None /\ s_addr (cell_at w (o_cell o)) = p.
Proof.
  unfold owners. intro H. destruct (filter (owner_of w p) (y_objs w)) as [|x l] eqn:F; [cbn in H; lia|]. assert (I : In x (filter (owner_of w p) (y_objs w))) by (rewrite F; now left).
  apply filter_In in I. destruct I as [I T]. destruct x as [o|]; [|discriminate]. cbn in T. destruct (o_parent o) eqn:P; [discriminate|]. apply Z.eqb_eq in T. destruct (In_nth _ _ None I) as (i & L & N). exists i, o. auto.
Qed.
Lemma owners_le w p : owners w p <= length (y_objs w).
Proof. unfold owners. induction (y_objs w) as [|x l IH]; cbn; [lia|]. destruct (owner_of w p x); cbn; lia. Qed.
(** The main consequence of the invariant. *)
Lemma inv_refers w i s : pinv w -> refers w i s -> s_addr s <> 0%Z -> c_ptr (y_cache w) (s_addr s) = Some s.
Proof.
  intros V (o & E & C) NZ. destruct (owner_exists w V i o E) as (j & o' & E' & P' & C'). pose proof (pi_cache w V (s_addr s) NZ) as K.
  assert (G : owners w (s_addr s) > 0) by (eapply owners_pos; [exact E'|exact P'|]; rewrite C', C; reflexivity).
  destruct (owners w (s_addr s)) eqn:O; [lia|]. destruct K as (_ & t & T & k & R & A). rewrite T. f_equal. apply (pi_same w V k i t s R); [exists o; auto|congruence|congruence].
Qed.
Lemma obj_app w c cs x i : obj_at (mkW c cs (y_objs w ++ [x])) i = if i =? length (y_objs w) then x else obj_at w i.
Proof.
  unfold obj_at. cbn [y_objs]. destruct (Nat.eqb_spec i (length (y_objs w))) as [->|N]; [rewrite app_nth2, Nat.sub_diag by lia; reflexivity|].
  destruct (le_lt_dec (length (y_objs w)) i) as [G|G]; [rewrite nth_overflow, nth_overflow by (rewrite ?app_length; cbn; lia); reflexivity|apply app_nth1; exact G].
Qed.
Lemma cell_app w c s os n : n < length (y_cells w) -> cell_at (mkW c (y_cells w ++ [s]) os) n = cell_at w n.
Proof. intro H. unfold cell_at. cbn [y_cells]. apply app_nth1. exact H. Qed.
Lemma cell_new w c s os : cell_at (mkW c (y_cells w ++ [s]) os) (length (y_cells w)) = s.
Proof. unfold cell_at. cbn [y_cells]. rewrite app_nth2, Nat.sub_diag by lia. reflexivity. Qed.
Lemma filter_ext_len {A} (f g : A -> bool) l : (forall x, In x l -> f x = g x) -> length (filter f l) = length (filter g l).
Proof. intro H. rewrite (filter_ext_in f g); auto. Qed.
Lemma in_objs w x : In (Some x) (y_objs w) -> exists i, obj_at w i = Some x.
Proof. intro H. destruct (In_nth _ _ None H) as (i & L & N). exists i. exact N. Qed.
(** A new object with a cell of its own. *)
Definition grown (w : py) (c : cache) (s : sptr) : py := mkW c (y_cells w ++ [s]) (y_objs w ++ [Some (mkPy (length (y_cells w)) None)]).
Lemma grown_owners w c s p : pinv w -> owners (grown w c s) p = owners w p + (if (s_addr s =? p)%Z then 1 else 0).
Proof.
  intro V. unfold owners, grown. cbn [y_objs]. rewrite filter_app, app_length. f_equal.
  - apply filter_ext_len. intros [x|] I; [|reflexivity]. cbn. destruct (in_objs w x I) as (i & E). rewrite cell_app by (eapply pi_cell; eauto). reflexivity.
  - cbn. rewrite cell_new. destruct (s_addr s =? p)%Z; reflexivity.
Qed.
Lemma grown_refers w c s i t : pinv w -> refers (grown w c s) i t <-> refers w i t \/ (i = length (y_objs w) /\ t = s).
Proof.
  intro V. unfold refers, grown. rewrite obj_app. destruct (Nat.eqb_spec i (length (y_objs w))) as [->|N].
  - split.
    + intros (o & E & C). injection E as <-. rewrite cell_new in C. auto.
    + intros [(o & E & _)|(_ & ->)]; [apply obj_lt in E; lia|]. eexists. split; [reflexivity|]. apply cell_new.
  - split.
    + intros (o & E & C). rewrite cell_app in C by (eapply pi_cell; eauto). left. exists o. auto.
    + intros [(o & E & C)|(? & _)]; [|contradiction]. exists o. split; [exact E|]. rewrite cell_app by (eapply pi_cell; eauto). exact C.
Qed.
Lemma grown_inv w c s : pinv w ->
  (forall i t, refers w i t -> s_addr t = s_addr s -> s_addr s <> 0%Z -> t = s) ->
  (forall p, p <> 0%Z -> p <> s_addr s -> c_ptr c p = c_ptr (y_cache w) p /\ c_ref c p = c_ref (y_cache w) p) ->
  (s_addr s <> 0%Z -> c_ptr c (s_addr s) = Some s /\ c_ref c (s_addr s) = Some (Z.of_nat (S (owners w (s_addr s))))) ->
  pinv (grown w c s).
Proof.
  intros V SM OTH NEW. constructor.
  - intros i o. unfold grown. rewrite obj_app. cbn [y_cells]. rewrite app_length. cbn [length]. destruct (i =? _); [intro E; injection E as <-; cbn; lia|]. intro E. pose proof (pi_cell w V i o E). lia.
  - intros i j o o'. unfold grown. rewrite !obj_app. destruct (Nat.eqb_spec i (length (y_objs w))) as [->|N1], (Nat.eqb_spec j (length (y_objs w))) as [->|N2]; auto.
    + intros E E' _ _ C. injection E as <-. cbn in C. pose proof (pi_cell w V j o' E'). lia.
    + intros E E' _ _ C. injection E' as <-. cbn in C. pose proof (pi_cell w V i o E). lia.
    + apply (pi_own w V).
  - intros i o j. unfold grown. rewrite !obj_app. destruct (Nat.eqb_spec i (length (y_objs w))) as [->|N1]; [intro E; injection E as <-; discriminate|].
    intros E P. destruct (pi_parent w V i o j E P) as (L & o' & E' & C). split; [exact L|]. exists o'. split; [|exact C]. destruct (Nat.eqb_spec j (length (y_objs w))) as [->|]; [apply obj_lt in E'; lia|exact E'].
  - intros i j a b Ra Rb. apply (grown_refers w c s) in Ra, Rb; auto. destruct Ra as [Ra|[-> ->]], Rb as [Rb|[-> ->]]; intros EA NZ; auto.
    + eapply pi_same; eauto.
    + apply (SM i a Ra); congruence.
    + symmetry. apply (SM j b Rb); congruence.
  - intros p NZ. rewrite grown_owners by exact V. change (y_cache (grown w c s)) with c. destruct (Z.eqb_spec (s_addr s) p) as [<-|NE].
    + rewrite Nat.add_1_r. destruct (NEW NZ) as [A B]. split; [exact B|]. exists s. split; [exact A|]. exists (length (y_objs w)). split; [apply grown_refers; auto|reflexivity].
    + rewrite Nat.add_0_r. destruct (OTH p NZ) as [-> ->]; [congruence|]. pose proof (pi_cache w V p NZ) as K. destruct (owners w p); [exact K|]. destruct K as (R & t & T & i & RF & A). split; [exact R|]. exists t. split; [exact T|]. exists i. split; [apply grown_refers; auto|exact A].
Qed.
Lemma store_some c s n : s_addr s <> 0%Z -> n < Z.to_nat (2 ^ 64 - 1) ->
  (match n with O => c_ptr c (s_addr s) = None | S _ => c_ref c (s_addr s) = Some (Z.of_nat n) /\ c_ptr c (s_addr s) = Some s end) ->
  exists c', store c s = (c', Done) /\ c_ptr c' (s_addr s) = Some s /\ c_ref c' (s_addr s) = Some (Z.of_nat (S n)) /\
    forall p, p <> s_addr s -> c_ptr c' p = c_ptr c p /\ c_ref c' p = c_ref c p.
Proof.
  intros NZ LT H. unfold store. apply Z.eqb_neq in NZ. rewrite NZ. destruct n as [|n].
  - rewrite H. eexists. split; [reflexivity|]. cbn [c_ptr c_ref]. rewrite !upd_eq. split; [reflexivity|]. split; [reflexivity|]. intros p N. rewrite !upd_ne by exact N. auto.
  - destruct H as [R P]. rewrite P. eexists. split; [reflexivity|]. cbn [c_ptr c_ref]. rewrite upd_eq. split; [exact P|]. split.
    + unfold ref_at. rewrite R. rewrite size_small by lia. f_equal. lia.
    + intros p N. rewrite upd_ne by exact N. auto.
Qed.
Lemma erase_some c p n : p <> 0%Z -> S n < Z.to_nat (2 ^ 64 - 1) -> c_ref c p = Some (Z.of_nat (S n)) -> c_ptr c p <> None ->
  exists c', erase c p = (c', Done) /\
    (match n with O => c_ptr c' p = None /\ c_ref c' p = None | S _ => c_ptr c' p = c_ptr c p /\ c_ref c' p = Some (Z.of_nat n) end) /\
    forall q, q <> p -> c_ptr c' q = c_ptr c q /\ c_ref c' q = c_ref c q.
Proof.
  intros NZ LT R P. unfold erase. apply Z.eqb_neq in NZ. rewrite NZ. destruct (c_ptr c p) as [s|] eqn:E; [|now elim P]. unfold ref_at. rewrite R. rewrite size_small by lia. replace (Z.of_nat (S n) - 1)%Z with (Z.of_nat n) by lia.
  destruct n as [|n].
  - replace (Z.of_nat 0 <=? 0)%Z with true by reflexivity. eexists. split; [reflexivity|]. cbn [c_ptr c_ref]. rewrite !upd_eq. split; [auto|]. intros q N. rewrite !upd_ne by exact N. auto.
  - destruct (Z.leb_spec (Z.of_nat (S n)) 0); [lia|]. eexists. split; [reflexivity|]. cbn [c_ptr c_ref]. rewrite upd_eq. split; [auto|]. intros q N. rewrite upd_ne by exact N. auto.
Qed.
Lemma py_new_inv w s : pinv w -> may w (PNew s) -> length (y_objs w) < Z.to_nat (2 ^ 64 - 1) -> pinv (py_new w s).
Proof.
  intros V (NZ & SM) LT. unfold py_new, hand_out. pose proof (pi_cache w V _ NZ) as K. pose proof (owners_le w (s_addr s)) as OL.
  destruct (store_some (y_cache w) s (owners w (s_addr s)) NZ) as (c' & -> & A & B & C); [lia| |].
  - destruct (owners w (s_addr s)); [apply K|]. destruct K as (R & t & T & i & RF & AD). split; [exact R|]. rewrite T. f_equal. apply (SM i t RF AD).
  - apply grown_inv; auto. intros i t R E _. apply (SM i t R E).
Qed.
Lemma py_null_inv w : pinv w -> pinv (py_step w PNull).
Proof.
  intro V. cbn [py_step]. change (pinv (grown w (y_cache w) null)). apply grown_inv; auto; [|intro H; now elim H]. intros i t _ _ H. now elim H.
Qed.
(** Sharing a cell with a parent. *)
Lemma py_copy_inv w i : pinv w -> may w (PCopy i) -> pinv (py_again w i (Some i)).
Proof.
  intros V (s & o & E & C). unfold py_again. rewrite E. set (w' := mkW _ _ _).
  assert (CA : forall n, cell_at w' n = cell_at w n) by reflexivity.
  assert (OA : forall k, obj_at w' k = if k =? length (y_objs w) then Some (mkPy (o_cell o) (Some i)) else obj_at w k) by (intro k; apply obj_app).
  assert (OW : forall p, owners w' p = owners w p).
  { intro p. unfold owners, w'. cbn [y_objs]. rewrite filter_app, app_length. cbn. rewrite Nat.add_0_r. reflexivity. }
  assert (RF : forall k t, refers w' k t -> exists j, refers w j t).
  { intros k t (x & Ek & Ck). rewrite CA in Ck. rewrite OA in Ek. destruct (k =? _); [|exists k, x; auto]. injection Ek as <-. exists i, o. auto. }
  assert (RF' : forall k t, refers w k t -> refers w' k t).
  { intros k t (x & Ek & Ck). exists x. rewrite OA, CA. split; [|exact Ck]. destruct (Nat.eqb_spec k (length (y_objs w))) as [->|]; [apply obj_lt in Ek; lia|exact Ek]. }
  constructor.
  - intros k x. rewrite OA. unfold w'. cbn [y_cells]. destruct (k =? _); [intro H; injection H as <-; cbn; eapply pi_cell; eauto|apply (pi_cell w V)].
  - intros k j x y. rewrite !OA. destruct (k =? _); [intros H _ P; injection H as <-; discriminate|]. destruct (j =? _); [intros _ H _ P; injection H as <-; discriminate|]. apply (pi_own w V).
  - intros k x j. rewrite !OA. destruct (Nat.eqb_spec k (length (y_objs w))) as [->|N].
    + intros H P. injection H as <-. cbn in P. injection P as <-. pose proof (obj_lt _ _ _ E) as L. split; [exact L|]. exists o. split; [|reflexivity]. destruct (Nat.eqb_spec i (length (y_objs w))); [lia|exact E].
    + intros H P. destruct (pi_parent w V k x j H P) as (L & y & Ey & Cy). split; [exact L|]. exists y. split; [|exact Cy]. destruct (Nat.eqb_spec j (length (y_objs w))) as [->|]; [apply obj_lt in Ey; lia|exact Ey].
  - intros k j a b Ra Rb. apply RF in Ra, Rb. destruct Ra as (k' & Ra), Rb as (j' & Rb). eapply pi_same; eauto.
  - intros p NZ. rewrite OW. pose proof (pi_cache w V p NZ) as K. cbn [w' y_cache]. destruct (owners w p); [exact K|]. destruct K as (R & t & T & k & RK & A). split; [exact R|]. exists t. split; [exact T|]. exists k. auto.
Qed.
Lemma lupd_nth {A} (l : list A) i x d k : i < length l -> nth k (lupd l i x) d = if k =? i then x else nth k l d.
Proof.
  intro L. destruct (Nat.eqb_spec k i) as [->|N]; [apply nth_error_nth, nth_lupd_eq; exact L|].
  destruct (le_lt_dec (length l) k) as [G|G]; [rewrite !nth_overflow by (rewrite ?lupd_length; exact G); reflexivity|].
  apply nth_error_nth. rewrite nth_lupd_ne by congruence. apply nth_error_nth'. exact G.
Qed.
Lemma filter_lupd {A} (f : A -> bool) l i x y : nth_error l i = Some x -> length (filter f (lupd l i y)) + (if f x then 1 else 0) = length (filter f l) + (if f y then 1 else 0).
Proof.
  revert i. induction l as [|a l IH]; intros [|i] E; try discriminate; cbn in E.
  - injection E as ->. cbn. destruct (f x), (f y); cbn; lia.
  - specialize (IH i E). cbn [lupd filter]. destruct (f a); cbn [length]; lia.
Qed.
Lemma obj_nth w i o : obj_at w i = Some o -> nth_error (y_objs w) i = Some (Some o).
Proof. intro E. pose proof (obj_lt _ _ _ E) as L. rewrite <- E. unfold obj_at. apply nth_error_nth'. exact L. Qed.
Lemma py_del_inv w i : pinv w -> may w (PDel i) -> length (y_objs w) < Z.to_nat (2 ^ 64 - 1) -> pinv (py_del w i).
Proof.
  intros V ((s & o & E & C) & NP) LT. unfold py_del. rewrite E. rewrite C. pose proof (obj_lt _ _ _ E) as LI.
  set (c' := match o_parent o with None => _ | Some _ => _ end). set (w' := mkW _ _ _).
  assert (CA : forall n, cell_at w' n = cell_at w n) by reflexivity.
  assert (OA : forall k, obj_at w' k = if k =? i then None else obj_at w k) by (intro k; unfold obj_at, w'; cbn [y_objs]; apply lupd_nth; exact LI).
  assert (RF : forall k t, refers w' k t <-> refers w k t /\ k <> i).
  { intros k t. unfold refers. rewrite OA. destruct (Nat.eqb_spec k i) as [->|N]; [split; [intros (? & ? & _); discriminate|tauto]|]. split; [intro H; split; [exact H|exact N]|tauto]. }
  assert (OW : forall p, owners w' p + (if owner_of w p (Some o) then 1 else 0) = owners w p).
  { intro p. unfold owners, w'. cbn [y_objs]. pose proof (filter_lupd (owner_of w p) (y_objs w) i (Some o) None (obj_nth _ _ _ E)) as F. cbn [owner_of] in F. rewrite Nat.add_0_r in F. exact F. }
  constructor.
  - intros k x. rewrite OA. destruct (k =? i); [discriminate|]. apply (pi_cell w V).
  - intros k j x y. rewrite !OA. destruct (k =? i), (j =? i); try discriminate. apply (pi_own w V).
  - intros k x j. rewrite !OA. destruct (k =? i); [discriminate|]. intros H P. destruct (pi_parent w V k x j H P) as (L & y & Ey & Cy). split; [exact L|]. exists y. split; [|exact Cy]. destruct (Nat.eqb_spec j i) as [->|]; [exfalso; apply (NP k x H P)|exact Ey].
  - intros k j a b Ra Rb. apply RF in Ra, Rb. destruct Ra as [Ra _], Rb as [Rb _]. eapply pi_same; eauto.
  - intros p NZ. specialize (OW p). pose proof (pi_cache w V p NZ) as K. cbn [w' y_cache].
    (* a handle that still has an owner has a referring object besides i *)
    assert (RE : forall t, owners w' p > 0 -> (exists k, refers w k t /\ s_addr t = p) -> exists k, refers w' k t /\ s_addr t = p).
    { intros t G (k & RK & A). destruct (owners_some w' p G) as (j & oj & Ej & Pj & Aj). rewrite CA in Aj. exists j. split; [|exact A]. rewrite OA in Ej. destruct (Nat.eqb_spec j i) as [->|Nj]; [discriminate|]. apply RF. split; [|exact Nj].
      exists oj. split; [exact Ej|]. apply (pi_same w V j k); [exists oj; auto|exact RK|congruence|congruence]. }
    unfold c'. destruct (o_parent o) as [j|] eqn:P.
    + cbn [owner_of] in OW. rewrite P in OW. rewrite Nat.add_0_r in OW. rewrite OW. destruct (owners w p) eqn:O; [exact K|]. destruct K as (R & t & T & k & RK & A). split; [exact R|]. exists t. split; [exact T|]. apply RE; [lia|]. eauto.
    + cbn [owner_of] in OW. rewrite P in OW. rewrite C in OW.
      destruct (Z.eqb_spec (s_addr s) p) as [->|NE].
      * destruct (owners w p) as [|n] eqn:O; [lia|]. assert (OW' : owners w' p = n) by lia. rewrite OW'. destruct K as (R & t & T & k & RK & A). pose proof (owners_le w p) as OL.
        destruct (erase_some (y_cache w) p n NZ) as (c2 & E2 & H1 & H2); [lia|exact R|congruence|]. rewrite E2. cbn [fst]. destruct n as [|n]; [exact H1|]. destruct H1 as [-> ->]. split; [reflexivity|]. exists t. split; [exact T|]. apply RE; [lia|]. eauto.
      * rewrite Nat.add_0_r in OW. rewrite OW.
        assert (KK : c_ptr (fst (erase (y_cache w) (s_addr s))) p = c_ptr (y_cache w) p /\ c_ref (fst (erase (y_cache w) (s_addr s))) p = c_ref (y_cache w) p).
        { unfold erase. destruct (s_addr s =? 0)%Z; [auto|]. destruct (c_ptr (y_cache w) (s_addr s)); [|auto]. destruct (_ <=? 0)%Z; cbn [fst c_ptr c_ref]; rewrite ?upd_ne by congruence; auto. }
        destruct KK as [-> ->]. destruct (owners w p) eqn:O; [exact K|]. destruct K as (R & t & T & k & RK & A). split; [exact R|]. exists t. split; [exact T|]. apply RE; [lia|]. eauto.
Qed.
Lemma py_set_inv w i s : pinv w -> may w (PSetConfig i s) -> length (y_objs w) < Z.to_nat (2 ^ 64 - 1) -> pinv (py_set_config w i s).
Proof.
  intros V ((t0 & o & E & C) & NZ & FR) LT. unfold py_set_config. rewrite E. rewrite C.
  assert (R0 : refers w i t0) by (exists o; auto). pose proof (FR i t0 R0) as NE. apply Z.eqb_neq in NE as NEb. rewrite NEb.
  pose proof (pi_cell w V i o E) as LC. destruct (owner_exists w V i o E) as (j & oj & Ej & Pj & Cj).
  assert (NO : owners w (s_addr s) = 0).
  { destruct (owners w (s_addr s)) eqn:O; [reflexivity|]. destruct (owners_some w (s_addr s)) as (k & x & Ek & _ & Ak); [lia|]. exfalso. apply (FR k (cell_at w (o_cell x))); [exists x; auto|exact Ak]. }
  (* the cache after the old handle is given back *)
  assert (ER : exists c1, (if (s_addr t0 =? 0)%Z then y_cache w else fst (erase (y_cache w) (s_addr t0))) = c1 /\
     (forall q, q <> s_addr t0 -> c_ptr c1 q = c_ptr (y_cache w) q /\ c_ref c1 q = c_ref (y_cache w) q) /\
     (s_addr t0 <> 0%Z -> exists n, owners w (s_addr t0) = S n /\ match n with O => c_ptr c1 (s_addr t0) = None /\ c_ref c1 (s_addr t0) = None | S _ => c_ptr c1 (s_addr t0) = Some t0 /\ c_ref c1 (s_addr t0) = Some (Z.of_nat n) end)).
  { destruct (Z.eqb_spec (s_addr t0) 0) as [Z0|Z0]; [exists (y_cache w); repeat split; auto; contradiction|].
    pose proof (pi_cache w V _ Z0) as K. pose proof (owners_le w (s_addr t0)) as OL. assert (G : owners w (s_addr t0) > 0) by (eapply owners_pos; [exact Ej|exact Pj|rewrite Cj, C; reflexivity]).
    destruct (owners w (s_addr t0)) as [|n] eqn:O; [lia|]. destruct K as (R & t & T & _). destruct (erase_some (y_cache w) (s_addr t0) n Z0) as (c2 & E2 & H1 & H2); [lia|exact R|congruence|]. rewrite E2. exists c2. split; [reflexivity|]. split; [exact H2|]. intros _. exists n. split; [reflexivity|].
    destruct n; [exact H1|]. destruct H1 as [-> H1]. split; [|exact H1]. apply (inv_refers w i t0 V R0 Z0). }
  destruct ER as (c1 & -> & H2 & H3).
  destruct (store_some c1 s 0 NZ) as (c2 & -> & S1 & S2 & S3); [lia| |].
  { destruct (H2 (s_addr s)) as [-> _]; [congruence|]. pose proof (pi_cache w V _ NZ) as K. rewrite NO in K. apply K. }
  set (w' := mkW _ _ _).
  assert (CA : forall n, cell_at w' n = if n =? o_cell o then s else cell_at w n) by (intro n; unfold cell_at, w'; cbn [y_cells]; apply lupd_nth; exact LC).
  assert (OA : forall k, obj_at w' k = obj_at w k) by reflexivity.
  assert (OW : forall p, owners w' p + (if (s_addr t0 =? p)%Z then 1 else 0) = owners w p + (if (s_addr s =? p)%Z then 1 else 0)).
  { intro p. pose proof (obj_nth _ _ _ Ej) as Nj.
    pose proof (filter_lupd (owner_of w p) (y_objs w) j (Some oj) None Nj) as F1. pose proof (filter_lupd (owner_of w' p) (y_objs w) j (Some oj) None Nj) as F2.
    cbn [owner_of] in F1, F2. rewrite Pj in F1, F2. rewrite CA, Cj, Nat.eqb_refl in F2. rewrite Cj, C in F1. unfold owners. change (y_objs w') with (y_objs w).
    assert (EQ : length (filter (owner_of w' p) (lupd (y_objs w) j None)) = length (filter (owner_of w p) (lupd (y_objs w) j None))).
    { apply filter_ext_len. intros [x|] I; [|reflexivity]. cbn [owner_of]. destruct (o_parent x) eqn:Px; [reflexivity|]. rewrite CA. destruct (Nat.eqb_spec (o_cell x) (o_cell o)) as [Ex|]; [|reflexivity]. exfalso.
      destruct (In_nth _ _ None I) as (k & L & Nk). rewrite lupd_nth in Nk by (eapply obj_lt; exact Ej). destruct (Nat.eqb_spec k j); [discriminate|]. apply n. apply (pi_own w V k j x oj); auto; congruence. }
    lia. }
  assert (RF : forall k t, refers w' k t <-> (exists x, obj_at w k = Some x /\ (o_cell x = o_cell o /\ t = s \/ o_cell x <> o_cell o /\ cell_at w (o_cell x) = t))).
  { intros k t. unfold refers. setoid_rewrite OA. setoid_rewrite CA. split; intros (x & Ex & H); exists x; (split; [exact Ex|]); destruct (Nat.eqb_spec (o_cell x) (o_cell o)); intuition congruence. }
  constructor.
  - intros k x. rewrite OA. unfold w'. cbn [y_cells]. rewrite lupd_length. apply (pi_cell w V).
  - intros k l x y. rewrite !OA. apply (pi_own w V).
  - intros k x l. rewrite !OA. intros H P. destruct (pi_parent w V k x l H P) as (L & y & Ey & Cy). split; [exact L|]. exists y. auto.
  - intros k l a b Ra Rb EA AZ. apply RF in Ra, Rb. destruct Ra as (x & Ex & [[Cx ->]|[Cx Ax]]), Rb as (y & Ey & [[Cy ->]|[Cy Ay]]); auto.
    + exfalso. apply (FR l b); [exists y; auto|congruence].
    + exfalso. apply (FR k a); [exists x; auto|congruence].
    + apply (pi_same w V k l a b); auto; [exists x|exists y]; auto.
  - intros p PZ. specialize (OW p). cbn [w' y_cache]. destruct (Z.eq_dec p (s_addr s)) as [->|NP].
    + rewrite Z.eqb_refl, NO in OW. rewrite NEb in OW. replace (owners w' (s_addr s)) with 1 by lia. split; [exact S2|]. exists s. split; [exact S1|]. exists i. split; [|reflexivity]. apply RF. exists o. auto.
    + destruct (S3 p NP) as [-> ->]. assert (NPb : (s_addr s =? p)%Z = false) by (apply Z.eqb_neq; congruence). rewrite NPb, Nat.add_0_r in OW.
      assert (RE : forall t, owners w' p > 0 -> (exists k, refers w k t /\ s_addr t = p) -> exists k, refers w' k t /\ s_addr t = p).
      { intros t G (k & RK & A). destruct (owners_some w' p G) as (l & ol & El & Pl & Al). rewrite OA in El. rewrite CA in Al. exists l. split; [|exact A]. apply RF. exists ol. split; [exact El|]. destruct (Nat.eqb_spec (o_cell ol) (o_cell o)) as [Q|Q]; [congruence|]. right. split; [exact Q|].
        apply (pi_same w V l k); [exists ol; auto|exact RK|congruence|congruence]. }
      destruct (Z.eqb_spec (s_addr t0) p) as [Ep|NEp].
      * subst p. destruct (H3 PZ) as (n & O & M). assert (ON : owners w' (s_addr t0) = n) by lia. rewrite ON. destruct n as [|n]; [exact M|]. destruct M as [M1 M2]. split; [exact M2|]. exists t0. split; [exact M1|]. apply RE; [lia|]. exists i. auto.
      * rewrite Nat.add_0_r in OW. rewrite OW. destruct (H2 p) as [-> ->]; [congruence|]. pose proof (pi_cache w V p PZ) as K. destruct (owners w p) eqn:O; [exact K|]. destruct K as (R & t & T & k & RK & A). split; [exact R|]. exists t. split; [exact T|]. apply RE; [lia|]. eauto.
Qed.
Lemma pinv0 : pinv py0.
Proof.
  assert (N : forall i, obj_at py0 i = None) by (intros [|i]; reflexivity).
  constructor; try (intros; rewrite N in *; discriminate).
  - intros i j s t (o & E & _). rewrite N in E. discriminate.
  - intros p NZ. cbn. auto.
Qed.
Lemma objs_step w o : length (y_objs (py_step w o)) <= S (length (y_objs w)).
Proof.
  destruct o; cbn [py_step]; unfold py_new, py_again, py_set_config, py_del; repeat (destruct (hand_out _ _) || destruct (obj_at _ _) || destruct (Z.eqb _ _) || (destruct (store _ _) as [? []])); cbn [y_objs]; rewrite ?app_length, ?lupd_length; cbn [length]; lia.
Qed.
Lemma run_snoc ops o : py_run (ops ++ [o]) = py_step (py_run ops) o.
Proof. unfold py_run. rewrite fold_left_app. reflexivity. Qed.
Lemma objs_run ops : length (y_objs (py_run ops)) <= length ops.
Proof. induction ops as [|o ops IH] using rev_ind; [cbn; lia|]. rewrite run_snoc, app_length. cbn [length]. pose proof (objs_step (py_run ops) o). lia. Qed.
Lemma history_inv ops : py_history ops -> length ops < Z.to_nat (2 ^ 64 - 1) -> pinv (py_run ops).
Proof.
  induction 1 as [|ops o H IH M]; intro LT; [exact pinv0|]. rewrite app_length in LT. cbn [length] in LT. rewrite run_snoc. pose proof (objs_run ops) as OR. assert (V : pinv (py_run ops)) by (apply IH; lia).
  destruct o; cbn [py_step].
  - apply py_new_inv; auto; lia.
  - apply py_null_inv; auto.
  - apply py_copy_inv; auto.
  - elim M.
  - apply py_set_inv; auto; lia.
  - apply py_del_inv; auto; lia.
Qed.
(** ---- C102 ---- *)
(** A Python object always refers to the C++ object it stands for: the handle it
    holds is in the cache, with that object. *)
Theorem C102_handles_valid ops i s : py_history ops -> length ops < Z.to_nat (2 ^ 64 - 1) -> refers (py_run ops) i s -> s_addr s <> 0%Z -> get (y_cache (py_run ops)) (s_addr s) = Got s.
Proof. intros H LT R NZ. unfold get. apply Z.eqb_neq in NZ as NZb. rewrite NZb. rewrite (inv_refers _ i s (history_inv ops H LT) R NZ). reflexivity. Qed.
Print Assumptions C102_handles_valid.
(** The cache keeps a C++ object exactly as long as a Python object refers to it. *)
Theorem C102_released ops p : py_history ops -> length ops < Z.to_nat (2 ^ 64 - 1) -> p <> 0%Z ->
  (exists s, get (y_cache (py_run ops)) p = Got s) <-> exists i s, refers (py_run ops) i s /\ s_addr s = p.
Proof.
  intros H LT NZ. pose proof (history_inv ops H LT) as V. split.
  - intros (s & G). unfold get in G. apply Z.eqb_neq in NZ as NZb. rewrite NZb in G. pose proof (pi_cache _ V p NZ) as K. destruct (owners (py_run ops) p); [destruct K as [K _]; rewrite K in G; discriminate|]. destruct K as (_ & t & _ & i & R & A). eauto.
  - intros (i & s & R & <-). exists s. eapply C102_handles_valid; eauto.
Qed.
Print Assumptions C102_released.
(** When all Python objects are gone, so are all handles. *)
Theorem C102_no_leak ops p : py_history ops -> length ops < Z.to_nat (2 ^ 64 - 1) -> (forall i, ~ exists_obj (py_run ops) i) -> forall s, get (y_cache (py_run ops)) p <> Got s.
Proof.
  intros H LT N s G. destruct (Z.eq_dec p 0) as [->|NZ]; [discriminate|]. destruct (proj1 (C102_released ops p H LT NZ) (ex_intro _ s G)) as (i & t & R & _). apply (N i). exists t. exact R.
Qed.
Print Assumptions C102_no_leak.
(** Collecting an object whose handle is not NULL never fails. *)
Theorem C102_del_succeeds ops i s : py_history ops -> length ops < Z.to_nat (2 ^ 64 - 1) -> refers (py_run ops) i s -> s_addr s <> 0%Z -> snd (erase (y_cache (py_run ops)) (s_addr s)) = Done.
Proof.
  intros H LT R NZ. unfold erase. apply Z.eqb_neq in NZ. rewrite NZ. destruct (c_ptr _ _); [|reflexivity]. destruct (_ <=? 0)%Z; reflexivity.
Qed.
Print Assumptions C102_del_succeeds.
(** set_config on an object or on a shallow copy of it changes what both refer to. *)
Theorem C102_set_config_shared ops i s : py_history ops -> may (py_run ops) (PSetConfig i s) -> length ops < Z.to_nat (2 ^ 64 - 2) ->
  refers (py_run (ops ++ [PSetConfig i s])) i s /\
  forall j o, obj_at (py_run ops) j = Some o -> o_parent o = Some i -> refers (py_run (ops ++ [PSetConfig i s])) j s.
Proof.
  intros H M LT. assert (V : pinv (py_run ops)) by (apply history_inv; [exact H|lia]). rewrite run_snoc. cbn [py_step]. set (w := py_run ops) in *.
  destruct M as ((t & o & E & C) & NZ & FR). assert (LC : o_cell o < length (y_cells w)) by (eapply pi_cell; eauto).
  assert (Q : y_objs (py_set_config w i s) = y_objs w /\ cell_at (py_set_config w i s) (o_cell o) = s).
  { unfold py_set_config. rewrite E, C. assert (NE := FR i t (ex_intro _ o (conj E C))). apply Z.eqb_neq in NE. rewrite NE.
    assert (ST : forall c, exists c', store c s = (c', Done)) by (intro c; unfold store; apply Z.eqb_neq in NZ; rewrite NZ; destruct (c_ptr c (s_addr s)); eauto).
    destruct (ST (if (s_addr t =? 0)%Z then y_cache w else fst (erase (y_cache w) (s_addr t)))) as (c' & ->). split; [reflexivity|]. unfold cell_at. cbn [y_cells]. rewrite lupd_nth by exact LC. now rewrite Nat.eqb_refl. }
  destruct Q as [Q1 Q2]. split.
  - exists o. split; [unfold obj_at; rewrite Q1; exact E|exact Q2].
  - intros j oj Ej Pj. exists oj. split; [unfold obj_at; rewrite Q1; exact Ej|]. destruct (pi_parent w V j oj i Ej Pj) as (_ & o' & Eo & Co). rewrite E in Eo. injection Eo as <-. rewrite <- Co. exact Q2.
Qed.
Print Assumptions C102_set_config_shared.
(** A copy made without naming its parent is left with a dead handle. *)
Theorem C102_forgotten_parent_refuted : exists i s, refers (py_run [PNew (mkSp 8 1); PAlias 0; PDel 0]) i s /\ s_addr s = 8%Z /\ get (y_cache (py_run [PNew (mkSp 8 1); PAlias 0; PDel 0])) 8 = NoEntry.
Proof. exists 1, (mkSp 8 1). split; [|split; reflexivity]. exists (mkPy 0 None). split; reflexivity. Qed.
Print Assumptions C102_forgotten_parent_refuted.
(** A history: two owners, a copy, a replaced instance; the owner goes last. *)
Lemma ph_all ops : (forall n o, nth_error ops n = Some o -> may (py_run (firstn n ops)) o) -> py_history ops.
Proof.
  induction ops as [|o ops IH] using rev_ind; intro H; [constructor|]. constructor.
  - apply IH. intros n x E. assert (L : n < length ops) by (apply nth_error_Some; congruence). specialize (H n x). rewrite nth_error_app1 in H by exact L. rewrite firstn_app in H. replace (n - length ops) with 0 in H by lia. rewrite firstn_O, app_nil_r in H. auto.
  - specialize (H (length ops) o). rewrite nth_error_app2, Nat.sub_diag in H by lia. rewrite firstn_app, Nat.sub_diag, firstn_O, app_nil_r, firstn_all in H. apply H. reflexivity.
Qed.
Example C102_ex : py_history [PNew (mkSp 8 1); PCopy 0; PSetConfig 1 (mkSp 16 2); PNew (mkSp 16 2); PDel 1; PDel 0].
Proof.
  assert (A : forall w i o, obj_at w i = Some o -> exists_obj w i) by (intros w i o E; exists (cell_at w (o_cell o)); exists o; auto).
  apply ph_all. intros n o E. destruct n as [|[|[|[|[|[|n]]]]]]; [..|destruct n; discriminate E]; cbn in E; injection E as <-; cbn [may firstn].
  - split; [discriminate|]. intros [|i] t (o & E & _); discriminate.
  - eapply A; reflexivity.
  - split; [eapply A; reflexivity|]. split; [discriminate|]. intros [|[|[|j]]] t (o & E & C); try discriminate E; injection E as <-; cbn in C; subst t; discriminate.
  - split; [discriminate|]. intros [|[|[|j]]] t (o & E & C); try discriminate E; injection E as <-; cbn in C; subst t; reflexivity.
  - split; [eapply A; reflexivity|]. intros [|[|[|[|j]]]] o E; try discriminate E; injection E as <-; discriminate.
  - split; [eapply A; reflexivity|]. intros [|[|[|[|j]]]] o E; try discriminate E; injection E as <-; discriminate.
Qed.
