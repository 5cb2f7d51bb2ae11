(** CStrProps.v -- C125: the char-pointer helpers stay within their arrays and
    compute what they say. *)
From Verif Require Import Base ConfigModel CStrModel CStrSpec.

Lemma rd_at pre c post i : i = length pre -> rd (pre ++ Some c :: post) i = Ok c.
Proof. intros ->. unfold rd. rewrite nth_error_app2, Nat.sub_diag by lia. reflexivity. Qed.
Lemma lupd_at {A} (pre : list A) x post y : lupd (pre ++ x :: post) (length pre) y = pre ++ y :: post.
Proof. induction pre as [|p pre IH]; simpl; [reflexivity|]. rewrite IH. reflexivity. Qed.
Lemma wr_at pre x post c i : i = length pre -> wr (pre ++ x :: post) i c = Ok (pre ++ Some c :: post).
Proof.
  intros ->. unfold wr. rewrite (proj2 (Nat.ltb_lt _ _)) by (rewrite app_length; simpl; lia).
  rewrite lupd_at. reflexivity.
Qed.
Lemma eqb_no c s : ~ In nulc (c :: s) -> Ascii.eqb c nulc = false.
Proof. intro H. apply Ascii.eqb_neq. intros ->. apply H. left; reflexivity. Qed.
Lemma no_tl c (s : str) : ~ In nulc (c :: s) -> ~ In nulc s.
Proof. intros H Hi. apply H. right; exact Hi. Qed.
Lemma snoc_len {A} (pre : list A) x : S (length pre) = length (pre ++ [x]).
Proof. rewrite app_length. simpl. lia. Qed.
Lemma snoc_app {A} (pre : list A) x post : pre ++ x :: post = (pre ++ [x]) ++ post.
Proof. rewrite <- app_assoc. reflexivity. Qed.

Lemma strlen_f_ok s : ~ In nulc s -> forall f pre junk, length s < f ->
  strlen_f f (pre ++ map Some s ++ Some nulc :: junk) (length pre) = Ok (length s).
Proof.
  induction s as [|c s IH]; intros N f pre junk Hf; (destruct f as [|f]; [simpl in Hf; lia|]); cbn [strlen_f map app].
  - rewrite rd_at by reflexivity. reflexivity.
  - rewrite rd_at by reflexivity. cbn [rbind]. rewrite (eqb_no _ _ N).
    rewrite snoc_app. rewrite (snoc_len pre (Some c)). rewrite IH; [reflexivity|exact (no_tl _ _ N)|simpl in Hf; lia].
Qed.
Lemma strlen_ok b s : cstring b s -> strlen b 0 = Ok (length s).
Proof.
  intros [N [junk ->]]. apply (strlen_f_ok s N _ [] junk).
  rewrite app_length, map_length. simpl; lia.
Qed.

Lemma strcpy_f_ok s : ~ In nulc s -> forall f dpre mid dpost spre junk, length s < f -> length mid = S (length s) ->
  strcpy_f f (dpre ++ mid ++ dpost) (length dpre) (spre ++ map Some s ++ Some nulc :: junk) (length spre) =
  Ok (dpre ++ map Some s ++ Some nulc :: dpost).
Proof.
  induction s as [|c s IH]; intros N f dpre mid dpost spre junk Hf Hm;
    (destruct f as [|f]; [simpl in Hf; lia|]); (destruct mid as [|x mid]; [discriminate|]); cbn [strcpy_f map app].
  - destruct mid; [|discriminate]. rewrite rd_at by reflexivity. cbn [rbind app].
    rewrite wr_at by reflexivity. reflexivity.
  - rewrite rd_at by reflexivity. cbn [rbind]. rewrite wr_at by reflexivity. cbn [rbind].
    rewrite (eqb_no _ _ N).
    rewrite (snoc_app dpre (Some c) (mid ++ dpost)), (snoc_app spre (Some c)), (snoc_len dpre (Some c)), (snoc_len spre (Some c)).
    rewrite IH; [rewrite <- app_assoc; reflexivity|exact (no_tl _ _ N)|simpl in Hf; lia|simpl in Hm; lia].
Qed.
Lemma strcpy_ok b s dpre mid dpost : cstring b s -> length mid = S (length s) ->
  strcpy (dpre ++ mid ++ dpost) (length dpre) b = Ok (dpre ++ map Some s ++ Some nulc :: dpost).
Proof.
  intros [N [junk ->]] Hm. apply (strcpy_f_ok s N _ dpre mid dpost [] junk); [|exact Hm].
  rewrite app_length, map_length. simpl; lia.
Qed.
(** strcat onto an array whose string ends at [di]. *)
Lemma strcat_ok b s dpre mid dpost : cstring b s -> length mid = length s ->
  strcat (dpre ++ Some nulc :: mid ++ dpost) (length dpre) b = Ok (dpre ++ map Some s ++ Some nulc :: dpost).
Proof.
  intros C Hm. unfold strcat, strlen.
  pose proof (strlen_f_ok [] (fun H => H) (S (length (dpre ++ Some nulc :: mid ++ dpost))) dpre (mid ++ dpost)) as E.
  cbn [map app length] in E. rewrite E by lia. cbn [rbind]. rewrite Nat.add_0_r.
  change (dpre ++ Some nulc :: mid ++ dpost) with (dpre ++ (Some nulc :: mid) ++ dpost).
  apply strcpy_ok; [exact C|]. simpl. lia.
Qed.

Lemma strncmp0_ok s2 : ~ In nulc s2 -> forall s1 apre ajunk bpre bjunk,
  strncmp0 (length s2) (apre ++ map Some s1 ++ Some nulc :: ajunk) (length apre) (bpre ++ map Some s2 ++ bjunk) (length bpre) =
  Ok (is_prefix s2 s1).
Proof.
  induction s2 as [|y s2 IH]; intros N s1 apre ajunk bpre bjunk; cbn [strncmp0 length map app is_prefix].
  - reflexivity.
  - destruct s1 as [|x s1]; cbn [map app].
    + rewrite rd_at by reflexivity. cbn [rbind]. rewrite rd_at by reflexivity. cbn [rbind].
      rewrite Ascii.eqb_sym, (eqb_no _ _ N). reflexivity.
    + rewrite rd_at by reflexivity. cbn [rbind]. rewrite rd_at by reflexivity. cbn [rbind].
      destruct (Ascii.eqb_spec x y) as [->|Hxy]; cbn [negb].
      * rewrite (eqb_no _ _ N), Ascii.eqb_refl. cbn [andb].
        rewrite (snoc_app apre (Some y)), (snoc_app bpre (Some y)), (snoc_len apre (Some y)), (snoc_len bpre (Some y)).
        apply IH. exact (no_tl _ _ N).
      * destruct (Ascii.eqb_spec y x) as [E|_]; [congruence|]. reflexivity.
Qed.

Lemma cstring_exactly s : ~ In nulc s -> cstring (exactly s) s.
Proof. intro N. split; [exact N|]. exists []. reflexivity. Qed.

(* ---------------- allocation of copies ---------------- *)
(** A pointer argument: NULL or a string. *)
Inductive points : option blk -> option str -> Prop :=
| points_null : points None None
| points_to b s : cstring b s -> points (Some b) (Some s).
(** The concatenation of the arguments that are not NULL; NULL if all are. *)
Fixpoint join_args (l : list (option str)) : option str :=
  match l with
  | [] => None
  | None :: l => join_args l
  | Some s :: l => Some (s ++ match join_args l with Some t => t | None => [] end)
  end.

Lemma new_split n m : new_blk (n + m) = new_blk n ++ new_blk m.
Proof. apply repeat_app. Qed.

Lemma duplicate_ok p o : points p o -> duplicate_string p = Ok (option_map exactly o).
Proof.
  intros [|b s C]; [reflexivity|]. cbn [duplicate_string option_map]. rewrite (strlen_ok _ _ C). cbn [rbind].
  assert (E : strcpy (new_blk (length s + 1)) 0 b = Ok (exactly s)).
  { pose proof (strcpy_ok b s [] (new_blk (length s + 1)) [] C ltac:(unfold new_blk; rewrite repeat_length; lia)) as E.
    cbn [app length] in E. rewrite app_nil_r in E. exact E. }
  rewrite E. reflexivity.
Qed.

(** DuplicateString, AppendStrings: a fresh array with the concatenation of the
    arguments that are not NULL, exactly as large as it has to be; NULL if all are. *)
Theorem C125_append : forall p1 p2 p3 o1 o2 o3, points p1 o1 -> points p2 o2 -> points p3 o3 ->
  duplicate_string p1 = Ok (option_map exactly (join_args [o1])) /\
  append_strings2 p1 p2 = Ok (option_map exactly (join_args [o1; o2])) /\
  append_strings3 p1 p2 p3 = Ok (option_map exactly (join_args [o1; o2; o3])).
Proof.
  assert (D : forall p o, points p o -> duplicate_string p = Ok (option_map exactly (join_args [o]))).
  { intros p o H. rewrite (duplicate_ok _ _ H). destruct o; cbn [join_args option_map]; [rewrite app_nil_r|]; reflexivity. }
  assert (A2 : forall p1 p2 o1 o2, points p1 o1 -> points p2 o2 -> append_strings2 p1 p2 = Ok (option_map exactly (join_args [o1; o2]))).
  { intros p1 p2 o1 o2 H1 H2. destruct H1 as [|b1 s1 C1].
    - cbn [append_strings2 join_args]. apply D. exact H2.
    - destruct H2 as [|b2 s2 C2].
      + cbn [append_strings2 join_args]. exact (D _ _ (points_to _ _ C1)).
      + cbn [append_strings2]. rewrite (strlen_ok _ _ C1), (strlen_ok _ _ C2). cbn [rbind].
        replace (length s1 + length s2 + 1) with (S (length s1) + length s2) by lia. rewrite new_split.
        pose proof (strcpy_ok b1 s1 [] (new_blk (S (length s1))) (new_blk (length s2)) C1 (repeat_length _ _)) as E1.
        cbn [app length] in E1. rewrite E1. cbn [rbind].
        pose proof (strcat_ok b2 s2 (map Some s1) (new_blk (length s2)) [] C2 (repeat_length _ _)) as E2.
        rewrite app_nil_r, map_length in E2. rewrite E2. cbn [rbind join_args option_map].
        unfold exactly. rewrite app_nil_r, map_app, <- app_assoc. reflexivity. }
  intros p1 p2 p3 o1 o2 o3 H1 H2 H3. split; [exact (D _ _ H1)|]. split; [exact (A2 _ _ _ _ H1 H2)|].
  destruct H1 as [|b1 s1 C1]; [cbn [append_strings3]; exact (A2 _ _ _ _ H2 H3)|].
  destruct H2 as [|b2 s2 C2]; [cbn [append_strings3]; exact (A2 _ _ _ _ (points_to _ _ C1) H3)|].
  destruct H3 as [|b3 s3 C3]; [cbn [append_strings3]; exact (A2 _ _ _ _ (points_to _ _ C1) (points_to _ _ C2))|].
  cbn [append_strings3]. rewrite (strlen_ok _ _ C1), (strlen_ok _ _ C2), (strlen_ok _ _ C3). cbn [rbind].
  replace (length s1 + length s2 + length s3 + 1) with (S (length s1) + (length s2 + length s3)) by lia. rewrite !new_split.
  pose proof (strcpy_ok b1 s1 [] (new_blk (S (length s1))) (new_blk (length s2) ++ new_blk (length s3)) C1 (repeat_length _ _)) as E1.
  cbn [app length] in E1. rewrite E1. cbn [rbind].
  pose proof (strcat_ok b2 s2 (map Some s1) (new_blk (length s2)) (new_blk (length s3)) C2 (repeat_length _ _)) as E2.
  rewrite map_length in E2. rewrite E2. cbn [rbind].
  pose proof (strcat_ok b3 s3 (map Some s1 ++ map Some s2) (new_blk (length s3)) [] C3 (repeat_length _ _)) as E3.
  rewrite app_nil_r, app_length, !map_length, <- !app_assoc in E3. rewrite E3. cbn [rbind join_args option_map].
  unfold exactly. rewrite app_nil_r, !map_app, <- !app_assoc. reflexivity.
Qed.

(* ---------------- counting and removing ---------------- *)
Lemma count_char_f_ok c s : ~ In nulc s -> forall f pre junk n, length s < f ->
  count_char_f f (pre ++ map Some s ++ Some nulc :: junk) (length pre) c n = Ok (n + count_occ ascii_dec s c).
Proof.
  induction s as [|x s IH]; intros N f pre junk n Hf; (destruct f as [|f]; [simpl in Hf; lia|]); cbn [count_char_f map app].
  - rewrite rd_at by reflexivity. cbn [rbind]. change (Ascii.eqb nulc nulc) with true. cbv iota.
    cbn [count_occ]. rewrite Nat.add_0_r. reflexivity.
  - rewrite rd_at by reflexivity. cbn [rbind]. rewrite (eqb_no _ _ N).
    rewrite (snoc_app pre (Some x)), (snoc_len pre (Some x)).
    rewrite IH by (try exact (no_tl _ _ N); simpl in Hf; lia). cbn [count_occ].
    destruct (Ascii.eqb_spec x c) as [->|Hx]; destruct (ascii_dec _ c); try congruence; f_equal; lia.
Qed.

Lemma scan_f_ok x r : ~ In nulc r -> x <> nulc -> forall f pre junk, length r < f ->
  exists y, scan_f f (pre ++ map Some r ++ Some nulc :: junk) (length pre) x = Ok y /\ Ascii.eqb y nulc = negb (memc x r).
Proof.
  intros N Nx. induction r as [|c r IH]; intros f pre junk Hf; (destruct f as [|f]; [simpl in Hf; lia|]); cbn [scan_f map app memc existsb].
  - rewrite rd_at by reflexivity. exists nulc. split; reflexivity.
  - rewrite rd_at by reflexivity. cbn [rbind]. rewrite (eqb_no _ _ N). cbn [negb andb].
    destruct (Ascii.eqb_spec x c) as [->|Hx]; cbn [negb orb].
    + exists c. split; [reflexivity|]. exact (eqb_no _ _ N).
    + rewrite (snoc_app pre (Some c)), (snoc_len pre (Some c)).
      apply IH; [exact (no_tl _ _ N)|simpl in Hf; lia].
Qed.

Definition kept (r : str) (x : ascii) : bool := negb (memc x r).
Lemma remove_chars_f_ok rb r s : cstring rb r -> ~ In nulc s -> forall f pre junk cpre mid, length s < f -> length s < length mid ->
  exists rest, remove_chars_f f (pre ++ map Some s ++ Some nulc :: junk) (length pre) (Some rb) (cpre ++ mid) (length cpre) =
  Ok (cpre ++ map Some (filter (kept r) s) ++ Some nulc :: rest) /\ S (length (filter (kept r) s) + length rest) = length mid.
Proof.
  intros [Nr [rj ->]]. induction s as [|x s IH]; intros N f pre junk cpre mid Hf Hm; (destruct f as [|f]; [simpl in Hf; lia|]);
    (destruct mid as [|m0 mid]; [simpl in Hm; lia|]); cbn [remove_chars_f map app filter].
  - rewrite rd_at by reflexivity. cbn [rbind]. change (Ascii.eqb nulc nulc) with true. cbv iota.
    exists mid. rewrite wr_at by reflexivity. split; reflexivity.
  - rewrite rd_at by reflexivity. cbn [rbind]. rewrite (eqb_no _ _ N).
    assert (Hx : x <> nulc) by (intros ->; apply N; left; reflexivity).
    destruct (scan_f_ok x r Nr Hx (S (length (map Some r ++ Some nulc :: rj))) [] rj) as (y & Ey & Ky).
    { rewrite app_length, map_length. simpl; lia. }
    change ([] ++ map Some r ++ Some nulc :: rj) with (map Some r ++ Some nulc :: rj) in Ey. change (length (@nil (option ascii))) with 0 in Ey.
    change "000"%char with nulc. rewrite Ey. cbn [rbind]. rewrite Ky. change (negb (memc x r)) with (kept r x).
    rewrite (snoc_app pre (Some x)), (snoc_len pre (Some x)).
    destruct (kept r x).
    + rewrite wr_at by reflexivity. cbn [rbind]. rewrite (snoc_app cpre (Some x)), (snoc_len cpre (Some x)).
      destruct (IH (no_tl _ _ N) f (pre ++ [Some x]) junk (cpre ++ [Some x]) mid) as (rest & E & Hl); [simpl in *; lia|simpl in *; lia|].
      exists rest. change "000"%char with nulc in E. rewrite E. cbn [map length app]. rewrite <- app_assoc. split; [reflexivity|]. lia.
    + apply (IH (no_tl _ _ N)); simpl in *; lia.
Qed.
Lemma remove_hex_f_ok s : ~ In nulc s -> forall f pre junk cpre mid, length s < f -> length s < length mid ->
  exists rest, remove_hex_f f (pre ++ map Some s ++ Some nulc :: junk) (length pre) (cpre ++ mid) (length cpre) =
  Ok (cpre ++ map Some (filter upper_hex s) ++ Some nulc :: rest) /\ S (length (filter upper_hex s) + length rest) = length mid.
Proof.
  induction s as [|x s IH]; intros N f pre junk cpre mid Hf Hm; (destruct f as [|f]; [simpl in Hf; lia|]);
    (destruct mid as [|m0 mid]; [simpl in Hm; lia|]); cbn [remove_hex_f map app filter].
  - rewrite rd_at by reflexivity. cbn [rbind]. change (Ascii.eqb nulc nulc) with true. cbv iota.
    exists mid. rewrite wr_at by reflexivity. split; reflexivity.
  - rewrite rd_at by reflexivity. cbn [rbind]. rewrite (eqb_no _ _ N).
    rewrite (snoc_app pre (Some x)), (snoc_len pre (Some x)).
    destruct (upper_hex x).
    + rewrite wr_at by reflexivity. cbn [rbind]. rewrite (snoc_app cpre (Some x)), (snoc_len cpre (Some x)).
      destruct (IH (no_tl _ _ N) f (pre ++ [Some x]) junk (cpre ++ [Some x]) mid) as (rest & E & Hl); [simpl in *; lia|simpl in *; lia|].
      exists rest. rewrite E. cbn [map length app]. rewrite <- app_assoc. split; [reflexivity|]. lia.
    + apply (IH (no_tl _ _ N)); simpl in *; lia.
Qed.
Lemma filter_no {A} (f : A -> bool) x l : ~ In x l -> ~ In x (filter f l).
Proof. intros H Hi. apply H. apply filter_In in Hi. apply Hi. Qed.

(** A hexadecimal digit with no lower case letter. *)
Definition hex_digit (x : ascii) : Prop := In x (L "0123456789ABCDEF").
Lemma upper_hex_spec x : upper_hex x = true <-> hex_digit x.
Proof.
  split.
  - destruct x as [[] [] [] [] [] [] [] []]; intro H; vm_compute in H; try discriminate; vm_compute; intuition.
  - intro H. vm_compute in H. repeat (destruct H as [<-|H]; [reflexivity|]). destruct H.
Qed.

(** CountChar, RemoveChars, RemoveCharsButUpperHex: the number of occurrences;
    a new string with exactly the wanted characters in their order, in an array
    of the length of the old string, NUL included; NULL for NULL. *)
Theorem C125_count : forall p o c, points p o ->
  count_char p c = Ok (match o with Some s => count_occ ascii_dec s c | None => 0 end).
Proof.
  intros p o c [|b s [N [junk ->]]]; [reflexivity|]. apply (count_char_f_ok c s N _ [] junk 0).
  rewrite app_length, map_length. simpl; lia.
Qed.
Theorem C125_remove : forall p o rb r, points p o -> cstring rb r ->
  match o with
  | None => remove_chars p (Some rb) = Ok None /\ remove_chars_but_upper_hex p = Ok None
  | Some s =>
      (exists d t, remove_chars p (Some rb) = Ok (Some d) /\ length d = S (length s) /\ cstring d t /\
         t = filter (fun x => negb (memc x r)) s) /\
      (exists d t, remove_chars_but_upper_hex p = Ok (Some d) /\ length d = S (length s) /\ cstring d t /\
         Forall hex_digit t /\ t = filter upper_hex s /\ (Forall hex_digit s -> t = s))
  end.
Proof.
  intros p o rb r [|b s C] Cr; [split; reflexivity|]. cbn [remove_chars remove_chars_but_upper_hex].
  rewrite (strlen_ok _ _ C). cbn [rbind]. destruct C as [N [junk ->]].
  assert (Hf : length s < S (length (map Some s ++ Some nulc :: junk))) by (rewrite app_length, map_length; simpl; lia).
  assert (Hm : length s < length (new_blk (length s + 1))) by (unfold new_blk; rewrite repeat_length; lia).
  split.
  - destruct (remove_chars_f_ok rb r s Cr N (S (length (map Some s ++ Some nulc :: junk))) [] junk [] (new_blk (length s + 1)) Hf Hm) as (rest & E & Hl).
    cbn [app] in E. change (length (@nil (option ascii))) with 0 in E. change "000"%char with nulc. rewrite E. cbn [rbind].
    eexists. exists (filter (kept r) s). split; [reflexivity|]. split.
    { rewrite app_length, map_length. cbn [length]. unfold new_blk in Hl; rewrite repeat_length in Hl. lia. }
    split; [|reflexivity]. split; [apply filter_no; exact N|]. exists rest. reflexivity.
  - destruct (remove_hex_f_ok s N (S (length (map Some s ++ Some nulc :: junk))) [] junk [] (new_blk (length s + 1)) Hf Hm) as (rest & E & Hl).
    cbn [app] in E. change (length (@nil (option ascii))) with 0 in E. change "000"%char with nulc. rewrite E. cbn [rbind].
    eexists. exists (filter upper_hex s). split; [reflexivity|]. split.
    { rewrite app_length, map_length. cbn [length]. unfold new_blk in Hl; rewrite repeat_length in Hl. lia. }
    split; [split; [apply filter_no; exact N|exists rest; reflexivity]|]. split.
    { apply Forall_forall. intros x Hx. apply filter_In in Hx. apply upper_hex_spec. apply Hx. }
    split; [reflexivity|]. intro F. clear -F. induction F as [|x s Hx F IH]; [reflexivity|]. cbn [filter].
    rewrite (proj2 (upper_hex_spec x) Hx), IH. reflexivity.
Qed.

(* ---------------- replacing in place ---------------- *)
Lemma replace_scan_ok r rep : ~ In nulc r -> forall f x pre post rpre junk, length r < f ->
  replace_scan_f f (pre ++ Some x :: post) (length pre) (rpre ++ map Some r ++ Some nulc :: junk) (length rpre) rep =
  Ok (pre ++ Some (if memc x r then rep else x) :: post).
Proof.
  intro N. induction r as [|y r IH]; intros f x pre post rpre junk Hf; (destruct f as [|f]; [simpl in Hf; lia|]); cbn [replace_scan_f map app memc existsb].
  - rewrite rd_at by reflexivity. reflexivity.
  - rewrite rd_at by reflexivity. cbn [rbind]. rewrite (eqb_no _ _ N). rewrite rd_at by reflexivity. cbn [rbind].
    destruct (Ascii.eqb_spec x y) as [->|Hx]; cbn [orb].
    + rewrite wr_at by reflexivity. cbn [rbind].
      rewrite (snoc_app rpre (Some y)), (snoc_len rpre (Some y)). rewrite IH; [|exact (no_tl _ _ N)|simpl in Hf; lia].
      destruct (memc rep r); reflexivity.
    + cbn [rbind]. rewrite (snoc_app rpre (Some y)), (snoc_len rpre (Some y)). rewrite IH; [|exact (no_tl _ _ N)|simpl in Hf; lia].
      reflexivity.
Qed.
Definition repl (r : str) (rep x : ascii) : ascii := if memc x r then rep else x.
Lemma replace_chars_f_ok rb r rep s : cstring rb r -> ~ In nulc s -> forall f pre junk, length s < f ->
  replace_chars_f f (pre ++ map Some s ++ Some nulc :: junk) (length pre) rb rep =
  Ok (pre ++ map Some (map (repl r rep) s) ++ Some nulc :: junk).
Proof.
  intros [Nr [rj ->]]. induction s as [|x s IH]; intros N f pre junk Hf; (destruct f as [|f]; [simpl in Hf; lia|]); cbn [replace_chars_f map app].
  - rewrite rd_at by reflexivity. reflexivity.
  - rewrite rd_at by reflexivity. cbn [rbind]. rewrite (eqb_no _ _ N).
    pose proof (replace_scan_ok r rep Nr (S (length (map Some r ++ Some nulc :: rj))) x pre (map Some s ++ Some nulc :: junk) [] rj) as E.
    cbn [app] in E. change (length (@nil (option ascii))) with 0 in E. change "000"%char with nulc. rewrite E by (rewrite app_length, map_length; simpl; lia).
    cbn [rbind]. fold (repl r rep x). rewrite (snoc_app pre (Some (repl r rep x))), (snoc_len pre (Some (repl r rep x))).
    change "000"%char with nulc in IH. rewrite IH; [|exact (no_tl _ _ N)|simpl in Hf; lia]. rewrite <- app_assoc. reflexivity.
Qed.

(** ReplaceChars: in place, every character that is in the list, and no other;
    the rest of the array is as it was.  A replacement by NUL cuts the string
    at the first such character. *)
Theorem C125_replace : forall s junk rb r rep, ~ In nulc s -> cstring rb r ->
  exists t, replace_chars (Some (map Some s ++ Some nulc :: junk)) rb rep = Ok (Some (map Some t ++ Some nulc :: junk)) /\
    Forall2 (fun x y => (In x r /\ y = rep) \/ (~ In x r /\ y = x)) s t /\
    (rep <> nulc -> cstring (map Some t ++ Some nulc :: junk) t) /\
    (rep = nulc -> forall a x b, s = a ++ x :: b -> (forall z, In z a -> ~ In z r) -> In x r ->
        cstring (map Some t ++ Some nulc :: junk) a).
Proof.
  intros s junk rb r rep N C. exists (map (repl r rep) s). split.
  { cbn [replace_chars]. pose proof (replace_chars_f_ok rb r rep s C N (S (length (map Some s ++ Some nulc :: junk))) [] junk) as E.
    cbn [app] in E. change (length (@nil (option ascii))) with 0 in E. rewrite E by (rewrite app_length, map_length; simpl; lia). reflexivity. }
  assert (M : forall x, (In x r /\ repl r rep x = rep) \/ (~ In x r /\ repl r rep x = x)).
  { intro x. unfold repl, memc. destruct (existsb (Ascii.eqb x) r) eqn:E.
    - left. split; [|reflexivity]. apply existsb_exists in E as (y & Hy & E). apply Ascii.eqb_eq in E. congruence.
    - right. split; [|reflexivity]. intro Hi. assert (existsb (Ascii.eqb x) r = true); [|congruence].
      apply existsb_exists. exists x. split; [exact Hi|apply Ascii.eqb_refl]. }
  split; [clear -M; induction s; constructor; auto|]. split.
  - intro Hr. split; [|exists junk; reflexivity]. intro Hi. apply in_map_iff in Hi as (x & Ex & Hx).
    change "000"%char with nulc in Ex. destruct (M x) as [[_ Y]|[_ Y]]; [congruence|]. apply N. congruence.
  - intros -> a x b -> Ha Hx. split.
    + intro Hi. apply N. apply in_or_app. left; exact Hi.
    + assert (Ea : map (repl r nulc) a = a).
      { clear -Ha M. induction a as [|z a IH]; [reflexivity|]. cbn [map]. rewrite IH by (intros y Hy; apply Ha; right; exact Hy).
        destruct (M z) as [[Hz _]|[_ ->]]; [exfalso; exact (Ha z (or_introl eq_refl) Hz)|reflexivity]. }
      exists (map Some (map (repl r nulc) b) ++ Some nulc :: junk). rewrite !map_app. cbn [map]. rewrite Ea.
      destruct (M x) as [[_ ->]|[Hx' _]]; [|contradiction]. rewrite <- app_assoc. reflexivity.
Qed.

(* ---------------- looking for a string ---------------- *)
Lemma is_prefix_iff p s : is_prefix p s = true <-> exists r, s = p ++ r.
Proof. apply is_prefix_app. Qed.

Lemma cmp_at b1 s1 b2 s2 k : (exists junk, b1 = map Some s1 ++ Some nulc :: junk) -> cstring b2 s2 -> k <= length s1 ->
  strncmp0 (length s2) b1 k b2 0 = Ok (is_prefix s2 (skipn k s1)).
Proof.
  intros [j1 ->] [N2 [j2 ->]] Hk.
  pose proof (strncmp0_ok s2 N2 (skipn k s1) (map Some (firstn k s1)) j1 [] (Some nulc :: j2)) as E.
  rewrite app_assoc, <- map_app, firstn_skipn, map_length, firstn_length in E.
  replace (Nat.min k (length s1)) with k in E by lia. exact E.
Qed.
Lemma skipn_prefix k (s1 s2 : str) : k <= length s1 -> (is_prefix s2 (skipn k s1) = true <-> occurs_at s1 s2 k).
Proof.
  intro Hk. rewrite is_prefix_iff. split.
  - intros [r E]. exists (firstn k s1), r. rewrite <- E, firstn_skipn, firstn_length. split; [reflexivity|lia].
  - intros (a & b & E & Ha). exists b. rewrite E, <- Ha, skipn_app, skipn_all, Nat.sub_diag. reflexivity.
Qed.
Lemma occurs_bound s1 s2 i : occurs_at s1 s2 i -> i + length s2 <= length s1.
Proof. intros (a & b & -> & <-). rewrite !app_length. lia. Qed.

(** StringStartsWith and StringEndsWith, both overloads (a std::string may
    contain NUL bytes); with NULL: false. *)
Theorem C125_starts_ends : forall b1 s1 b2 s2, cstring b1 s1 -> cstring b2 s2 -> forall s0,
  exists v1 v2 v3 v4,
  string_starts_with (Some b1) (Some b2) = Ok v1 /\ (v1 = true <-> exists r, s1 = s2 ++ r) /\
  string_ends_with (Some b1) (Some b2) = Ok v2 /\ (v2 = true <-> exists r, s1 = r ++ s2) /\
  std_starts_with s0 (Some b2) = Ok v3 /\ (v3 = true <-> exists r, s0 = s2 ++ r) /\
  std_ends_with s0 (Some b2) = Ok v4 /\ (v4 = true <-> exists r, s0 = r ++ s2).
Proof.
  intros b1 s1 b2 s2 C1 C2 s0.
  assert (St : forall b s, (exists junk, b = map Some s ++ Some nulc :: junk) -> exists v,
     (if Nat.leb (length s2) (length s) then strncmp0 (length s2) b 0 b2 0 else Ok false) = Ok v /\ (v = true <-> exists r, s = s2 ++ r)).
  { intros b s B. destruct (Nat.leb_spec (length s2) (length s)) as [Hle|Hgt].
    - rewrite (cmp_at b s b2 s2 0 B C2) by lia. eexists. split; [reflexivity|]. apply is_prefix_iff.
    - exists false. split; [reflexivity|]. split; [discriminate|]. intros [r ->]. rewrite app_length in Hgt. lia. }
  assert (En : forall b s, (exists junk, b = map Some s ++ Some nulc :: junk) -> exists v,
     (if Nat.leb (length s2) (length s) then strncmp0 (length s2) b (length s - length s2) b2 0 else Ok false) = Ok v /\ (v = true <-> exists r, s = r ++ s2)).
  { intros b s B. destruct (Nat.leb_spec (length s2) (length s)) as [Hle|Hgt].
    - rewrite (cmp_at b s b2 s2 _ B C2) by lia. eexists. split; [reflexivity|]. rewrite skipn_prefix by lia. split.
      + intros (a & r & E & Ha). exists a. assert (length s = length a + length s2 + length r) by (rewrite E, !app_length; lia).
        destruct r; [|simpl in H; lia]. rewrite app_nil_r in E. exact E.
      + intros [r ->]. exists r, []. rewrite app_nil_r, app_length. split; [reflexivity|lia].
    - exists false. split; [reflexivity|]. split; [discriminate|]. intros [r ->]. rewrite app_length in Hgt. lia. }
  destruct (St b1 s1 (proj2 C1)) as (v1 & E1 & I1). destruct (En b1 s1 (proj2 C1)) as (v2 & E2 & I2).
  assert (B0 : exists junk, c_str s0 = map Some s0 ++ Some nulc :: junk) by (exists []; reflexivity).
  destruct (St _ s0 B0) as (v3 & E3 & I3). destruct (En _ s0 B0) as (v4 & E4 & I4).
  exists v1, v2, v3, v4. cbn [string_starts_with string_ends_with std_starts_with std_ends_with].
  rewrite (strlen_ok _ _ C1), (strlen_ok _ _ C2). cbn [rbind].
  split; [exact E1|]. split; [exact I1|]. split; [exact E2|]. split; [exact I2|].
  split; [exact E3|]. split; [exact I3|]. split; [exact E4|exact I4].
Qed.

Lemma find_last_f_ok b1 s1 b2 s2 : cstring b1 s1 -> cstring b2 s2 -> forall k, k <= length s1 ->
  exists v, find_last_f k b1 b2 (length s2) = Ok v /\
  match v with
  | Some i => i <= k /\ occurs_at s1 s2 i /\ forall j, i < j <= k -> ~ occurs_at s1 s2 j
  | None => forall j, j <= k -> ~ occurs_at s1 s2 j
  end.
Proof.
  intros C1 C2. induction k as [|k IH]; intro Hk; cbn [find_last_f]; rewrite (cmp_at b1 s1 b2 s2 _ (proj2 C1) C2 Hk); cbn [rbind].
  - destruct (is_prefix s2 (skipn 0 s1)) eqn:E.
    + exists (Some 0). split; [reflexivity|]. split; [lia|]. split; [apply skipn_prefix; assumption|lia].
    + exists None. split; [reflexivity|]. intros j Hj O. assert (j = 0) by lia; subst j. apply skipn_prefix in O; [congruence|lia].
  - destruct (is_prefix s2 (skipn (S k) s1)) eqn:E.
    + exists (Some (S k)). split; [reflexivity|]. split; [lia|]. split; [apply skipn_prefix; assumption|lia].
    + destruct (IH ltac:(lia)) as (v & Ev & Hv). exists v. split; [exact Ev|].
      assert (No : ~ occurs_at s1 s2 (S k)) by (intro O; apply skipn_prefix in O; [congruence|lia]).
      destruct v as [i|].
      * destruct Hv as (Hi & O & Hj). split; [lia|]. split; [exact O|]. intros j Hjk. destruct (Nat.eq_dec j (S k)) as [->|]; [exact No|]. apply Hj. lia.
      * intros j Hj. destruct (Nat.eq_dec j (S k)) as [->|]; [exact No|]. apply Hv. lia.
Qed.

(** FindLastString: the last place where the second string occurs in the first. *)
Theorem C125_find_last : forall b1 s1 b2 s2, cstring b1 s1 -> cstring b2 s2 ->
  exists v, find_last_string (Some b1) (Some b2) = Ok v /\
  match v with
  | Some i => occurs_at s1 s2 i /\ forall j, i < j -> ~ occurs_at s1 s2 j
  | None => forall j, ~ occurs_at s1 s2 j
  end.
Proof.
  intros b1 s1 b2 s2 C1 C2. cbn [find_last_string]. rewrite (strlen_ok _ _ C1), (strlen_ok _ _ C2). cbn [rbind].
  destruct (Nat.leb_spec (length s2) (length s1)) as [Hle|Hgt].
  - destruct (find_last_f_ok b1 s1 b2 s2 C1 C2 (length s1 - length s2) ltac:(lia)) as (v & E & H).
    exists v. split; [exact E|]. destruct v as [i|].
    + destruct H as (_ & O & Hj). split; [exact O|]. intros j Hij Oj. pose proof (occurs_bound _ _ _ Oj). apply (Hj j); [lia|exact Oj].
    + intros j Oj. pose proof (occurs_bound _ _ _ Oj). apply (H j); [lia|exact Oj].
  - exists None. split; [reflexivity|]. intros j Oj. pose proof (occurs_bound _ _ _ Oj). lia.
Qed.

(** NULL arguments. *)
Theorem C125_null : forall p : option blk, string_starts_with None p = Ok false /\ string_starts_with p None = Ok false /\
  string_ends_with None p = Ok false /\ string_ends_with p None = Ok false /\
  find_last_string None p = Ok None /\ find_last_string p None = Ok None /\
  (forall r rep, replace_chars None r rep = Ok None) /\
  (forall s, std_starts_with s None = Ok false /\ std_ends_with s None = Ok false).
Proof. intros [b|]; repeat split; reflexivity. Qed.

(** "RemoveChars( str, NULL )": the list must not be NULL unless the string is empty or NULL. *)
Theorem C125_remove_null_refuted : forall b c s, cstring b (c :: s) -> remove_chars (Some b) None = UB.
Proof.
  intros b c s C. cbn [remove_chars]. rewrite (strlen_ok _ _ C). cbn [rbind]. destruct C as [N [junk ->]].
  cbn [remove_chars_f map app length]. change (rd (Some c :: map Some s ++ Some "000"%char :: junk) 0) with (Ok c). cbn [rbind]. rewrite (eqb_no _ _ N). reflexivity.
Qed.

(* ---------------- Strucmp ---------------- *)
(** The lower-case letters of two strings compared byte by byte. *)
Inductive less_nocase : str -> str -> Prop :=
| ln_end y t : less_nocase [] (y :: t)
| ln_char x y s t : (code (to_lower x) < code (to_lower y))%N -> less_nocase (x :: s) (y :: t)
| ln_next x y s t : to_lower x = to_lower y -> less_nocase s t -> less_nocase (x :: s) (y :: t).

Lemma code_inj x y : code x = code y -> x = y.
Proof. apply N_of_ascii_inj. Qed.
Lemma lc_eq x y : (lc x =? lc y)%Z = true <-> to_lower x = to_lower y.
Proof.
  unfold lc. rewrite Z.eqb_eq, N2Z.inj_iff. split; [apply code_inj|congruence].
Qed.
Lemma lower_nul x : to_lower x = nulc -> x = nulc.
Proof. destruct x as [[] [] [] [] [] [] [] []]; vm_compute; intro H; try reflexivity; discriminate. Qed.
Lemma lc_nul : lc nulc = 0%Z. Proof. reflexivity. Qed.
Lemma lc_pos x : x <> nulc -> (0 < lc x)%Z.
Proof.
  intro H. unfold lc. destruct (N.eq_dec (code (to_lower x)) 0) as [E|E]; [|lia].
  exfalso. apply H. apply lower_nul. apply code_inj. exact E.
Qed.

Lemma strucmp_f_ok s : ~ In nulc s -> forall t, ~ In nulc t -> forall f apre ajunk bpre bjunk, length s < f -> length apre = length bpre ->
  exists z, strucmp_f f (apre ++ map Some s ++ Some nulc :: ajunk) (bpre ++ map Some t ++ Some nulc :: bjunk) (length apre) = Ok z /\
   ((z = 0)%Z <-> map to_lower s = map to_lower t) /\ ((z < 0)%Z <-> less_nocase s t) /\ ((0 < z)%Z <-> less_nocase t s).
Proof.
  induction s as [|x s IH]; intros Ns t Nt f apre ajunk bpre bjunk Hf Hl; (destruct f as [|f]; [simpl in Hf; lia|]); cbn [strucmp_f map app].
  - rewrite rd_at by reflexivity. cbn [rbind]. change (Ascii.eqb nulc nulc) with true. cbv iota.
    destruct t as [|y t]; cbn [map app].
    + rewrite rd_at by exact Hl. cbn [rbind]. eexists. split; [reflexivity|]. rewrite lc_nul. split; [split; reflexivity|].
      split; (split; [lia|intro H; inversion H]).
    + rewrite rd_at by exact Hl. cbn [rbind]. eexists. split; [reflexivity|]. rewrite lc_nul.
      assert (y <> nulc) by (intros ->; apply Nt; left; reflexivity). pose proof (lc_pos _ H).
      split; [split; [lia|discriminate]|]. split; [split; [intros _; constructor|lia]|]. split; [lia|intro G; inversion G].
  - rewrite rd_at by reflexivity. cbn [rbind]. rewrite (eqb_no _ _ Ns).
    assert (Nx : x <> nulc) by (intros ->; apply Ns; left; reflexivity). pose proof (lc_pos _ Nx) as Px.
    destruct t as [|y t]; cbn [map app].
    + rewrite rd_at by exact Hl. cbn [rbind]. rewrite lc_nul. rewrite (proj2 (Z.eqb_neq _ _)) by lia.
      eexists. split; [reflexivity|]. split; [split; [lia|discriminate]|]. split; [split; [lia|intro G; inversion G]|]. split; [intros _; constructor|lia].
    + rewrite rd_at by exact Hl. cbn [rbind]. destruct (lc x =? lc y)%Z eqn:E.
      * apply lc_eq in E. rewrite (snoc_app apre (Some x)), (snoc_len apre (Some x)), (snoc_app bpre (Some y)).
        destruct (IH (no_tl _ _ Ns) t (no_tl _ _ Nt) f (apre ++ [Some x]) ajunk (bpre ++ [Some y]) bjunk) as (z & Ez & H0 & H1 & H2);
          [simpl in Hf; lia|rewrite !app_length; simpl; lia|].
        exists z. split; [exact Ez|]. split; [rewrite H0; split; [intros ->; rewrite E; reflexivity|intro G; injection G; auto]|].
        split; [rewrite H1|rewrite H2]; (split; intro G; [apply ln_next; [congruence|exact G]|inversion G; subst; [exfalso; rewrite E in *; lia|assumption]]).
      * apply Z.eqb_neq in E. eexists. split; [reflexivity|]. split.
        { split; [lia|]. intro G. injection G as G _. exfalso. apply E. apply Z.eqb_eq. apply lc_eq. exact G. }
        assert (Hne : to_lower x <> to_lower y) by (intro G; apply E; apply Z.eqb_eq; apply lc_eq; exact G).
        unfold lc in *. split.
        -- split; [intro G; apply ln_char; lia|]. intro G; inversion G; subst; [lia|contradiction].
        -- split; [intro G; apply ln_char; lia|]. intro G; inversion G; subst; [lia|congruence].
Qed.

(** Strucmp: zero exactly for strings that are equal but for the case of their
    letters; otherwise the sign of the first difference in lower case. *)
Theorem C125_strucmp : forall b1 s1 b2 s2, cstring b1 s1 -> cstring b2 s2 ->
  exists z, strucmp b1 b2 = Ok z /\ ((z = 0)%Z <-> map to_lower s1 = map to_lower s2) /\
    ((z < 0)%Z <-> less_nocase s1 s2) /\ ((0 < z)%Z <-> less_nocase s2 s1).
Proof.
  intros b1 s1 b2 s2 [N1 [j1 ->]] [N2 [j2 ->]]. unfold strucmp.
  apply (strucmp_f_ok s1 N1 s2 N2 _ [] j1 [] j2); [rewrite app_length, map_length; simpl; lia|reflexivity].
Qed.

(* ---------------- examples ---------------- *)
Definition cs (s : string) : option blk := Some (exactly (L s)).
Example C125_append_example : append_strings3 (cs "ab") None (cs "cd") = Ok (cs "abcd") /\ points (cs "ab") (Some (L "ab")).
Proof. split; [vm_compute; reflexivity|]. constructor. apply cstring_exactly. intro H. vm_compute in H. intuition discriminate. Qed.
Example C125_remove_example : remove_chars (cs "a-b_c") (cs "-_") = Ok (Some [Some "a"%char; Some "b"%char; Some "c"%char; Some nulc; None; None]).
Proof. vm_compute. reflexivity. Qed.
Example C125_replace_example : replace_chars (cs "a-b_c") (exactly (L "-_")) "."%char = Ok (cs "a.b.c").
Proof. vm_compute. reflexivity. Qed.
Example C125_find_last_example : find_last_string (cs "abcabc") (cs "bc") = Ok (Some 4) /\ find_last_string (cs "abc") (cs "") = Ok (Some 3) /\ find_last_string (cs "abc") (cs "x") = Ok None.
Proof. vm_compute. repeat split. Qed.
Example C125_ends_example : string_ends_with (cs "a.txt") (cs ".txt") = Ok true /\ std_starts_with (L "a" ++ [nulc] ++ L "b") (cs "ab") = Ok false.
Proof. vm_compute. split; reflexivity. Qed.
Example C125_strucmp_example : strucmp (exactly (L "AbC")) (exactly (L "aBd")) = Ok (-1)%Z.
Proof. vm_compute. reflexivity. Qed.

Print Assumptions C125_append.
Print Assumptions C125_count.
Print Assumptions C125_remove.
Print Assumptions C125_replace.
Print Assumptions C125_starts_ends.
Print Assumptions C125_find_last.
Print Assumptions C125_null.
Print Assumptions C125_remove_null_refuted.
Print Assumptions C125_strucmp.
