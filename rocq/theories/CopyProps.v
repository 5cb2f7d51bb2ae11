(** CopyProps.v -- C121: copies of files hold the bytes of their sources. *)
From Coq Require Import Ascii String List Bool Arith Lia.
Import ListNotations.
From Verif Require Import Base PathModel PathProps TreeModel TreeSpec TreeProofs TreeProps TransModel TransProofs TransProps2 CopyModel CopySpec CopyProofs CopyProofs2.

(** Files with equal bytes that can be read do not differ; and what does not differ is
    two names of files with the same bytes. *)
Theorem C121_differ k cwd f source destination : (forall l, dsize k l <> 0) ->
  (files_differ k cwd f source destination = false -> exists d, holds f cwd source d /\ holds f cwd destination d) /\
  (forall d, holds f cwd source d -> holds f cwd destination d ->
   (forall p l, p = source \/ p = destination -> resolve f cwd true p = inl l -> deny k CRead l = false /\ rerr k l = None) ->
   files_differ k cwd f source destination = false).
Proof.
  intros DZ. split; [apply differ_false; intros l _ _; apply DZ|]. intros d (x & Rx & Ax) (y & Ry & Ay) H. destruct (H source x (or_introl eq_refl) Rx) as [Dx Ex]. destruct (H destination y (or_intror eq_refl) Ry) as [Dy Ey].
  unfold files_differ, sys_stat, st_size, open_in. rewrite Rx, Ry, Ax, Ay, Dx, Dy, Ex, Ey, Nat.eqb_refl. cbn [negb limit]. destruct (Nat.eqb_spec (length d) 0); [reflexivity|]. apply blocks_differ_spec; [lia|]. auto.
Qed.
Print Assumptions C121_differ.

(** A copy that is reported as done holds the bytes of the source, and so does the source;
    nothing else has changed but for new directories.  The exception: the copy goes to the
    source itself, under a name that cannot be removed; then the bytes are lost. *)
Theorem C121_copy e k cwd f source destination s d f' always : WF f -> at_place f cwd = Some KDir -> ~ In "\"%char source -> ~ In "\"%char destination ->
  (forall D, resolve f cwd true destination = inl D -> at_place f D = Some KDir -> deny k CAccess D = false /\ exists r, destination = "/"%char :: r) ->
  resolve f cwd true source = inl s -> at_place f s = Some (KFile d) -> rerr k s = None -> (always = false -> forall l, dsize k l <> 0) ->
  copy_a_file e k cwd f source destination always = Some (f', true) ->
  exists q w, lands f cwd source destination q /\ resolve f' cwd true q = inl w /\ WF f' /\ only_at f f' w /\
    (at_place f' w = Some (KFile d) /\ at_place f' s = Some (KFile d) \/
     w = s /\ at_place f' s = Some (KFile []) /\ exists r, resolve f' cwd false q = inl r /\ deny k CRemove r = true).
Proof.
  intros W C Nbs Nbd HD Rs As Re DZ.
  assert (HD' : forall D, resolve f cwd true destination = inl D -> at_place f D = Some KDir -> deny k CAccess D = false /\ is_abs destination = true) by (intros D R A; destruct (HD D R A) as [X (r & ->)]; split; [exact X|reflexivity]).
  assert (AL : copy_file_always e k cwd f source destination = Some (f', true) -> exists q w, lands f cwd source destination q /\ resolve f' cwd true q = inl w /\ WF f' /\ only_at f f' w /\
    (at_place f' w = Some (KFile d) /\ at_place f' s = Some (KFile d) \/ w = s /\ at_place f' s = Some (KFile []) /\ exists r, resolve f' cwd false q = inl r /\ deny k CRemove r = true)) by (apply always_true; assumption).
  assert (SAME : forall q0 q, lands f cwd source destination q -> (forall l, resolve f cwd true q0 = inl l -> resolve f cwd true q = inl l) -> (forall l, dsize k l <> 0) -> files_differ k cwd f source q0 = false -> exists q w, lands f cwd source destination q /\ resolve f cwd true q = inl w /\ WF f /\ only_at f f w /\
    (at_place f w = Some (KFile d) /\ at_place f s = Some (KFile d) \/ w = s /\ at_place f s = Some (KFile []) /\ exists r, resolve f cwd false q = inl r /\ deny k CRemove r = true)).
  { intros q0 q La Rq DZ' FD. destruct (differ_false k cwd f source q0 (fun l _ _ => DZ' l) FD) as (d' & (x & Rx & Ax) & (w & Rw & Aw)). rewrite Rs in Rx. injection Rx as <-. rewrite As in Ax. injection Ax as <-. exists q, w. split; [exact La|]. split; [apply Rq, Rw|]. split; [exact W|]. split; [left; reflexivity|left; auto]. }
  destruct always; [exact AL|]. specialize (DZ eq_refl). unfold copy_a_file, copy_file_if_different. destruct (file_is_directory f cwd destination) eqn:FD.
  - pose proof (proj1 (dir_spec f cwd destination Nbd) FD) as LD. pose proof LD as (D & RD & AD). destruct (HD' D RD AD) as [_ Ab]. destruct (convert_abs e destination Ab Nbd) as (c & Ec & Abc & _ & T). rewrite Ec.
    destruct (files_differ k cwd f source _) eqn:Df; [exact AL|]. intros E. injection E as <-. pose proof (name_last_part source) as [Ns _].
    refine (SAME _ (destination ++ L "/" ++ get_filename_name source) _ _ DZ Df); [apply lands_dir; [exact LD|apply name_last_part]|]. intros l.
    assert (destination <> []) as Nd by (intros E; rewrite E in Ab; discriminate). assert (c <> []) as Nc by (intros E; rewrite E in Abc; discriminate). change (L "/") with [slash]. rewrite (resolve_name f cwd true c _ Nc Ns), (resolve_name f cwd true destination _ Nd Ns). rewrite Ab, Abc. apply thick_walk, T.
  - destruct (files_differ k cwd f source destination) eqn:Df; [exact AL|]. intros E. injection E as <-. refine (SAME destination destination _ _ DZ Df); [|auto]. apply lands_file. intros LD. pose proof (proj2 (dir_spec f cwd destination Nbd) LD) as X. rewrite FD in X. discriminate X.
Qed.
Print Assumptions C121_copy.

(** ---- what goes wrong ---- *)
Definition good : disk := Disk (fun _ _ => false) (fun _ => 64) (fun _ => None) (fun _ => None).
Definition refusing (c : ccall) (l : place) : disk := Disk (fun c' l' => match c, c' with CRemove, CRemove => if place_dec l l' then true else false | CAccess, CAccess => if place_dec l l' then true else false | CMkdir, CMkdir => if place_dec l l' then true else false | COpen, COpen => if place_dec l l' then true else false | _, _ => false end) (fun _ => 64) (fun _ => None) (fun _ => None).
(** Copied into the directory where it is, in which nothing can be removed, a file is emptied. *)
Theorem C121_emptied_refuted : let f := places [(["a"], KDir); (["a"; "x"], KFile (L "data"))]%string in let x := map L ["a"; "x"]%string in WF f /\
  exists f', copy_file_always env0 (refusing CRemove x) [] f (L "/a/x") (L "/a") = Some (f', true) /\ at_place f' x = Some (KFile []).
Proof. split; [apply wf_check_ok; vm_compute; reflexivity|]. eexists. split; vm_compute; reflexivity. Qed.
Print Assumptions C121_emptied_refuted.
(** Also when CopyFileIfDifferent is called: the directory on the way did not exist when the files were compared. *)
Theorem C121_emptied2_refuted : let f := places [(["a"], KDir); (["a"; "x"], KFile (L "data"))]%string in let x := map L ["a"; "x"]%string in WF f /\
  exists f', copy_file_if_different env0 (refusing CRemove x) [] f (L "/a/x") (L "/new/../a/x") = Some (f', true) /\ at_place f' x = Some (KFile []).
Proof. split; [apply wf_check_ok; vm_compute; reflexivity|]. eexists. split; vm_compute; reflexivity. Qed.
Print Assumptions C121_emptied2_refuted.
(** A file that cannot be read to its end is cut off, and the copy reported as done. *)
Theorem C121_cut_off_refuted : let f := places [(["x"], KFile (L "data"))]%string in let k := Disk (fun _ _ => false) (fun _ => 64) (fun l => if place_dec l [L "x"] then Some 2 else None) (fun _ => None) in WF f /\
  exists f', copy_file_always env0 k [] f (L "/x") (L "/y") = Some (f', true) /\ at_place f' [L "y"] = Some (KFile (L "da")).
Proof. split; [apply wf_check_ok; vm_compute; reflexivity|]. eexists. split; vm_compute; reflexivity. Qed.
Print Assumptions C121_cut_off_refuted.
(** Where empty directories have size 0, one of them counts as a copy of an empty file. *)
Theorem C121_empty_dir_refuted : let f := places [(["x"], KFile []); (["d"], KDir); (["d"; "x"], KDir)]%string in let k := Disk (fun _ _ => false) (fun _ => 0) (fun _ => None) (fun _ => None) in WF f /\
  files_differ k [] f (L "/x") (L "/d/x") = false /\ copy_file_if_different env0 k [] f (L "/x") (L "/d") = Some (f, true).
Proof. split; [apply wf_check_ok; vm_compute; reflexivity|]. split; vm_compute; reflexivity. Qed.
Print Assumptions C121_empty_dir_refuted.
(** A link to a directory that cannot be listed is replaced by the copy. *)
Theorem C121_link_lost_refuted : let f := places [(["x"], KFile (L "data")); (["drop"], KDir); (["in"], KLink (L "drop"))]%string in WF f /\
  exists f', copy_file_always env0 (refusing CAccess [L "drop"]) [] f (L "/x") (L "/in") = Some (f', true) /\ at_place f' [L "in"] = Some (KFile (L "data")).
Proof. split; [apply wf_check_ok; vm_compute; reflexivity|]. eexists. split; vm_compute; reflexivity. Qed.
Print Assumptions C121_link_lost_refuted.
(** Backslashes in the name of the directory: the copy goes to another directory. *)
Theorem C121_backslash_refuted : let f := places [(["x"], KFile (L "data")); (["a\b"], KDir); (["a"], KDir); (["a"; "b"], KDir); (["a"; "b"; "x"], KFile (L "other"))]%string in WF f /\
  exists f', copy_file_always env0 good [] f (L "/x") (L "/a\b") = Some (f', true) /\ at_place f' (map L ["a\b"; "x"]%string) = None /\ at_place f' (map L ["a"; "b"; "x"]%string) = Some (KFile (L "data")).
Proof. split; [apply wf_check_ok; vm_compute; reflexivity|]. eexists. split; [vm_compute; reflexivity|]. split; vm_compute; reflexivity. Qed.
Print Assumptions C121_backslash_refuted.
(** A directory "copied" over a file: reported as done, and nothing happens. *)
Theorem C121_dir_over_file_refuted : let f := places [(["d"], KDir); (["x"], KFile (L "data"))]%string in WF f /\ copy_file_always env0 good [] f (L "/d") (L "/x") = Some (f, true).
Proof. split; [apply wf_check_ok; vm_compute; reflexivity|]. vm_compute; reflexivity. Qed.
Print Assumptions C121_dir_over_file_refuted.
(** A usual case: through a link, into a directory that is there, over an old file. *)
Example C121_copy_ex : let f := places [(["src"], KDir); (["src"; "v"], KLink (L "x1")); (["src"; "x1"], KFile (L "new")); (["out"], KLink (L "o")); (["o"], KDir); (["o"; "v"], KFile (L "older"))]%string in
  WF f /\ resolve f [] true (L "/src/v") = inl (map L ["src"; "x1"]%string) /\
  exists f', copy_a_file env0 good [] f (L "/src/v") (L "/out") false = Some (f', true) /\ at_place f' (map L ["o"; "v"]%string) = Some (KFile (L "new")) /\ files_differ good [] f (L "/src/v") (L "/out/v") = true /\ files_differ good [] f' (L "/src/v") (L "/out/v") = false.
Proof. split; [apply wf_check_ok; vm_compute; reflexivity|]. split; [vm_compute; reflexivity|]. eexists. split; [vm_compute; reflexivity|]. repeat split; vm_compute; reflexivity. Qed.
Example C121_copy_ex2 : let f := places [(["x"], KFile (L "data"))]%string in exists f', copy_a_file env0 good [] f (L "/x") (L "/p/q/y") true = Some (f', true) /\ at_place f' (map L ["p"; "q"; "y"]%string) = Some (KFile (L "data")).
Proof. eexists. split; vm_compute; reflexivity. Qed.

(** A directory given as the source: what is made are directories, and a copy that is reported as
    done has the destination's name lead somewhere (to a directory, unless something else was there before). *)
Theorem C121_directory e k cwd f source destination s f' b : WF f -> at_place f cwd = Some KDir -> ~ In "\"%char source ->
  resolve f cwd true source = inl s -> at_place f s = Some KDir ->
  copy_file_always e k cwd f source destination = Some (f', b) ->
  WF f' /\ (forall x, at_place f' x = at_place f x \/ at_place f x = None /\ at_place f' x = Some KDir) /\
  (b = true -> exists D kd, resolve f' cwd true destination = inl D /\ at_place f' D = Some kd /\ (kd = KDir \/ at_place f D = Some kd)).
Proof.
  intros W C Nbs Rs As. unfold copy_file_always. destruct (same_file cwd f source destination) eqn:SF.
  { intros E. injection E as <- <-. split; [exact W|]. split; [left; reflexivity|]. intros _. unfold same_file in SF. rewrite Rs in SF. destruct (resolve f cwd true destination) as [y|] eqn:Rd; [|discriminate]. rewrite As in SF. destruct (place_dec s y) as [<-|]; [|discriminate]. exists s, KDir. auto. }
  rewrite (proj2 (dir_spec f cwd source Nbs)); [|exists s; auto]. destruct (make_directory e k cwd f destination) as [[f1 b1]|] eqn:M; [|discriminate]. destruct (make_directory_grow _ _ _ _ _ _ _ W C M) as [W1 G1].
  unfold sys_stat, st_size. rewrite Rs, As. intros E. injection E as <- <-. split; [exact W1|]. split; [exact G1|]. unfold set_permissions. destruct (resolve f1 cwd true destination) as [D|]; [|discriminate]. destruct (at_place f1 D) as [kd|] eqn:A1; [|discriminate]. intros _. exists D, kd. split; [reflexivity|]. split; [exact A1|].
  destruct (G1 D) as [E|[_ E]]; [right; congruence|left; congruence].
Qed.
Print Assumptions C121_directory.
Example C121_directory_ex : let f := places [(["d"], KDir)]%string in WF f /\ exists f', copy_file_always env0 good [] f (L "/d") (L "/p/q") = Some (f', true) /\ at_place f' (map L ["p"; "q"]%string) = Some KDir /\
  copy_file_always env0 (refusing CMkdir [L "p"]) [] f (L "/d") (L "/p/q") = Some (f, false).
Proof. split; [apply wf_check_ok; vm_compute; reflexivity|]. eexists. split; [vm_compute; reflexivity|]. split; vm_compute; reflexivity. Qed.
