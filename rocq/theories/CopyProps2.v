(** CopyProps2.v -- C121: copies of directories. *)
From Coq Require Import Ascii String List Bool Arith Lia.
Import ListNotations.
From Verif Require Import Base PathModel PathProps TreeModel TreeSpec TreeProofs TreeProps TransModel TransProofs TransProps2 CopyModel CopySpec CopyProofs CopyProofs2 CopyTree CopyTree2 CopyProps.

Lemma deepest (f : fsys) : exists n, forall l, at_place f l <> None -> length l < n.
Proof.
  induction f as [|[x k] f [n IH]]; [exists 1; intros [|a l] H; [cbn; lia|cbn in H; congruence]|]. exists (Nat.max n (S (length x))). intros l H. destruct l as [|a l]; [cbn; specialize (IH [] ltac:(discriminate)); lia|]. cbn [at_place] in H. rewrite look_cons in H. destruct (place_dec x (a :: l)) as [->|]; [lia|]. specialize (IH (a :: l) H). lia.
Qed.
(** A directory A copied to B, apart from each other, without links and without files and
    directories in each other's way, when everything can be read: the copy ends; what is not
    below B stays as it is (but for directories made on the way); below B, what A has no
    counterpart of stays; if the copy is reported as done, each file and directory of A
    is at the same place of B; and it is, unless the system refuses something. *)
Theorem C121_tree e k cwd always f A B : WF f -> no_backslash f -> names_ok B -> at_place f A = Some KDir -> ~ below A B -> ~ below B A -> open_way f B -> fits f A B ->
  (forall l, deny k CAccess l = false /\ deny k COpen l = false /\ rerr k l = None) ->
  exists n, forall fuel, n <= fuel -> exists f' b, copy_a_directory e k cwd fuel f (text A) (text B) always = Some (f', b) /\ WF f' /\
    (forall y, ~ below B y -> at_place f' y = at_place f y \/ (at_place f y = None /\ at_place f' y = Some KDir /\ below y B)) /\
    (forall r, at_place f (A ++ r) = None -> at_place f' (B ++ r) = at_place f (B ++ r)) /\
    (b = true -> forall r v, at_place f (A ++ r) = Some v -> at_place f' (B ++ r) = Some v) /\
    ((forall c l, deny k c l = false) /\ (forall l, werr k l = None) -> b = true).
Proof.
  intros W NB HB DA NAB NBA O F R. destruct (deepest f) as [n Dp]. exists n. intros fuel Le.
  destruct (tree e k cwd always (fun l => proj1 (R l)) (fun l => proj1 (proj2 (R l))) (fun l => proj2 (proj2 (R l))) fuel f A B) as (f' & b & H); try assumption.
  - intros ->. apply NAB. exists B. reflexivity.
  - intros ->. apply NBA. exists A. reflexivity.
  - intros r Ne. eapply place_names; eassumption.
  - intros r Ne. specialize (Dp _ Ne). rewrite app_length in Dp. lia.
  - exists f', b. exact H.
Qed.
Print Assumptions C121_tree.
Definition tree_ex : fsys := places [(["s"], KDir); (["s"; "x"], KFile (L "new")); (["s"; "d"], KDir); (["s"; "d"; "y"], KFile (L "data")); (["t"], KDir); (["t"; "c"], KDir); (["t"; "c"; "x"], KFile (L "old")); (["t"; "c"; "z"], KLink (L "/s"))]%string.
Example C121_tree_ex : let A := [L "s"] in let B := map L ["t"; "c"]%string in let f := tree_ex in
  WF f /\ ~ below A B /\ ~ below B A /\ at_place f A = Some KDir /\ names_ok B /\
  exists f', copy_a_directory env0 good [] 9 f (text A) (text B) false = Some (f', true) /\ at_place f' (map L ["t"; "c"; "x"]%string) = Some (KFile (L "new")) /\ at_place f' (map L ["t"; "c"; "d"; "y"]%string) = Some (KFile (L "data")) /\ at_place f' (map L ["t"; "c"; "z"]%string) = Some (KLink (L "/s")).
Proof.
  cbv zeta. split; [apply wf_check_ok; vm_compute; reflexivity|]. split; [intros (t & E); discriminate|]. split; [intros (t & E); discriminate|]. split; [reflexivity|]. split; [intros n [<-|[<-|[]]]; (split; [repeat split; try discriminate; intros [H|[]]; discriminate|intros [H|[]]; discriminate])|]. eexists. split; [vm_compute; reflexivity|]. repeat split; vm_compute; reflexivity.
Qed.
Example C121_tree_ex_way : open_way tree_ex (map L ["t"; "c"]%string) /\ fits tree_ex [L "s"] (map L ["t"; "c"]%string) /\ no_backslash tree_ex.
Proof.
  split; [|split].
  - intros p t E. right. destruct p as [|a [|b [|c p]]]; cbn [map app] in E; [reflexivity|injection E as <- _; reflexivity|injection E as <- <- _; reflexivity|discriminate].
  - intros r. destruct (at_place tree_ex ([L "s"] ++ r)) as [v|] eqn:A; [|exact I]. cbn [app at_place] in A. apply look_in in A. unfold tree_ex, places in A. cbn [map fst snd In] in A.
    repeat (destruct A as [A|A]; [injection A; clear A; intros; subst; try discriminate; first [right; reflexivity | left; reflexivity | right; eexists; reflexivity]|]). destruct A.
  - intros x k n H I. unfold tree_ex, places in H. cbn [map fst snd In] in H.
    repeat (destruct H as [H|H]; [injection H; clear H; intros <- <-; cbn [In] in I; repeat (destruct I as [<-|I]; [intros J; cbn in J; repeat (destruct J as [J|J]; [discriminate|]); exact J|]); destruct I|]). destruct H.
Qed.

(** ---- what goes wrong ---- *)
(** A directory copied deep into itself: the copy does not end. *)
Definition chain (n : nat) : place := repeat (L "a") n.
Definition only_chain (f : fsys) (m : nat) : Prop := WF f /\ forall x, at_place f x = if (length x <=? m) then if place_dec x (chain (length x)) then Some KDir else None else None.
Lemma chain_length n : length (chain n) = n. Proof. apply repeat_length. Qed.
Lemma chain_snoc n : chain n ++ [L "a"] = chain (S n).
Proof. unfold chain. induction n as [|n IH]; [reflexivity|]. cbn [repeat app]. cbn [repeat] in IH. f_equal. exact IH. Qed.
Lemma chain_ok n : names_ok (chain n).
Proof. intros x I. apply repeat_spec in I as ->. split; [repeat split; try discriminate; intros [E|[]]; discriminate|intros [E|[]]; discriminate]. Qed.
Lemma chain_prefix p t n : chain n = p ++ t -> p = chain (length p).
Proof. revert n. induction p as [|a p IH]; intros n E; [reflexivity|]. destruct n as [|n]; [discriminate|]. cbn in E. injection E as <- E. cbn [length]. rewrite (IH n E) at 1. reflexivity. Qed.
Lemma chain_at f m i : only_chain f m -> i <= m -> at_place f (chain i) = Some KDir.
Proof. intros [_ H] Le. rewrite H, chain_length. apply Nat.leb_le in Le. rewrite Le. destruct (place_dec (chain i) (chain i)); congruence. Qed.
Lemma nodup_one (l : list str) x : NoDup l -> (forall y, In y l <-> y = x) -> l = [x].
Proof.
  intros N H. destruct l as [|a l]; [elim (proj2 (H x) eq_refl)|]. assert (a = x) as -> by (apply H; left; reflexivity). destruct l as [|b l]; [reflexivity|]. exfalso. inversion N as [|? ? N1 _]; subst. apply N1. assert (b = x) as -> by (apply H; right; left; reflexivity). left. reflexivity.
Qed.
Lemma chain_names f m i : only_chain f m -> i < m -> names_in f (chain i) = [L "a"].
Proof.
  intros OC Lt. pose proof OC as [W H]. apply nodup_one; [apply names_nodup, (wf_nodup f W)|]. intros y. rewrite (names_in_look f (chain i) y W). split.
  - rewrite H. destruct (length _ <=? m); [|congruence]. destruct (place_dec (chain i ++ [y]) _) as [E|]; [|congruence]. intros _. rewrite app_length, chain_length, Nat.add_1_r, <- chain_snoc in E. apply app_inj_tail in E. apply E.
  - intros ->. rewrite chain_snoc, (chain_at f m (S i) OC); [discriminate|lia].
Qed.
Theorem C121_into_itself_refuted : let f := places [(["a"], KDir); (["a"; "a"], KDir)]%string in WF f /\ forall fuel, copy_a_directory env0 good [] fuel f (L "/a") (L "/a/a/a") true = None.
Proof.
  cbv zeta. assert (W0 : WF (places [(["a"], KDir); (["a"; "a"], KDir)]%string)) by (apply wf_check_ok; vm_compute; reflexivity). split; [exact W0|].
  assert (GEN : forall fuel m f, 0 < m -> only_chain f (S m) -> copy_a_directory env0 good [] fuel f (text (chain m)) (text (chain (S (S m)))) true = None).
  { induction fuel as [|n IH]; intros m f Pm OC; [reflexivity|]. pose proof OC as [W H]. cbn [copy_a_directory].
    assert (LD : load (fun _ l => deny good COpen l) [] f (text (chain m)) = [L "."; L ".."; L "a"]). { unfold load. rewrite (resolve_text f [] true (chain m) W (chain_ok m)) by (apply (chain_at f (S m)); [exact OC|lia]). rewrite (chain_at f (S m) m OC) by lia. change (deny good COpen (chain m)) with false. cbv iota. rewrite (chain_names f (S m) m OC) by lia. reflexivity. }
    rewrite LD. assert (O : open_way f (chain (S (S m)))). { intros p t E. rewrite H. destruct (length p <=? S m); [|left; reflexivity]. destruct (place_dec p (chain (length p))); [right|left]; reflexivity. }
    destruct (make_directory_text env0 good [] f (chain (S (S m))) W (chain_ok _) ltac:(discriminate) O) as (f1 & b1 & -> & W1 & P1 & D1 & Al). rewrite (Al (fun _ => eq_refl)) in *. specialize (D1 eq_refl).
    assert (OC1 : only_chain f1 (S (S m))). { split; [exact W1|]. intros x. destruct (Nat.leb_spec (length x) (S (S m))) as [Le|Gt].
      - destruct (place_dec x (chain (length x))) as [E|Ne].
        + destruct (Nat.eq_dec (length x) (S (S m))) as [El|]; [rewrite El in E; rewrite E; exact D1|]. destruct (P1 x) as [->|(_ & -> & _)]; [|reflexivity]. rewrite H. assert (length x <=? S m = true) as -> by (apply Nat.leb_le; lia). destruct (place_dec x _); congruence.
        + destruct (P1 x) as [->|(_ & _ & (t & E))]; [|elim Ne; exact (chain_prefix _ _ _ E)]. rewrite H. destruct (length x <=? S m); [|reflexivity]. destruct (place_dec x _); congruence.
      - destruct (P1 x) as [->|(_ & _ & (t & E))]; [rewrite H; assert (length x <=? S m = false) as -> by (apply Nat.leb_gt; lia); reflexivity|]. apply (f_equal (@List.length _)) in E. rewrite app_length, chain_length in E. lia. }
    cbn [str_eqb]. change (str_eqb (L ".") (L ".")) with true. change (str_eqb (L "..") (L "..")) with true. change (str_eqb (L "..") (L ".")) with false. change (str_eqb (L "a") (L ".")) with false. change (str_eqb (L "a") (L "..")) with false. cbn [orb].
    assert (TA : text (chain m) ++ [slash] ++ L "a" = text (chain (S m))) by (rewrite text_snoc by (destruct m; [lia|discriminate]); rewrite chain_snoc; reflexivity). assert (TB : text (chain (S (S m))) ++ [slash] ++ L "a" = text (chain (S (S (S m))))) by (rewrite text_snoc by discriminate; rewrite chain_snoc; reflexivity).
    match goal with |- match (if ?c then ?x else ?y) with _ => _ end = None => assert (c = true) as -> end.
    { transitivity (file_is_directory f1 [] (text (chain (S m)))); [f_equal; exact TA|]. apply dir_text; [exact W1|apply chain_ok|apply (chain_at f1 (S (S m))); [exact OC1|lia]]. }
    match goal with |- match ?x with _ => _ end = None => assert (x = None) as -> end; [|reflexivity]. transitivity (copy_a_directory env0 good [] n f1 (text (chain (S m))) (text (chain (S (S (S m))))) true); [f_equal; [exact TA|exact TB]|]. apply IH; [lia|exact OC1]. }
  intros fuel. apply (GEN fuel 1 (places [(["a"], KDir); (["a"; "a"], KDir)]%string)); [lia|]. split; [exact W0|]. intros x. destruct x as [|a [|b [|c x]]]; cbn [length Nat.leb at_place].
  - reflexivity.
  - unfold places. cbn [map fst snd]. rewrite !look_cons. destruct (place_dec [L "a"] [a]) as [E|N]; [cbn in E; injection E as <-; reflexivity|]. destruct (place_dec [L "a"; L "a"] [a]) as [E|_]; [cbn in E; discriminate|]. cbn [look]. destruct (place_dec [a] (chain 1)) as [E|]; [|reflexivity]. elim N. cbn in E |- *. congruence.
  - unfold places. cbn [map fst snd]. rewrite !look_cons. destruct (place_dec [L "a"] [a; b]) as [E|_]; [cbn in E; discriminate|]. destruct (place_dec [L "a"; L "a"] [a; b]) as [E|N]; [cbn in E; injection E as <- <-; reflexivity|]. cbn [look]. destruct (place_dec [a; b] (chain 2)) as [E|]; [|reflexivity]. elim N. cbn in E |- *. congruence.
  - unfold places. cbn [map fst snd]. rewrite !look_cons. destruct (place_dec [L "a"] (a :: b :: c :: x)) as [E|_]; [cbn in E; discriminate|]. destruct (place_dec [L "a"; L "a"] (a :: b :: c :: x)) as [E|_]; [cbn in E; discriminate|]. reflexivity.
Qed.
Print Assumptions C121_into_itself_refuted.
(** A directory that cannot be listed is copied as an empty one. *)
Theorem C121_unlisted_refuted : let f := places [(["s"], KDir); (["s"; "x"], KFile (L "data"))]%string in WF f /\
  exists f', copy_a_directory env0 (refusing COpen [L "s"]) [] 9 f (L "/s") (L "/t") true = Some (f', true) /\ at_place f' [L "t"] = Some KDir /\ names_in f' [L "t"] = [].
Proof. split; [apply wf_check_ok; vm_compute; reflexivity|]. eexists. split; [vm_compute; reflexivity|]. split; vm_compute; reflexivity. Qed.
Print Assumptions C121_unlisted_refuted.
(** A file that cannot be read and stands where a directory is to be: it becomes the last of
    the files of the directory, and the copy is reported as done. *)
Theorem C121_in_the_way_refuted : let f := places [(["s"], KDir); (["s"; "d"], KDir); (["s"; "d"; "x"], KFile (L "one")); (["s"; "d"; "y"], KFile (L "two")); (["t"], KDir); (["t"; "d"], KFile (L "secret"))]%string in WF f /\
  exists f', copy_a_directory env0 (refusing CAccess (map L ["t"; "d"]%string)) [] 9 f (L "/s") (L "/t") true = Some (f', true) /\ at_place f' (map L ["t"; "d"]%string) = Some (KFile (L "two")).
Proof. split; [apply wf_check_ok; vm_compute; reflexivity|]. eexists. split; vm_compute; reflexivity. Qed.
Print Assumptions C121_in_the_way_refuted.
