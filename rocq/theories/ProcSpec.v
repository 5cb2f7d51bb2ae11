(** ProcSpec.v -- what the settings of a process object are after a sequence of
    calls (oldest first), as the caller sees them.  Independent of how the object
    stores them; a pipe's target is given by [wired]. *)
From Coq Require Import List ZArith.
Import ListNotations.
From Flocq Require Import IEEE754.BinarySingleNaN.
From Verif Require Import Base GeoModel CmdSpec ProcModel.

(** A pipe follows the last call that chose a target; turning a kind of target
    off matters only while it is the one in use. *)
Definition usable (k : Z) (a b : Z) : Prop := (0 <= if Z.eqb k 1 then a else b)%Z.
Inductive retarget (k : Z) : psetter -> wired -> wired -> Prop :=
| rt_file f w : retarget k (SFile (Some f)) w (ToFile f)
| rt_shared s w : s <> 0%Z -> retarget k (SShared s) w ToParent
| rt_native a b w : usable k a b -> retarget k (SNative (Some (a, b))) w (ToNative a b)
| rt_unusable a b w : ~ usable k a b -> retarget k (SNative (Some (a, b))) w ToObject
| rt_file_off f : retarget k (SFile None) (ToFile f) ToObject
| rt_file_keep w : (forall f, w <> ToFile f) -> retarget k (SFile None) w w
| rt_shared_off : retarget k (SShared 0) ToParent ToObject
| rt_shared_keep w : w <> ToParent -> retarget k (SShared 0) w w
| rt_native_off a b : retarget k (SNative None) (ToNative a b) ToObject
| rt_native_keep w : (forall a b, w <> ToNative a b) -> retarget k (SNative None) w w.
Inductive target (k : Z) : list pcall -> wired -> Prop :=
| tg_new : target k [] (if Z.eqb k 1 then ToParent else ToObject)
| tg_set h s w w' : target k h w -> retarget k s w w' -> target k (h ++ [APipe k s]) w'
| tg_other h c w : target k h w -> (forall s, c <> APipe k s) -> target k (h ++ [c]) w.

(** Options, timeout and directory: the last value given. *)
Inductive option_is (id : Z) : list pcall -> Z -> Prop :=
| op_new : option_is id [] 0
| op_set h v w : option_is id h w -> option_is id (h ++ [AOption id v]) v
| op_other h c v : option_is id h v -> (forall w, c <> AOption id w) -> option_is id (h ++ [c]) v.
Definition negative (t : dbl) : Prop := Bcompare t (dint 0) = Some Lt.
Inductive timeout_is : list pcall -> dbl -> Prop :=
| ti_new : timeout_is [] (dint 0)
| ti_set h t : ~ negative t -> timeout_is (h ++ [ATimeout t]) t
| ti_negative h t : negative t -> timeout_is (h ++ [ATimeout t]) (dint 0)
| ti_other h c t : timeout_is h t -> (forall u, c <> ATimeout u) -> timeout_is (h ++ [c]) t.
Inductive dir_is : list pcall -> option str -> Prop :=
| di_new : dir_is [] None
| di_set h d : dir_is (h ++ [ADir d]) d
| di_other h c d : dir_is h d -> (forall e, c <> ADir e) -> dir_is (h ++ [c]) d.

(** What one command array adds.  With a non-zero verbatim option only its first
    string counts and is split as a command line. *)
Inductive adds (verbatim : Z) : option (list str) -> list (list str) -> Prop :=
| ad_null : adds verbatim None []
| ad_empty : adds verbatim (Some []) []
| ad_plain c0 r : verbatim = 0%Z -> adds verbatim (Some (c0 :: r)) [c0 :: r]
| ad_words c0 r ws : verbatim <> 0%Z -> means c0 ws -> ws <> [] -> adds verbatim (Some (c0 :: r)) [ws]
| ad_blank c0 r : verbatim <> 0%Z -> means c0 [] -> adds verbatim (Some (c0 :: r)) [].
Inductive commands_are : list pcall -> list (list str) -> Prop :=
| co_new : commands_are [] []
| co_add h v l c a : commands_are h l -> option_is 3 h v -> adds v c a -> commands_are (h ++ [AAdd c]) (l ++ a)
| co_set h v c a : option_is 3 h v -> adds v c a -> commands_are (h ++ [ASet c]) a
| co_other h c l : commands_are h l -> (forall x, c <> AAdd x /\ c <> ASet x) -> commands_are (h ++ [c]) l.

(** What a call reports, given what came before: only additions can fail, and
    SetPipeFile on something that is not a pipe. *)
Inductive reports (h : list pcall) : pcall -> option Z -> Prop :=
| re_add v c a : option_is 3 h v -> adds v c a -> reports h (AAdd c) (Some (match a with [] => 0 | _ => 1 end)%Z)
| re_set v c a : option_is 3 h v -> adds v (Some c) a -> reports h (ASet (Some c)) (Some (match a with [] => 0 | _ => 1 end)%Z)
| re_clear : reports h (ASet None) (Some 1%Z)
| re_dir d : reports h (ADir d) (Some 1%Z)
| re_file k f : (1 <= k <= 3)%Z -> reports h (APipe k (SFile f)) (Some 1%Z)
| re_nofile k f : ~ (1 <= k <= 3)%Z -> reports h (APipe k (SFile f)) (Some 0%Z)
| re_shared k s : reports h (APipe k (SShared s)) None
| re_native k n : reports h (APipe k (SNative n)) None
| re_timeout t : reports h (ATimeout t) None
| re_option i v : reports h (AOption i v) None.

(** C strings of a length the parser can handle. *)
Definition good_command (c : option (list str)) : Prop :=
  match c with Some (c0 :: _) => ~ In (Ascii.ascii_of_nat 0) c0 /\ (Z.of_nat (length c0) + 2 < 2 ^ 30)%Z | _ => True end.
Definition good_call (c : pcall) : Prop := match c with ASet x | AAdd x => good_command x | _ => True end.
