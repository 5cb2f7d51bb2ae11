(** PluginSpec.v -- which module files a load tries, and what comes of each. *)
From Coq Require Import ZArith.
From Verif Require Import Base PathModel PluginModel.

(** The elements of [l] for which [P] holds, in the same order. *)
Inductive picks {A} (P : A -> Prop) : list A -> list A -> Prop :=
| picks_nil : picks P [] []
| picks_take x l s : P x -> picks P l s -> picks P (x :: l) (x :: s)
| picks_skip x l s : ~ P x -> picks P l s -> picks P (x :: l) s.

Section Spec.
Context {R : Type}.
(** The platform suffix is a dot and an extension; directory entries have no slash. *)
Definition world_ok (w : pworld R) : Prop :=
  (exists ext, w_suffix w = "."%char :: ext /\ ~ In "."%char ext /\ ~ In slash ext) /\
  (forall dir files f, w_list w dir = Some files -> In f files -> ~ In slash f).
(** A directory that is read. *)
Definition searched (w : pworld R) (dir : str) (files : list str) : Prop :=
  dir <> [] /\ w_exists w dir = true /\ w_isdir w dir = true /\ w_list w dir = Some files.
(** [entry] of [dir] is a module wanted by a load for [name] (empty: all): it
    ends with the suffix, [name] is its text up to its first dot, and it is not
    a directory. *)
Definition wanted (w : pworld R) (name dir entry : str) : Prop :=
  (exists stem, entry = stem ++ w_suffix w) /\
  (name = [] \/ ~ In "."%char name /\ exists more, entry = name ++ "."%char :: more) /\
  w_isdir w (dir ++ slash :: entry) = false.
(** The files tried along the search path, in order. *)
Inductive attempted (w : pworld R) (name : str) : list str -> list str -> Prop :=
| att_nil : attempted w name [] []
| att_skip dir paths files : (forall fs, ~ searched w dir fs) -> attempted w name paths files -> attempted w name (dir :: paths) files
| att_dir dir paths entries sel files : searched w dir entries -> picks (wanted w name dir) entries sel ->
    attempted w name paths files -> attempted w name (dir :: paths) (map (fun e => dir ++ slash :: e) sel ++ files).

(** What comes of trying one file. *)
Inductive outcome := NotALibrary | NoEntryPoint | Failures (n : Z) | Registered.
(** The registrar passes through the entry points one after the other; a module
    counts as registered unless its entry point returns a positive number (an
    exception counts as none). *)
Inductive reports (w : pworld R) : list str -> R -> list (str * outcome) -> R -> Prop :=
| rep_nil r : reports w [] r [] r
| rep_closed f fs r es r' : w_lib w f = None -> reports w fs r es r' -> reports w (f :: fs) r ((f, NotALibrary) :: es) r'
| rep_no_entry f fs r es r' : w_lib w f = Some None -> reports w fs r es r' -> reports w (f :: fs) r ((f, NoEntryPoint) :: es) r'
| rep_failures f fs e r r1 n es r' : w_lib w f = Some (Some e) -> e r = (r1, Some n) -> (0 < n)%Z ->
    reports w fs r1 es r' -> reports w (f :: fs) r ((f, Failures n) :: es) r'
| rep_good f fs e r r1 n es r' : w_lib w f = Some (Some e) -> e r = (r1, Some n) -> (n <= 0)%Z ->
    reports w fs r1 es r' -> reports w (f :: fs) r ((f, Registered) :: es) r'
| rep_throws f fs e r r1 es r' : w_lib w f = Some (Some e) -> e r = (r1, None) ->
    reports w fs r1 es r' -> reports w (f :: fs) r ((f, Registered) :: es) r'.
(** The files registered, in order. *)
Fixpoint registered (es : list (str * outcome)) : list str :=
  match es with [] => [] | (f, Registered) :: r => f :: registered r | _ :: r => registered r end.
(** [k] is the module name of [file]: the file name without the suffix. *)
Definition module_name (w : pworld R) (file k : str) : Prop := exists dir, file = dir ++ slash :: k ++ w_suffix w.
End Spec.
