(** IoSpec.v -- what written and merged configurations should look like. *)
From Verif Require Import Base ConfigModel ParserModel TokenizeSpec.

(** The words of a text: its maximal non-empty parts between blanks. *)
Definition words (s : str) (ws : list str) : Prop :=
  exists ts, splits (fun c => c = " "%char) s ts /\ ws = filter nonempty ts.
Definition newline : ascii := "010"%char.

(** A comment line made of the given words. *)
Definition comment_line (l : str) (ws : list str) : Prop :=
  exists body, l = "#"%char :: body /\ words body ws /\ ~ In newline l /\
    (body = [] \/ exists r, body = " "%char :: r) /\
    (forall r, l <> r ++ [" "%char]) /\
    (length l <= 80 \/ exists w, l = L "# " ++ w /\ ws = [w]).

(** The first configuration of a list that defines a key. *)
Fixpoint first_value (cfgs : list heap) (k : str) : res str :=
  match cfgs with
  | [] => Throw (NoSuchValue k)
  | c :: r => match get_string c 0 k with Ok v => Ok v | _ => first_value r k end
  end.
(** Some key of a configuration is read-only in a later one. *)
Definition conflict (cfgs : list heap) (k : str) : Prop :=
  exists before c after c', cfgs = before ++ c :: after /\
    In c' before /\ has_value c' 0 k = Ok true /\ is_read_only c 0 k = Ok true.

(** The entries of a ':' separated list of directories; an empty variable has
    none and a final ':' ends the last entry instead of starting another. *)
Inductive path_entries : str -> list str -> Prop :=
| pe_empty : path_entries [] []
| pe_plain v ts last : splits (eq ":"%char) v (ts ++ [last]) -> last <> [] -> path_entries v (ts ++ [last])
| pe_final v ts : v <> [] -> splits (eq ":"%char) v (ts ++ [[]]) -> path_entries v ts.
Definition env_entries (conv : str -> str) (value : option str) (es : list str) : Prop :=
  match value with
  | None => es = []
  | Some v => exists raw, path_entries v raw /\ es = map conv raw
  end.
(** The application's directories below a base directory. *)
Definition app_dirs (app ver base : str) : list str :=
  if str_dec ver [] then [base ++ L "/" ++ app]
  else [base ++ L "/" ++ app ++ L "/" ++ ver; base ++ L "/" ++ app].
Definition standard_prefix (p : str) : Prop := p = [] \/ p = L "/usr" \/ p = L "/usr/local".

(** The files found in the directories, in order. *)
Definition is_file (w : world) (p : str) : bool := match w_fs w p with File _ => true | _ => false end.
Definition found (w : world) (name : str) (dirs : list str) : list str :=
  filter (is_file w) (map (fun d => d ++ L "/" ++ name) dirs).

