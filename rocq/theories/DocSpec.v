(** DocSpec.v -- configuration documents as trees, how they are written down,
    and what they mean. *)
From Verif Require Import Base ConfigModel ConfigSpec ExpandModel ParserModel ParserSpec.

Inductive doc :=
| Nil
| Entry (rel ro : bool) (key value : str) (rest : doc)   (* [relativepath] key[[RO]] = value *)
| Def (key value : str) (rest : doc)                     (* key := value *)
| Block (name : str) (body rest : doc).

Fixpoint write (d : doc) : list str :=
  match d with
  | Nil => []
  | Entry rel ro k v rest =>
      ((if rel then L "relativepath " else []) ++ k ++ (if ro then L "[RO]" else []) ++ L " = " ++ v) :: write rest
  | Def k v rest => (k ++ L " := " ++ v) :: write rest
  | Block n body rest => (L "block " ++ n) :: write body ++ L "endblock" :: write rest
  end.
Definition file_text (lines : list str) : str := concat (map (fun l => l ++ ["010"%char]) lines).

Definition plain_key (k : str) : Prop := is_word k /\ ~ In k keywords.
Definition plain_value (v : str) : Prop := is_trim v v /\ ~ In "#"%char v /\ ~ In "010"%char v.
Fixpoint well_formed (d : doc) : Prop :=
  match d with
  | Nil => True
  | Entry _ _ k v rest | Def k v rest => plain_key k /\ plain_value v /\ well_formed rest
  | Block n body rest => is_word n /\ well_formed body /\ well_formed rest
  end.

(** Configuration values, read-only marks and local symbols, as functions. *)
Record env := mkE { e_val : str -> option str; e_ro : str -> bool; e_sym : str -> option str }.
Definition empty_env : env := mkE (fun _ => None) (fun _ => false) (fun _ => None).
Definition put {A} (k : str) (x : A) (f : str -> A) : str -> A := fun k2 => if str_eqb k2 k then x else f k2.
Definition or_empty (o : option str) : str := match o with Some v => v | None => [] end.
(** $ENV{}, $SYSENV{}, $CONFIG{} and $LOCAL{} references. *)
Definition refs (w : world) (e : env) : token_types := fun ty =>
  if str_eqb ty (L "ENV") then Some (fun n => or_empty (w_env w n))
  else if str_eqb ty (L "SYSENV") then Some (w_sysenv w)
  else if str_eqb ty (L "CONFIG") then Some (fun n => or_empty (e_val e n))
  else if str_eqb ty (L "LOCAL") then Some (fun n => or_empty (e_sym e n))
  else None.

(** [inl e']: the document defines e'.  [inr k]: it assigns the read-only key k. *)
Fixpoint denote (w : world) (file : str) (outer : list str) (d : doc) (e : env) : env + str :=
  match d with
  | Nil => inl e
  | Entry rel ro k v rest =>
    let key := abs_key outer k in
    let x := expand (refs w e) v in
    let x' := if rel then dir_of w file ++ L "/" ++ x else x in
    if e_ro e key then inr key
    else denote w file outer rest
           (mkE (put key (Some (trim x')) (e_val e)) (put key (ro || e_ro e key) (e_ro e)) (e_sym e))
  | Def k v rest =>
    denote w file outer rest (mkE (e_val e) (e_ro e) (put k (Some (expand (refs w e) v)) (e_sym e)))
  | Block n body rest =>
    match denote w file (outer ++ [n]) body e with
    | inl e1 => denote w file outer rest e1
    | inr k => inr k
    end
  end.
(** The configuration block holds exactly [e]. *)
Definition holds (h : heap) (e : env) : Prop := forall k,
  get_string h 0 k = match e_val e k with Some v => Ok v | None => Throw (NoSuchValue k) end /\
  has_value h 0 k = Ok (match e_val e k with Some _ => true | None => false end) /\
  is_read_only h 0 k = Ok (e_ro e k).
