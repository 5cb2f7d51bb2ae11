(** RegexAst.v -- proof apparatus for RegexModel: syntax trees, the program
    text each one is compiled into, and the pure parser the compiler's two
    passes follow.  Nothing here is part of a statement in RegexProps. *)
From Coq Require Import List Ascii Bool Arith Lia.
Import ListNotations.
From Verif Require Import Base RegexModel RegexSpec.

Inductive atom := ABol | AEol | AAny | ACls (neg : bool) (em : str) (cs : list (ascii * ascii)) | ALit (s : str) | AGrp (n : nat) (l : alts_t)
with piece := PAtom (a : atom) | PStar (a : atom) | PPlus (a : atom) | POpt (a : atom)
with branch := BNil | BCons (p : piece) (b : branch)
with alts_t := One (b : branch) | More (b : branch) (l : alts_t).
Scheme atom_mut := Induction for atom Sort Prop with piece_mut := Induction for piece Sort Prop
  with branch_mut := Induction for branch Sort Prop with alts_mut := Induction for alts_t Sort Prop.
Combined Scheme ast_ind from atom_mut, piece_mut, branch_mut, alts_mut.

(** Flags. *)
Fixpoint w_atom (a : atom) : bool := match a with ABol | AEol => false | AGrp _ l => w_alts l | _ => true end
with w_piece (p : piece) : bool := match p with PAtom a => w_atom a | PPlus _ => true | _ => false end
with w_branch (b : branch) : bool := match b with BNil => false | BCons p b => (w_piece p || w_branch b)%bool end
with w_alts (l : alts_t) : bool := match l with One b => w_branch b | More b l => (w_branch b && w_alts l)%bool end.
Definition simple (a : atom) : bool := match a with AAny | ACls _ _ _ => true | ALit s => length s =? 1 | _ => false end.
Fixpoint sp_atom (a : atom) : bool := match a with AGrp _ l => sp_alts l | _ => false end
with sp_piece (p : piece) : bool := match p with PAtom a => sp_atom a | PPlus _ => false | _ => true end
with sp_branch (b : branch) : bool := match b with BNil => false | BCons p _ => sp_piece p end
with sp_alts (l : alts_t) : bool := match l with One b => sp_branch b | More b l => (sp_branch b || sp_alts l)%bool end.

(** Program text. *)
Definition node (op off : nat) : str := [byte op; byte (off / 256 mod 256); byte (off mod 256)].
Definition link (k : option nat) (t : nat) : nat := match k with None => 0 | Some d => t + d end.
Definition plusk (k : option nat) (m : nat) : option nat := match k with None => None | Some d => Some (m + d) end.
Fixpoint gatom (a : atom) (k : option nat) : str :=
  match a with
  | ABol => node oBOL (link k 3)
  | AEol => node oEOL (link k 3)
  | AAny => node oANY (link k 3)
  | ACls neg em _ => node (if neg then oANYBUT else oANYOF) (link k (3 + length (em ++ [NUL]))) ++ em ++ [NUL]
  | ALit s => node oEXACTLY (link k (3 + length (s ++ [NUL]))) ++ s ++ [NUL]
  | AGrp n l => node (oOPEN + n) 3 ++ galts l (Some 0) (Some 0) ++ node (oCLOSE + n) (link k 3)
  end
with gpiece (p : piece) (k : option nat) : str :=
  match p with
  | PAtom a => gatom a k
  | PStar a =>
    if simple a then node oSTAR (link k (3 + length (gatom a None))) ++ gatom a None
    else node oBRANCH (3 + length (gatom a None) + 3) ++ gatom a (Some 0) ++ node oBACK (length (gatom a None) + 3) ++ node oBRANCH 3 ++ node oNOTHING (link k 3)
  | PPlus a =>
    if simple a then node oPLUS (link k (3 + length (gatom a None))) ++ gatom a None
    else gatom a (Some 0) ++ node oBRANCH 6 ++ node oBACK (length (gatom a None) + 3) ++ node oBRANCH 3 ++ node oNOTHING (link k 3)
  | POpt a => node oBRANCH (3 + length (gatom a None)) ++ gatom a (Some 3) ++ node oBRANCH 3 ++ node oNOTHING (link k 3)
  end
with gbranch (b : branch) (k : option nat) : str :=
  match b with
  | BNil => node oNOTHING (link k 3)
  | BCons p b' => match b' with BNil => gpiece p k | BCons _ _ => gpiece p (Some 0) ++ gbranch b' k end
  end
with galts (l : alts_t) (kb kc : option nat) : str :=
  match l with
  | One b => node oBRANCH (link kb (3 + length (gbranch b None))) ++ gbranch b kc
  | More b l => node oBRANCH (3 + length (gbranch b None)) ++ gbranch b (plusk kc (length (galts l None None))) ++ galts l kb kc
  end.

Lemma len_node : forall op off, length (node op off) = 3.
Proof. reflexivity. Qed.
Lemma len_all : (forall a k, length (gatom a k) = length (gatom a None)) /\ (forall p k, length (gpiece p k) = length (gpiece p None))
  /\ (forall b k, length (gbranch b k) = length (gbranch b None)) /\ (forall l kb kc, length (galts l kb kc) = length (galts l None None)).
Proof.
  apply ast_ind; intros; cbn [gatom gpiece gbranch galts]; try (destruct (simple a)); rewrite ?app_length, ?len_node; auto.
  - destruct b; rewrite ?app_length; auto.
Qed.
Definition len_atom := proj1 len_all. Definition len_piece := proj1 (proj2 len_all).
Definition len_branch := proj1 (proj2 (proj2 len_all)). Definition len_alts := proj2 (proj2 (proj2 len_all)).

(** The pure parser: tree, remaining text, next group number. *)
Fixpoint p_cls (prev : ascii) (t : str) : option (str * list (ascii * ascii) * str) :=
  match t with
  | [] => None
  | c :: r =>
    if Ascii.eqb c "]" then Some ([], [], r)
    else if Ascii.eqb c "-" then
      match r with
      | [] => None
      | d :: r' =>
        if Ascii.eqb d "]" then Some (L "-", [("-", "-")%char], r')
        else if S (nat_of_ascii d) <? S (nat_of_ascii prev) then None
        else match p_cls d r' with Some (em, it, q) => Some (range (S (nat_of_ascii prev)) (nat_of_ascii d) ++ em, (prev, d) :: it, q) | None => None end
      end
    else match p_cls c r with Some (em, it, q) => Some (c :: em, (c, c) :: it, q) | None => None end
  end.
Definition p_set (t : str) : option (str * list (ascii * ascii) * str) :=
  match t with [] => None | p :: r => match p_cls p r with Some (em, it, q) => Some (p :: em, (p, p) :: it, q) | None => None end end.
Definition p_class (t : str) : option (bool * str * list (ascii * ascii) * str) :=
  match t with
  | [] => None
  | c :: r => if Ascii.eqb c "^" then match p_set r with Some (em, it, q) => Some (true, em, it, q) | None => None end
              else match p_set t with Some (em, it, q) => Some (false, em, it, q) | None => None end
  end.
Definition pk (t : str) : ascii := match t with [] => NUL | c :: _ => c end.
Definition p_run (t : str) : nat :=
  let len := length (take_while (fun c => negb (existsb (Ascii.eqb c) META)) t) in
  if (1 <? len) && is_mult (pk (skipn len t)) then len - 1 else len.
Definition stop (t : str) : bool := match t with [] => true | c :: _ => (Ascii.eqb c "|" || Ascii.eqb c ")")%bool end.
Fixpoint pa_reg (n : nat) (paren : bool) (t : str) (np : nat) : cres (alts_t * str * nat) :=
  match n with
  | O => CNoFuel
  | S n' =>
    if (paren && (NSUBEXP <=? np))%bool then CFail
    else
      let* (b, t1, np1) := pa_branch n' t (if paren then S np else np) in
      let* (l, t2, np2) := pa_alts n' b t1 np1 in
      if paren then (if Ascii.eqb (pk t2) ")" then COk (l, tl t2, np2) else CFail)
      else match t2 with [] => COk (l, [], np2) | _ => CFail end
  end
with pa_alts (n : nat) (b : branch) (t : str) (np : nat) : cres (alts_t * str * nat) :=
  match n with
  | O => CNoFuel
  | S n' =>
    if Ascii.eqb (pk t) "|" then
      let* (b2, t1, np1) := pa_branch n' (tl t) np in
      let* (l, t2, np2) := pa_alts n' b2 t1 np1 in COk (More b l, t2, np2)
    else COk (One b, t, np)
  end
with pa_branch (n : nat) (t : str) (np : nat) : cres (branch * str * nat) :=
  match n with O => CNoFuel | S n' => pa_pieces n' t np end
with pa_pieces (n : nat) (t : str) (np : nat) : cres (branch * str * nat) :=
  match n with
  | O => CNoFuel
  | S n' =>
    if stop t then COk (BNil, t, np)
    else
      let* (p, t1, np1) := pa_piece n' t np in
      let* (b, t2, np2) := pa_pieces n' t1 np1 in COk (BCons p b, t2, np2)
  end
with pa_piece (n : nat) (t : str) (np : nat) : cres (piece * str * nat) :=
  match n with
  | O => CNoFuel
  | S n' =>
    let* (a, t1, np1) := pa_atom n' t np in
    let op := pk t1 in
    if negb (is_mult op) then COk (PAtom a, t1, np1)
    else if (negb (w_atom a) && negb (Ascii.eqb op "?"))%bool then CFail
    else if is_mult (pk (tl t1)) then CFail
    else COk (if Ascii.eqb op "*" then PStar a else if Ascii.eqb op "+" then PPlus a else POpt a, tl t1, np1)
  end
with pa_atom (n : nat) (t : str) (np : nat) : cres (atom * str * nat) :=
  match n with
  | O => CNoFuel
  | S n' =>
    match t with
    | [] => CFail
    | c :: r =>
      if Ascii.eqb c "^" then COk (ABol, r, np)
      else if Ascii.eqb c "$" then COk (AEol, r, np)
      else if Ascii.eqb c "." then COk (AAny, r, np)
      else if Ascii.eqb c "[" then match p_class r with Some (neg, em, it, q) => COk (ACls neg em it, q, np) | None => CFail end
      else if Ascii.eqb c "(" then let* (l, t1, np1) := pa_reg n' true r np in COk (AGrp np l, t1, np1)
      else if (Ascii.eqb c "|" || Ascii.eqb c ")")%bool then CFail
      else if is_mult c then CFail
      else if Ascii.eqb c "\" then match r with [] => CFail | d :: r' => COk (ALit [d], r', np) end
      else COk (ALit (firstn (p_run t) t), skipn (p_run t) t, np)
    end
  end.
