(** RegexModel.v -- vital/kwiversys/RegularExpression.cxx: the compiler of
    regular expressions into a byte program, the matcher, and the find method.
    Patterns and subjects are C strings: lists of characters without NUL (the
    entry points cut std::string texts at their first NUL). *)
From Coq Require Import List Ascii Bool Arith.
Import ListNotations.
From Verif Require Import Base.

Definition NUL : ascii := Ascii.zero.
(** std::string::c_str() as a C string. *)
Definition c_str (s : str) : str := take_while (fun c => negb (Ascii.eqb c NUL)) s.

(** 211-230: the opcodes. *)
Definition oEND := 0. Definition oBOL := 1. Definition oEOL := 2. Definition oANY := 3. Definition oANYOF := 4. Definition oANYBUT := 5.
Definition oBRANCH := 6. Definition oBACK := 7. Definition oEXACTLY := 8. Definition oNOTHING := 9. Definition oSTAR := 10. Definition oPLUS := 11.
Definition oOPEN := 20. Definition oCLOSE := 30.
Definition byte (n : nat) : ascii := ascii_of_nat n.
Definition MAGIC : ascii := byte 156.
(** RegularExpression.hxx.in 286 *)
Definition NSUBEXP := 10.
(** 283-286 *)
Definition is_mult (c : ascii) : bool := (Ascii.eqb c "*" || Ascii.eqb c "+" || Ascii.eqb c "?")%bool.
Definition META : str := L "^$.[()|?+*\".

(** 292-295: HASWIDTH, SIMPLE, SPSTART. *)
Record flags := mkF { f_width : bool; f_simple : bool; f_sp : bool }.
Definition WORST := mkF false false false.

(** 309-313: regparse as the text behind it (backwards) and before it; regcode
    is None for &regdummy, else the code written so far, in a block of regsize
    bytes. *)
Record rst := mkR { r_done : str; r_rest : str; r_npar : nat; r_code : option str; r_size : nat }.
Inductive ptr := Dummy | At (n : nat).
Inductive cres (A : Type) := COk (a : A) | CFail | CUB | CNoFuel.
Arguments COk {A}. Arguments CFail {A}. Arguments CUB {A}. Arguments CNoFuel {A}.
Definition cbind {A B} (x : cres A) (f : A -> cres B) : cres B := match x with COk a => f a | CFail => CFail | CUB => CUB | CNoFuel => CNoFuel end.
Notation "'let*' p ':=' x 'in' e" := (cbind x (fun p => e)) (at level 200, p pattern, right associativity).

(** *regparse *)
Definition peek (s : rst) : ascii := match r_rest s with [] => NUL | c :: _ => c end.
(** regparse++ (never past the end of the text). *)
Definition adv (s : rst) : rst := match r_rest s with [] => s | c :: r => mkR (c :: r_done s) r (r_npar s) (r_code s) (r_size s) end.
Definition with_code (s : rst) (c : option str) (size : nat) : rst := mkR (r_done s) (r_rest s) (r_npar s) c size.

(** 733-752: regnode *)
Definition regnode (op : nat) (s : rst) : cres (rst * ptr) :=
  match r_code s with
  | None => COk (with_code s None (r_size s + 3), Dummy)
  | Some code => if length code + 3 <=? r_size s then COk (with_code s (Some (code ++ [byte op; NUL; NUL])) (r_size s), At (length code)) else CUB
  end.
(** 758-763: regc *)
Definition regc (b : ascii) (s : rst) : cres rst :=
  match r_code s with
  | None => COk (with_code s None (r_size s + 1))
  | Some code => if length code + 1 <=? r_size s then COk (with_code s (Some (code ++ [b])) (r_size s)) else CUB
  end.
Fixpoint regcs (bs : str) (s : rst) : cres rst := match bs with [] => COk s | b :: r => let* s1 := regc b s in regcs r s1 end.
(** 771-792: reginsert *)
Definition reginsert (op : nat) (opnd : ptr) (s : rst) : cres rst :=
  match r_code s, opnd with
  | None, _ => COk (with_code s None (r_size s + 3))
  | Some code, At o => if length code + 3 <=? r_size s then COk (with_code s (Some (firstn o code ++ [byte op; NUL; NUL] ++ skipn o code)) (r_size s)) else CUB
  | Some _, Dummy => CUB
  end.
(** 266-267, 1205-1220: OP and regnext of the node at [p]; None when it is not
    inside the code. *)
Definition node_at (code : str) (p : nat) : option (nat * option nat) :=
  match nth_error code p, nth_error code (p + 1), nth_error code (p + 2) with
  | Some o, Some h, Some l =>
    let off := nat_of_ascii h * 256 + nat_of_ascii l in
    if off =? 0 then Some (nat_of_ascii o, None)
    else if nat_of_ascii o =? oBACK then if off <=? p then Some (nat_of_ascii o, Some (p - off)) else None
    else Some (nat_of_ascii o, Some (p + off))
  | _, _, _ => None
  end.
(** 806-813: the last node of the chain from [p], and its opcode. *)
Fixpoint last_node (n : nat) (code : str) (p : nat) : cres (nat * nat) :=
  match n with
  | O => CNoFuel
  | S n' => match node_at code p with
            | None => CUB
            | Some (o, None) => COk (p, o)
            | Some (_, Some q) => last_node n' code q
            end
  end.
(** 797-821: regtail *)
Definition set_next (code : str) (p off : nat) : str := lupd (lupd code (p + 1) (byte (off / 256 mod 256))) (p + 2) (byte (off mod 256)).
Definition regtail (p val : ptr) (s : rst) : cres rst :=
  match p with
  | Dummy => COk s
  | At a =>
    match r_code s, val with
    | Some code, At v =>
      let* (scan, o) := last_node (S (length code)) code a in
      if o =? oBACK then if v <=? scan then COk (with_code s (Some (set_next code scan (scan - v))) (r_size s)) else CUB
      else if scan <=? v then COk (with_code s (Some (set_next code scan (v - scan))) (r_size s)) else CUB
    | _, _ => CUB
    end
  end.
(** 827-832: regoptail *)
Definition regoptail (p val : ptr) (s : rst) : cres rst :=
  match p with
  | Dummy => COk s
  | At a =>
    match r_code s with
    | Some code => match nth_error code a with
                   | None => CUB
                   | Some o => if nat_of_ascii o =? oBRANCH then regtail (At (a + 3)) val s else COk s
                   end
    | None => CUB
    end
  end.

(** 622-661: the characters between brackets, emitted by one regc each; the
    result is the text behind and before regparse and those characters. *)
Definition range (lo hi : nat) : str := map byte (seq lo (S hi - lo)).
Fixpoint class_loop (done rest acc : str) : cres (str * str * str) :=
  match rest with
  | [] => COk (done, rest, acc)
  | c :: r =>
    if Ascii.eqb c "]" then COk (done, rest, acc)
    else if Ascii.eqb c "-" then
      match r with
      | [] => COk (c :: done, r, acc ++ L "-")
      | d :: r' =>
        if Ascii.eqb d "]" then COk (c :: done, r, acc ++ L "-")
        else match done with
             | [] => CUB
             | b :: _ =>
               let lo := S (nat_of_ascii b) in let hi := nat_of_ascii d in
               if S hi <? lo then CFail else class_loop (d :: c :: done) r' (acc ++ range lo hi)
             end
      end
    else class_loop (c :: done) r (acc ++ [c])
  end.

(** 441-714: reg, regbranch, regpiece and regatom.  [alts] and [pieces] are the
    loops of the first two; results are the state, the node and the flags. *)
Definition orf (a : bool) (f : flags) : flags := mkF (f_width f || a) (f_simple f) (f_sp f).
Definition cls_atom (s : rst) : cres (rst * ptr * flags) :=
  let* (s1, ret) := (if Ascii.eqb (peek s) "^" then let* (s1, ret) := regnode oANYBUT s in COk (adv s1, ret) else regnode oANYOF s) in
  let* s2 := (if (Ascii.eqb (peek s1) "]" || Ascii.eqb (peek s1) "-")%bool then let* s2 := regc (peek s1) s1 in COk (adv s2) else COk s1) in
  let* (done, rest, cs) := class_loop (r_done s2) (r_rest s2) [] in
  let* s3 := regcs cs (mkR done rest (r_npar s2) (r_code s2) (r_size s2)) in
  let* s4 := regc NUL s3 in
  if negb (Ascii.eqb (peek s4) "]") then CFail else COk (adv s4, ret, mkF true true false).
Definition lit_atom (s : rst) : cres (rst * ptr * flags) :=
  let run := take_while (fun c => negb (existsb (Ascii.eqb c) META)) (r_rest s) in
  let len := length run in
  if len =? 0 then CFail
  else
    let ender := match skipn len (r_rest s) with [] => NUL | c :: _ => c end in
    let len := if (1 <? len) && is_mult ender then len - 1 else len in
    let* (s1, ret) := regnode oEXACTLY s in
    let* s2 := regcs (firstn len (r_rest s1)) s1 in
    let s3 := mkR (rev (firstn len (r_rest s2)) ++ r_done s2) (skipn len (r_rest s2)) (r_npar s2) (r_code s2) (r_size s2) in
    let* s4 := regc NUL s3 in
    COk (s4, ret, mkF true (len =? 1) false).
(** 477-478: for( br = ret; br != 0; br = regnext(br) ) regoptail( br, ender ) *)
Fixpoint optails (n : nat) (br : option nat) (ender : ptr) (s : rst) : cres rst :=
  match n with
  | O => CNoFuel
  | S n' =>
    match br with
    | None => COk s
    | Some a =>
      let* s1 := regoptail (At a) ender s in
      match r_code s1 with
      | None => CUB
      | Some code => match node_at code a with None => CUB | Some (_, nx) => optails n' nx ender s1 end
      end
    end
  end.
Fixpoint reg (n : nat) (paren : bool) (s : rst) : cres (rst * ptr * flags) :=
  match n with
  | O => CNoFuel
  | S n' =>
    if (paren && (NSUBEXP <=? r_npar s))%bool then CFail
    else
      let parno := r_npar s in
      let* (s1, open) := (if paren then let* (s1, ret) := regnode (oOPEN + parno) (mkR (r_done s) (r_rest s) (S (r_npar s)) (r_code s) (r_size s)) in COk (s1, Some ret) else COk (s, None)) in
      let* (s2, br, fl) := regbranch n' s1 in
      let* (s3, ret) := (match open with Some r => let* s3 := regtail r br s2 in COk (s3, r) | None => COk (s2, br) end) in
      let* (s4, fl4) := alts n' ret s3 (mkF (f_width fl) false (f_sp fl)) in
      let* (s5, ender) := regnode (if paren then oCLOSE + parno else oEND) s4 in
      let* s6 := regtail ret ender s5 in
      let* s7 := (match ret with Dummy => COk s6 | At a => optails (match r_code s6 with Some c => S (S (length c)) | None => 0 end) (Some a) ender s6 end) in
      if paren then (if Ascii.eqb (peek s7) ")" then COk (adv s7, ret, fl4) else CFail)
      else match r_rest s7 with [] => COk (s7, ret, fl4) | _ => CFail end
  end
with alts (n : nat) (ret : ptr) (s : rst) (f : flags) : cres (rst * flags) :=
  match n with
  | O => CNoFuel
  | S n' =>
    if Ascii.eqb (peek s) "|" then
      let* (s1, br, fl) := regbranch n' (adv s) in
      let* s2 := regtail ret br s1 in
      alts n' ret s2 (mkF (f_width f && f_width fl) false (f_sp f || f_sp fl))
    else COk (s, f)
  end
with regbranch (n : nat) (s : rst) : cres (rst * ptr * flags) :=
  match n with
  | O => CNoFuel
  | S n' =>
    let* (s1, ret) := regnode oBRANCH s in
    let* (s2, chain, f) := pieces n' None s1 WORST in
    match chain with
    | None => let* (s3, _) := regnode oNOTHING s2 in COk (s3, ret, f)
    | Some _ => COk (s2, ret, f)
    end
  end
with pieces (n : nat) (chain : option ptr) (s : rst) (f : flags) : cres (rst * option ptr * flags) :=
  match n with
  | O => CNoFuel
  | S n' =>
    if match r_rest s with [] => true | c :: _ => (Ascii.eqb c "|" || Ascii.eqb c ")")%bool end then COk (s, chain, f)
    else
      let* (s1, latest, fl) := regpiece n' s in
      let f1 := mkF (f_width f || f_width fl) false (f_sp f) in
      let* (s2, f2) := (match chain with None => COk (s1, mkF (f_width f1) false (f_sp f1 || f_sp fl)) | Some c => let* s2 := regtail c latest s1 in COk (s2, f1) end) in
      pieces n' (Some latest) s2 f2
  end
with regpiece (n : nat) (s : rst) : cres (rst * ptr * flags) :=
  match n with
  | O => CNoFuel
  | S n' =>
    let* (s1, ret, fl) := regatom n' s in
    let op := peek s1 in
    if negb (is_mult op) then COk (s1, ret, fl)
    else if (negb (f_width fl) && negb (Ascii.eqb op "?"))%bool then CFail
    else
      let f := if negb (Ascii.eqb op "+") then mkF false false true else mkF true false false in
      let* s2 :=
        (if (Ascii.eqb op "*" && f_simple fl)%bool then reginsert oSTAR ret s1
         else if Ascii.eqb op "*" then
           let* sa := reginsert oBRANCH ret s1 in
           let* (sb, b) := regnode oBACK sa in
           let* sc := regoptail ret b sb in
           let* sd := regoptail ret ret sc in
           let* (se, b2) := regnode oBRANCH sd in
           let* sf := regtail ret b2 se in
           let* (sg, nt) := regnode oNOTHING sf in
           regtail ret nt sg
         else if (Ascii.eqb op "+" && f_simple fl)%bool then reginsert oPLUS ret s1
         else if Ascii.eqb op "+" then
           let* (sa, next) := regnode oBRANCH s1 in
           let* sb := regtail ret next sa in
           let* (sc, b) := regnode oBACK sb in
           let* sd := regtail b ret sc in
           let* (se, b2) := regnode oBRANCH sd in
           let* sf := regtail next b2 se in
           let* (sg, nt) := regnode oNOTHING sf in
           regtail ret nt sg
         else
           let* sa := reginsert oBRANCH ret s1 in
           let* (sb, b2) := regnode oBRANCH sa in
           let* sc := regtail ret b2 sb in
           let* (sd, next) := regnode oNOTHING sc in
           let* se := regtail ret next sd in
           regoptail ret next se) in
      let s3 := adv s2 in
      if is_mult (peek s3) then CFail else COk (s3, ret, f)
  end
with regatom (n : nat) (s : rst) : cres (rst * ptr * flags) :=
  match n with
  | O => CNoFuel
  | S n' =>
    match r_rest s with
    | [] => CFail
    | c :: r =>
      let sa := adv s in
      if Ascii.eqb c "^" then let* (s1, ret) := regnode oBOL sa in COk (s1, ret, WORST)
      else if Ascii.eqb c "$" then let* (s1, ret) := regnode oEOL sa in COk (s1, ret, WORST)
      else if Ascii.eqb c "." then let* (s1, ret) := regnode oANY sa in COk (s1, ret, mkF true true false)
      else if Ascii.eqb c "[" then cls_atom sa
      else if Ascii.eqb c "(" then let* (s1, ret, fl) := reg n' true sa in COk (s1, ret, mkF (f_width fl) false (f_sp fl))
      else if (Ascii.eqb c "|" || Ascii.eqb c ")")%bool then CFail
      else if is_mult c then CFail
      else if Ascii.eqb c "\" then
        match r with
        | [] => CFail
        | d :: _ => let* (s1, ret) := regnode oEXACTLY sa in
                    let* s2 := regc d s1 in
                    let* s3 := regc NUL (adv s2) in
                    COk (s3, ret, mkF true true false)
        end
      else lit_atom s
    end
  end.

(** The C string at [p] in the code; None when it does not end there. *)
Definition c_string (code : str) (p : nat) : option str :=
  let t := take_while (fun c => negb (Ascii.eqb c NUL)) (skipn p code) in
  if p + length t <? length code then Some t else None.

(** RegularExpression.hxx.in 287-297: the compiled expression; regmust as an
    offset into the program. *)
Record regexp := mkX { x_prog : str; x_start : ascii; x_anch : bool; x_must : option nat; x_mlen : nat }.
(** 424-430: the longest EXACTLY of the chain from [scan]. *)
Fixpoint find_must (n : nat) (code : str) (scan : option nat) (longest : option nat) (len : nat) : cres (option nat * nat) :=
  match n with
  | O => CNoFuel
  | S n' =>
    match scan with
    | None => COk (longest, len)
    | Some p =>
      match node_at code p with
      | None => CUB
      | Some (o, nx) =>
        if o =? oEXACTLY then
          match c_string code (p + 3) with
          | None => CUB
          | Some t => if len <=? length t then find_must n' code nx (Some (p + 3)) (length t) else find_must n' code nx longest len
          end
        else find_must n' code nx longest len
      end
    end
  end.
(** 393: 32767L *)
Definition LIMIT : nat := 256 * 128 - 1.
Definition compile_fuel (e : str) : nat := 6 * length e + 6.
(** 353-435: compile, for a text without NUL; COk None: false is returned and
    the object keeps its program. *)
Definition compile (e : str) : cres (option regexp) :=
  let* s0 := regc MAGIC (mkR [] e 1 None 0) in
  match reg (compile_fuel e) false s0 with
  | CFail => COk None
  | CUB => CUB
  | CNoFuel => CNoFuel
  | COk (s1, _, _) =>
    if LIMIT <=? r_size s1 then COk None
    else
      let* t0 := regc MAGIC (mkR [] e 1 (Some []) (r_size s1)) in
      match reg (compile_fuel e) false t0 with
      | COk (t1, _, fl) =>
        match r_code t1 with
        | None => CUB
        | Some code =>
          match node_at code 1 with
          | Some (_, Some nx) =>
            match node_at code nx with
            | None => CUB
            | Some (o, _) =>
              if o =? oEND then
                match nth_error code 4 with
                | None => CUB
                | Some o4 =>
                  let start := if nat_of_ascii o4 =? oEXACTLY then nth 7 code NUL else NUL in
                  let anch := if nat_of_ascii o4 =? oEXACTLY then false else nat_of_ascii o4 =? oBOL in
                  if f_sp fl then let* (must, len) := find_must (S (length code)) code (Some 4) None 0 in COk (Some (mkX code start anch must len))
                  else COk (Some (mkX code start anch None 0))
                end
              else COk (Some (mkX code NUL false None 0))
            end
          | _ => CUB
          end
        end
      | CFail => CUB
      | CUB => CUB
      | CNoFuel => CNoFuel
      end
  end.

(** 868-871: reginput (offset into the subject), startp and endp. *)
Record gst := mkG { g_in : nat; g_start : list (option nat); g_end : list (option nat) }.
Inductive mres := MRes (b : bool) (g : gst) | MUB | MNoFuel.
Definition set_in (g : gst) (i : nat) : gst := mkG i (g_start g) (g_end g).
(** *reginput *)
Definition subj (s : str) (i : nat) : ascii := nth i s NUL.
(** strchr( set, c ) != 0 for a character that is not NUL *)
Definition in_set (set : str) (c : ascii) : bool := existsb (Ascii.eqb c) set.
(** The length of the longest run of characters satisfying [f] at the front. *)
Definition count_run (f : ascii -> bool) (s : str) : nat := length (take_while f s).
(** 1158-1199: regrepeat: how often the simple node at [p] matches from [i]. *)
Definition regrepeat (s code : str) (p i : nat) : option nat :=
  match nth_error code p, c_string code (p + 3) with
  | Some o, set =>
    let o := nat_of_ascii o in
    if o =? oANY then Some (length s - i)
    else if o =? oEXACTLY then match nth_error code (p + 3) with Some c => if Ascii.eqb c NUL then None else Some (count_run (Ascii.eqb c) (skipn i s)) | None => None end
    else if o =? oANYOF then match set with Some t => Some (count_run (in_set t) (skipn i s)) | None => None end
    else if o =? oANYBUT then match set with Some t => Some (count_run (fun c => negb (in_set t c)) (skipn i s)) | None => None end
    else Some 0
  | None, _ => None
  end.
(** 1103-1110: the loop of STAR and PLUS; [rest] is regmatch(next).  After the
    last failure reginput is set one before [save] (not modelled: unused). *)
Fixpoint star_loop (rest : gst -> mres) (s : str) (nextch : ascii) (min save no : nat) (g : gst) : mres :=
  if no <? min then MRes false g
  else
    let go := fun g1 => match no with O => MRes false g1 | S no' => star_loop rest s nextch min save no' (set_in g1 (save + no')) end in
    if (Ascii.eqb nextch NUL || Ascii.eqb (subj s (g_in g)) nextch)%bool then
      match rest g with
      | MRes true g1 => MRes true g1
      | MRes false g1 => go g1
      | e => e
      end
    else go g.
(** 986-1152: regmatch *)
Fixpoint regmatch (s code : str) (n : nat) (scan : option nat) (g : gst) : mres :=
  match n with
  | O => MNoFuel
  | S n' =>
    match scan with
    | None => MRes false g
    | Some p =>
      match node_at code p with
      | None => MUB
      | Some (o, next) =>
        let i := g_in g in
        let c := subj s i in
        let eos := length s <=? i in
        if o =? oBOL then if i =? 0 then regmatch s code n' next g else MRes false g
        else if o =? oEOL then if eos then regmatch s code n' next g else MRes false g
        else if o =? oANY then if eos then MRes false g else regmatch s code n' next (set_in g (i + 1))
        else if o =? oEXACTLY then
          match c_string code (p + 3) with
          | None => MUB
          | Some t =>
            if negb (Ascii.eqb (match t with [] => NUL | x :: _ => x end) c) then MRes false g
            else if ((1 <? length t) && negb (is_prefix t (skipn i s)))%bool then MRes false g
            else regmatch s code n' next (set_in g (i + length t))
          end
        else if o =? oANYOF then
          match c_string code (p + 3) with
          | None => MUB
          | Some t => if (eos || negb (in_set t c))%bool then MRes false g else regmatch s code n' next (set_in g (i + 1))
          end
        else if o =? oANYBUT then
          match c_string code (p + 3) with
          | None => MUB
          | Some t => if (eos || in_set t c)%bool then MRes false g else regmatch s code n' next (set_in g (i + 1))
          end
        else if ((o =? oNOTHING) || (o =? oBACK))%bool then regmatch s code n' next g
        else if ((oOPEN + 1 <=? o) && (o <=? oOPEN + 9))%bool then
          match regmatch s code n' next g with
          | MRes true g1 => let no := o - oOPEN in MRes true (match nth no (g_start g1) None with None => mkG (g_in g1) (lupd (g_start g1) no (Some i)) (g_end g1) | Some _ => g1 end)
          | e => e
          end
        else if ((oCLOSE + 1 <=? o) && (o <=? oCLOSE + 9))%bool then
          match regmatch s code n' next g with
          | MRes true g1 => let no := o - oCLOSE in MRes true (match nth no (g_end g1) None with None => mkG (g_in g1) (g_start g1) (lupd (g_end g1) no (Some i)) | Some _ => g1 end)
          | e => e
          end
        else if o =? oBRANCH then
          match next with
          | None => MUB
          | Some q =>
            match nth_error code q with
            | None => MUB
            | Some oq =>
              if negb (nat_of_ascii oq =? oBRANCH) then regmatch s code n' (Some (p + 3)) g
              else
                (fix branches (k : nat) (p : nat) (g : gst) : mres :=
                  match k with
                  | O => MNoFuel
                  | S k' =>
                    match regmatch s code n' (Some (p + 3)) g with
                    | MRes true g1 => MRes true g1
                    | MRes false g1 =>
                      let g2 := set_in g1 (g_in g) in
                      match node_at code p with
                      | None => MUB
                      | Some (_, None) => MRes false g2
                      | Some (_, Some q) =>
                        match nth_error code q with
                        | None => MUB
                        | Some oq => if nat_of_ascii oq =? oBRANCH then branches k' q g2 else MRes false g2
                        end
                      end
                    | e => e
                    end
                  end) (length code) p g
            end
          end
        else if ((o =? oSTAR) || (o =? oPLUS))%bool then
          match next with
          | None => MUB
          | Some q =>
            match nth_error code q with
            | None => MUB
            | Some oq =>
              let nextch := if nat_of_ascii oq =? oEXACTLY then nth (q + 3) code NUL else NUL in
              match regrepeat s code (p + 3) i with
              | None => MUB
              | Some no => star_loop (regmatch s code n' (Some q)) s nextch (if o =? oSTAR then 0 else 1) i no (set_in g (i + no))
              end
            end
          end
        else if o =? oEND then MRes true g
        else MRes false g
      end
    end
  end.
(** 951-974: regtry *)
Definition regtry (s code : str) (n i : nat) : mres :=
  match regmatch s code n (Some 1) (mkG i (repeat None NSUBEXP) (repeat None NSUBEXP)) with
  | MRes true g => MRes true (mkG (g_in g) (lupd (g_start g) 0 (Some i)) (lupd (g_end g) 0 (Some (g_in g))))
  | e => e
  end.
(** 907-914: whether the "must appear" text is there. *)
Fixpoint must_loop (must : str) (s : str) : bool :=
  match s with
  | [] => false
  | c :: r => (match must with m :: _ => Ascii.eqb c m | [] => false end && is_prefix must s || must_loop must r)%bool
  end.
(** 925-941: trying from position [i] on; [k] characters are left. *)
Fixpoint try_from (s code : str) (n : nat) (start : ascii) (k i : nat) : mres :=
  let go := match k with O => MRes false (mkG i (repeat None NSUBEXP) (repeat None NSUBEXP)) | S k' => try_from s code n start k' (i + 1) end in
  if Ascii.eqb start NUL then
    match regtry s code n i with MRes true g => MRes true g | MRes false _ => go | e => e end
  else match k with
       | O => MRes false (mkG i (repeat None NSUBEXP) (repeat None NSUBEXP))
       | S _ => if Ascii.eqb (subj s i) start then match regtry s code n i with MRes true g => MRes true g | MRes false _ => go | e => e end else go
       end.
(** 885-945: find, for a subject without NUL; [n] is the fuel of regmatch.  Of a
    negative answer only the answer is modelled, not the arrays. *)
Definition rx_find (n : nat) (x : regexp) (s : str) : mres :=
  let code := x_prog x in
  if negb (Ascii.eqb (nth 0 code NUL) MAGIC) then MRes false (mkG 0 (repeat None NSUBEXP) (repeat None NSUBEXP))
  else if match x_must x with
     | None => false
     | Some p => negb (must_loop (firstn (x_mlen x) (skipn p code)) s)
     end then MRes false (mkG 0 (repeat None NSUBEXP) (repeat None NSUBEXP))
  else if x_anch x then regtry s code n 0
  else try_from s code n (x_start x) (length s) 0.
(** The std::string versions. *)
Definition compile_string (e : str) := compile (c_str e).
Definition find_string (n : nat) (x : regexp) (s : str) := rx_find n x (c_str s).
(** RegularExpression.hxx.in 424-436: match( n ); [s] is the text given to find. *)
Definition match_n (s : str) (g : gst) (n : nat) : str :=
  match nth n (g_start g) None, nth n (g_end g) None with
  | Some a, Some b => firstn (b - a) (skipn a s)
  | _, _ => []
  end.
