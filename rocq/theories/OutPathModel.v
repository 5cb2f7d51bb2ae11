(** OutPathModel.v -- paths for the command line:
    SystemTools::ConvertToUnixOutputPath, ConvertToOutputPath and
    ConvertToWindowsOutputPath (vital/kwiversys/SystemTools.cxx 2143-2223).
    [None] stands for a loop not finished after [fuel] rounds (it never happens,
    see OutPathProofs.v).  A [std::string] may hold NUL bytes. *)
From Verif Require Import Base.

Definition oslash : ascii := "/".
Definition bslash : ascii := "\".
Definition blank : ascii := " ".
Definition quote : ascii := """".
(** [std::string::find(pat, pos)] for a pattern that is not empty: the first
    place not before pos. *)
Fixpoint find_first (pat s : str) : option nat :=
  if is_prefix pat s then Some 0
  else match s with [] => None | _ :: s => match find_first pat s with Some k => Some (S k) | None => None end end.
Definition find_at (pat s : str) (pos : nat) : option nat :=
  match find_first pat (skipn pos s) with Some k => Some (pos + k) | None => None end.
(** [std::string::erase(pos, 1)] *)
Definition erase1 (s : str) (pos : nat) : str := firstn pos s ++ skipn (S pos) s.
(** The loops of 2149-2152 and 2210-2213. *)
Fixpoint squeeze (fuel : nat) (pat ret : str) (pos : nat) : option str :=
  match fuel with
  | 0 => None
  | S fuel => match find_at pat ret pos with
              | None => Some ret
              | Some k => squeeze fuel pat (erase1 ret k) k
              end
  end.
(** The loop of 2158-2167, over the bytes before the first NUL; [l] is lastch. *)
Fixpoint escape (l : ascii) (s : str) : str :=
  match s with
  | [] => []
  | c :: s => if Ascii.eqb c "000" then []
              else (if (Ascii.eqb c blank && negb (Ascii.eqb l bslash))%bool then [bslash] else []) ++ c :: escape c s
  end.
(** 2143-2171: ConvertToUnixOutputPath. *)
Definition to_unix_output (path : str) : option str :=
  match squeeze (S (length path)) [oslash; oslash] path 1 with
  | None => None
  | Some ret => if existsb (Ascii.eqb blank) ret then Some (escape "001" ret) else Some ret
  end.
(** 2173-2180: ConvertToOutputPath (not Windows). *)
Definition to_output (path : str) : option str := to_unix_output path.

(** The loop of 2192-2196. *)
Fixpoint to_backslashes (fuel : nat) (ret : str) (pos : nat) : option str :=
  match fuel with
  | 0 => None
  | S fuel => match find_at [oslash] ret pos with
              | None => Some ret
              | Some k => to_backslashes fuel (lupd ret k bslash) (S k)
              end
  end.
(** 2183-2223: ConvertToWindowsOutputPath. *)
Definition to_windows_output (path : str) : option str :=
  match to_backslashes (S (length path)) path 0 with
  | None => None
  | Some ret =>
      if length ret <? 2 then Some ret
      else
        let quoted := Ascii.eqb (nth 0 ret "000"%char) quote in
        if (quoted && (length ret <? 3))%bool then Some ret
        else match squeeze (S (length ret)) [bslash; bslash] ret (if quoted then 2 else 1) with
             | None => None
             | Some ret =>
                 if (existsb (Ascii.eqb blank) ret && negb (Ascii.eqb (nth 0 ret "000"%char) quote))%bool
                 then Some (quote :: ret ++ [quote]) else Some ret
             end
  end.
