(** UrlSpec.v -- the parts of a URL. *)
From Verif Require Import Base.

Definition alnum_char (c : ascii) : Prop := is_alpha c = true \/ is_digit c = true.
Record parts := Parts { u_protocol : str; u_user : option (str * option str); u_host : str; u_port : option str; u_database : str }.
(** protocol://[user[:password]@]host[:port]/database *)
Definition user_text (u : option (str * option str)) : str :=
  match u with
  | None => []
  | Some (name, None) => name ++ L "@"
  | Some (name, Some pw) => name ++ L ":" ++ pw ++ L "@"
  end.
Definition port_text (p : option str) : str := match p with None => [] | Some d => L ":" ++ d end.
Definition url_text (p : parts) : str :=
  u_protocol p ++ L "://" ++ user_text (u_user p) ++ u_host p ++ port_text (u_port p) ++ L "/" ++ u_database p.
Definition valid_user (u : option (str * option str)) : Prop :=
  match u with
  | None => True
  | Some (name, pw) => name <> [] /\ (forall c, In c name -> alnum_char c) /\
      match pw with None => True | Some w => w <> [] /\ forall c, In c w -> c <> ":"%char /\ c <> "@"%char end
  end.
Definition valid (p : parts) : Prop :=
  (forall c, In c (u_protocol p) -> alnum_char c) /\ valid_user (u_user p) /\
  (u_host p <> [] /\ forall c, In c (u_host p) -> c <> ":"%char /\ c <> "@"%char /\ c <> "/"%char) /\
  match u_port p with None => True | Some d => d <> [] /\ forall c, In c d -> is_digit c = true end.
(** What the caller gets: an absent part is empty. *)
Definition outputs (p : parts) : list str :=
  [u_protocol p; match u_user p with Some (n, _) => n | None => [] end; match u_user p with Some (_, Some w) => w | _ => [] end;
   u_host p; match u_port p with Some d => d | None => [] end; u_database p].
(** The way the text is read: the URL runs to the end of the text; of all the
    places where one begins the first; with a user if that is possible. *)
Definition url_in (text : str) (pre : str) (p : parts) : Prop := text = pre ++ url_text p /\ valid p.
Definition preferred (text : str) (pre : str) (p : parts) : Prop := url_in text pre p /\
  (forall pre' p', url_in text pre' p' -> length pre <= length pre') /\
  (u_user p = None -> forall pre' p', url_in text pre' p' -> length pre' = length pre -> u_user p' = None).

(** protocol://rest: at the first "://" of the text; the protocol is all the
    letters and digits before it, the rest all that follows. *)
Definition protocol_in (text pre proto rest : str) : Prop :=
  text = pre ++ proto ++ L "://" ++ rest /\ (forall c, In c proto -> alnum_char c) /\
  (forall pre' c, pre = pre' ++ [c] -> ~ alnum_char c) /\
  (forall a b, text = a ++ L "://" ++ b -> length (pre ++ proto) <= length a).
