(** UrlModel.v -- SystemTools::ParseURLProtocol and ParseURL
    (vital/kwiversys/SystemTools.cxx 119-120, 5232-5280), on the model of
    kwiversys::RegularExpression (RegexModel.v).  [None]: the regular expression
    was not compiled or the search was not finished with this fuel. *)
From Verif Require Import Base RegexModel.

(** SystemTools.cxx 119-120 *)
Definition VTK_URL_PROTOCOL_REGEX : str := L "([a-zA-Z0-9]*)://(.*)".
Definition VTK_URL_REGEX : str := L "([a-zA-Z0-9]*)://(([A-Za-z0-9]+)(:([^:@]+))?@)?([^:@/]+)(:([0-9]+))?/(.+)?".

(** [urlRe( REGEX ); urlRe.find( URL )] and the matches asked for. *)
Definition url_find (fuel : nat) (pat url : str) (ks : list nat) : option (bool * list str) :=
  match compile_string pat with
  | COk (Some x) => match find_string fuel x url with
                    | MRes true g => Some (true, map (match_n url g) ks)
                    | MRes false g => Some (false, [])
                    | _ => None
                    end
  | _ => None
  end.
(** 5232-5248: the return value; protocol and dataglom (unchanged if false). *)
Definition parse_url_protocol (fuel : nat) (url : str) : option (bool * list str) := url_find fuel VTK_URL_PROTOCOL_REGEX url [1; 2].
(** 5251-5280: the return value; protocol, username, password, hostname, dataport, database. *)
Definition parse_url (fuel : nat) (url : str) : option (bool * list str) := url_find fuel VTK_URL_REGEX url [1; 3; 5; 6; 8; 9].
