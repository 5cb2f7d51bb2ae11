(** IoProps.v -- property theorems C21..C26 about reading and writing
    configuration files and about tokenize. *)
From Verif Require Import Base Numbers ConfigModel ConfigSpec ConfigProofs ConfigProofs2 ConfigProofs3 ConfigProofs4 ConfigProps
  ExpandModel ExpandSpec ExpandProofs ParserModel ParserSpec ParserProofs ParserProofs2 ParserProofs3 DocSpec
  TokenizeModel TokenizeSpec TokenizeProofs IoModel IoSpec IoProofs IoProofs2 IoProofs3.

(** C21: whatever the descriptions and the source locations are, reading the
    written text back gives the same keys and values (nothing read-only). *)
Theorem C21_write_read_round_trip h id keys :
  reachable h -> id < length h -> available_values h id = Ok keys -> keys <> [] ->
  (forall k, In k keys ->
     plain_key k /\
     (exists v, get_string h id k = Ok v /\ ~ In "#"%char v /\ ~ In newline v /\ ~ In "$"%char v) /\
     forall f l, get_location h id k = Ok (Some (f, l)) -> ~ In newline f) ->
  exists text, write_config h id = (text, WOk) /\
   forall w file, w_fs w file = File text ->
   exists n0, forall n, n0 <= n -> exists st, parse n w file = PDone st /\
     forall k, is_read_only (p_heap st) 0 k = Ok false /\
       (In k keys -> get_string (p_heap st) 0 k = get_string h id k) /\
       (has_value (p_heap st) 0 k = Ok true <-> In k keys).
Proof. exact (round_trip_reachable h id keys). Qed.
Print Assumptions C21_write_read_round_trip.
Definition rt_ops : list op :=
  [ ONew []; OSet 0 (L "aaa:bbb") (L " two  words = x ") (L "a # long" ++ [newline] ++ L "description"); OSet 0 (L "zed") [] [] ].
Definition rt_heap : heap := fst (run [] rt_ops).
Example C21_nonvacuous : reachable rt_heap /\ 0 < length rt_heap /\ available_values rt_heap 0 = Ok [L "aaa:bbb"; L "zed"] /\
  (forall k, In k [L "aaa:bbb"; L "zed"] -> plain_key k) /\
  get_string rt_heap 0 (L "aaa:bbb") = Ok (L "two  words = x") /\ get_string rt_heap 0 (L "zed") = Ok [] /\
  get_location rt_heap 0 (L "zed") = Ok None /\
  write_config rt_heap 0 =
    ([newline] ++ L "# a # long" ++ [newline] ++ L "# description" ++ [newline] ++ L "aaa:bbb = two  words = x" ++ [newline] ++
     [newline] ++ L "zed = " ++ [newline], WOk).
Proof.
  split; [exists rt_ops; reflexivity|]. split; [vm_compute; auto|]. split; [reflexivity|]. split; [|vm_compute; auto].
  intros k [<-|[<-|[]]].
  - split; [|vm_compute; intuition discriminate]. exists "a"%char, (L "aa:bb"), "b"%char.
    split; [reflexivity|]. split; [reflexivity|]. split; [discriminate|]. split; [|discriminate].
    intros x Hx. vm_compute in Hx. apply word_char_spec. repeat (destruct Hx as [<-|Hx]; [reflexivity|]). destruct Hx.
  - split; [|vm_compute; intuition discriminate]. exists "z"%char, (L "e"), "d"%char.
    split; [reflexivity|]. split; [reflexivity|]. split; [discriminate|]. split; [|discriminate].
    intros x Hx. vm_compute in Hx. apply word_char_spec. repeat (destruct Hx as [<-|Hx]; [reflexivity|]). destruct Hx.
Qed.
(** Without the restrictions the round trip fails: a value with '#' is cut, a
    two letter key is rejected by the parser, and '$' is expanded. *)
Definition cfg1 (k v : str) : heap := fst (run [] [ONew []; OSet 0 k v []]).
Definition only_file (text : str) : world :=
  mkW (fun p => if str_eqb p (L "/f") then File text else NoFile) (fun _ => None) (fun _ => []) (fun _ => true) (fun p => p) (fun p => p) [] [].
Definition reread (k v : str) : presult := parse 9 (only_file (fst (write_config (cfg1 k v) 0))) (L "/f").
Theorem C21_unrestricted_round_trip_refuted :
  (match reread (L "key") (L "a#b") with PDone st => get_string (p_heap st) 0 (L "key") = Ok (L "a") | _ => False end) /\
  (match reread (L "ky") (L "a") with PThrow (NotParsed _) _ => True | _ => False end) /\
  (match reread (L "key") (L "$ENV{x}") with PDone st => get_string (p_heap st) 0 (L "key") = Ok [] | _ => False end).
Proof. vm_compute. auto. Qed.
Print Assumptions C21_unrestricted_round_trip_refuted.

(** C22: one group of comment lines per line of the description; the words of
    the group are the words of that line, in order; see IoSpec.comment_line. *)
Theorem C22_comment_lines c : exists blocks groups,
  splits (fun x => x = newline) c blocks /\
  write_cb_comment c = newline :: concat (map (fun l => l ++ [newline]) (concat groups)) /\
  Forall2 (fun b ls => ls <> [] /\ exists gs, Forall2 comment_line ls gs /\ words b (concat gs)) blocks groups.
Proof. exact (comment_spec c). Qed.
Print Assumptions C22_comment_lines.
Example C22_demo : write_cb_comment (L "one  two" ++ [newline] ++ repeat "x"%char 78 ++ L " " ++ repeat "y"%char 90 ++ L " z") =
  [newline] ++ L "# one  two" ++ [newline] ++ L "# " ++ repeat "x"%char 78 ++ [newline] ++ L "# " ++ repeat "y"%char 90 ++ [newline] ++
  L "# z" ++ [newline].
Proof. vm_compute. reflexivity. Qed.

(** C23: the search order. *)
Theorem C23_search_order env conv app ver prefix : exists kwiver xdg home share local,
  env_entries conv (env (L "KWIVER_CONFIG_PATH")) kwiver /\
  env_entries conv (env (L "XDG_CONFIG_HOME")) xdg /\
  (forall h, env (L "HOME") = Some h -> h <> [] -> home = [h ++ L "/.config"]) /\
  (env (L "HOME") = None \/ env (L "HOME") = Some [] -> home = []) /\
  (standard_prefix prefix -> share = [] /\ local = []) /\
  (~ standard_prefix prefix -> share = [prefix ++ L "/share"] /\ local = [prefix ++ L "/share/config"; prefix ++ L "/config"]) /\
  config_file_paths env conv app ver prefix =
    kwiver ++
    flat_map (app_dirs app ver) (xdg ++ home ++ [L "/etc/xdg"; L "/etc"]) ++
    map (fun d => d ++ L "/config") (flat_map (app_dirs app ver) ([L "/usr/local/share"; L "/usr/share"] ++ share)) ++
    local.
Proof. exact (search_order env conv app ver prefix). Qed.
Print Assumptions C23_search_order.
Definition env1 (n : str) : option str :=
  if str_eqb n (L "KWIVER_CONFIG_PATH") then Some (L "/k1:/k2")
  else if str_eqb n (L "XDG_CONFIG_HOME") then Some (L "/x:")
  else if str_eqb n (L "HOME") then Some (L "/h") else None.
Example C23_demo : config_file_paths env1 (fun p => p) (L "app") (L "1") (L "/opt") =
  [L "/k1"; L "/k2"; L "/x/app/1"; L "/x/app"; L "/h/.config/app/1"; L "/h/.config/app"; L "/etc/xdg/app/1"; L "/etc/xdg/app";
   L "/etc/app/1"; L "/etc/app"; L "/usr/local/share/app/1/config"; L "/usr/local/share/app/config";
   L "/usr/share/app/1/config"; L "/usr/share/app/config"; L "/opt/share/app/1/config"; L "/opt/share/app/config";
   L "/opt/share/config"; L "/opt/config"] /\
  config_file_paths (fun _ => None) (fun p => p) (L "app") [] (L "/usr") =
  [L "/etc/xdg/app"; L "/etc/app"; L "/usr/local/share/app/config"; L "/usr/share/app/config"].
Proof. vm_compute. auto. Qed.

(** C24: [found] lists the existing files in search order, [cfgs] what reading
    each gives.  Merged: the value of the first file defining the key; an
    exception is thrown iff no file exists or some file defines a key which a
    later file marks read-only. *)
Theorem C24_merge_first_wins n w conv name app ver prefix cfgs :
  w_full w name = false ->
  let paths := config_file_paths (w_env w) conv app ver prefix in
  Forall2 (fun p c => read_file n w paths p = RDone c) (found w name (paths ++ [L "."])) cfgs ->
  match read_config n w conv name app ver prefix true with
  | RDone h => cfgs <> [] /\ (forall k, ~ conflict cfgs k) /\
               forall k v, get_string h 0 k = Ok v <-> first_value cfgs k = Ok v
  | RThrow (FileNotFound f) => cfgs = [] /\ f = name
  | RThrow (CfgExn (SetOnReadOnly k _ _)) => conflict cfgs k
  | _ => False
  end.
Proof.
  intros Hf paths HF. unfold read_config. rewrite Hf. fold paths.
  assert (HI : acc_inv [] None).
  { split; [|split; [constructor|reflexivity]]. intros k (bf & ? & ? & ? & E & _). destruct bf; discriminate. }
  pose proof (search_merge n w paths name (paths ++ [L "."]) [] cfgs None HI HF) as M. cbn [List.app] in M.
  destruct (search_loop n w paths name true (paths ++ [L "."]) None) as [h|e| |]; auto.
  destruct M as (M1 & _ & M2 & _ & M3 & _). auto.
Qed.
Print Assumptions C24_merge_first_wins.
(** A file that cannot be read stops the search with its own exception. *)
Theorem C24_unreadable_file_surfaces n w conv name app ver prefix before p after cfgs e :
  w_full w name = false ->
  let paths := config_file_paths (w_env w) conv app ver prefix in
  found w name (paths ++ [L "."]) = before ++ p :: after ->
  Forall2 (fun p c => read_file n w paths p = RDone c) before cfgs -> (forall k, ~ conflict cfgs k) ->
  read_file n w paths p = RThrow e ->
  read_config n w conv name app ver prefix true = RThrow e.
Proof.
  intros Hf paths Hfd HF NC He. unfold read_config. rewrite Hf. fold paths.
  assert (HI : acc_inv [] None).
  { split; [|split; [constructor|reflexivity]]. intros k (bf & ? & ? & ? & E & _). destruct bf; discriminate. }
  eapply search_throw; eauto.
Qed.
Print Assumptions C24_unreadable_file_surfaces.
Theorem C24_first_file_without_merge n w conv name app ver prefix :
  w_full w name = false ->
  let paths := config_file_paths (w_env w) conv app ver prefix in
  read_config n w conv name app ver prefix false =
  match found w name (paths ++ [L "."]) with [] => RThrow (FileNotFound name) | p :: _ => read_file n w paths p end.
Proof. intros Hf paths. unfold read_config. rewrite Hf. apply search_first. Qed.
Print Assumptions C24_first_file_without_merge.
Theorem C24_full_path_is_read_directly n w conv name app ver prefix merge :
  w_full w name = true ->
  read_config n w conv name app ver prefix merge = read_file n w (config_file_paths (w_env w) conv app ver prefix) name.
Proof. intro Hf. unfold read_config. rewrite Hf. reflexivity. Qed.

Definition two_fs (a b : str) (p : str) : node :=
  if str_eqb p (L "/k1/c.cfg") then File a else if str_eqb p (L "/h/.config/app/c.cfg") then File b else NoFile.
Definition two_w (a b : str) : world :=
  mkW (two_fs a b) env1 (fun _ => []) (fun p => is_prefix (L "/") p) (fun p => p) (fun p => p) [] [].
Definition two (a b : str) : rresult := read_config 9 (two_w a b) (fun p => p) (L "c.cfg") (L "app") [] [] true.
Example C24_demo :
  found (two_w [] []) (L "c.cfg") (config_file_paths env1 (fun p => p) (L "app") [] [] ++ [L "."]) = [L "/k1/c.cfg"; L "/h/.config/app/c.cfg"] /\
  match two (L "aaa = 1" ++ [newline] ++ L "bbb = 2") (L "aaa = 3" ++ [newline] ++ L "ccc = 4") with
  | RDone h => get_string h 0 (L "aaa") = Ok (L "1") /\ get_string h 0 (L "bbb") = Ok (L "2") /\ get_string h 0 (L "ccc") = Ok (L "4")
  | _ => False
  end /\
  match two (L "aaa = 1") (L "aaa[RO] = 3") with RThrow (CfgExn (SetOnReadOnly k _ _)) => k = L "aaa" | _ => False end /\
  match two (L "aaa = 1") (L "= = =") with RThrow (NotParsed _) => True | _ => False end.
Proof. vm_compute. auto. Qed.

(** C25 is false: only the read-only marks of the last file in search order
    survive, those of all files with a higher priority are lost. *)
Theorem C25_read_only_marks_of_last_file n w conv name app ver prefix cfgs h :
  w_full w name = false ->
  let paths := config_file_paths (w_env w) conv app ver prefix in
  Forall2 (fun p c => read_file n w paths p = RDone c) (found w name (paths ++ [L "."])) cfgs ->
  read_config n w conv name app ver prefix true = RDone h ->
  forall k, is_read_only h 0 k = is_read_only (last cfgs []) 0 k.
Proof.
  intros Hf paths HF. unfold read_config. rewrite Hf. fold paths. intros E k.
  assert (HI : acc_inv [] None).
  { split; [|split; [constructor|reflexivity]]. intros k0 (bf & ? & ? & ? & E0 & _). destruct bf; discriminate. }
  pose proof (search_merge n w paths name (paths ++ [L "."]) [] cfgs None HI HF) as M. rewrite E in M.
  destruct M as (_ & _ & _ & _ & _ & M). apply M.
Qed.
Print Assumptions C25_read_only_marks_of_last_file.
Theorem C25_read_only_survives_merge_refuted : exists n w name app k cfg h,
  read_file n w (config_file_paths (w_env w) (fun p => p) app [] []) (L "/k1/c.cfg") = RDone cfg /\ is_read_only cfg 0 k = Ok true /\
  In (L "/k1/c.cfg") (found w name (config_file_paths (w_env w) (fun p => p) app [] [] ++ [L "."])) /\
  read_config n w (fun p => p) name app [] [] true = RDone h /\ is_read_only h 0 k = Ok false.
Proof.
  exists 9, (two_w (L "aaa[RO] = 1") (L "bbb = 2")), (L "c.cfg"), (L "app"), (L "aaa"). do 2 eexists.
  split; [vm_compute; reflexivity|]. split; [vm_compute; reflexivity|]. split; [vm_compute; left; reflexivity|].
  split; vm_compute; reflexivity.
Qed.
Print Assumptions C25_read_only_survives_merge_refuted.

(** C26: tokenize cuts at every delimiter and appends the parts. *)
Theorem C26_tokenize_splits s old ds : exists ts, splits (fun c => In c ds) s ts /\
  tokenize s old ds false = old ++ ts /\ tokenize s old ds true = old ++ filter nonempty ts.
Proof. exact (tokenize_splits s old ds). Qed.
Print Assumptions C26_tokenize_splits.
Theorem C26_split_is_unique d s t1 t2 : (forall c, {d c} + {~ d c}) -> splits d s t1 -> splits d s t2 -> t1 = t2.
Proof. exact (splits_unique d s t1 t2). Qed.
Theorem C26_join_gives_text_back c s ts : splits (eq c) s ts ->
  join c ts = s /\ length ts = S (count c s) /\ Forall (fun t => ~ In c t) ts.
Proof. exact (splits_join c s ts). Qed.
Print Assumptions C26_join_gives_text_back.
Example C26_demo : tokenize (L ",a,,b;c") [L "o"] (L ",;") false = [L "o"; []; L "a"; []; L "b"; L "c"] /\
  tokenize (L ",a,,b;c") [L "o"] (L ",;") true = [L "o"; L "a"; L "b"; L "c"] /\
  tokenize [] [] (L ",") false = [[]].
Proof. vm_compute. auto. Qed.
