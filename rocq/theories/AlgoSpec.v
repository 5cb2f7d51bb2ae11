(** AlgoSpec.v -- the registry as the list of registrations made so far. *)
From Verif Require Import Base ConfigModel ConfigSpec AlgoModel.

(** The registrations of a history, oldest first. *)
Fixpoint registrations (es : list event) : list (str * str * nat) :=
  match es with
  | [] => []
  | ERegistered T i o :: r => (T, i, o) :: registrations r
  | _ :: r => registrations r
  end.
(** The object registered last for (T, i). *)
Fixpoint latest (T i : str) (l : list (str * str * nat)) : option nat :=
  match l with
  | [] => None
  | (T', i', o) :: r =>
    match latest T i r with
    | Some o' => Some o'
    | None => if str_eqb T' T && str_eqb i' i then Some o else None
    end
  end.
(** No definition name contains ':'. *)
Definition plain (s : str) : Prop := ~ In ":"%char s.
Definition plain_types (l : list (str * str * nat)) : Prop := forall T i o, In (T, i, o) l -> plain T.

(** [has_configuration vt a conf]: get_configuration of an object in state [a]
    gives a new block (it changes no existing one) whose keys and values are
    [conf]. *)
Definition has_configuration {A} (vt : vtable A) (a : A) (conf : list (str * str)) : Prop :=
  forall h, reachable h -> exists h' c rc pc ops,
    v_get vt a h = (h', Ok c) /\ h' = fst (run h ops) /\
    (forall id, id < List.length h -> nth_error h' id = nth_error h id) /\
    ConfigSpec.resolves h' c rc pc /\ List.length h <= rc /\
    available_values h' c = Ok (map fst conf) /\
    (forall k v, In (k, v) conf -> get_string h' c k = Ok v).
(** [block_view h cfg n h1 view]: [view] is a new handle for block [n] of [cfg],
    and nothing else changed between [h] and [h1]. *)
Definition block_view (h : heap) (cfg : nat) (n : str) (h1 : heap) (view : nat) : Prop :=
  view = List.length h /\
  (forall id, id < List.length h -> nth_error h1 id = nth_error h id) /\
  (forall k v, get_string h1 view k = Ok v <-> get_string h cfg (n ++ L ":" ++ k) = Ok v).
