(** TrackModel.v -- vital/types/track.h, track.cxx, track_set.cxx.
    [P] is what a state carries besides its frame (feature and descriptor).
    Frame ids are unbounded integers (simplification: int64_t in the code, so
    last_frame() + 1 and -offset can overflow there); unsigned counters do not
    wrap and the quotient of percentage_tracked is exact (a double in the code). *)
From Coq Require Import List ZArith QArith Bool.
Import ListNotations.
Local Open Scope Z_scope.

Section Track.
Variable P : Type.
(** track.h 64-79 track_state *)
Definition state : Type := (Z * P).
Definition frame_of (s : state) : Z := fst s.
(** track.h 60-170 *)
Record track := mkTrack { t_history : list state; t_id : Z }.
(** track.cxx 59-80: constructors *)
Definition track_default : track := mkTrack [] 0.
Definition track_of (s : state) : track := mkTrack [s] 0.
Definition track_copy (t : track) : track := mkTrack (t_history t) (t_id t).
Definition set_id (t : track) (i : Z) : track := mkTrack (t_history t) i.
(** track.cxx 84-107 *)
Definition first_frame (t : track) : Z := match t_history t with [] => 0 | s :: _ => frame_of s end.
Definition last_frame (t : track) : Z := match rev (t_history t) with [] => 0 | s :: _ => frame_of s end.
Definition empty (t : track) : bool := match t_history t with [] => true | _ => false end.
Definition size (t : track) : nat := length (t_history t).
(** track.cxx 111-122 append( state ) *)
Definition append_state (t : track) (s : state) : track * bool :=
  if negb (empty t) && (last_frame t >=? frame_of s) then (t, false)
  else (mkTrack (t_history t ++ [s]) (t_id t), true).
(** track.cxx 126-137 append( track ) *)
Definition append_track (t u : track) : track * bool :=
  if negb (empty t) && negb (empty u) && (last_frame t >=? first_frame u) then (t, false)
  else (mkTrack (t_history t ++ t_history u) (t_id t), true).
(** std::lower_bound as libstdc++ does it: [first] and [len] delimit the range
    still searched; the fuel is the length of the history. *)
Fixpoint lower_bound (n : nat) (l : list state) (first len : nat) (f : Z) : nat :=
  match n with
  | O => first
  | S n' =>
    match len with
    | O => first
    | _ =>
      let half := Nat.div2 len in
      match nth_error l (first + half) with
      | Some s => if (frame_of s <? f)%Z then lower_bound n' l (first + half + 1) (len - half - 1) f
                  else lower_bound n' l first half f
      | None => first
      end
    end
  end%nat.
(** track.cxx 141-157 find; the position [size] is end(). *)
Definition find (t : track) (f : Z) : nat :=
  if (f <? first_frame t) || (f >? last_frame t) then size t
  else
    let it := lower_bound (size t) (t_history t) 0 (size t) f in
    match nth_error (t_history t) it with
    | Some s => if frame_of s =? f then it else size t
    | None => size t
    end.
(** std::set<int64_t>: the elements in order. *)
Fixpoint zinsert (x : Z) (l : list Z) : list Z :=
  match l with
  | [] => [x]
  | y :: r => match x ?= y with Lt => x :: l | Eq => l | Gt => y :: zinsert x r end
  end.
Definition zset_of (l : list Z) : list Z := fold_left (fun s x => zinsert x s) l [].
(** track.cxx 161-172 all_frame_ids *)
Definition all_frame_ids (t : track) : list Z := zset_of (map frame_of (t_history t)).

(** track_set.cxx 63-93: frames and ids of a set *)
Definition set_frame_ids (ts : list track) : list Z :=
  fold_left (fun ids t => fold_left (fun s x => zinsert x s) (all_frame_ids t) ids) ts [].
Definition set_track_ids (ts : list track) : list Z := zset_of (map t_id ts).
(** track_set.cxx 98-114, 118-134 *)
Definition set_last_frame (ts : list track) : Z :=
  fold_left (fun l t => if last_frame t >? l then last_frame t else l) ts 0.
Definition set_first_frame (ts : list track) : Z :=
  fold_left (fun l t => if first_frame t <? l then first_frame t else l) ts 0.
(** track_set.cxx 138-152 *)
Fixpoint get_track (ts : list track) (tid : Z) : option track :=
  match ts with [] => None | t :: r => if t_id t =? tid then Some t else get_track r tid end.
(** track_set.cxx 354-370 *)
Definition offset_to_frame (ts : list track) (offset : Z) : Z :=
  if offset >=? 0 then offset
  else
    let frame_number := set_last_frame ts + 1 in
    if - offset <=? frame_number then frame_number + offset else frame_number.
(** [t->find(frame) != t->end()] *)
Definition found (t : track) (f : Z) : bool := negb (Nat.eqb (find t f) (size t)).
(** track_set.cxx 156-236: the loops with push_back *)
Definition active_tracks (ts : list track) (offset : Z) : list track :=
  let f := offset_to_frame ts offset in fold_left (fun acc t => if found t f then acc ++ [t] else acc) ts [].
Definition inactive_tracks (ts : list track) (offset : Z) : list track :=
  let f := offset_to_frame ts offset in fold_left (fun acc t => if negb (found t f) then acc ++ [t] else acc) ts [].
Definition new_tracks (ts : list track) (offset : Z) : list track :=
  let f := offset_to_frame ts offset in fold_left (fun acc t => if first_frame t =? f then acc ++ [t] else acc) ts [].
Definition terminated_tracks (ts : list track) (offset : Z) : list track :=
  let f := offset_to_frame ts offset in fold_left (fun acc t => if last_frame t =? f then acc ++ [t] else acc) ts [].
(** track_set.cxx 240-264 *)
Definition percentage_tracked (ts : list track) (o1 o2 : Z) : Q :=
  let f1 := offset_to_frame ts o1 in let f2 := offset_to_frame ts o2 in
  let '(total, both) := fold_left (fun acc t => let '(total, both) := acc in
      (total + (if found t f1 || found t f2 then 1 else 0), both + (if found t f1 && found t f2 then 1 else 0))) ts (0, 0) in
  if total =? 0 then 0%Q else (inject_Z both / inject_Z total)%Q.
(** track_set.cxx 268-306: None is the undefined [end()-1] of an empty history *)
Fixpoint last_frame_payload (ts : list track) (last : Z) (acc : list P) : option (list P) :=
  match ts with
  | [] => Some acc
  | t :: r =>
    if last_frame t =? last then
      match rev (t_history t) with
      | s :: _ => last_frame_payload r last (acc ++ [snd s])
      | [] => None
      end
    else last_frame_payload r last acc
  end.
Definition last_frame_features (ts : list track) : option (list P) := last_frame_payload ts (set_last_frame ts) [].
(** track_set.cxx 310-350 *)
Definition frame_features (ts : list track) (offset : Z) : list P :=
  let f := offset_to_frame ts offset in
  fold_left (fun acc t => match nth_error (t_history t) (find t f) with Some s => acc ++ [snd s] | None => acc end) ts [].
End Track.
Arguments mkTrack {P}. Arguments t_history {P}. Arguments t_id {P}. Arguments track_of {P}. Arguments track_copy {P}. Arguments set_id {P}.
Arguments first_frame {P}. Arguments last_frame {P}. Arguments append_state {P}. Arguments append_track {P}. Arguments find {P}.
Arguments size {P}. Arguments empty {P}. Arguments frame_of {P}. Arguments all_frame_ids {P}. Arguments set_frame_ids {P}. Arguments set_track_ids {P}.
Arguments set_last_frame {P}. Arguments set_first_frame {P}. Arguments get_track {P}. Arguments offset_to_frame {P}. Arguments found {P}.
Arguments active_tracks {P}. Arguments inactive_tracks {P}. Arguments new_tracks {P}. Arguments terminated_tracks {P}.
Arguments percentage_tracked {P}. Arguments last_frame_features {P}. Arguments last_frame_payload {P}. Arguments frame_features {P}. Arguments lower_bound {P}.

(** Programs building tracks: a store of track objects and operations on it. *)
Inductive top (P : Type) :=
| TNew | TOf (f : Z) (p : P) | TCopy (i : nat) | TSetId (i : nat) (id : Z)
| TAppend (i : nat) (f : Z) (p : P) | TAppendTrack (i j : nat).
Arguments TNew {P}. Arguments TOf {P}. Arguments TCopy {P}. Arguments TSetId {P}. Arguments TAppend {P}. Arguments TAppendTrack {P}.
