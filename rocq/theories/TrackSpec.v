(** TrackSpec.v -- histories of track operations and ordered histories. *)
From Coq Require Import List ZArith Sorted.
Import ListNotations.
From Verif Require Import Base TrackModel.
Local Open Scope Z_scope.

(** Running an operation; unknown objects are ignored. *)
Definition tstep {P} (st : list (track P)) (o : top P) : list (track P) :=
  match o with
  | TNew => st ++ [track_default P]
  | TOf f p => st ++ [track_of (f, p)]
  | TCopy i => match nth_error st i with Some t => st ++ [track_copy t] | None => st end
  | TSetId i id => match nth_error st i with Some t => lupd st i (set_id t id) | None => st end
  | TAppend i f p => match nth_error st i with Some t => lupd st i (fst (append_state t (f, p))) | None => st end
  | TAppendTrack i j => match nth_error st i, nth_error st j with Some t, Some u => lupd st i (fst (append_track t u)) | _, _ => st end
  end.
Definition truns {P} (ops : list (top P)) : list (track P) := fold_left tstep ops [].
(** A track some program can hold. *)
Definition treachable {P} (t : track P) : Prop := exists ops, In t (truns ops).

(** The frames of a track. *)
Definition frames {P} (t : track P) : list Z := map frame_of (t_history t).
Definition increasing (l : list Z) : Prop := StronglySorted Z.lt l.
Definition on_frame {P} (t : track P) (f : Z) : Prop := exists s, In s (t_history t) /\ frame_of s = f.
(** The same, decided by scanning the history. *)
Definition on_frameb {P} (f : Z) (t : track P) : bool := existsb (fun s => frame_of s =? f) (t_history t).
(** The payload a track carries on a frame. *)
Definition payload_on {P} (f : Z) (t : track P) : list P := map snd (filter (fun s => frame_of s =? f) (t_history t)).
(** The last frame number of a set, as documented: the largest frame any track covers. *)
Definition largest_frame {P} (ts : list (track P)) (m : Z) : Prop :=
  (exists t, In t ts /\ on_frame t m) /\ forall t f, In t ts -> on_frame t f -> f <= m.
Definition smallest_frame {P} (ts : list (track P)) (m : Z) : Prop :=
  (exists t, In t ts /\ on_frame t m) /\ forall t f, In t ts -> on_frame t f -> m <= f.
(** Negative offsets count back from one past the last frame. *)
Definition frame_at {P} (ts : list (track P)) (offset f : Z) : Prop :=
  (0 <= offset /\ f = offset) \/
  (offset < 0 /\ - offset <= set_last_frame ts + 1 /\ f = set_last_frame ts + 1 + offset) \/
  (offset < 0 /\ - offset > set_last_frame ts + 1 /\ f = set_last_frame ts + 1).
