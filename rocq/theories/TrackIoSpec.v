(** TrackIoSpec.v -- what the text of numbers must satisfy and what is read back. *)
From Coq Require Import List ZArith.
Import ListNotations.
From Verif Require Import Base Stream TrackModel TrackSpec TrackIoModel.
Local Open Scope Z_scope.

(** Doubles: the text of a (finite) double is a word, and reading a text that
    starts with it and goes on with white space gives [round] of it. *)
Definition number_format {D} (show : D -> str) (scan : str -> D * bool * str) (good : D -> Prop) (round : D -> D) : Prop :=
  forall d, good d -> word (show d) /\ forall r, ends r -> scan (show d ++ r) = (round d, false, r).
Definition int64 (z : Z) : Prop := - 2 ^ 63 <= z < 2 ^ 63.
Definition byte (z : Z) : Prop := 0 <= z < 256.
Definition good_color (c : color) : Prop := byte (c_r c) /\ byte (c_g c) /\ byte (c_b c).
Definition good_feature {D} (good : D -> Prop) (f : feature D) : Prop :=
  good (f_x f) /\ good (f_y f) /\ good (f_mag f) /\ good (f_scale f) /\ good (f_angle f) /\ good_color (f_color f).
(** A track that can be written: a non-empty history of states with features. *)
Definition writable {D} (good : D -> Prop) (t : track (option (feature D))) : Prop :=
  t_history t <> [] /\ int64 (t_id t) /\
  forall s, In s (t_history t) -> int64 (frame_of s) /\ exists f, snd s = Some f /\ good_feature good f.
(** The same state with the numbers rounded. *)
Definition same_state {D} (round : D -> D) (s : state (option (feature D))) (s' : state (rfeature D)) : Prop :=
  frame_of s' = frame_of s /\ exists f, snd s = Some f /\
  snd s' = mkR (round (f_x f)) (round (f_y f)) (Some (round (f_mag f))) (Some (round (f_scale f))) (Some (round (f_angle f))) (f_color f).
Definition same_track {D} (round : D -> D) (t : track (option (feature D))) (t' : track (rfeature D)) : Prop :=
  t_id t' = t_id t /\ Forall2 (same_state round) (t_history t) (t_history t').
