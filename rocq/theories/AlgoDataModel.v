(** AlgoDataModel.v -- the data handling of the abstract algorithms:
    vital/algo/estimate_similarity_transform.cxx, optimize_cameras.cxx,
    filter_features.cxx, estimate_homography.cxx (and the two functions with
    the same body in estimate_fundamental_matrix.cxx and
    estimate_essential_matrix.cxx).  The pure virtual functions they call are
    parameters.  Shared pointers are [option]s: [None] is a null pointer. *)
From Coq Require Import List ZArith Bool.
From Verif Require Import Base.
Import ListNotations.

(** What a function that reads through pointers and indices does. *)
Inductive res (A : Type) := Ok (a : A) | UB | Stuck.
Arguments Ok {A}. Arguments UB {A}. Arguments Stuck {A}.

Definition zmap (V : Type) := list (Z * V).
Definition zfind {V} := @m_find Z Z.compare V.
Definition zset {V} := @m_set Z Z.compare V.
Definition zhas {V} := @m_has Z Z.compare V.
Definition zsorted {V} := @m_sorted Z Z.compare V.

Section Pts.
  Context {A P : Type} (loc : A -> P).

  (** estimate_similarity_transform.cxx 118-145: map_to_pts. *)
  Fixpoint map_to_pts (fuel : nat) (from to : zmap (option A)) (from_pts to_pts : list P) : res (list P * list P) :=
    match from, to with
    | [], _ | _, [] => Ok (from_pts, to_pts)
    | (f, a) :: from', (t, b) :: to' =>
        match fuel with
        | O => Stuck
        | S fuel =>
            if (t <? f)%Z then map_to_pts fuel from to' from_pts to_pts
            else if (f <? t)%Z then map_to_pts fuel from' to from_pts to_pts
            else match a, b with
                 | Some a, Some b => map_to_pts fuel from' to' (from_pts ++ [loc a]) (to_pts ++ [loc b])
                 | _, _ => UB
                 end
        end
    end.
  (** estimate_similarity_transform.cxx 149-181: the two map overloads, up to
      the call of the pure virtual overload. *)
  Definition map_points (from to : zmap (option A)) : res (list P * list P) := map_to_pts (length from + length to) from to [] [].

  (** estimate_similarity_transform.cxx 60-99: the vector overloads. *)
  Fixpoint vec_points (l : list (option A)) (acc : list P) : res (list P) :=
    match l with
    | [] => Ok acc
    | Some a :: l => vec_points l (acc ++ [loc a])
    | None :: _ => UB
    end.

  (** estimate_homography.cxx 57-75 (and estimate_fundamental_matrix.cxx 58-76,
      estimate_essential_matrix.cxx 59-80): the points of the matches;
      operator[] of std::vector is unchecked. *)
  Fixpoint match_points (vf1 vf2 : list (option A)) (ms : list (nat * nat)) (vv1 vv2 : list P) : res (list P * list P) :=
    match ms with
    | [] => Ok (vv1, vv2)
    | (i, j) :: ms =>
        match nth_error vf1 i, nth_error vf2 j with
        | Some (Some a), Some (Some b) => match_points vf1 vf2 ms (vv1 ++ [loc a]) (vv2 ++ [loc b])
        | _, _ => UB
        end
    end.
End Pts.

(** filter_features.cxx 63-83: filter(features, descriptors). *)
Fixpoint gather {D : Type} (descr : list D) (indices : list nat) (acc : list D) : res (list D) :=
  match indices with
  | [] => Ok acc
  | i :: indices => match nth_error descr i with Some d => gather descr indices (acc ++ [d]) | None => UB end
  end.
Definition filter_both {F D : Type} (filter : F -> F * list nat) (feat : F) (descr : list D) : res (F * list D) :=
  let '(filt_feat, indices) := filter feat in
  match gather descr indices [] with Ok d => Ok (filt_feat, d) | UB => UB | Stuck => Stuck end.

Section Optimize.
  Context {F L C : Type}.
  (** track::track_state: frame_id and feat. *)
  Record tstate := TState { ts_frame : Z; ts_feat : option F }.
  Record atrack := ATrack { at_id : Z; at_states : list tstate }.
  (** optimize_cameras.cxx 78-96: the map from frames to (track id, feature). *)
  Definition add_state (cams : zmap C) (tid : Z) (m : zmap (zmap F)) (ts : tstate) : zmap (zmap F) :=
    match ts_feat ts with
    | Some ft =>
        if zhas (ts_frame ts) cams then
          let inner := match zfind (ts_frame ts) m with Some i => i | None => [] end in
          zset (ts_frame ts) (zset tid ft inner) m
        else m
    | None => m
    end.
  Definition add_track (cams : zmap C) (lms : zmap L) (m : zmap (zmap F)) (t : atrack) : zmap (zmap F) :=
    if zhas (at_id t) lms then fold_left (add_state cams (at_id t)) (at_states t) m else m.
  Definition states_map (cams : zmap C) (lms : zmap L) (trks : list atrack) : zmap (zmap F) := fold_left (add_track cams lms) trks [].
  (** optimize_cameras.cxx 107-113: correspondences of one camera; lms[q.first]
      exists (see above), [None] would be a default inserted by operator[]. *)
  Definition correspond (lms : zmap L) (inner : zmap F) : list F * list (option L) := (map snd inner, map (fun q => zfind (fst q) lms) inner).
  (** optimize_cameras.cxx 55-122; [opt] is the pure virtual overload for one
      camera; [None] is the invalid_value exception. *)
  Definition optimize (opt : C -> list F -> list (option L) -> C) (cameras : option (zmap C)) (tracks : option (list atrack)) (landmarks : option (zmap L)) : option (zmap C) :=
    match cameras, tracks, landmarks with
    | Some cams, Some trks, Some lms =>
        let sm := states_map cams lms trks in
        Some (fold_left (fun out p =>
          let inner := match zfind (fst p) sm with Some i => i | None => [] end in
          let '(v_feat, v_lms) := correspond lms inner in
          zset (fst p) (opt (snd p) v_feat v_lms) out) cams [])
    | _, _, _ => None
    end.
End Optimize.
