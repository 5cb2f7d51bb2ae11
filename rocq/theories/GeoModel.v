(** Model of vital/types/geo_lat_lon.cxx and of the one concrete function of
    vital/algo/geo_map.cxx.

    A C++ [double] is modelled exactly, as an IEEE 754 binary64 datum of the
    Flocq library (signed zeros, subnormals, infinities, NaN), with rounding to
    nearest even; NaN payloads are not modelled. *)
From Coq Require Import ZArith Reals Bool.
From Flocq Require Import Core.Core IEEE754.BinarySingleNaN.
Open Scope Z_scope.

Definition dbl := binary_float 53 1024.
Lemma dbl_prec_gt_0 : Prec_gt_0 53. Proof. reflexivity. Qed.
Lemma dbl_prec_lt_emax : Prec_lt_emax 53 1024. Proof. reflexivity. Qed.
#[global] Existing Instance dbl_prec_gt_0.
#[global] Existing Instance dbl_prec_lt_emax.

(** Conversion of an integer constant to double (round to nearest even; all the
    constants used below are exactly representable). *)
Definition dint (z : Z) : dbl := binary_normalize 53 1024 dbl_prec_gt_0 dbl_prec_lt_emax mode_NE z 0 false.
Definition dplus (a b : dbl) : dbl := Bplus mode_NE a b.
Definition ddiv (a b : dbl) : dbl := Bdiv mode_NE a b.
(** C++ [<], [<=] (and [>=], swapped), [==] on doubles: false when a NaN is involved. *)
Definition dlt (a b : dbl) : bool := Bltb a b.
Definition dle (a b : dbl) : bool := Bleb a b.
Definition deq (a b : dbl) : bool := Beqb a b.

(** geo_lat_lon.h 60-62: the two fields. *)
Record geo := Geo { g_lat : dbl; g_lon : dbl }.
(** geo_lat_lon.cxx 38: [INVALID]. *)
Definition INVALID : dbl := dint 444.
(** geo_lat_lon.cxx 40-44: default constructor. *)
Definition geo_default : geo := Geo INVALID INVALID.
(** geo_lat_lon.cxx 46-50: constructor from the two numbers. *)
Definition geo_make (lat lon : dbl) : geo := Geo lat lon.
(** geo_lat_lon.cxx 58-71: setters. *)
Definition set_latitude (g : geo) (l : dbl) : geo := Geo l (g_lon g).
Definition set_longitude (g : geo) (l : dbl) : geo := Geo (g_lat g) l.
(** geo_lat_lon.cxx 74-85: getters. *)
Definition get_latitude (g : geo) : dbl := g_lat g.
Definition get_longitude (g : geo) : dbl := g_lon g.
(** geo_lat_lon.cxx 88-103: [is_valid]. *)
Definition is_valid (g : geo) : bool :=
  if negb (dle (dint (-90)) (g_lat g) && dle (g_lat g) (dint 90))%bool then false
  else if negb (dle (dint (-180)) (g_lon g) && dle (g_lon g) (dint 360))%bool then false
  else true.
(** geo_lat_lon.cxx 106-111: [is_empty]. *)
Definition is_empty (g : geo) : bool := (deq INVALID (get_latitude g) && deq INVALID (get_longitude g))%bool.
(** geo_lat_lon.cxx 114-120: [operator==] (the argument's values are on the left). *)
Definition geo_eq (this rhs : geo) : bool := (deq (get_latitude rhs) (get_latitude this) && deq (get_longitude rhs) (get_longitude this))%bool.
(** geo_lat_lon.cxx 123-128: [operator!=]. *)
Definition geo_ne (this rhs : geo) : bool := negb (geo_eq this rhs).

(** Outcome of [latlon_zone]; [ZUB] is the undefined conversion of a double that
    does not fit [int] (C++ [conv.fpint]). *)
Inductive zres := Zone (z : Z) | ZUB.
(** [static_cast<int>(x)]: truncation, undefined for NaN, infinities and values
    that do not fit 32 bits. *)
Definition to_int (x : dbl) : option Z :=
  if is_finite x then let t := Btrunc x in if ((- 2 ^ 31 <=? t) && (t <? 2 ^ 31))%bool then Some t else None else None.
(** algo/geo_map.cxx 60-63: the loop; [None] when [fuel] additions were not enough. *)
Fixpoint wrap_up (fuel : nat) (lon : dbl) : option dbl :=
  if dlt lon (dint (-180)) then match fuel with O => None | S n => wrap_up n (dplus lon (dint 360)) end else Some lon.
(** algo/geo_map.cxx 56-67: [latlon_zone]; the latitude is not used. *)
Definition latlon_zone (fuel : nat) (lat lon : dbl) : option zres :=
  match wrap_up fuel lon with
  | None => None
  | Some l => Some (match to_int (ddiv (dplus l (dint 180)) (dint 6)) with Some q => Zone (Z.rem q 60 + 1) | None => ZUB end)
  end.
