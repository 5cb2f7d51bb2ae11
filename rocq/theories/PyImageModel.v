(** PyImageModel.v -- vital/bindings/python/vital/image.py: PIL pictures in and
    out of vital images, over ImageModel.v and the C functions of
    vital/bindings/c/image.cxx.

    A PIL picture is a mode, a size and its bytes by column, row and band.
    PIL.Image.tostring and PIL.Image.frombytes with the "raw" decoder are library
    models.  The C accessors are called with ctypes' default result type, a C
    int. *)
From Coq Require Import ZArith List Bool.
Import ListNotations.
From Verif Require Import Base ImageModel.
Local Open Scope Z_scope.

Inductive mode := RGB | Grey (* "L" *) | OtherMode.
Record picture := mkPic { pc_mode : mode; pc_w : Z; pc_h : Z; pc_at : Z -> Z -> Z -> Z }.
Definition bands (md : mode) : Z := match md with RGB => 3 | _ => 1 end.
(** tostring: the rows one after the other, the bands of a pixel together. *)
Definition tostring (p : picture) : blk :=
  let n := bands (pc_mode p) in
  mkBlk (pc_w p * pc_h p * n) (fun o => pc_at p ((o / n) mod pc_w p) (o / n / pc_w p) (o mod n)).
(** image.py 66-96 (the C function copies; the string is dropped afterwards). *)
Definition from_pil (m : mem) (p : picture) (junk : Z -> Z) : outcome (mem * image) :=
  let m1 := m ++ [Some (tostring p)] in
  let first := Some (length m, 0) in
  match pc_mode p with
  | RGB => new_from_data m1 first (pc_w p) (pc_h p) 3 3 (pc_w p * 3) (-1) junk
  | Grey => new_from_data m1 first (pc_w p) (pc_h p) 1 1 (pc_w p) 0 junk
  | OtherMode => Thrown
  end.
(** PIM.frombytes(mode, (w, h), buffer at [first] of [size] bytes, "raw", ...,
    stride, 1): rows are stride bytes apart (0: packed); a buffer that ends
    early is an error.  [rev]: the raw mode BGR. *)
Definition frombytes (m : mem) (first : ptr) (size : Z) (md : mode) (rev : bool) (w h stride : Z) : outcome picture :=
  let line := w * bands md in
  let step := if stride =? 0 then line else stride in
  if (step <? line) || (size <? (h - 1) * step + line) then Thrown
  else Good (mkPic md w h (fun x y c =>
    match load m (padd first (y * step + x * bands md + (if rev then 2 - c else c))) with Some v => v | None => 0 end)).
(** image.py 196-229. *)
Definition get_pil (m : mem) (a : image) : outcome picture :=
  let int z := int32 (size_t z) in
  let size := int32 (img_size a) in
  if int (i_d a) =? 3 then
    if int (i_ds a) =? 1 then frombytes m (i_first a) size RGB true (int (i_w a)) (int (i_h a)) (int (i_hs a))
    else if int (i_ds a) <? 0 then frombytes m (i_first a) size RGB false (int (i_w a)) (int (i_h a)) (int (i_hs a))
    else Thrown
  else if int (i_d a) =? 1 then frombytes m (i_first a) size Grey false (int (i_w a)) (int (i_h a)) (int (i_hs a))
  else Thrown.
