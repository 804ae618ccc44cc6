(** Property C51: patterns. *)
From Coq Require Import List Bool Arith.
From Verif Require Import Base_Prelude Model_Tile Proofs_Tile.
Import ListNotations.

(** C51: a tiled 2-D pattern has the requested size and repeats the pattern. *)
Theorem C51_tile {A} c (rows : list (list A)) height width :
  Forall (fun r => length r = c) rows -> rows <> [] -> c <> 0 -> height <> 1 ->
  exists t, get_tile (Arr2 c rows) height width = Ok (Arr2 width t) /\
  length t = height /\ Forall (fun r => length r = width) t /\
  forall i j, i < height -> j < width -> entry t i j = entry rows (i mod length rows) (j mod c).
Proof. exact (get_tile_2d c rows height width). Qed.
Print Assumptions C51_tile.

(** Height 1 gives one row. *)
Theorem C51_tile_row {A} c (rows : list (list A)) width :
  Forall (fun r => length r = c) rows -> rows <> [] -> c <> 0 ->
  exists t, get_tile (Arr2 c rows) 1 width = Ok (Arr1 t) /\ length t = width /\
  forall j, j < width -> nth_error t j = entry rows 0 (j mod c).
Proof. exact (get_tile_row c rows width). Qed.
Print Assumptions C51_tile_row.

(** 1-D patterns. *)
Theorem C51_line {A} (l : list A) height width : l <> [] -> height <> 1 ->
  exists t, get_tile (Arr1 l) height width = Ok (Arr2 width t) /\
  length t = height /\ Forall (fun r => length r = width) t /\
  forall i j, i < height -> j < width -> entry t i j = nth_error l (j mod length l).
Proof. exact (get_tile_1d l height width). Qed.
Print Assumptions C51_line.

Theorem C51_line_row {A} (l : list A) width : l <> [] ->
  exists t, get_tile (Arr1 l) 1 width = Ok (Arr1 t) /\ length t = width /\
  forall j, j < width -> nth_error t j = nth_error l (j mod length l).
Proof. exact (get_tile_1d_row l width). Qed.
Print Assumptions C51_line_row.

Example C51_case : get_tile (Arr2 2 [[1; 2]; [3; 4]]) 3 5
  = Ok (Arr2 5 [[1; 2; 1; 2; 1]; [3; 4; 3; 4; 3]; [1; 2; 1; 2; 1]]).
Proof. reflexivity. Qed.

(** A Bayer filter of even size. *)
Theorem C51_bayer {A} (a b c d : A) width height :
  Nat.even width = true -> Nat.even height = true ->
  let t := bayer_tile a b c d width height in
  length t = height /\ Forall (fun r => length r = width) t /\
  forall i j, i < height -> j < width ->
    entry t i j = Some (if Nat.even i then if Nat.even j then a else b else if Nat.even j then c else d).
Proof. exact (bayer_even a b c d width height). Qed.
Print Assumptions C51_bayer.

(** A Bayer filter of odd size is too small. *)
Theorem C51_bayer_refuted : exists width height, length (bayer_tile 1 2 3 4 width height) <> height /\
  ~ Forall (fun r => length r = width) (bayer_tile 1 2 3 4 width height).
Proof. exact bayer_odd. Qed.
Print Assumptions C51_bayer_refuted.
