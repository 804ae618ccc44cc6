(** Reading back a generated data set: what is on disk after
    src/emva1288/camera/dataset_generator.py:184-241 has run, as seen by
    src/emva1288/process/loader.py:132-153.  Definitions only.

    Simplification: PIL is taken to deliver the pixels that were stored. *)
From Coq Require Import Ascii String List Bool Arith ZArith.
From Verif Require Import Base_Prelude Base_Str Model_Images Model_Loader Model_Dataset.
Import ListNotations.
Open Scope nat_scope.

(** camera/dataset_generator.py:227-241: the array in row order.  Cells without a
    specified value (conversion of a NaN) read as 0; they do not occur in the
    theorems. *)
Definition image_of (h w : nat) (px : list (option Z)) : image :=
  mkImg h w (fun r c => match nth (r * w + c) px None with Some v => v | None => 0%Z end).

(** camera/dataset_generator.py:184-241: the files on disk after the effects [es]; a later
    image replaces an earlier one of the same name. *)
Fixpoint disk_of (h w : nat) (es : list event) (path : str) : option image :=
  match es with
  | [] => None
  | e :: es' =>
      match disk_of h w es' path with
      | Some im => Some im
      | None => match e with
                | ESave p px => if str_eqb p path then Some (image_of h w px) else None
                | EWrite _ => None
                end
      end
  end.
