(** Searching camera settings: [_get_emva_gain] and [_get_emva_blackoffset] of
    src/emva1288/camera/dataset_generator.py, and [bad_pixel] of
    src/emva1288/camera/bad_images.py.  Definitions only. *)
From Coq Require Import List Bool Arith ZArith QArith.
From Verif Require Import Base_Prelude Base_Num Base_Order Base_Float Base_Sum Model_Images Model_Camera.
Import ListNotations.
Open Scope Z_scope.

(** Pixel values; one that is not specified (Model_Camera.grab) is taken as 0. *)
Definition values (img : list (option Z)) : list Z :=
  map (fun p => match p with Some z => z | None => 0 end) img.

Fixpoint zip_sub (a b : list Z) : list Z :=
  match a, b with
  | x :: a', y :: b' => wrap64 (wrap64 x - wrap64 y) :: zip_sub a' b'
  | _, _ => []
  end.

(** dataset_generator.py:21-23: [(img1 - img2).std() > 0.5] on int64 images.  The
    standard deviation is exact: it exceeds 1/2 when the variance exceeds 1/4.
    Without pixels it is NaN. *)
Definition noisy (img1 img2 : list (option Z)) : bool :=
  let d := map inject_Z (zip_sub (values img1) (values img2)) in
  let n := qn (length d) in
  match d with
  | [] => false
  | _ =>
      let mean := (lsumq d / n)%Q in
      let var := (lsumq (map (fun x => (x - mean) * (x - mean))%Q d) / n)%Q in
      negb (Qle_bool var (1 # 4))
  end.

(** [for x in xs: ...; if ...: break], remembering the last element; [body] may
    change the camera, also when it fails. *)
Fixpoint for_break (body : nat -> pyfloat -> camera -> camera * res bool)
    (xs : list pyfloat) (k : nat) (c : camera) (g : pyfloat) : camera * res pyfloat :=
  match xs with
  | [] => (c, Ok g)
  | x :: xs' =>
      match body k x c with
      | (c', Err e) => (c', Err e)
      | (c', Ok true) => (c', Ok x)
      | (c', Ok false) => for_break body xs' (S k) c' x
      end
  end.

(** dataset_generator.py:19-24; [ds] are the successive deliveries of the random
    generator *)
Definition gain_body (ds : nat -> draws) (k : nat) (gain : pyfloat) (c : camera) : camera * res bool :=
  match set_K c gain with
  | Err e => (c, Err e)
  | Ok c1 =>
      (c1, img1 <- grab c1 (ds (2 * k)%nat) ;;
           img2 <- grab c1 (ds (2 * k + 1)%nat) ;;
           Ok (noisy img1 img2))
  end.

(** dataset_generator.py:13-26 [_get_emva_gain] *)
Definition get_emva_gain (c : camera) (ds : nat -> draws) : camera * res pyfloat :=
  let gini := c_K c in
  match c_Ks c with
  | [] => (c, Err IndexError)
  | g :: _ =>
      match for_break (gain_body ds) (c_Ks c) 0 c g with
      | (c1, Err e) => (c1, Err e)
      | (c1, Ok g) =>
          match set_K c1 gini with
          | Err e => (c1, Err e)
          | Ok c2 => (c2, Ok g)
          end
      end
  end.

(** [np.count_nonzero] *)
Definition count_nonzero (img : list (option Z)) : Z :=
  Z.of_nat (length (filter (fun z => negb (z =? 0)) (values img))).

(** dataset_generator.py:34, 39: [count > pixels * .995]; the product is rounded *)
Definition bright_enough (c : camera) (img : list (option Z)) : bool :=
  let pixels := Z.of_nat (c_width c * c_height c) in
  flt (fmul (f_int pixels) (rnd64 (995 # 1000))) (FFin (inject_Z (count_nonzero img))).

(** dataset_generator.py:35-40 *)
Definition offset_body (ds : nat -> draws) (k : nat) (bo : pyfloat) (c : camera) : camera * res bool :=
  match set_blackoffset c bo with
  | Err e => (c, Err e)
  | Ok c1 => (c1, img <- grab c1 (ds k) ;; Ok (bright_enough c1 img))
  end.

(** dataset_generator.py:29-42 [_get_emva_blackoffset] *)
Definition get_emva_blackoffset (c : camera) (ds : nat -> draws) : camera * res pyfloat :=
  let bini := c_blackoffset c in
  match c_blackoffsets c with
  | [] => (c, Err IndexError)
  | b :: _ =>
      match for_break (offset_body ds) (c_blackoffsets c) 0 c b with
      | (c1, Err e) => (c1, Err e)
      | (c1, Ok b) =>
          match set_blackoffset c1 bini with
          | Err e => (c1, Err e)
          | Ok c2 => (c2, Ok b)
          end
      end
  end.

(** ** Bad pixels *)

Definition set_nth {A} (n : nat) (x : A) (l : list A) : list A :=
  if (n <? length l)%nat then firstn n l ++ x :: skipn (S n) l else l.

(** camera/bad_images.py:4-32 [bad_pixel]; [choice] is what
    [np.random.choice(pixel_num, num_bad_pixel)] delivers, which refuses an empty
    range.  The DSNU image is changed in place; an index outside it would be an
    IndexError. *)
Fixpoint mark (w : nat) (bad : pyfloat) (positions : list nat) (dsnu : list pyfloat) : res (list pyfloat) :=
  match positions with
  | [] => Ok dsnu
  | i :: ps =>
      let at_ := (i / w * w + i mod w)%nat in
      if (at_ <? length dsnu)%nat then mark w bad ps (set_nth at_ bad dsnu) else Err IndexError
  end.

Definition bad_pixel (c : camera) (choice : res (list nat)) (bad_value : pyfloat) : res camera :=
  let bad := fmul bad_value (c_u_esat c) in
  positions <- choice ;;
  d <- mark (c_width c) bad positions (c_dsnu c) ;;
  Ok (set_dsnu c d).
