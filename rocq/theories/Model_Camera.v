(** The simulated camera: src/emva1288/camera/camera.py (settings and [grab]) and
    [nearest_value] of src/emva1288/camera/routines.py.  Definitions only.

    Numbers are binary64 (Base_Float).  Images are lists of pixels in row order.
    The optical and thermal rates handed to the random generator are in
    Model_Optics; here the generator's deliveries are arguments. *)
From Coq Require Import List Bool Arith ZArith QArith.
From Verif Require Import Base_Prelude Base_Num Base_Order Base_Float Model_Images.
Import ListNotations.
Open Scope Z_scope.

(** [np.argmin] of the distances: the first NaN, else the first smallest. *)
Definition better (d best : pyfloat) : bool :=
  match best, d with
  | FNan, _ => false
  | _, FNan => true
  | _, _ => flt d best
  end.
Fixpoint argmin_from (i besti : nat) (best : pyfloat) (ds : list pyfloat) : nat :=
  match ds with
  | [] => besti
  | d :: ds' => if better d best then argmin_from (S i) i d ds'
                else argmin_from (S i) besti best ds'
  end.

(** camera/routines.py:4-20 [nearest_value]; argmin refuses an empty array. *)
Definition nearest_value (value : pyfloat) (array : list pyfloat) : res pyfloat :=
  match map (fun a => fabs (fsub a value)) array with
  | [] => Err ValueError
  | d :: ds => of_option IndexError (nth_error array (argmin_from 1 0 d ds))
  end.

(** The settings of a camera that change or that [grab] uses. *)
Record camera := mkCam
  { c_bits : nat;
    c_height : nat;
    c_width : nat;
    c_exposure : pyfloat;
    c_Ks : list pyfloat;
    c_K : pyfloat;
    c_blackoffsets : list pyfloat;
    c_blackoffset : pyfloat;
    c_u_esat : pyfloat;
    c_dsnu : list pyfloat }.

(** camera.py:116 *)
Definition img_max (bits : nat) : Z := 2 ^ Z.of_nat bits - 1.

(** camera.py:118-123: width of the unsigned type of the images. *)
Definition img_type (bits : nat) : Z :=
  if (bits <=? 8)%nat then 8 else if (bits <=? 16)%nat then 16 else 64.

(** camera.py:8-168 [__init__]; [bit_depth] a natural number, the optical
    parameters, PRNU and environment are in Model_Optics.  [not blackoffset_max]
    holds for None and 0. *)
Definition make_camera (bits height width : nat) (exposure : pyfloat)
    (K K_min K_max : pyfloat) (K_steps : nat)
    (blackoffset blackoffset_min : pyfloat) (blackoffset_max : option pyfloat)
    (blackoffset_steps : nat) (u_esat : pyfloat) (dsnu : option (list pyfloat)) : res camera :=
  let Ks := linspace K_min K_max K_steps in
  k <- nearest_value K Ks ;;
  let bmax := match blackoffset_max with
              | Some b => if feq b fzero then f_int (img_max bits / 16) else b
              | None => f_int (img_max bits / 16)
              end in
  let bos := linspace blackoffset_min bmax blackoffset_steps in
  bo <- nearest_value blackoffset bos ;;
  Ok (mkCam bits height width exposure Ks k bos bo u_esat
        (match dsnu with Some d => d | None => repeat fzero (height * width) end)).

(** camera.py:200-202, 227-229, 249-252, 269-272: the setters. *)
Definition set_exposure (c : camera) (v : pyfloat) : camera :=
  mkCam (c_bits c) (c_height c) (c_width c) v (c_Ks c) (c_K c)
    (c_blackoffsets c) (c_blackoffset c) (c_u_esat c) (c_dsnu c).
Definition set_K (c : camera) (v : pyfloat) : res camera :=
  k <- nearest_value v (c_Ks c) ;;
  Ok (mkCam (c_bits c) (c_height c) (c_width c) (c_exposure c) (c_Ks c) k
        (c_blackoffsets c) (c_blackoffset c) (c_u_esat c) (c_dsnu c)).
Definition set_blackoffset (c : camera) (v : pyfloat) : res camera :=
  b <- nearest_value v (c_blackoffsets c) ;;
  Ok (mkCam (c_bits c) (c_height c) (c_width c) (c_exposure c) (c_Ks c) (c_K c)
        (c_blackoffsets c) b (c_u_esat c) (c_dsnu c)).
Definition set_dsnu (c : camera) (d : list pyfloat) : camera :=
  mkCam (c_bits c) (c_height c) (c_width c) (c_exposure c) (c_Ks c) (c_K c)
    (c_blackoffsets c) (c_blackoffset c) (c_u_esat c) d.

(** What the random generator delivers to one [grab]: thermal and light electrons
    (poisson refuses a negative or NaN rate), electronics noise (normal refuses a
    negative or NaN scale), quantization noise. *)
Record draws := mkDraws
  { d_therm : res (list Z);
    d_light : res (list Z);
    d_normal : res (list pyfloat);
    d_uniform : list pyfloat }.

(** camera.py:304-336 for one pixel. *)
Definition pixel (c : camera) (therm light : Z) (dsnu normal uniform : pyfloat) : option Z :=
  let electrons := f_int (wrap64 (therm + light)) in
  let dark_signal := fadd dsnu normal in
  let e := fclip fzero (c_u_esat c) (fadd electrons dark_signal) in
  let img := fadd (fadd (fmul (c_K c) e) uniform) (c_blackoffset c) in
  as_uint (img_type (c_bits c)) (fclip fzero (f_int (img_max (c_bits c))) (frint img)).

Fixpoint pixels (c : camera) (ts ls : list Z) (ds ns us : list pyfloat) : list (option Z) :=
  match ts, ls, ds, ns, us with
  | t :: ts', l :: ls', d :: ds', n :: ns', u :: us' =>
      pixel c t l d n u :: pixels c ts' ls' ds' ns' us'
  | _, _, _, _, _ => []
  end.

(** camera.py:278-336 [grab]; a DSNU image of another size than the camera's is
    refused (broadcasting of one row, column or number is not modelled).  A pixel
    is [None] where the conversion to the unsigned type is not specified. *)
Definition grab (c : camera) (d : draws) : res (list (option Z)) :=
  ts <- d_therm d ;;
  ls <- d_light d ;;
  ns <- d_normal d ;;
  if (length (c_dsnu c) =? c_height c * c_width c)%nat
  then Ok (pixels c ts ls (c_dsnu c) ns (d_uniform d))
  else Err ValueError.

(** ** A camera in use *)

(** The operations a user has; those that only read the settings do not change
    them.  A failing operation changes nothing. *)
Inductive camera_op : Type :=
| OpExposure (v : pyfloat)
| OpK (v : pyfloat)
| OpBlackoffset (v : pyfloat)
| OpDSNU (d : list pyfloat)
| OpGrab (d : draws)
| OpRead.

Definition after {A} (c : camera) (r : res A) (f : A -> camera) : camera :=
  match r with Ok a => f a | Err _ => c end.

Definition step (c : camera) (o : camera_op) : camera :=
  match o with
  | OpExposure v => set_exposure c v
  | OpK v => after c (set_K c v) (fun c' => c')
  | OpBlackoffset v => after c (set_blackoffset c v) (fun c' => c')
  | OpDSNU d => set_dsnu c d
  | OpGrab _ | OpRead => c
  end.

Definition run (c : camera) (ops : list camera_op) : camera := fold_left step ops c.
