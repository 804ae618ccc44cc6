(** What the properties C23-C35 speak about. *)
From Coq Require Import List Bool Arith ZArith QArith Reals Qreals.
From Verif Require Import Base_Prelude Base_Sum Base_Xreal Model_Images Model_Data Model_Results.
Import ListNotations.
Open Scope Q_scope.

(** Element [i] of an array. *)
Definition at_ (l : list Q) (i : nat) : Q := nth i l 0.

(** All temporal arrays have n entries (what Data1288 gives for a complete
    descriptor, C18). *)
Definition shaped (o : robj) (n : nat) : Prop :=
  length (r_texp (o_t o)) = n /\ length (r_up (o_t o)) = n /\ length (r_uy (o_t o)) = n /\
  length (r_s2y (o_t o)) = n /\ length (r_uydark (o_t o)) = n /\ length (r_s2ydark (o_t o)) = n.

(** Photons, signal above dark and noise above dark at point i. *)
Definition photons (o : robj) (i : nat) : Q := at_ (r_up (o_t o)) i.
Definition sig (o : robj) (i : nat) : Q := at_ (r_uy (o_t o)) i - at_ (r_uydark (o_t o)) i.
Definition noise (o : robj) (i : nat) : Q := at_ (r_s2y (o_t o)) i - at_ (r_s2ydark (o_t o)) i.

(** No index was forced. *)
Definition unforced (o : robj) : Prop := o_sat o = None.

(** ** C23 *)
(** The point visited before [j] when going down: 0 before the last point. *)
Definition previous (s : list Q) (j : nat) : Q :=
  if (S j =? length s)%nat then 0 else at_ s (S j).
(** The neighbour looked at: one below, and index 1 for index 0. *)
Definition neighbour (j : nat) : nat := if (j =? 0)%nat then 1%nat else (j - 1)%nat.
Definition goes_on (s : list Q) (j : nat) : Prop :=
  previous s j <= at_ s j \/ previous s j <= at_ s (neighbour j).

(** ** C24 *)
Definition peak_at (s : list Q) (p : nat) : Prop :=
  (p < length s)%nat /\
  Forall (fun x => 0 <= x) s /\
  (forall i j, (i < j <= p)%nat -> at_ s i < at_ s j) /\
  (forall i j, (p <= i < j)%nat -> (j < length s)%nat -> at_ s j <= at_ s i).

(** ** C25: one property access *)
Inductive figure : Type :=
| F_index_u_ysat | F_index_sensitivity_max | F_R | F_K | F_inverse_K | F_QE
| F_sigma_y_dark | F_sigma_d | F_u_p_min | F_u_p_min_area | F_u_e_min | F_u_e_min_area
| F_u_p_sat | F_u_p_sat_area | F_u_e_sat | F_u_e_sat_area | F_SNR_max | F_SNR_max_dB
| F_SNR_max_bit | F_inverse_SNR_max | F_DR | F_DR_dB | F_index_linearity_min
| F_index_linearity_max | F_linearity | F_LE_min | F_LE_max | F_u_I_var_DN | F_u_I_var
| F_u_I_mean_DN | F_u_I_mean | F_s_2_y | F_s_2_y_dark | F_s_2_y_row | F_s_2_y_row_dark
| F_s_2_y_col | F_s_2_y_col_dark | F_s_2_y_pixel | F_s_2_y_pixel_dark
| F_DSNU1288 | F_DSNU1288_DN | F_DSNU1288_row | F_DSNU1288_col | F_DSNU1288_pixel
| F_PRNU1288 | F_PRNU1288_row | F_PRNU1288_col | F_PRNU1288_pixel.

Inductive fvalue : Type :=
| VZ (v : res Z) | VN (v : res nat) | VQ (v : res Q) | VX (v : res xr)
| VOX (v : res (option xr)) | VOQ (v : res (option Q)) | VL (v : res lin).

Definition value_of (f : figure) (o : robj) : fvalue :=
  match f with
  | F_index_u_ysat => VZ (fst (index_u_ysat o))
  | F_index_sensitivity_max => VN (index_sensitivity_max o)
  | F_R => VQ (responsivity o)
  | F_K => VQ (gain o)
  | F_inverse_K => VX (inverse_K o)
  | F_QE => VX (QE o)
  | F_sigma_y_dark => VX (sigma_y_dark o)
  | F_sigma_d => VX (sigma_d o)
  | F_u_p_min => VX (u_p_min o)
  | F_u_p_min_area => VOX (u_p_min_area o)
  | F_u_e_min => VX (u_e_min o)
  | F_u_e_min_area => VOX (u_e_min_area o)
  | F_u_p_sat => VQ (u_p_sat o)
  | F_u_p_sat_area => VOX (u_p_sat_area o)
  | F_u_e_sat => VX (u_e_sat o)
  | F_u_e_sat_area => VOX (u_e_sat_area o)
  | F_SNR_max => VX (SNR_max o)
  | F_SNR_max_dB => VX (SNR_max_dB o)
  | F_SNR_max_bit => VX (SNR_max_bit o)
  | F_inverse_SNR_max => VX (inverse_SNR_max o)
  | F_DR => VX (DR o)
  | F_DR_dB => VX (DR_dB o)
  | F_index_linearity_min => VN (index_linearity_min o)
  | F_index_linearity_max => VN (index_linearity_max o)
  | F_linearity => VL (linearity o)
  | F_LE_min => VOQ (LE_min o)
  | F_LE_max => VOQ (LE_max o)
  | F_u_I_var_DN => VX (u_I_var_DN o)
  | F_u_I_var => VX (u_I_var o)
  | F_u_I_mean_DN => VX (u_I_mean_DN o)
  | F_u_I_mean => VX (u_I_mean o)
  | F_s_2_y => VOQ (Ok (s_2_y o))
  | F_s_2_y_dark => VOQ (Ok (s_2_y_dark o))
  | F_s_2_y_row => VOQ (s_2_y_row o)
  | F_s_2_y_row_dark => VOQ (s_2_y_row_dark o)
  | F_s_2_y_col => VOQ (s_2_y_col o)
  | F_s_2_y_col_dark => VOQ (s_2_y_col_dark o)
  | F_s_2_y_pixel => VOQ (s_2_y_pixel o)
  | F_s_2_y_pixel_dark => VOQ (s_2_y_pixel_dark o)
  | F_DSNU1288 => VX (DSNU1288 o)
  | F_DSNU1288_DN => VX (DSNU1288_DN o)
  | F_DSNU1288_row => VX (DSNU1288_row o)
  | F_DSNU1288_col => VX (DSNU1288_col o)
  | F_DSNU1288_pixel => VX (DSNU1288_pixel o)
  | F_PRNU1288 => VX (PRNU1288 o)
  | F_PRNU1288_row => VX (PRNU1288_row o)
  | F_PRNU1288_col => VX (PRNU1288_col o)
  | F_PRNU1288_pixel => VX (PRNU1288_pixel o)
  end.

(** An access returns the value and leaves the object as it was, or with the
    saturation index stored by index_u_ysat (an over-approximation: every access may
    or may not evaluate index_u_ysat). *)
Inductive access : robj -> figure -> fvalue -> robj -> Prop :=
| access_plain o f : access o f (value_of f o) o
| access_store o f :
    access o f (value_of f o) (mkObj (o_t o) (o_s o) (o_area o) (snd (index_u_ysat o))).

(** A sequence of accesses with the values seen. *)
Inductive accesses : robj -> list (figure * fvalue) -> robj -> Prop :=
| acc_nil o : accesses o [] o
| acc_cons o f v o' l o'' :
    access o f v o' -> accesses o' l o'' -> accesses o ((f, v) :: l) o''.

(** ** C26 *)
(** k is the saturation point (negative forced indices count from the end). *)
Definition sat_point (o : robj) (n k : nat) : Prop :=
  (k < n)%nat /\ exists z, fst (index_u_ysat o) = Ok z /\
    (z = Z.of_nat k \/ z = Z.of_nat k - Z.of_nat n)%Z.

Definition largest (n : nat) (P : nat -> Prop) (m : nat) : Prop :=
  (m < n)%nat /\ P m /\ forall j, (m < j < n)%nat -> ~ P j.
Definition smallest (n : nat) (P : nat -> Prop) (m : nat) : Prop :=
  (m < n)%nat /\ P m /\ forall j, (j < m)%nat -> ~ P j.

(** ** C27, C29, C30, C31: least squares over the points 0..m (lo..hi), all real
    slopes and offsets *)
Open Scope R_scope.
Definition sq (x : R) : R := x * x.

Definition sse_slope (X Y : nat -> Q) (m : nat) (a : R) : R :=
  sum_f_R0 (fun i => sq (Q2R (Y i) - a * Q2R (X i))) m.
Definition best_slope (X Y : nat -> Q) (m : nat) (a : Q) : Prop :=
  forall a', a' <> Q2R a -> sse_slope X Y m (Q2R a) < sse_slope X Y m a'.

Definition sse_line (X Y : nat -> Q) (m : nat) (a b : R) : R :=
  sum_f_R0 (fun i => sq (Q2R (Y i) - (a * Q2R (X i) + b))) m.
Definition best_line (X Y : nat -> Q) (m : nat) (a b : Q) : Prop :=
  forall a' b', (a' <> Q2R a \/ b' <> Q2R b) ->
    sse_line X Y m (Q2R a) (Q2R b) < sse_line X Y m a' b'.

Definition sse_relative (X Y : nat -> Q) (lo hi : nat) (a b : R) : R :=
  sum_f_R0 (fun i => sq ((Q2R (Y (lo + i)%nat) - (a * Q2R (X (lo + i)%nat) + b))
                         / Q2R (Y (lo + i)%nat))) (hi - lo).
Definition best_relative_line (X Y : nat -> Q) (lo hi : nat) (a b : Q) : Prop :=
  forall a' b', (a' <> Q2R a \/ b' <> Q2R b) ->
    sse_relative X Y lo hi (Q2R a) (Q2R b) < sse_relative X Y lo hi a' b'.
Close Scope R_scope.

(** At most two different values. *)
Definition at_most_two (l : list Q) : Prop :=
  exists a b, Forall (fun x => x == a \/ x == b) l.

(** The value v the dark noise is computed from: the first dark variance with at most
    two exposure times, otherwise the offset of the least-squares line. *)
Definition dark_value (o : robj) (n : nat) (v : Q) : Prop :=
  (at_most_two (r_texp (o_t o)) /\ v = at_ (r_s2ydark (o_t o)) 0) \/
  (~ at_most_two (r_texp (o_t o)) /\
   exists a, best_line (at_ (r_texp (o_t o))) (at_ (r_s2ydark (o_t o))) (n - 1) a v).

Definition in_range (lo hi i : nat) : Prop := (lo <= i <= hi)%nat.

(** Relative deviation (in %) of point i from the line (a, b). *)
Definition rel_dev (o : robj) (a b : Q) (i : nat) : Q :=
  100 * (sig o i - (a * photons o i + b)) / (a * photons o i + b).

(** ** C32: row, column and pixel variances of a stack *)
Definition decomposition (M N : nat) (total cav rav row col pixel : Q) : Prop :=
  row + col + pixel == total /\
  cav == col + pixel / qn M /\
  rav == row + pixel / qn N.

(** ** C33 *)
Open Scope R_scope.
(** A nonuniformity figure times its unit is the root of the variance v; NaN for
    negative v. *)
Definition root_figure (fig : res xr) (unit_ : R) (v : Q) : Prop :=
  ((v < 0)%Q -> fig = Ok XNan) /\
  ((0 <= v)%Q -> exists d, fig = Ok (XR d) /\ sq (d * unit_) = Q2R v).

(** ** C34 *)
Definition area_figure (area : option Q) (fig : res xr) (fig_area : res (option xr)) : Prop :=
  (area = None -> fig_area = Ok None) /\
  (forall a, area = Some a -> (a == 0)%Q -> fig_area = Ok None) /\
  (forall a, area = Some a -> ~ (a == 0)%Q ->
     (forall x, fig = Ok (XR x) -> fig_area = Ok (Some (XR (x / Q2R a)))) /\
     (forall e, fig = Err e -> fig_area = Err e) /\
     fig_area <> Ok None).
Close Scope R_scope.
