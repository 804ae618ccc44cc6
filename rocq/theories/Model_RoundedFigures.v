(** The derived figures of results.py with the binary64 roundings of Python and NumPy, over the
    real numbers.  [Model_Results] has the same functions over exact numbers.  The arguments are
    the figures they are computed from: R, K, the dark variance s before its lower limit, the
    photons x at saturation.  Infinities and NaN are not told apart: [None]. *)
From Coq Require Import Reals ZArith.
From Flocq Require Import Core.
Open Scope R_scope.

(** The nearest double, ties to even; [None] beyond the largest one. *)
Definition nearest (x : R) : R := round radix2 (FLT_exp (-1074) 53) ZnearestE x.
Definition fl (x : R) : option R :=
  if Rlt_dec (Rabs (nearest x)) (bpow radix2 1024) then Some (nearest x) else None.
Definition obind {A B} (a : option A) (f : A -> option B) : option B :=
  match a with Some x => f x | None => None end.
Notation "x <~ a ;; b" := (obind a (fun x => b)) (at level 61, a at next level, right associativity).

Definition radd (a b : R) : option R := fl (a + b).
Definition rsub (a b : R) : option R := fl (a - b).
Definition rmul (a b : R) : option R := fl (a * b).
Definition rdiv (a b : R) : option R := if Req_EM_T b 0 then None else fl (a / b).
Definition rsqrt (a : R) : option R := if Rlt_dec a 0 then None else fl (sqrt a).

(** results.py:205, 222. *)
Definition r_inverse_K (K : R) : option R := rdiv 1 K.
Definition r_QE (R0 K : R) : option R := a <~ rmul 100 R0 ;; rdiv a K.

(** results.py:248-251: [if s2_ydark < 0.24: s2_ydark = 0.24]. *)
Definition r_sigma_y_dark (s : R) : option R :=
  c <~ fl (24 / 100) ;; rsqrt (if Rlt_dec s c then c else s).

(** results.py:60 (1.0 / 12.0) and 265; [pw] is the library's [x ** 2]. *)
Definition r_sigma_d (pw : R -> R) (K s : R) : option R :=
  d <~ r_sigma_y_dark s ;; q <~ fl (1 / 12) ;; a <~ rsub (pw d) q ;; b <~ rsqrt a ;; rdiv b K.

(** results.py:279, 311, 378. *)
Definition r_u_p_min (R0 K s : R) : option R :=
  q <~ r_QE R0 K ;; a <~ rdiv 100 q ;; d <~ r_sigma_y_dark s ;; b <~ rdiv d K ;;
  c <~ radd b (1 / 2) ;; rmul a c.
Definition r_u_e_min (R0 K s : R) : option R :=
  q <~ r_QE R0 K ;; p <~ r_u_p_min R0 K s ;; a <~ rmul q p ;; rdiv a 100.
Definition r_u_e_sat (R0 K x : R) : option R :=
  q <~ r_QE R0 K ;; a <~ rmul q x ;; rdiv a 100.

(** results.py:410, 449, 467. *)
Definition r_SNR_max (R0 K x : R) : option R := u <~ r_u_e_sat R0 K x ;; rsqrt u.
Definition r_inverse_SNR_max (R0 K x : R) : option R := v <~ r_SNR_max R0 K x ;; rdiv 100 v.
Definition r_DR (R0 K s x : R) : option R := p <~ r_u_p_min R0 K s ;; rdiv x p.

(** results.py:298, 329, 362, 397: divided by the pixel area. *)
Definition r_per_area (area : R) (v : option R) : option R := a <~ v ;; rdiv a area.

(** results.py:623, 644, 667, 686; f is the slope of the line through the dark values. *)
Definition r_u_I_var_DN (K f : R) : option R := a <~ rdiv f K ;; rmul a (10 ^ 9).
Definition r_u_I_var (K f : R) : option R := a <~ r_u_I_var_DN K f ;; rdiv a K.
Definition r_u_I_mean_DN (f : R) : option R := rmul f (10 ^ 9).
Definition r_u_I_mean (K f : R) : option R := a <~ r_u_I_mean_DN f ;; rdiv a K.

(** results.py:941, 985, 1006, 1027: v is a dark spatial variance; 1047-1111: dv and dm are the
    exact differences of the variances and of the means. *)
Definition r_DSNU (K v : R) : option R := a <~ rsqrt v ;; rdiv a K.
Definition r_PRNU (dv dm : R) : option R :=
  a <~ fl dv ;; b <~ rsqrt a ;; c <~ rmul b 100 ;; d <~ fl dm ;; rdiv c d.

(** results.py:423, 436, 482; [lg] is NumPy's logarithm to the base 10 or 2. *)
Definition r_log (lg : R -> R) (v : option R) : option R := a <~ v ;; if Rle_dec a 0 then None else Some (lg a).
Definition r_dB (lg : R -> R) (v : option R) : option R := a <~ r_log lg v ;; rmul 20 a.
