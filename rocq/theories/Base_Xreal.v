(** Real numbers with infinities and NaN, with the operations of numpy float64
    scalars (signed zeros and rounding are not modelled). *)
From Coq Require Import Bool Reals Rpower Lra QArith Qreals.
Open Scope R_scope.

Inductive xr : Type :=
| XR (r : R)
| XInf (neg : bool)
| XNan.

(** A rational number as a value. *)
Definition xq (q : Q) : xr := XR (Q2R q).

(** [None] is NaN. *)
Definition xoq (o : option Q) : xr := match o with Some q => xq q | None => XNan end.

Definition xneg (a : xr) : xr :=
  match a with XR x => XR (- x) | XInf n => XInf (negb n) | XNan => XNan end.

Definition xadd (a b : xr) : xr :=
  match a, b with
  | XR x, XR y => XR (x + y)
  | XInf n, XR _ => XInf n
  | XR _, XInf n => XInf n
  | XInf n, XInf m => if Bool.eqb n m then XInf n else XNan
  | _, _ => XNan
  end.

Definition xsub (a b : xr) : xr := xadd a (xneg b).

(** Infinity times a real. *)
Definition inf_mul (n : bool) (y : R) : xr :=
  if Req_EM_T y 0 then XNan else XInf (xorb n (if Rlt_dec y 0 then true else false)).

Definition xmul (a b : xr) : xr :=
  match a, b with
  | XR x, XR y => XR (x * y)
  | XInf n, XR y => inf_mul n y
  | XR x, XInf n => inf_mul n x
  | XInf n, XInf m => XInf (xorb n m)
  | _, _ => XNan
  end.

(** numpy division: x/0 is an infinity or NaN, no exception. *)
Definition xdiv (a b : xr) : xr :=
  match a, b with
  | XR x, XR y =>
      if Req_EM_T y 0 then
        if Req_EM_T x 0 then XNan
        else XInf (if Rlt_dec x 0 then true else false)
      else XR (x / y)
  | XInf n, XR y => XInf (xorb n (if Rlt_dec y 0 then true else false))
  | XR _, XInf _ => XR 0
  | _, _ => XNan
  end.

Definition xsqrt (a : xr) : xr :=
  match a with
  | XR x => if Rlt_dec x 0 then XNan else XR (sqrt x)
  | XInf false => XInf false
  | _ => XNan
  end.

Definition xlog (base : R) (a : xr) : xr :=
  match a with
  | XR x => if Rlt_dec 0 x then XR (ln x / ln base)
            else if Req_EM_T x 0 then XInf true else XNan
  | XInf false => XInf false
  | _ => XNan
  end.
Definition xlog10 := xlog 10.
Definition xlog2 := xlog 2.

(** [a < 0]; false for NaN. *)
Definition xlt0 (a : xr) : bool :=
  match a with
  | XR x => if Rlt_dec x 0 then true else false
  | XInf n => n
  | XNan => false
  end.

Definition xsq (a : xr) : xr := xmul a a.

Lemma xdiv_fin x y : y <> 0 -> xdiv (XR x) (XR y) = XR (x / y).
Proof. intro H. simpl. destruct (Req_EM_T y 0); [contradiction|reflexivity]. Qed.

Lemma xsqrt_fin x : 0 <= x -> xsqrt (XR x) = XR (sqrt x).
Proof. intro H. simpl. destruct (Rlt_dec x 0); [lra|reflexivity]. Qed.

Lemma xsqrt_neg x : x < 0 -> xsqrt (XR x) = XNan.
Proof. intro H. simpl. destruct (Rlt_dec x 0); [reflexivity|lra]. Qed.

Lemma xlog_fin b x : 0 < x -> xlog b (XR x) = XR (ln x / ln b).
Proof. intro H. simpl. destruct (Rlt_dec 0 x); [reflexivity|lra]. Qed.
