(** What the property C94 speaks about: the mean and the variance of a pixel of the simulated
    camera, for every probability space. *)
From Coq Require Import ZArith Reals.
From Coquelicot Require Import Coquelicot.
From Verif Require Import Spec_Digit.
Open Scope R_scope.

(** Chance: outcomes W, the quantities that have an expected value, and that value. *)
Record chance (W : Type) := mkChance
  { integrable : (W -> R) -> Prop;
    expect : (W -> R) -> R;
    integrable_const : forall a, integrable (fun _ => a);
    integrable_plus : forall X Y, integrable X -> integrable Y -> integrable (fun w => X w + Y w);
    integrable_scale : forall a X, integrable X -> integrable (fun w => a * X w);
    expect_const : forall a, expect (fun _ => a) = a;
    expect_plus : forall X Y, integrable X -> integrable Y ->
      expect (fun w => X w + Y w) = expect X + expect Y;
    expect_scale : forall a X, integrable X -> expect (fun w => a * X w) = a * expect X;
    expect_le : forall X Y, integrable X -> integrable Y -> (forall w, X w <= Y w) -> expect X <= expect Y }.
Arguments integrable {W}. Arguments expect {W}.

Definition covar {W} (C : chance W) (X Y : W -> R) : R :=
  expect C (fun w => (X w - expect C X) * (Y w - expect C Y)).

(** The generator's deliveries for one pixel: counts of thermal and of light electrons whose
    variance is their mean, electronics noise; uncorrelated. *)
Record deliveries {W} (C : chance W) (t l : W -> Z) (n : W -> R) (ud ue mu s2 : R) : Prop := {
  dv_t : integrable C (fun w => IZR (t w));
  dv_l : integrable C (fun w => IZR (l w));
  dv_n : integrable C n;
  dv_tt : integrable C (fun w => IZR (t w) * IZR (t w));
  dv_ll : integrable C (fun w => IZR (l w) * IZR (l w));
  dv_nn : integrable C (fun w => n w * n w);
  dv_tl : integrable C (fun w => IZR (t w) * IZR (l w));
  dv_tn : integrable C (fun w => IZR (t w) * n w);
  dv_ln : integrable C (fun w => IZR (l w) * n w);
  dv_mean_t : expect C (fun w => IZR (t w)) = ud;
  dv_mean_l : expect C (fun w => IZR (l w)) = ue;
  dv_mean_n : expect C n = mu;
  dv_var_t : covar C (fun w => IZR (t w)) (fun w => IZR (t w)) = ud;
  dv_var_l : covar C (fun w => IZR (l w)) (fun w => IZR (l w)) = ue;
  dv_var_n : covar C n n = s2;
  dv_cov_tl : covar C (fun w => IZR (t w)) (fun w => IZR (l w)) = 0;
  dv_cov_tn : covar C (fun w => IZR (t w)) n = 0;
  dv_cov_ln : covar C (fun w => IZR (l w)) n = 0
}.

(** No outcome reaches the full well or the ends of the grey scale. *)
Definition unclipped {W} (white K offset u_esat dsnu : R) (t l : W -> Z) (n : W -> R) : Prop :=
  forall w, let e := IZR (t w) + IZR (l w) + dsnu + n w in
  0 <= e <= u_esat /\ 0 <= K * e + offset <= white.

(** Mean and variance of a value that depends on the outcome and on the uniform draw for the
    quantisation: averaged over the draw, then over the outcomes. *)
Definition mean_is {W} (C : chance W) (X : W -> R -> R) (m : R) : Prop :=
  exists Xw, (forall w, mean_over_draw (X w) (Xw w)) /\ integrable C Xw /\ expect C Xw = m.
Definition variance_is {W} (C : chance W) (X : W -> R -> R) (v : R) : Prop :=
  exists m, mean_is C X m /\ mean_is C (fun w u => (X w u - m) * (X w u - m)) v.
