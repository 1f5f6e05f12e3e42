(** Vocabulary used by the statements about losses in floating point. *)
From Coq Require Import ZArith List Bool Reals Floats.SpecFloat Permutation.
From Verif Require Import BaseModel NumModel NumSpec IeeeProofs RollSpec DiffFloatSpec LossModel LossSpec LossFloatModel RealModel.
Import ListNotations.
Open Scope R_scope.

(** A finite number of type T between a and b. *)
Definition within (T : fmt) (a b : R) (y : IEEE) : Prop := number_of T y /\ a <= toR y <= b.
(** A number of type T that is not negative, possibly +infinity. *)
Definition nonneg (T : fmt) (y : IEEE) : Prop := is_fmt T y = true /\ nleb (nzero T) y = true.
Definition nan_or_nonneg (T : fmt) (y : IEEE) : Prop := y = S754_nan \/ nonneg T y.
(** s is computed from l by additions in some order and grouping. *)
Inductive summed (T : fmt) : list IEEE -> IEEE -> Prop :=
| summed_one x : summed T [x] x
| summed_add l l1 l2 a b : summed T l1 a -> summed T l2 b -> Permutation l (l1 ++ l2) -> summed T l (nadd T a b).
Definition sums (T : fmt) (sum : list IEEE -> IEEE) : Prop := forall l, l <> [] -> summed T l (sum l).
Definition inf_ : IEEE := S754_infinity false.
(** What is used about an exponential function: exp(0) = 1, and exp(y) is between 0 and 1 for
    y <= 0, also for y = -infinity. *)
Definition exp_like (T : fmt) (e : IEEE -> IEEE) : Prop :=
  (forall y : IEEE, is_null y -> number_of T (e y) /\ toR (e y) = 1) /\
  (forall y : IEEE, is_fmt T y = true -> nleb y (nzero T) = true -> within T 0 1 (e y)).
(** Non-negative arguments have values of at least 1, possibly infinite. *)
Definition exp_grows (T : fmt) (e : IEEE -> IEEE) : Prop :=
  forall y : IEEE, is_fmt T y = true -> nleb (nzero T) y = true -> is_fmt T (e y) = true /\ nleb (none_ T) (e y) = true.
(** e does not decrease on the non-positive numbers. *)
Definition monotone (T : fmt) (e : IEEE -> IEEE) : Prop :=
  forall y z : IEEE, is_fmt T y = true -> is_fmt T z = true -> nleb y z = true -> nleb z (nzero T) = true -> toR (e y) <= toR (e z).
(** Two implementations of the exponential function differ by a relative error of at most rho. *)
Definition agree (T : fmt) (rho : R) (p e : IEEE -> IEEE) : Prop :=
  forall y : IEEE, is_fmt T y = true -> nleb y (nzero T) = true -> Rabs (toR (e y) - toR (p y)) <= rho * toR (p y).
Definition total (l : list R) : R := fold_right Rplus 0 l.

(** The value of a loss and its scale. *)
Definition f_loss_of (r : FResult IEEE) : IEEE := match r with FLoss l => l | FPair l _ => l | FRowOf l _ => l end.
Definition f_scale_of (r : FResult IEEE) : IEEE := match r with FPair _ s => s | _ => S754_nan end.
Definition f_row_of (r : FResult IEEE) : list IEEE := match r with FRowOf _ J => J | _ => [] end.
(** The same functions in exact arithmetic. *)
Definition real_result (r : FResult REAL) : RResult :=
  match r with FLoss l => RLoss l | FPair l s => RScale l s | FRowOf l J => RRow l J end.
Definition real_export (e : RExport) : FExport REAL :=
  match e with NoScale => @FNoScale REAL | Scale => @FScale REAL | Row J => @FRow REAL J end.
(** The exact functions; atan2(y, x) is atan(y / x) for x > 0. *)
Definition real_lib : Libm REAL := @mkLibm REAL exp ln (fun y x => atan (y / x)).
