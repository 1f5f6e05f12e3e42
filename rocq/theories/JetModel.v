(** 3rdparty/ceres/jet.h in exact arithmetic: every T operation is the real operation.
    Bessel functions (jet.h:910-1011) are in BesselModel.v, the classification functions in
    SpecialModel.v, nested jets in NestModel.v. There is no NaN here: [nan_] stands for it. Definitions only. *)
From Coq Require Import ZArith List Bool Reals.
From Flocq Require Import Core.Raux.
From Verif Require Import BaseModel FunModel.
Import ListNotations.
Open Scope R_scope.

(** jet.h:216-298: scalar and infinitesimal part. *)
Record Jet := mkJet { a : R; v : list R }.

Definition nan_ : R := 0.

Section Jets.
Variable N : option nat.            (* None: Eigen::Dynamic *)

(** Eigen vector expressions. Sums of vectors of different sizes are undefined. *)
Definition scl (s : R) (w : list R) : list R := map (fun x => s * x) w.
Definition neg (w : list R) : list R := map Ropp w.
Fixpoint zip (f : R -> R -> R) (u w : list R) : list R :=
  match u, w with x :: u, y :: w => f x y :: zip f u w | _, _ => [] end.
Definition vop (f : R -> R -> R) (u w : list R) : outcome (list R) :=
  if (List.length u =? List.length w)%nat then Ret (zip f u w) else UB UBOutOfBounds.
Definition vadd := vop Rplus.
Definition vsub := vop Rminus.

(** v.setConstant(0) after construction: empty for Dynamic (jet.h:226-232). *)
Definition zeros : list R := match N with Some n => repeat 0 n | None => [] end.
Definition Jet_default : Jet := mkJet 0 zeros.
Definition Jet_const (s : R) : Jet := mkJet s zeros.
(** The lines "const auto &fv = f.v.size() > 0 ? f.v : Zero(g.v.size())". *)
Definition padded (u w : list R) : list R :=
  match N with
  | Some _ => u
  | None => match u with [] => repeat 0 (List.length w) | _ => u end
  end.

(** jet.h:303-423: arithmetic. *)
Definition jet_neg (f : Jet) : Jet := mkJet (- a f) (neg (v f)).
Definition jet_add (f g : Jet) : outcome Jet :=
  do w <- vadd (padded (v f) (v g)) (padded (v g) (v f)); Ret (mkJet (a f + a g) w).
Definition jet_add_s (f : Jet) (s : R) : Jet := mkJet (a f + s) (v f).
Definition jet_s_add (s : R) (f : Jet) : Jet := mkJet (a f + s) (v f).
Definition jet_sub (f g : Jet) : outcome Jet :=
  do w <- vsub (padded (v f) (v g)) (padded (v g) (v f)); Ret (mkJet (a f - a g) w).
Definition jet_sub_s (f : Jet) (s : R) : Jet := mkJet (a f - s) (v f).
Definition jet_s_sub (s : R) (f : Jet) : Jet := mkJet (s - a f) (neg (v f)).
Definition jet_mul (f g : Jet) : outcome Jet :=
  do w <- vadd (scl (a f) (padded (v g) (v f))) (scl (a g) (padded (v f) (v g)));
  Ret (mkJet (a f * a g) w).
Definition jet_mul_s (f : Jet) (s : R) : Jet := mkJet (a f * s) (scl s (v f)).
Definition jet_s_mul (s : R) (f : Jet) : Jet := mkJet (a f * s) (scl s (v f)).
Definition jet_div (f g : Jet) : outcome Jet :=
  let g_a_inverse := 1 / a g in
  let f_a_by_g_a := a f * g_a_inverse in
  do w <- vsub (padded (v f) (v g)) (scl f_a_by_g_a (padded (v g) (v f)));
  Ret (mkJet f_a_by_g_a (scl g_a_inverse w)).
Definition jet_s_div (s : R) (g : Jet) : Jet :=
  let minus_s_g_a_inverse2 := - s / (a g * a g) in
  mkJet (s / a g) (scl minus_s_g_a_inverse2 (v g)).
Definition jet_div_s (f : Jet) (s : R) : Jet :=
  let s_inverse := 1 / s in mkJet (a f * s_inverse) (scl s_inverse (v f)).

(** jet.h:425-448: comparisons only look at the scalar parts. *)
Definition jet_lt (f g : Jet) : bool := Rlt_bool (a f) (a g).
Definition jet_le (f g : Jet) : bool := Rle_bool (a f) (a g).
Definition jet_gt (f g : Jet) : bool := Rlt_bool (a g) (a f).
Definition jet_ge (f g : Jet) : bool := Rle_bool (a g) (a f).
Definition jet_eq (f g : Jet) : bool := Req_bool (a f) (a g).
Definition jet_ne (f g : Jet) : bool := negb (Req_bool (a f) (a g)).

(** jet.h:556-560 *)
Definition jet_abs (f : Jet) : Jet := mkJet (Rabs (a f)) (scl (sign1 (a f)) (v f)).
(** jet.h:583-602. The Dirac delta [d] is infinite for b = 0: meaningless here. *)
Definition jet_copysign (f g : Jet) : outcome Jet :=
  let d := if Req_bool (a g) 0 then nan_ else 0 in
  let sa := sign1 (a f) in
  let sb := sign1 (a g) in
  do w <- vadd (scl (sa * sb) (padded (v f) (v g))) (scl (Rabs (a f) * d) (padded (v g) (v f)));
  Ret (mkJet (std_copysign (a f) (a g)) w).
(** jet.h:604-624 *)
Definition jet_log (f : Jet) : Jet :=
  let a_inverse := 1 / a f in mkJet (ln (a f)) (scl a_inverse (v f)).
Definition jet_log10 (f : Jet) : Jet :=
  let a_inverse := 1 / (a f * ln 10) in mkJet (std_log10 (a f)) (scl a_inverse (v f)).
Definition jet_log1p (f : Jet) : Jet :=
  let a_inverse := 1 / (1 + a f) in mkJet (std_log1p (a f)) (scl a_inverse (v f)).
(** jet.h:626-647 *)
Definition jet_exp (f : Jet) : Jet := let tmp := exp (a f) in mkJet tmp (scl tmp (v f)).
Definition jet_expm1 (f : Jet) : Jet :=
  let tmp := std_expm1 (a f) in let expa := tmp + 1 in mkJet tmp (scl expa (v f)).
Definition jet_sqrt (f : Jet) : Jet :=
  let tmp := sqrt (a f) in let two_a_inverse := 1 / (2 * tmp) in mkJet tmp (scl two_a_inverse (v f)).
(** jet.h:649-688 *)
Definition jet_cos (f : Jet) : Jet := mkJet (cos (a f)) (scl (- sin (a f)) (v f)).
Definition jet_acos (f : Jet) : Jet :=
  let tmp := - (1) / sqrt (1 - a f * a f) in mkJet (acos (a f)) (scl tmp (v f)).
Definition jet_sin (f : Jet) : Jet := mkJet (sin (a f)) (scl (cos (a f)) (v f)).
Definition jet_asin (f : Jet) : Jet :=
  let tmp := 1 / sqrt (1 - a f * a f) in mkJet (asin (a f)) (scl tmp (v f)).
Definition jet_tan (f : Jet) : Jet :=
  let tan_a := tan (a f) in let tmp := 1 + tan_a * tan_a in mkJet tan_a (scl tmp (v f)).
Definition jet_atan (f : Jet) : Jet :=
  let tmp := 1 / (1 + a f * a f) in mkJet (atan (a f)) (scl tmp (v f)).
(** jet.h:690-708 *)
Definition jet_sinh (f : Jet) : Jet := mkJet (sinh (a f)) (scl (cosh (a f)) (v f)).
Definition jet_cosh (f : Jet) : Jet := mkJet (cosh (a f)) (scl (sinh (a f)) (v f)).
Definition jet_tanh (f : Jet) : Jet :=
  let tanh_a := tanh (a f) in let tmp := 1 - tanh_a * tanh_a in mkJet tanh_a (scl tmp (v f)).
(** jet.h:710-726 *)
Definition jet_floor (f : Jet) : Jet := Jet_const (std_floor (a f)).
Definition jet_ceil (f : Jet) : Jet := Jet_const (std_ceil (a f)).
(** jet.h:730-750 *)
Definition jet_cbrt (f : Jet) : Jet :=
  let derivative := 1 / (3 * std_cbrt (a f * a f)) in mkJet (std_cbrt (a f)) (scl derivative (v f)).
Definition jet_exp2 (f : Jet) : Jet :=
  let tmp := std_exp2 (a f) in let derivative := tmp * ln 2 in mkJet tmp (scl derivative (v f)).
Definition jet_log2 (f : Jet) : Jet :=
  let derivative := 1 / (a f * ln 2) in mkJet (std_log2 (a f)) (scl derivative (v f)).
(** jet.h:752-785: no padding. *)
Definition jet_hypot (x y : Jet) : outcome Jet :=
  let tmp := std_hypot (a x) (a y) in
  do w <- vadd (scl (a x / tmp) (v x)) (scl (a y / tmp) (v y)); Ret (mkJet tmp w).
Definition jet_hypot3 (x y z : Jet) : outcome Jet :=
  let tmp := std_hypot3 (a x) (a y) (a z) in
  do w <- vadd (scl (a x / tmp) (v x)) (scl (a y / tmp) (v y));
  do w <- vadd w (scl (a z / tmp) (v z)); Ret (mkJet tmp w).
(** jet.h:787-796: no padding. *)
Definition jet_fma (x y z : Jet) : outcome Jet :=
  do w <- vadd (scl (a y) (v x)) (scl (a x) (v y));
  do w <- vadd w (v z); Ret (mkJet (a x * a y + a z) w).

(** jet.h:1195-1215 (C++20): the result of a dynamic jet has an empty v, to which the loop
    writes; b.v[i] is read for all i below a.v.size(). *)
Definition jet_midpoint (f g : Jet) : outcome Jet :=
  let n := match N with Some n => n | None => List.length (v f) end in
  let room := List.length zeros in
  if (n <=? room)%nat && (n <=? List.length (v f))%nat && (n <=? List.length (v g))%nat
  then Ret (mkJet (std_midpoint (a f) (a g)) (zip std_midpoint (v f) (v g) ++ skipn n zeros))
  else UB UBOutOfBounds.
(** jet.h:1174-1193: no padding. *)
Definition jet_lerp (p q t : Jet) : outcome Jet :=
  do w <- vadd (scl (1 - a t) (v p)) (scl (a t) (v q));
  do w <- vadd w (scl (a q - a p) (v t)); Ret (mkJet (std_lerp (a p) (a q) (a t)) w).

(** jet.h:829-884, with jets on both sides. *)
Definition jet_fmax (x y : Jet) : outcome Jet :=
  if jet_lt x y || jet_gt x y then Ret (if jet_lt x y then y else x) else jet_midpoint x y.
Definition jet_fmin (x y : Jet) : outcome Jet :=
  if jet_lt x y || jet_gt x y then Ret (if jet_gt x y then y else x) else jet_midpoint x y.
Definition jet_fdim (f g : Jet) : outcome Jet :=
  if jet_gt f g then jet_sub f g else Ret Jet_default.

(** jet.h:886-909 *)
Definition jet_erf (x : Jet) : Jet :=
  mkJet (std_erf (a x)) (scl (1 / sqrt (atan 1)) (scl (exp (- a x * a x)) (v x))).
Definition jet_erfc (x : Jet) : Jet :=
  mkJet (std_erfc (a x)) (scl (1 / sqrt (atan 1)) (scl (exp (- a x * a x)) (neg (v x)))).

(** jet.h:1218-1238: atan2(g, f). *)
Definition jet_atan2 (g f : Jet) : outcome Jet :=
  let tmp := 1 / (a f * a f + a g * a g) in
  do w <- vadd (scl (- a g) (padded (v f) (v g))) (scl (a f) (padded (v g) (v f)));
  Ret (mkJet (std_atan2 (a g) (a f)) (scl tmp w)).
(** jet.h:1249-1253 *)
Definition jet_norm (f : Jet) : Jet := mkJet (a f * a f) (scl (2 * a f) (v f)).

(** jet.h:1255-1261: pow(Jet, double). *)
Definition jet_pow_s (f : Jet) (g : R) : Jet :=
  let tmp := g * std_pow (a f) (g - 1) in mkJet (std_pow (a f) g) (scl tmp (v f)).

(** The loops "if (fpclassify(g.v[i]) != FP_ZERO) result.v[i] = NaN". [n] iterations. *)
Definition mark_nan (n : nat) (gv rv : list R) : outcome (list R) :=
  if existsb (fun x => negb (Req_bool x 0)) (skipn (List.length rv) (firstn n gv))
     || (List.length gv <? n)%nat
  then UB UBOutOfBounds
  else Ret (zip (fun x y => if Req_bool x 0 then y else nan_) (firstn n gv) rv ++ skipn n rv).

(** jet.h:1274-1303: pow(T, Jet). *)
Definition jet_s_pow (f : R) (g : Jet) : outcome Jet :=
  if Req_bool f 0 && Rlt_bool 0 (a g) then Ret (Jet_const 0)
  else if Rlt_bool f 0 && is_int (a g) then
    let result := Jet_const (std_pow f (a g)) in
    let n := match N with Some n => n | None => List.length (v g) end in
    do w <- mark_nan n (v g) (v result); Ret (mkJet (a result) w)
  else
    let tmp := std_pow f (a g) in Ret (mkJet tmp (scl (ln f * tmp) (v g))).

(** jet.h:1337-1395: pow(Jet, Jet). *)
Definition jet_pow (f g : Jet) : outcome Jet :=
  if Req_bool (a f) 0 && Rle_bool 1 (a g) then
    Ret (if Rlt_bool 1 (a g) then Jet_const 0 else f)
  else
    let fv := padded (v f) (v g) in
    let gv := padded (v g) (v f) in
    if Rlt_bool (a f) 0 && is_int (a g) then
      let tmp := a g * std_pow (a f) (a g - 1) in
      let n := match N with Some n => n | None => List.length fv end in
      do w <- mark_nan n gv (scl tmp fv); Ret (mkJet (std_pow (a f) (a g)) w)
    else
      let tmp1 := std_pow (a f) (a g) in
      let tmp2 := a g * std_pow (a f) (a g - 1) in
      let tmp3 := tmp1 * ln (a f) in
      do w <- vadd (scl tmp2 fv) (scl tmp3 gv); Ret (mkJet tmp1 w).
End Jets.
