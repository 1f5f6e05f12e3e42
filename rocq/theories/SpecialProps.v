(** C71: special values (NaN, infinities, signed zeros, overflow and underflow) in jets. *)
From Coq Require Import ZArith List Bool Reals Floats.SpecFloat Lra.
From Coquelicot Require Import Rbar.
From Verif Require Import BaseModel NumModel NumSpec IeeeProofs JetFloatModel SpecialModel SpecialSpec SpecialProofs SpecialFunctionProofs SpecialAverageProofs SpecialExamples.
Import ListNotations.
Open Scope R_scope.

(** The class of a jet is that of the number it holds. *)
Theorem C71_classes : forall T (f : FJet IEEE), is_fmt T (re f) = true ->
  (fj_isnan f = true <-> not_a_number (re f)) /\ (fj_isinf f = true <-> infinite_number (re f)) /\
  (fj_isfinite f = true <-> finite_number (re f)) /\ (fj_isnormal T f = true <-> finite_number (re f) /\ least_normal T <= Rabs (toR (re f))) /\
  (fj_fpclassify T f = FP_NAN <-> not_a_number (re f)) /\ (fj_fpclassify T f = FP_INFINITE <-> infinite_number (re f)) /\
  (fj_fpclassify T f = FP_ZERO <-> value (re f) = Some (Finite 0)) /\
  (fj_fpclassify T f = FP_SUBNORMAL <-> finite_number (re f) /\ 0 < Rabs (toR (re f)) < least_normal T) /\
  (fj_fpclassify T f = FP_NORMAL <-> finite_number (re f) /\ least_normal T <= Rabs (toR (re f))) /\
  (fj_signbit f = has_minus (re f)).
Proof. exact jet_classes. Qed.
Print Assumptions C71_classes.
Example C71_classes_ex : is_fmt F64 (re sp_f) = true /\ fj_fpclassify F64 sp_f = FP_NORMAL /\ fj_fpclassify F64 sp_z = FP_ZERO /\
  fj_signbit sp_z = true /\ fj_fpclassify F64 (lim_denorm_min F64 2) = FP_SUBNORMAL /\ fj_isnan sp_nan = true.
Proof. vm_compute. repeat split. Qed.

(** The comparison functions compare the numbers; exactly one of less, equal, greater and
    unordered holds. *)
Theorem C71_order : forall T N x y, fits T N x -> fits T N y ->
  (isless x y = true <-> below (number x) (number y)) /\ (isgreater x y = true <-> below (number y) (number x)) /\
  (islessequal x y = true <-> below (number x) (number y) \/ same (number x) (number y)) /\
  (isgreaterequal x y = true <-> below (number y) (number x) \/ same (number x) (number y)) /\
  (islessgreater x y = true <-> below (number x) (number y) \/ below (number y) (number x)) /\
  (isunordered x y = true <-> not_a_number (number x) \/ not_a_number (number y)).
Proof. exact order. Qed.
Print Assumptions C71_order.
Example C71_order_ex : fits F64 2 (OJet sp_f) /\ fits F64 2 (ONum (sp_num 1 0)) /\ isless (OJet sp_f) (ONum (sp_num 1 0)) = true /\
  isunordered (OJet sp_nan) (OJet sp_f) = true /\ islessequal (OJet sp_nan) (OJet sp_nan) = false.
Proof. split; [exact sp_f_fits|]. vm_compute. repeat split. Qed.
Theorem C71_trichotomy : forall x y,
  let a := below x y in let b := same x y in let c := below y x in let d := not_a_number x \/ not_a_number y in
  (a \/ b \/ c \/ d) /\ ~ (a /\ b) /\ ~ (a /\ c) /\ ~ (a /\ d) /\ ~ (b /\ c) /\ ~ (b /\ d) /\ ~ (c /\ d).
Proof. exact trichotomy. Qed.
Print Assumptions C71_trichotomy.

(** midpoint does not overflow, lies between the operands and does not depend on their order. *)
Theorem C71_midpoint : forall T N f g, fits T N (OJet f) -> fits T N (OJet g) ->
  fj_midpoint T f g = fj_midpoint T g f /\ List.length (inf (fj_midpoint T f g)) = N /\
  (finite_number (re f) -> finite_number (re g) -> between (re f) (re g) (re (fj_midpoint T f g))) /\
  (same (re f) (re g) -> same (re f) (re (fj_midpoint T f g))) /\
  (forall i, (i < N)%nat -> finite_number (derivative T f i) -> finite_number (derivative T g i) ->
     between (derivative T f i) (derivative T g i) (derivative T (fj_midpoint T f g) i)).
Proof. exact midpoint. Qed.
Print Assumptions C71_midpoint.
Example C71_midpoint_ex : fits F64 2 (OJet (lim_max F64 2)) /\ finite_number (re (lim_max F64 2)) /\
  re (fj_midpoint F64 (lim_max F64 2) (lim_max F64 2)) = nmax F64.
Proof. split; [vm_compute; split; [reflexivity|split; [reflexivity|repeat constructor]]|]. split; [apply finite_fin|]; vm_compute; reflexivity. Qed.

(** fmax returns the operand of larger value with its derivatives; NaN is treated as missing data. *)
Theorem C71_fmax : forall T N x y, fits T N x -> fits T N y ->
  let m := fj_fmax T N true x y in
  (not_a_number (number x) \/ below (number x) (number y) -> stands_for T N y m) /\
  (~ not_a_number (number x) /\ not_a_number (number y) \/ below (number y) (number x) -> stands_for T N x m) /\
  (same (number x) (number y) -> averaged T N x y m).
Proof. exact fmax_ok. Qed.
Print Assumptions C71_fmax.
Example C71_fmax_ex : fits F64 2 (OJet sp_nan) /\ fits F64 2 (ONum (sp_num 1 0)) /\
  parts (fj_fmax F64 2 true (OJet sp_nan) (ONum (sp_num 1 0))) = (sp_num 1 0, [nzero F64; nzero F64]) /\
  parts (fj_fmax F64 2 true (OJet sp_f) (OJet sp_g)) = parts sp_g.
Proof. split; [exact sp_nan_fits|]. vm_compute. repeat split. Qed.
Theorem C71_fmin : forall T N x y, fits T N x -> fits T N y ->
  let m := fj_fmin T N true x y in
  (not_a_number (number x) \/ below (number y) (number x) -> stands_for T N y m) /\
  (~ not_a_number (number x) /\ not_a_number (number y) \/ below (number x) (number y) -> stands_for T N x m) /\
  (same (number x) (number y) -> averaged T N x y m).
Proof. exact fmin_ok. Qed.
Print Assumptions C71_fmin.
Example C71_fmin_ex : parts (fj_fmin F64 2 true (OJet sp_f) (OJet sp_nan)) = parts sp_f /\ parts (fj_fmin F64 2 true (OJet sp_f) (OJet sp_g)) = parts sp_f.
Proof. vm_compute. repeat split. Qed.
(** Compiled before C++20, the result is the same for operands of different values, and for equal
    ones the value with averaged derivatives, unless a sum overflows. *)
Theorem C71_fmax_cpp17_partial : forall T N x y, fits T N x -> fits T N y ->
  (~ same (number x) (number y) -> fj_fmax T N false x y = fj_fmax T N true x y /\ fj_fmin T N false x y = fj_fmin T N true x y) /\
  (same (number x) (number y) -> (finite_number (number x) -> finite_number (nadd T (number x) (number y))) ->
   (forall i, (i < N)%nat -> finite_number (slope T x i) -> finite_number (slope T y i) -> finite_number (nadd T (slope T x i) (slope T y i))) ->
   averaged T N x y (fj_fmax T N false x y) /\ averaged T N x y (fj_fmin T N false x y)).
Proof. exact maxmin_cpp17. Qed.
Print Assumptions C71_fmax_cpp17_partial.
Example C71_fmax_cpp17_partial_ex : parts (fj_fmax F64 2 false (OJet sp_f) (ONum (re sp_f))) = (re sp_f, map (fun s => nmul F64 s (nlit F64 1 (-1))) (inf sp_f)).
Proof. vm_compute. reflexivity. Qed.
(** Compiled before C++20, the average of two equal finite operands can be infinite. *)
Theorem C71_fmax_cpp17_refuted : exists x : FJet IEEE, fits F64 1 (OJet x) /\ finite_number (re x) /\
  infinite_number (re (fj_fmax F64 1 false (OJet x) (OJet x))) /\ fj_fmax F64 1 true (OJet x) (OJet x) = x.
Proof. exact cpp17_overflow. Qed.
Print Assumptions C71_fmax_cpp17_refuted.

(** fdim: the difference, never zero for a larger first operand; zero otherwise. *)
Theorem C71_fdim : forall T N x y, fits T N x -> fits T N y ->
  let d := fj_fdim T N x y in
  (not_a_number (number x) \/ not_a_number (number y) -> not_a_number (re d) /\ no_slopes N d) /\
  (below (number y) (number x) -> re d = nsub T (number x) (number y) /\ below (nzero T) (re d) /\ List.length (inf d) = N /\
     forall i, (i < N)%nat -> value (derivative T d i) = value (nsub T (slope T x i) (slope T y i))) /\
  (below (number x) (number y) \/ same (number x) (number y) -> value (re d) = Some (Finite 0) /\ no_slopes N d).
Proof. exact fdim_ok. Qed.
Print Assumptions C71_fdim.
Example C71_fdim_ex : parts (fj_fdim F64 2 (OJet sp_g) (ONum (sp_num 1 0))) = (sp_num 1 0, inf sp_g) /\ parts (fj_fdim F64 2 (OJet sp_f) (OJet sp_g)) = parts (fj_const F64 2 (nzero F64)) /\
  re (fj_fdim F64 2 (OJet (lim_infinity F64 2)) (OJet sp_g)) = S754_infinity false.
Proof. vm_compute. repeat split. Qed.

(** abs and copysign: signs of zeros count; at a zero second operand of copysign no derivative is finite. *)
Theorem C71_abs : forall T N f, fits T N (OJet f) ->
  re (fj_abs T f) = with_sign (has_minus (re f)) (re f) /\ List.length (inf (fj_abs T f)) = N /\
  forall i, (i < N)%nat -> value (derivative T (fj_abs T f) i) = value (with_sign (has_minus (re f)) (derivative T f i)).
Proof. exact abs_ok. Qed.
Print Assumptions C71_abs.
Theorem C71_copysign : forall T N f g, fits T N (OJet f) -> fits T N (OJet g) -> ~ not_a_number (re f) -> ~ not_a_number (re g) ->
  let c := fj_copysign T f g in
  re c = with_sign (xorb (has_minus (re f)) (has_minus (re g))) (re f) /\ List.length (inf c) = N /\
  (value (re g) <> Some (Finite 0) -> finite_number (re f) -> forall i, (i < N)%nat -> finite_number (derivative T g i) ->
     value (derivative T c i) = value (with_sign (xorb (has_minus (re f)) (has_minus (re g))) (derivative T f i))) /\
  (value (re g) = Some (Finite 0) -> forall i, (i < N)%nat -> ~ finite_number (derivative T c i)).
Proof. exact copysign_ok. Qed.
Print Assumptions C71_copysign.
Example C71_copysign_ex : parts (fj_copysign F64 sp_g sp_f) = (sp_num (-2) 0, [nzero F64; sp_num (-1) 0]) /\ parts (fj_abs F64 sp_f) = (sp_num 3 0, [sp_num (-1) 0; sp_num (-5) (-1)]) /\
  inf (fj_copysign F64 sp_f sp_z) = [S754_infinity false : IEEE; S754_infinity false].
Proof. vm_compute. repeat split. Qed.

(** pow of jets: the nine documented cases, for library functions as required by ISO C. *)
Theorem C71_pow_zero : forall T N std_pow std_log std_floor, conforming T std_pow std_log std_floor ->
  forall f g, fits T N (OJet f) -> fits T N (OJet g) -> value (re f) = Some (Finite 0) ->
  let r := fj_pow T N std_pow std_log std_floor f g in
  (below (none_ T) (re g) -> value (re r) = Some (Finite 0) /\ no_slopes N r) /\
  (same (none_ T) (re g) -> r = f) /\
  (below (re g) (none_ T) -> List.length (inf r) = N /\ (forall i, (i < N)%nat -> ~ finite_number (derivative T r i)) /\
     (below (nzero T) (re g) -> value (re r) = Some (Finite 0)) /\ (value (re g) = Some (Finite 0) -> value (re r) = Some (Finite 1)) /\
     (below (re g) (nzero T) -> infinite_number (re r))).
Proof. exact pow_zero. Qed.
Print Assumptions C71_pow_zero.
Example C71_pow_zero_ex : conforming F64 (ex_pow F64) (ex_log F64) (ex_floor F64) /\
  parts (fj_pow F64 2 (ex_pow F64) (ex_log F64) (ex_floor F64) sp_z sp_g) = parts (fj_const F64 2 (nzero F64)) /\
  inf (fj_pow F64 2 (ex_pow F64) (ex_log F64) (ex_floor F64) sp_z sp_h) = [S754_nan : IEEE; S754_nan].
Proof. split; [apply ex_conforming|]. vm_compute. repeat split. Qed.
Theorem C71_pow_negative : forall T N std_pow std_log std_floor, conforming T std_pow std_log std_floor ->
  forall f g, fits T N (OJet f) -> fits T N (OJet g) -> below (re f) (nzero T) -> finite_number (re g) ->
  let r := fj_pow T N std_pow std_log std_floor f g in
  re r = std_pow (re f) (re g) /\ List.length (inf r) = N /\
  (integral (re g) -> forall i, (i < N)%nat ->
     (value (derivative T g i) <> Some (Finite 0) -> not_a_number (derivative T r i)) /\
     (value (derivative T g i) = Some (Finite 0) ->
        derivative T r i = nmul T (nmul T (re g) (std_pow (re f) (nsub T (re g) (none_ T)))) (derivative T f i))) /\
  (finite_number (re f) -> ~ integral (re g) -> not_a_number (re r) /\ forall i, (i < N)%nat -> not_a_number (derivative T r i)).
Proof. exact pow_negative. Qed.
Print Assumptions C71_pow_negative.
Example C71_pow_negative_ex : below (re sp_f) (nzero F64) /\ integral (re sp_g) /\ ~ integral (re sp_h) /\ value (derivative F64 sp_g 0) = Some (Finite 0) /\ value (derivative F64 sp_g 1) <> Some (Finite 0).
Proof. exact negative_ex. Qed.
Theorem C71_pow_positive : forall T N std_pow std_log std_floor f g, fits T N (OJet f) -> fits T N (OJet g) -> below (nzero T) (re f) ->
  let r := fj_pow T N std_pow std_log std_floor f g in
  re r = std_pow (re f) (re g) /\ List.length (inf r) = N /\
  forall i, (i < N)%nat -> derivative T r i =
    nadd T (nmul T (nmul T (re g) (std_pow (re f) (nsub T (re g) (none_ T)))) (derivative T f i))
           (nmul T (nmul T (std_pow (re f) (re g)) (std_log (re f))) (derivative T g i)).
Proof. exact pow_positive. Qed.
Print Assumptions C71_pow_positive.
Theorem C71_pow_constant : forall T N std_pow std_log std_floor, conforming T std_pow std_log std_floor ->
  forall (f : IEEE) g, is_fmt T f = true -> fits T N (OJet g) ->
  let r := fj_pow_s T N std_pow std_log std_floor f g in
  (value f = Some (Finite 0) -> below (nzero T) (re g) -> value (re r) = Some (Finite 0) /\ no_slopes N r) /\
  (value f = Some (Finite 0) -> below (re g) (nzero T) \/ value (re g) = Some (Finite 0) -> forall i, (i < N)%nat -> ~ finite_number (derivative T r i)) /\
  (below f (nzero T) -> integral (re g) -> re r = std_pow f (re g) /\ forall i, (i < N)%nat ->
     (value (derivative T g i) <> Some (Finite 0) -> not_a_number (derivative T r i)) /\
     (value (derivative T g i) = Some (Finite 0) -> value (derivative T r i) = Some (Finite 0))) /\
  (finite_number f -> below f (nzero T) -> finite_number (re g) -> ~ integral (re g) -> not_a_number (re r) /\ forall i, (i < N)%nat -> not_a_number (derivative T r i)) /\
  (below (nzero T) f -> re r = std_pow f (re g) /\ List.length (inf r) = N /\
     forall i, (i < N)%nat -> derivative T r i = nmul T (nmul T (std_log f) (std_pow f (re g))) (derivative T g i)).
Proof. exact pow_constant. Qed.
Print Assumptions C71_pow_constant.
Example C71_pow_constant_ex : inf (fj_pow_s F64 2 (ex_pow F64) (ex_log F64) (ex_floor F64) (sp_num (-3) 0) sp_g) = [nzero F64; S754_nan : IEEE] /\
  inf (fj_pow_s F64 2 (ex_pow F64) (ex_log F64) (ex_floor F64) (sp_num (-3) 0) sp_h) = [S754_nan : IEEE; S754_nan].
Proof. vm_compute. repeat split. Qed.

(** numeric_limits of jets: the extreme values bound all jets of their kind. *)
Theorem C71_limits : forall T N (f : FJet IEEE), fits T N (OJet f) ->
  List.Forall (no_slopes N) [lim_min T N; lim_max T N; lim_lowest T N; lim_epsilon T N; lim_infinity T N; lim_quiet_NaN T N; lim_denorm_min T N] /\
  List.Forall (fun j => finite_number (re j)) [lim_min T N; lim_max T N; lim_lowest T N; lim_epsilon T N; lim_denorm_min T N] /\
  (finite_number (re f) -> toR (re (lim_lowest T N)) <= toR (re f) <= toR (re (lim_max T N))) /\
  (finite_number (re f) -> 0 < toR (re f) -> 0 < toR (re (lim_denorm_min T N)) <= toR (re f)) /\
  (0 < toR (re f) -> fj_isnormal T f = true <-> toR (re (lim_min T N)) <= toR (re f)) /\
  (1 < toR (re f) -> toR (@nadd IEEE T (none_ T) (re (lim_epsilon T N))) = 1 + toR (re (lim_epsilon T N)) /\ 1 + toR (re (lim_epsilon T N)) <= toR (re f)) /\
  value (re (lim_infinity T N)) = Some p_infty /\ not_a_number (re (lim_quiet_NaN T N)).
Proof. exact limits. Qed.
Print Assumptions C71_limits.
(** The exponent ranges are those of the type, ... *)
Theorem C71_ranges_partial : forall T, let r := jet_ranges T in
  toR (@nlit IEEE T 1 (1 - prec_of T)) = / 2 ^ Z.to_nat (digits r - 1) /\
  least_normal T = / 2 ^ Z.to_nat (1 - min_exponent r) /\
  IZR (2 ^ (max_exponent r - 1)) <= toR (@nmax IEEE T) < IZR (2 ^ max_exponent r) /\
  IZR (10 ^ max_exponent10 r) <= toR (@nmax IEEE T) < IZR (10 ^ (max_exponent10 r + 1)).
Proof. exact ranges_real. Qed.
Print Assumptions C71_ranges_partial.
(** ... except min_exponent10, which should be the least n such that 10 ^ n is a normal number. *)
Theorem C71_ranges_refuted : exists T (n : Z), (n < min_exponent10 (jet_ranges T))%Z /\ least_normal T <= IZR (10 ^ n) <= toR (@nmax IEEE T) /\
  / IZR (10 ^ - min_exponent10 (std_ranges T)) >= least_normal T.
Proof. exact exponent10_wrong. Qed.
Print Assumptions C71_ranges_refuted.
