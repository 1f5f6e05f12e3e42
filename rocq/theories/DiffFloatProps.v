(** Property C75: numerical differentiation in floating point. *)
From Coq Require Import ZArith List Bool Reals Floats.SpecFloat.
From Verif Require Import BaseModel NumModel NumSpec CostModel StopModel OptionsModel SolverModel OptimizerModel RunModel IeeeProofs
  TraitsModel TraitsSpec JetSpec RollSpec DiffModel DiffSpec DiffRealSpec DiffFloatSpec DiffFloatProofs DiffFloatErrorProofs DiffFloatRunProofs DiffFloatExamples.
Import ListNotations.
Open Scope R_scope.

(** C75: each coefficient of J is the exact difference quotient, up to the errors of the user's
    function, of the arguments it is called with, of the subtraction and of the division. *)
Theorem C75_rounding : forall (T : fmt) (t : ty) (f : val IEEE -> residuals IEEE) (F : list R -> list R) (method : Method) (h : IEEE) (x : val IEEE) (m : nat) (delta : R),
  good_params t x -> returns method f m -> List.Forall (number_of T) (flatten x) -> number_of T h -> 0 < toR h -> computes_within T method (toR h) x f F m delta ->
  forall log, let X := map toR (flatten x) in
  exists log' J, NumEval T t (logged f) method h x log = Ret (log', f x, J) /\ List.length J = List.length (flatten x) /\
    forall i j L, (i < m)%nat -> (j < List.length (flatten x))%nat -> 0 <= L ->
      let c := nth j X 0 in let s := slip T method c (toR h) in
      Rabs c + 2 * toR h <= powerRZ 2 (emax_of T - 2) ->
      (forall a b, c - toR h - s <= a <= c + toR h + s -> c - toR h - s <= b <= c + toR h + s ->
        Rabs (along F i X j a - along F i X j b) <= L * Rabs (a - b)) ->
      is_fin (nth i (nth j J []) (nzero T)) = true ->
      let Q := real_quotient method (toR h) (fun y => nth i (F y) 0) X j in
      let E := evaluation_error T method c (toR h) L delta in
      Rabs (toR (nth i (nth j J []) (nzero T)) - Q) <= E + rounding_error T (Rabs Q + E).
Proof. exact jacobian_error. Qed.
Print Assumptions C75_rounding.
Example C75_rounding_ex : good_params fl_ty fl_x /\ (forall method, returns method fl_swap 2) /\ List.Forall (number_of F32) (flatten fl_x) /\
  number_of F32 fl_h /\ 0 < toR fl_h /\ (forall method, computes_within F32 method (toR fl_h) fl_x fl_swap fl_Swap 2 0) /\ map toR (flatten fl_x) = [1; 2] /\
  Rabs 2 + 2 * toR fl_h <= powerRZ 2 (emax_of F32 - 2).
Proof. exact (conj (fl_good _ _) (conj fl_swap_returns (conj fl_numbers (conj fl_h_number (conj fl_positive (conj (fun method => fl_swap_within method _) (conj fl_values fl_range))))))). Qed.

(** C75: hence it is the partial derivative up to these errors and the truncation error of C34.
    The bound grows with |x| / h: the step does not depend on the magnitude of x. *)
Theorem C75_accuracy : forall (T : fmt) (t : ty) (f : val IEEE -> residuals IEEE) (F : list R -> list R) (method : Method) (h : IEEE) (x : val IEEE) (m : nat) (delta : R),
  good_params t x -> returns method f m -> List.Forall (number_of T) (flatten x) -> number_of T h -> 0 < toR h -> computes_within T method (toR h) x f F m delta ->
  forall log, let X := map toR (flatten x) in
  exists log' J, NumEval T t (logged f) method h x log = Ret (log', f x, J) /\ List.length J = List.length (flatten x) /\
    forall i j phi1 L M, (i < m)%nat -> (j < List.length (flatten x))%nat ->
      let c := nth j X 0 in
      Rabs c + 2 * toR h <= powerRZ 2 (emax_of T - 2) ->
      smooth_along method c (toR h) (slip T method c (toR h)) (along F i X j) phi1 L M ->
      is_fin (nth i (nth j J []) (nzero T)) = true ->
      let E := evaluation_error T method c (toR h) L delta in
      Rabs (toR (nth i (nth j J []) (nzero T)) - phi1 c) <= truncation_error method (toR h) M + E + rounding_error T (L + E).
Proof. exact jacobian_accuracy. Qed.
Print Assumptions C75_accuracy.
Example C75_accuracy_ex : forall method c h s, smooth_along method c h s (along fl_Swap 0 [1; 2] 1) (fun _ => 1) 1 0.
Proof. exact fl_smooth. Qed.

(** C75 fails for large parameters: whatever the function, the columns of the parameters that
    absorb the step are zero. *)
Theorem C75_lost_refuted : forall (T : fmt) (t : ty) (f : val IEEE -> residuals IEEE) (method : Method) (h : IEEE) (x : val IEEE) (m : nat),
  good_params t x -> returns method f m -> List.Forall (fun c => number_of T c /\ c <> S754_zero true) (flatten x) ->
  List.Forall (number_of T) (coefs_of (f x)) -> number_of T h -> 0 < toR h -> forall log,
  exists log' J, NumEval T t (logged f) method h x log = Ret (log', f x, J) /\ List.length J = List.length (flatten x) /\
    forall j, (j < List.length (flatten x))%nat -> absorbed T (toR (nth j (flatten x) (nzero T))) (largest_step method (toR h)) ->
      List.length (nth j J []) = m /\ all_null (nth j J []).
Proof. exact lost_columns. Qed.
Print Assumptions C75_lost_refuted.
Example C75_lost_ex : good_params fl_ty fb_x /\ (forall method, returns method fb_f 2) /\
  List.Forall (fun c => number_of F32 c /\ c <> S754_zero true) (flatten fb_x) /\ List.Forall (number_of F32) (coefs_of (fb_f fb_x)) /\
  number_of F32 (FloatEpsilon F32) /\ 0 < toR (@FloatEpsilon IEEE F32) /\
  forall method, List.Forall (fun c => absorbed F32 (toR c) (largest_step method (toR (@FloatEpsilon IEEE F32)))) (flatten fb_x).
Proof. exact (conj (fl_good _ _) (conj fb_returns (conj fb_numbers (conj fb_finite (conj fl_h_number (conj fl_positive fb_absorbed)))))). Qed.

(** C75: the function is then only ever called with x itself. *)
Theorem C75_same_argument : forall (T : fmt) (t : ty) (f : val IEEE -> residuals IEEE) (method : Method) (h : IEEE) (x : val IEEE) (m : nat),
  good_params t x -> returns method f m -> List.Forall (fun c => number_of T c /\ c <> S754_zero true) (flatten x) ->
  List.Forall (number_of T) (coefs_of (f x)) -> number_of T h -> 0 < toR h -> forall log, let n := List.length (flatten x) in
  (forall j, (j < n)%nat -> absorbed T (toR (nth j (flatten x) (nzero T))) (largest_step method (toR h))) ->
  exists J, NumEval T t (logged f) method h x log =
      Ret (log ++ repeat x (1 + match method with kForward => n | _ => 2 * n end), f x, J) /\ List.length J = n /\
    List.Forall (fun c => List.length c = m /\ all_null c) J.
Proof. exact lost_calls. Qed.
Print Assumptions C75_same_argument.

(** C75: an optimization that starts from such parameters ends after one iteration. The
    parameters are unchanged, and the result says converged. *)
Theorem C75_converged_refuted : forall (P : Problem IEEE (list (val IEEE)) (val IEEE)) (t : ty) dot norm f (method : Method) (h : IEEE) (x : val IEEE) (m : nat),
  let T := p_scalar P in let n := List.length (flatten x) in
  good_params t x -> returns kForward f m -> dimensioned P x n -> numerical P t dot norm f method h -> null_sums T n (p_backend P) dot ->
  plain_options T (p_options P) -> List.Forall (number_of T) (flatten x) -> List.Forall (number_of T) (coefs_of (f x)) ->
  usable_cost (p_options P) norm (f x) -> number_of T h -> 0 < toR h ->
  List.Forall (fun c => absorbed T (toR c) (largest_step method (toR h))) (flatten x) ->
  forall (k : SolverType) (fuel : nat) log (max_iters : Z), (0 < fuel)%nat -> (0 <= max_iters <= 2147483644)%Z ->
  exists log' s' out, run P k fuel log (fresh P k) x max_iters = Ret (log', s', x, out) /\
    (stop_reason out = kMinError \/ stop_reason out = kMinDeltaNorm) /\ Converged out = true /\ num_iters out = 1%Z /\
    final_cost out = NormalizeCost (p_options P) (num_cost norm (f x)).
Proof. exact run_lost. Qed.
Print Assumptions C75_converged_refuted.
(** With default options and the residuals x - (3, 4), of derivative 1, from (9000, -8192). *)
Example C75_converged_ex : forall (method : Method) (k : SolverType) (fuel : nat) log (max_iters : Z), (0 < fuel)%nat -> (0 <= max_iters <= 2147483644)%Z ->
  p_options (fb_problem method) = default_options /\
  exists log' s' out, run (fb_problem method) k fuel log (fresh (fb_problem method) k) fb_x max_iters = Ret (log', s', fb_x, out) /\
    Converged out = true /\ num_iters out = 1%Z.
Proof. exact (fun method k fuel log max_iters Hf HM => conj eq_refl (fb_run method k fuel log max_iters Hf HM)). Qed.
