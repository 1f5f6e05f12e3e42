(** Properties C33, C34 and C50: numerical differentiation and gradient check. *)
From Coq Require Import ZArith List Bool Reals.
From Coquelicot Require Import Coquelicot.
From Verif Require Import BaseModel NumModel RealModel NumSpec IeeeProofs TraitsModel TraitsSpec TraitsExamples DiffModel DiffSpec
  JetSpec SumSpec DiffRealSpec DiffProofs DiffRealProofs DiffAccProofs DiffExamples.
Import ListNotations.
Open Scope R_scope.

(** C33: column j is the documented difference quotient at points that differ from x in scalar
    j only. The function is called at x first, then once or twice per column; x itself is
    never changed. *)
Theorem C33_difference_quotients : forall (A : Arith) (sc : fmt) (t : ty) (f : val A -> residuals A) (method : Method) (h : A) (x : val A) (m : nat),
  good_params t x -> returns method f m -> forall log, let n := List.length (flatten x) in
  exists ps qs J, NumEval sc t (logged f) method h x log = Ret (log ++ x :: calls method ps qs, f x, J) /\
    List.length ps = n /\ List.length qs = n /\ List.length J = n /\
    forall j, (j < n)%nat -> exists p q c, nth_error ps j = Some p /\ nth_error qs j = Some q /\ nth_error J j = Some c /\
      shifted sc x (step_vec sc n j h) p /\
      match method with
      | kForward => True
      | kCentral => shifted sc x (step_vec sc n j (nopp h)) q
      | kFastCentral => shifted sc p (step_vec sc n j (nmul sc (nofZ sc (-2)) h)) q
      end /\
      List.length c = m /\
      forall i, (i < m)%nat -> nth i c (nzero sc) =
        quotient sc method h (nth i (coefs_of (f p)) (nzero sc)) (nth i (coefs_of (f q)) (nzero sc)) (nth i (coefs_of (f x)) (nzero sc)).
Proof. exact (fun A sc t f method h x m P R => NumEval_ok sc t f method h x m P R). Qed.
Print Assumptions C33_difference_quotients.
Example C33_difference_quotients_ex : good_params d_ty d_x /\ forall method, @returns REAL method d_f 3.
Proof. exact (conj d_good d_returns). Qed.

(** C33: 1 + n calls for forward differences, 1 + 2n for central ones. *)
Theorem C33_calls : forall (A : Arith) (method : Method) (ps qs : list (val A)) n, List.length ps = n -> List.length qs = n ->
  List.length (calls method ps qs) = match method with kForward => n | _ => 2 * n end%nat.
Proof. exact @calls_count. Qed.
Print Assumptions C33_calls.

(** C33 fails for forward differences of residuals that are not a column: the matrix is
    subtracted from the reshaped vector. *)
Theorem C33_forward_matrix_refuted : forall (A : Arith) (sc : fmt) (h a : A), exists f : val A -> residuals A,
  NumEval sc TScalar (logged f) kForward h (VScalar a) [] = UB UBOutOfBounds /\
  exists r, NumEval sc TScalar (logged f) kCentral h (VScalar a) [] = Ret r.
Proof. exact (fun A sc h a => ex_intro _ _ (conj (forward_matrix A sc h a) (central_matrix A sc h a))). Qed.
Print Assumptions C33_forward_matrix_refuted.

(** C34: error of forward differences of a function that is twice differentiable along the
    coordinate. *)
Theorem C34_forward : forall (sc : fmt) (t : ty) (f : val R -> residuals R) (F : list R -> list R) (h : R) (x : val R) (m : nat),
  good_params t x -> computes x f F -> forall log : list (val R), @returns REAL kForward f m -> 0 < h -> let X := flatten x in
  exists (log' : list (val R)) (J : list (list R)),
    @NumEval REAL _ sc t (@logged REAL f) kForward h x log = Ret (log', f x, J) /\ List.length J = List.length X /\
    forall i j f1 f2 M, (i < m)%nat -> (j < List.length X)%nat -> let c := nth j X 0 in
      derivative_on c (c + h) (along F i X j) f1 -> derivative_on c (c + h) f1 f2 -> (forall s, c <= s <= c + h -> Rabs (f2 s) <= M) ->
      Rabs (nth i (nth j J []) 0 - f1 c) <= h * M / 2.
Proof. exact forward_accuracy. Qed.
Print Assumptions C34_forward.
Example C34_forward_ex : good_params d_ty d_x /\ computes d_x d_f d_F /\ @returns REAL kForward d_f 3 /\
  derivative_on 1 (1 + 1 / 10) (along d_F 0 [1; 2] 0) (fun s => 3 * (s * s)) /\
  derivative_on 1 (1 + 1 / 10) (fun s => 3 * (s * s)) (fun s => 6 * s) /\ (forall s, 1 <= s <= 1 + 1 / 10 -> Rabs (6 * s) <= 7).
Proof. exact (conj d_good (conj d_computes (conj (d_returns kForward) d_forward_derivatives))). Qed.

(** C34: error of both central differences of a function that is three times differentiable
    along the coordinate. *)
Theorem C34_central : forall (sc : fmt) (t : ty) (f : val R -> residuals R) (F : list R -> list R) (h : R) (x : val R) (m : nat),
  good_params t x -> computes x f F -> forall (log : list (val R)) (method : Method), method <> kForward -> @returns REAL method f m -> 0 < h -> let X := flatten x in
  exists (log' : list (val R)) (J : list (list R)),
    @NumEval REAL _ sc t (@logged REAL f) method h x log = Ret (log', f x, J) /\ List.length J = List.length X /\
    forall i j f1 f2 f3 M, (i < m)%nat -> (j < List.length X)%nat -> let c := nth j X 0 in
      derivative_on (c - h) (c + h) (along F i X j) f1 -> derivative_on (c - h) (c + h) f1 f2 -> derivative_on (c - h) (c + h) f2 f3 ->
      (forall s, c - h <= s <= c + h -> Rabs (f3 s) <= M) ->
      Rabs (nth i (nth j J []) 0 - f1 c) <= h * h * M / 6.
Proof. exact central_accuracy. Qed.
Print Assumptions C34_central.
Example C34_central_ex : good_params d_ty d_x /\ computes d_x d_f d_F /\ (forall method, @returns REAL method d_f 3) /\ forall c h,
  derivative_on (c - h) (c + h) (along d_F 0 [1; 2] 0) (fun s => 3 * (s * s)) /\ derivative_on (c - h) (c + h) (fun s => 3 * (s * s)) (fun s => 6 * s) /\
  derivative_on (c - h) (c + h) (fun s => 6 * s) (fun _ => 6) /\ forall s : R, c - h <= s <= c + h -> Rabs 6 <= 6.
Proof. exact (conj d_good (conj d_computes (conj d_returns d_derivatives))). Qed.

(** C34: all methods are exact for affine residuals. *)
Theorem C34_affine : forall (sc : fmt) (t : ty) (f : val R -> residuals R) (F : list R -> list R) (h : R) (x : val R) (m : nat),
  good_params t x -> computes x f F -> forall (log : list (val R)) (method : Method), @returns REAL method f m -> h <> 0 -> let n := List.length (flatten x) in
  exists (log' : list (val R)) (J : list (list R)), @NumEval REAL _ sc t (@logged REAL f) method h x log = Ret (log', f x, J) /\ List.length J = n /\
  forall i j a b, (i < m)%nat -> (j < n)%nat -> affine_in n F i a b -> nth i (nth j J []) 0 = b j.
Proof. exact affine_exact. Qed.
Print Assumptions C34_affine.
Example C34_affine_ex : good_params d_ty d_x /\ computes d_x d_f d_F /\ (forall method, @returns REAL method d_f 3) /\
  affine_in 2 d_F 1 5 (fun k => match k with O => 1 | _ => -2 end).
Proof. exact (conj d_good (conj d_computes (conj d_returns d_affine))). Qed.

(** C34: central differences are exact for quadratic residuals. *)
Theorem C34_quadratic : forall (sc : fmt) (t : ty) (f : val R -> residuals R) (F : list R -> list R) (h : R) (x : val R) (m : nat),
  good_params t x -> computes x f F -> forall (log : list (val R)) (method : Method), method <> kForward -> @returns REAL method f m -> h <> 0 ->
  let n := List.length (flatten x) in
  exists (log' : list (val R)) (J : list (list R)), @NumEval REAL _ sc t (@logged REAL f) method h x log = Ret (log', f x, J) /\ List.length J = n /\
  forall i j a b Q, (i < m)%nat -> (j < n)%nat -> quadratic_in n F i a b Q ->
    nth i (nth j J []) 0 = b j + sum n (fun l => (Q j l + Q l j) * nth l (flatten x) 0).
Proof. exact quadratic_exact. Qed.
Print Assumptions C34_quadratic.
Example C34_quadratic_ex : good_params d_ty d_x /\ computes d_x d_f d_F /\ (forall method, @returns REAL method d_f 3) /\
  quadratic_in 2 d_F 2 0 (fun _ => 0) (fun k l => match k, l with O, 1%nat => 1 | _, _ => 0 end).
Proof. exact (conj d_good (conj d_computes (conj d_returns d_quadratic))). Qed.

(** C50: in exact arithmetic CheckGradient accepts exactly the gradients whose components all
    differ by less than eps from the difference quotients with step eps/10. *)
Theorem C50_accepts_iff : forall (sc : fmt) (t : ty) (c : val R -> R) (G : val R -> list R) (method : Method) (eps : R) (x : val R) (log : list (val R)),
  good_params t x -> (0 < List.length (flatten x))%nat -> List.length (G x) = List.length (flatten x) ->
  exists (log' : list (val R)) b, @CheckGradient REAL _ sc t (@pure REAL c G) eps method x log = Ret (log', b) /\
    forall C : list R -> R, (forall y, same_shape x y -> c y = C (flatten y)) ->
    (b = true <-> forall j, (j < List.length (flatten x))%nat ->
       Rabs (real_quotient method (eps / 10) C (flatten x) j - nth j (G x) 0) < eps).
Proof. exact real_check. Qed.
Print Assumptions C50_accepts_iff.
Example C50_accepts_iff_ex : good_params d_ty d_x /\ (0 < List.length (flatten d_x))%nat /\ List.length (d_G d_x) = List.length (flatten d_x) /\
  forall y, same_shape d_x y -> d_c y = d_C (flatten y).
Proof. exact (conj d_good (conj Nat.lt_0_2 (conj eq_refl (fun y _ => eq_refl)))). Qed.

(** C50: the same in float and double, when no difference overflows or is NaN; the
    differences are rounded. *)
Theorem C50_accepts_iff_rounded : forall (sc : fmt) (t : ty) (c : val IEEE -> IEEE) (G : val IEEE -> list IEEE) (method : Method) (eps : IEEE) (x : val IEEE) (log : list (val IEEE)),
  good_params t x -> (0 < List.length (flatten x))%nat -> List.length (G x) = List.length (flatten x) ->
  is_fmt F64 eps = true -> is_fin eps = true -> (forall y, is_fmt sc (c y) = true) -> List.Forall (fun g => is_fmt sc g = true) (G x) ->
  let n := List.length (flatten x) in let h := ncvt sc (ndiv F64 eps (nofZ F64 10)) in
  exists log' ps qs N b, @CheckGradient IEEE _ sc t (@pure IEEE c G) eps method x log = Ret (log', b) /\ List.length N = n /\
    (forall j, (j < n)%nat -> exists p q, nth_error ps j = Some p /\ nth_error qs j = Some q /\
       shifted sc x (step_vec sc n j h) p /\
       match method with
       | kForward => True
       | kCentral => shifted sc x (step_vec sc n j (nopp h)) q
       | kFastCentral => shifted sc p (step_vec sc n j (nmul sc (nofZ sc (-2)) h)) q
       end /\
       nth j N (nzero sc) = quotient sc method h (c p) (c q) (c x)) /\
    ((forall j, (j < n)%nat -> is_fin (nsub sc (nth j N (nzero sc)) (nth j (G x) (nzero sc))) = true) ->
     (b = true <-> forall j, (j < n)%nat -> Rabs (toR (nsub sc (nth j N (nzero sc)) (nth j (G x) (nzero sc)))) < toR eps)).
Proof. exact ieee_check. Qed.
Print Assumptions C50_accepts_iff_rounded.
Example C50_accepts_iff_rounded_ex : good_params d_ty i_x /\ is_fmt F64 i_eps = true /\ is_fin i_eps = true /\ (forall y, is_fmt F64 (i_c y) = true) /\
  List.Forall (fun g => is_fmt F64 g = true) (i_G i_x) /\
  match @CheckGradient IEEE _ F64 d_ty (pure i_c i_G) i_eps kCentral i_x [] with Ret (_, b) => b | _ => false end = true.
Proof. exact (conj i_good (conj i_eps_fmt (conj i_eps_fin (conj i_c_fmt (conj i_G_fmt i_true))))). Qed.

(** C50: with central differences, a correct gradient is accepted if the discretisation error
    is below eps. *)
Theorem C50_correct_gradient_accepted : forall (sc : fmt) (t : ty) (c : val R -> R) (G : val R -> list R) (method : Method) (eps M : R) (x : val R)
  (C : list R -> R) (c1 c2 c3 : nat -> R -> R) (log : list (val R)),
  good_params t x -> (0 < List.length (flatten x))%nat -> List.length (G x) = List.length (flatten x) ->
  (forall y, same_shape x y -> c y = C (flatten y)) -> method <> kForward -> 0 < eps ->
  (forall j, (j < List.length (flatten x))%nat -> third_order C (flatten x) j (eps / 10) M (c1 j) (c2 j) (c3 j)) ->
  eps / 10 * (eps / 10) * M / 6 < eps ->
  (forall j, (j < List.length (flatten x))%nat -> nth j (G x) 0 = c1 j (nth j (flatten x) 0)) ->
  exists log' : list (val R), @CheckGradient REAL _ sc t (@pure REAL c G) eps method x log = Ret (log', true).
Proof. exact accepts. Qed.
Print Assumptions C50_correct_gradient_accepted.
Example C50_correct_gradient_accepted_ex : good_params d_ty d_x /\ (forall h j, (j < 2)%nat -> third_order d_C [1; 2] j h 6 (d_c1 j) (d_c2 j) (d_c3 j)) /\
  (forall j, (j < 2)%nat -> nth j (d_G d_x) 0 = d_c1 j (nth j [1; 2] 0)) /\ 1 / 10 * (1 / 10) * 6 / 6 < 1.
Proof. exact (conj d_good (conj d_third (conj d_gradient d_small))). Qed.

(** C50: with central differences, a gradient that is off by eps plus the discretisation
    error in some component is rejected. *)
Theorem C50_wrong_gradient_rejected : forall (sc : fmt) (t : ty) (c : val R -> R) (G : val R -> list R) (method : Method) (eps M : R) (x : val R)
  (C : list R -> R) (c1 c2 c3 : nat -> R -> R) (log : list (val R)),
  good_params t x -> (0 < List.length (flatten x))%nat -> List.length (G x) = List.length (flatten x) ->
  (forall y, same_shape x y -> c y = C (flatten y)) -> method <> kForward -> 0 < eps ->
  (forall j, (j < List.length (flatten x))%nat -> third_order C (flatten x) j (eps / 10) M (c1 j) (c2 j) (c3 j)) ->
  (exists j, (j < List.length (flatten x))%nat /\ eps + eps / 10 * (eps / 10) * M / 6 <= Rabs (nth j (G x) 0 - c1 j (nth j (flatten x) 0))) ->
  exists log' : list (val R), @CheckGradient REAL _ sc t (@pure REAL c G) eps method x log = Ret (log', false).
Proof. exact rejects. Qed.
Print Assumptions C50_wrong_gradient_rejected.
Example C50_wrong_gradient_rejected_ex : (forall h j, (j < 2)%nat -> third_order d_C [1; 2] j h 6 (d_c1 j) (d_c2 j) (d_c3 j)) /\
  exists j, (j < 2)%nat /\ 1 / 10 + 1 / 100 * (1 / 100) * 6 / 6 <= Rabs (nth j (d_wrong d_x) 0 - d_c1 j (nth j [1; 2] 0)).
Proof. exact (conj d_third d_off). Qed.

(** C50: CheckResidualsGradient checks the gradient of (half) the squared norm of the
    residuals and, if asked, every entry of the Hessian against J^T J. *)
Theorem C50_residuals : forall (sc : fmt) (t : ty) (f : val R -> residuals R) (G : val R -> list R) (H : val R -> list (list R))
  (method : Method) (eps : R) (x : val R) (m : nat) (check_H downscale : bool) (log : list (val R)) (F : list R -> list R),
  good_params t x -> (0 < List.length (flatten x))%nat -> List.length (G x) = List.length (flatten x) ->
  List.length (H x) = List.length (flatten x) -> List.Forall (fun r => List.length r = List.length (flatten x)) (H x) ->
  @returns REAL method f m -> computes x f F ->
  let s := if downscale then 1 / 2 else 1 in let n := List.length (flatten x) in let h := eps / 10 in
  exists (log' : list (val R)) b,
    @CheckResidualsGradient REAL _ sc t inner (pure_residuals f G H) eps method check_H downscale x log = Ret (log', b) /\
    (b = true <->
     (forall j, (j < n)%nat -> Rabs (real_quotient method h (fun X => s * inner (F X) (F X)) (flatten x) j - nth j (G x) 0) < eps) /\
     (check_H = true -> forall j k, (j < n)%nat -> (k < n)%nat ->
       Rabs (sum m (fun i => real_quotient method h (fun X => nth i (F X) 0) (flatten x) j * real_quotient method h (fun X => nth i (F X) 0) (flatten x) k)
             - nth k (nth j (H x) []) 0) < eps)).
Proof. exact residual_check. Qed.
Print Assumptions C50_residuals.
Example C50_residuals_ex : good_params d_ty d_x /\ List.length (d_H d_x) = List.length (flatten d_x) /\
  List.Forall (fun r => List.length r = List.length (flatten d_x)) (d_H d_x) /\ (forall method, @returns REAL method d_f 3) /\ computes d_x d_f d_F.
Proof. exact (conj d_good (conj eq_refl (conj d_H_square (conj d_returns d_computes)))). Qed.
