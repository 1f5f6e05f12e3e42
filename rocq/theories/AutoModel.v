(** diff/auto_diff.h and diff/optimize_autodiff.h in exact arithmetic. Definitions only.
    The user's function is a list of expressions of the scalars of x (JetSpec.v), evaluated
    on jets. *)
From Coq Require Import ZArith List Bool Reals String.
From Verif Require Import BaseModel NumModel RealModel CostModel TraitsModel TraitsSpec JetModel JetSpec DiffModel.
Import ListNotations.
Open Scope R_scope.

(** auto_diff.h:87-127 stop at the first UB. The first UB, or all results. *)
Fixpoint sequence {S} (l : list (outcome S)) : outcome (list S) :=
  match l with
  | [] => Ret []
  | x :: l => do x <- x; do l <- sequence l; Ret (x :: l)
  end.

(** auto_diff.h:74-77. What the user's function returns: a scalar or a matrix in column-major order. *)
Inductive user_fun := FScalar (e : expr) | FMat (rows cols : nat) (es : list expr).

(** Scalars and Eigen matrices; anything else is a "user defined type" (auto_diff.h:21-22,
    optimize_autodiff.h:28-29). *)
Definition is_eigen (t : ty) : bool := match t with TScalar | TMat _ _ => true | _ => false end.

Section Auto.
Variable t : ty.                                     (* X_t *)
Let N := Dims t.                                     (* the jets are Jet<Scalar, Dims> *)

(** auto_diff.h:35-36, 41, 47-48. v = Zero(dims) if Dims is Dynamic; v[i] = 1. *)
Definition seed_jet (dims i : nat) (j : Jet) : outcome Jet :=
  let w := match N with None => repeat 0 dims | Some _ => v j end in
  if (i <? List.length w)%nat then Ret (mkJet (a j) (put w i 1)) else UB UBOutOfBounds.
Fixpoint seed_from (dims i : nat) (js : list Jet) : outcome (list Jet) :=
  match js with
  | [] => Ret []
  | j :: js => do j <- seed_jet dims i j; do js <- seed_from dims (i + 1) js; Ret (j :: js)
  end.
(** auto_diff.h:32-37, optimize_autodiff.h:47-55: dx_jet. *)
Definition dx_jet (dims : nat) : outcome (list Jet) := seed_from dims 0 (repeat (Jet_default N) dims).
(** auto_diff.h:38-39, optimize_autodiff.h:74-77: PlusEq of the jets, jet.h:251-254. *)
Definition jet_pluseq (x y : outcome Jet) : outcome Jet := do x <- x; do y <- y; jet_add N x y.
Definition shift_jets (x : val R) (dx : list Jet) : outcome (list Jet) :=
  do y <- PlusEq jet_pluseq t (cast (fun s => Ret (Jet_const N s)) x) (map (fun j => Ret j) dx);
  sequence (flatten y).

(** auto_diff.h:28-51: the scalars of x_jet. *)
Definition x_jets (x : val R) : outcome (list Jet) :=
  do dims <- DynDims t x;
  let n := Z.to_nat dims in
  if is_eigen t then seed_from n 0 (map (Jet_const N) (flatten x))
  else do dx <- dx_jet n; shift_jets x dx.

(** auto_diff.h:71. The user's function on jets. *)
Definition eval_all (es : list expr) (xs : list Jet) : outcome (list Jet) :=
  sequence (map (fun e => eval_jet N e xs) es).

(** auto_diff.h:93-100, 105-112: J.row(i) = res[i].v. *)
Definition row_of (dims : nat) (check : bool) (j : Jet) : outcome (list R) :=
  if match N with None => check | Some _ => false end && negb (List.length (v j) =? dims)%nat
  then Ret (repeat 0 dims)                            (* "Residual is not connected" *)
  else if (List.length (v j) =? dims)%nat then Ret (v j) else UB UBOutOfBounds.

(** auto_diff.h:16-130: values and rows of the Jacobian. For one residual (line 80) the row
    is res.v as it is. *)
Definition Eval (f : user_fun) (check_residuals : bool) (x : val R) : outcome (list R * list (list R)) :=
  do dims <- DynDims t x;
  do xs <- x_jets x;
  match f with
  | FScalar e => do r <- eval_jet N e xs; Ret ([a r], [v r])
  | FMat _ _ es =>
      do rs <- eval_all es xs;
      do J <- sequence (map (row_of (Z.to_nat dims) check_residuals) rs);
      Ret (map a rs, J)
  end.

(** optimize_autodiff.h:151, 156. Matrix products. *)
Definition dotp (u w : list R) : R := fold_right Rplus 0 (zip Rmult u w).
Definition col (J : list (list R)) (k : nat) : list R := map (fun r => nth k r 0) J.
Definition JtR (n : nat) (J : list (list R)) (r : list R) : list R := map (fun k => dotp (col J k) r) (seq 0 n).
Definition JtJ (n : nat) (J : list (list R)) : list (list R) :=
  map (fun k => map (fun l => dotp (col J k) (col J l)) (seq 0 n)) (seq 0 n).

(** optimize_autodiff.h:38-69: what OptimizeWithAutoDiff keeps between evaluations: x_jet for
    scalars and matrices, dx_jet for other types; and dims. *)
Definition kept (x0 : val R) : outcome (nat * list Jet) :=
  do dims <- DynDims t x0;
  let n := Z.to_nat dims in
  do js <- (if is_eigen t then seed_from n 0 (map (Jet_const N) (flatten x0)) else dx_jet n);
  Ret (n, js).
(** optimize_autodiff.h:78-87: x_jet(r, c).a = x(r, c). The shape of x is assumed not to change: the scalars are matched
    in order. *)
Fixpoint update_a (js : list Jet) (x : list R) : outcome (list Jet) :=
  match js, x with
  | _, [] => Ret js
  | [], _ => UB UBOutOfBounds
  | j :: js, s :: x => do js <- update_a js x; Ret (mkJet s (v j) :: js)
  end.
(** optimize_autodiff.h:72-89: update_x_jet. *)
Definition update_x_jet (k : nat * list Jet) (x : val R) : outcome (list Jet) :=
  if is_eigen t then update_a (snd k) (flatten x) else shift_jets x (snd k).

(** optimize_autodiff.h:91-166: the accumulation function handed to the solver; IsNLLS is
    false for first-order solvers. Gradient and Hessian are overwritten. For one residual the
    gradient has the size of res.v. *)
Definition auto_acc (IsNLLS : bool) (f : user_fun) (k : nat * list Jet) (x : val R)
  : outcome (Cost REAL * list R * list (list R)) :=
  do xs <- update_x_jet k x;
  match f with
  | FScalar e =>
      do r <- eval_jet N e xs;
      do gH <- match t with
               | TScalar => match v r with
                            | [] => UB UBOutOfBounds
                            | d :: _ => Ret ([d * a r], [[d * d]])
                            end
               | _ => Ret (scl (a r) (v r), map (fun d => scl d (v r)) (v r))
               end;
      Ret (@Cost_scalar REAL (if IsNLLS then a r * a r else a r), fst gH, snd gH)
  | FMat _ _ es =>
      do rs <- eval_all es xs;
      do J <- sequence (map (row_of (fst k) false) rs);
      let r := map a rs in
      Ret (@Cost_make REAL (dotp r r) (int_wrap (Z.of_nat (List.length r))) (@none_ REAL F32) "", JtR (fst k) J r, JtJ (fst k) J)
  end.
(** optimize_autodiff.h:91-166 with null gradient and Hessian. *)
Definition auto_eval (IsNLLS : bool) (f : user_fun) (k : nat * list Jet) (x : val R) : outcome (Cost REAL) :=
  do xs <- update_x_jet k x;
  match f with
  | FScalar e => do r <- eval_jet N e xs; Ret (@Cost_scalar REAL (if IsNLLS then a r * a r else a r))
  | FMat _ _ es =>
      do rs <- eval_all es xs;
      let r := map a rs in
      Ret (@Cost_make REAL (dotp r r) (int_wrap (Z.of_nat (List.length r))) (@none_ REAL F32) "")
  end.
End Auto.
