(** losses/norms.h, robust_norms.h, activations.h, helpers.h and classif.h in exact arithmetic.
    Definitions only. Vectors are lists of their coefficients, matrices lists of rows. *)
From Coq Require Import ZArith List Bool Reals.
From Flocq Require Import Core.Raux.
From Verif Require Import BaseModel JetModel AutoModel.
Import ListNotations.
Open Scope R_scope.

(** norms.h:32, 66, 98, 131. The argument Jx_or_bool: nullptr, a bool (the Jacobian of the function itself is
    wanted), or the Jacobian Jx of x, in which case their product is returned. *)
Inductive Export := NoJ | Own | Chain (Jx : list (list R)).
(** norms.h:44, 76, 146. A row vector times a matrix with [m] columns. *)
Definition row_mul (J : list R) (Jx : list (list R)) (m : nat) : list R :=
  map (fun c => dotp J (col Jx c)) (seq 0 m).
Definition cols_of (Jx : list (list R)) : nat := List.length (hd [] Jx).
(** norms.h:41-44, 73-76, 143-146. The export of a row vector; Eigen requires matching sizes. *)
Definition export_row (J : list R) (e : Export) : outcome (list R) :=
  match e with
  | NoJ => Ret []
  | Own => Ret J
  | Chain Jx => if (List.length J =? List.length Jx)%nat then Ret (row_mul J Jx (cols_of Jx)) else UB UBOutOfBounds
  end.
(** math.h:297-300 for double: the value of the float literal 1e-7f. *)
Definition FloatEpsilon : R := 14073749 / 140737488355328.

(** *** norms.h *)
(** norms.h:18-28, 31-48: of a vector. *)
Definition SquaredL2 (x : list R) : R := dotp x x.
Definition SquaredL2_J (x : list R) (e : Export) (add_scale : bool) : outcome (R * list R) :=
  let J := if add_scale then map (fun y => y * 2) x else x in
  do J <- export_row J e; Ret (SquaredL2 x, J).
(** norms.h:51-62, 65-80. *)
Definition L2 (x : list R) : R := sqrt (dotp x x).
Definition L2_J (x : list R) (e : Export) : outcome (R * list R) :=
  let l := L2 x in
  let J := if Rlt_bool FloatEpsilon l then map (fun y => y / l) x else x in
  do J <- export_row J e; Ret (l, J).
(** norms.h:83-94, 97-113. The product with Jx is between an array and a matrix and does not
    compile: only [NoJ] and [Own]. *)
Definition sign (y : R) : R := if Rlt_bool 0 y then 1 else if Rlt_bool y 0 then -1 else 0.
Definition L1 (x : list R) : R := fold_right Rplus 0 (map Rabs x).
Definition L1_J (x : list R) : R * list R := (L1 x, map sign x).
(** norms.h:116-127, 130-153: lpNorm<Infinity> is 0 for an empty vector, maxCoeff is undefined. The
    first of several maximal coefficients is found. *)
Definition Linf (x : list R) : R := fold_right Rmax 0 (map Rabs x).
Fixpoint argmax (i best : nat) (m : R) (l : list R) : nat * R :=
  match l with
  | [] => (best, m)
  | y :: l => if Rlt_bool m y then argmax (S i) i y l else argmax (S i) best m l
  end.
Definition Linf_J (x : list R) (e : Export) : outcome (R * list R) :=
  match map Rabs x with
  | [] => UB UBOutOfBounds
  | y :: l =>
      let (k, m) := argmax 1 0 y l in
      let J := map (fun i => if (i =? k)%nat then if Rle_bool 0 (nth k x 0) then 1 else -1 else 0) (seq 0 (List.length x)) in
      do J <- export_row J e; Ret (m, J)
  end.
(** norms.h:45-46, 77-78, 110-111, 147-152. Of a scalar: value and exported derivative; Jx is
    ignored. *)
Definition SquaredL2_s (x : R) (add_scale : bool) : R * R := (x * x, if add_scale then 2 * x else x).
Definition L2_s (x : R) : R * R := (Rabs x, 1).
Definition L1_s (x : R) : R * R := (Rabs x, 1).
Definition Linf_s (x : R) : R * R := if Rle_bool 0 x then (x, 1) else (- x, -1).

(** *** robust_norms.h *)
(** The seven functions below, in the order of the file. *)
Inductive RobustNorm := Truncated | Huber | Tukey | Arctan | Cauchy | GemanMcClure | BlakeZisserman.
(** robust_norms.h:42-53 and the same for the others. With nullptr only the loss is returned; with a bool also the scale; with a row vector J
    also the scaled row. *)
Inductive RExport := NoScale | Scale | Row (J : list R).
Inductive RResult := RLoss (l : R) | RScale (l s : R) | RRow (l : R) (J : list R).
Section Robust.
Variable tiny : R.                       (* std::numeric_limits<T>::min() *)
(** robust_norms.h:92-100, 131-139, 180-189, 218-226, 255-263, 293-301. *)
Definition scaled (l s : R) (e : RExport) : RResult :=
  match e with NoScale => RLoss l | Scale => RScale l s | Row J => RRow l (map (Rmult s) J) end.
(** robust_norms.h:81-88, 45-49 and 142-149: the row itself, or zeros. *)
Definition kept_row (l : R) (e : RExport) : RResult :=
  match e with NoScale => RLoss l | Scale => RScale l 1 | Row J => RRow l J end.
Definition zero_row (l : R) (e : RExport) : RResult :=
  match e with NoScale => RLoss l | Scale => RScale l 0 | Row J => RRow l (repeat 0 (List.length J)) end.

(** robust_norms.h:34-55. *)
Definition truncated (n2 th2 : R) (e : RExport) : RResult :=
  let l := if Rle_bool n2 th2 then n2 else th2 in
  if Rle_bool n2 th2 then kept_row l e else zero_row l e.
(** robust_norms.h:69-103. *)
Definition huber (n2 th2 : R) (e : RExport) : RResult :=
  if Rle_bool n2 th2 then kept_row n2 e
  else let th := sqrt th2 in let n := sqrt n2 in
       let l := 2 * th * n - th2 in
       scaled l (Rmax tiny (th / n)) e.
(** robust_norms.h:121-152. *)
Definition tukey (n2 th2 : R) (e : RExport) : RResult :=
  if Rle_bool n2 th2 then
    let s := 1 - n2 / th2 in let s2 := s * s in
    let l := th2 * (1 - s2 * s) in
    scaled l (3 * (th2 - n2) * (th2 - n2) / (th2 * th2)) e
  else zero_row th2 e.
(** robust_norms.h:168-191. std::atan2(y, x) is atan(y / x) for x > 0. *)
Definition arctan (n2 th2 : R) (e : RExport) : RResult :=
  let th := sqrt th2 in
  let l := th * atan (n2 / th) in
  let tmp := n2 * n2 / th2 in
  scaled l (Rmax tiny (1 / (tmp + 1))) e.
(** robust_norms.h:207-228. *)
Definition cauchy (n2 th2 : R) (e : RExport) : RResult :=
  let s := 1 + n2 / th2 in
  let l := th2 * ln s in
  scaled l (Rmax tiny (1 / s)) e.
(** robust_norms.h:244-265. *)
Definition geman_mcclure (n2 th2 : R) (e : RExport) : RResult :=
  let e2_th2 := n2 + th2 in
  let l := n2 / e2_th2 in
  scaled l (th2 / (e2_th2 * e2_th2)) e.
(** robust_norms.h:281-303. *)
Definition blake_zisserman (n2 th2 : R) (e : RExport) : RResult :=
  let epsilon := exp (- th2) in
  let l := - ln (exp (- n2) + epsilon) in
  scaled l (1 / (epsilon * exp n2 + 1)) e.

(** The choice among the seven; also of an argument that is a pair (robust_norms.h:37-38, 72-73,
    124-125, 171-172, 210-211, 247-248, 284-285), whose Jacobian becomes [Row]. *)
Definition robust (k : RobustNorm) : R -> R -> RExport -> RResult :=
  match k with
  | Truncated => truncated | Huber => huber | Tukey => tukey | Arctan => arctan
  | Cauchy => cauchy | GemanMcClure => geman_mcclure | BlakeZisserman => blake_zisserman
  end.
(** robust_norms.h:59-63 (TruncatedLoss), 110-114, 157-161, 196-200, 233-237, 270-274, 308-312:
    the norm applied to
    SquaredL2(x, Jx_or_bool), i.e. to a pair unless Jx_or_bool is nullptr. *)
Definition robust_loss (k : RobustNorm) (x : list R) (th2 : R) (e : Export) : outcome RResult :=
  match e with
  | NoJ => Ret (robust k (SquaredL2 x) th2 NoScale)
  | _ => do p <- SquaredL2_J x e true; Ret (robust k (fst p) th2 (Row (snd p)))
  end.
End Robust.

(** *** activations.h, helpers.h *)
(** activations.h:15-31. *)
Inductive Activation := Sigmoid | Tanh | ReLU | LeakyReLU (a : R).
(** activations.h:16, 21, 26, 30 in helpers.h:26-28, 72-74: of a scalar. *)
Definition activation (f : Activation) (x : R) : R :=
  match f with
  | Sigmoid => 1 / (1 + exp (- x))
  | Tanh => (exp x - exp (- x)) / (exp x + exp (- x))
  | ReLU => if Rlt_bool 0 x then x else 0
  | LeakyReLU a => if Rlt_bool 0 x then x else a * x
  end.
(** activations.h:17, 22, 27, 31. The diagonal of jac_code, from the argument [x] and the result [l]. *)
Definition jac_code (f : Activation) (x l : R) : R :=
  match f with
  | Sigmoid => l * (1 - l)
  | Tanh => 1 - l * l
  | ReLU => if Rlt_bool 0 x then 1 else 0
  | LeakyReLU a => if Rlt_bool 0 x then 1 else a
  end.
(** helpers.h:13-46, 59-92: of a vector, with its diagonal Jacobian or the product of that
    with Jx. *)
Definition diag (d : list R) : list (list R) :=
  map (fun r => map (fun c => if (r =? c)%nat then nth r d 0 else 0) (seq 0 (List.length d))) (seq 0 (List.length d)).
Definition mat_mul (J Jx : list (list R)) : list (list R) := map (fun row => row_mul row Jx (cols_of Jx)) J.
Definition export_mat (J : list (list R)) (e : Export) : outcome (list (list R)) :=
  match e with
  | NoJ => Ret []
  | Own => Ret J
  | Chain Jx => if (List.length J =? List.length Jx)%nat then Ret (mat_mul J Jx) else UB UBOutOfBounds
  end.
Definition Activate (f : Activation) (x : list R) (e : Export) : outcome (list R * list (list R)) :=
  let l := map (activation f) x in
  do J <- export_mat (diag (map (fun p => jac_code f (fst p) (snd p)) (combine x l))) e; Ret (l, J).
(** helpers.h:47-53, 93-99. Of a scalar with derivative: "0 /*TODO*/". *)
Definition Activate_s (f : Activation) (x : R) : R * R := (activation f x, 0).

(** *** classif.h *)
(** classif.h:33, 70. *)
Definition vsum (l : list R) : R := fold_right Rplus 0 l.
(** classif.h:38-45 and 75-82: the lower triangle is filled and copied to the upper one. *)
Definition softmax_lower (out : list R) (r c : nat) : R :=
  if (r <? c)%nat then 0
  else if (r =? c)%nat then nth c out 0 * (1 - nth c out 0) else - nth r out 0 * nth c out 0.
Definition softmax_jac (out : list R) : list (list R) :=
  let n := List.length out in
  map (fun r => map (fun c => if (r <? c)%nat then softmax_lower out c r else softmax_lower out r c) (seq 0 n)) (seq 0 n).
(** classif.h:16-34. *)
Definition Softmax (x : list R) : list R :=
  let si := map exp x in
  let total := vsum si in
  map (fun v => exp v / total) x.
(** classif.h:52-71: [safe_args] are the numbers whose exponential is computed. maxCoeff of an empty
    vector is undefined. *)
Definition maxCoeff (x : list R) : R := fold_right Rmax (hd 0 x) (tl x).
Definition safe_args (x : list R) : list R := map (fun v => v - maxCoeff x) x.
Definition SafeSoftmax (x : list R) : outcome (list R) :=
  match x with
  | [] => UB UBOutOfBounds
  | _ => let si := map exp (safe_args x) in
         let total := vsum si in
         Ret (map (fun v => exp v / total) (safe_args x))
  end.
(** classif.h:35-47, 72-84. *)
Definition Softmax_J (x : list R) (e : Export) : outcome (list R * list (list R)) :=
  do J <- export_mat (softmax_jac (Softmax x)) e; Ret (Softmax x, J).
Definition SafeSoftmax_J (x : list R) (e : Export) : outcome (list R * list (list R)) :=
  do out <- SafeSoftmax x; do J <- export_mat (softmax_jac out) e; Ret (out, J).
(** classif.h:21-27. Of a scalar: Softmax returns 1 with derivative 1. *)
Definition Softmax_s : R * R := (1, 1).
