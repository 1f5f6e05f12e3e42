(** Vocabulary of the statements about jets: the functions a user can write, their meaning,
    and where they are smooth. *)
From Coq Require Import ZArith List Bool Reals.
From Flocq Require Import Core.Raux.
From Coquelicot Require Import Hierarchy Derive.
From Verif Require Import BaseModel FunModel JetModel SumSpec.
Import ListNotations.
Open Scope R_scope.

Inductive un :=
| Neg | Abs | Log | Log10 | Log1p | Exp | Expm1 | Sqrt | Cos | Acos | Sin | Asin | Tan | Atan
| Sinh | Cosh | Tanh | Floor | Ceil | Cbrt | Exp2 | Log2 | Erf | Erfc | Norm
| AddS (s : R) | SAdd (s : R) | SubS (s : R) | SSub (s : R) | MulS (s : R) | SMul (s : R)
| SDiv (s : R) | DivS (s : R) | PowS (p : R) | SPow (s : R).
Inductive bin := Add | Sub | Mul | Div | Copysign | Hypot | Fmax | Fmin | Fdim | Midpoint | Atan2 | Pow.
Inductive tern := Hypot3 | Fma | Lerp.
Inductive cmp := Lt | Le | Gt | Ge | Eq | Ne.

(** A function of the parameters x_0, x_1, ... [If c e1 e2 e3 e4]: if (e1 c e2) e3 else e4. *)
Inductive expr :=
| Var (i : nat)
| Const (c : R)
| Un (u : un) (e : expr)
| Bin (b : bin) (e1 e2 : expr)
| Tern (t : tern) (e1 e2 e3 : expr)
| If (c : cmp) (e1 e2 e3 e4 : expr).

(** *** Meaning: what the same C++ code computes on scalars. *)
Definition un_val (u : un) (x : R) : R :=
  match u with
  | Neg => - x | Abs => Rabs x | Log => ln x | Log10 => std_log10 x | Log1p => std_log1p x
  | Exp => exp x | Expm1 => std_expm1 x | Sqrt => sqrt x | Cos => cos x | Acos => acos x
  | Sin => sin x | Asin => asin x | Tan => tan x | Atan => atan x | Sinh => sinh x
  | Cosh => cosh x | Tanh => tanh x | Floor => std_floor x | Ceil => std_ceil x
  | Cbrt => std_cbrt x | Exp2 => std_exp2 x | Log2 => std_log2 x | Erf => std_erf x
  | Erfc => std_erfc x | Norm => x * x
  | AddS s => x + s | SAdd s => s + x | SubS s => x - s | SSub s => s - x | MulS s => x * s
  | SMul s => s * x | SDiv s => s / x | DivS s => x / s | PowS p => std_pow x p
  | SPow s => std_pow s x
  end.
Definition bin_val (b : bin) (x y : R) : R :=
  match b with
  | Add => x + y | Sub => x - y | Mul => x * y | Div => x / y | Copysign => std_copysign x y
  | Hypot => std_hypot x y | Fmax => Rmax x y | Fmin => Rmin x y
  | Fdim => Rmax (x - y) 0 | Midpoint => (x + y) / 2 | Atan2 => std_atan2 x y
  | Pow => std_pow x y
  end.
Definition tern_val (t : tern) (x y z : R) : R :=
  match t with
  | Hypot3 => std_hypot3 x y z | Fma => x * y + z | Lerp => x + z * (y - x)
  end.
Definition cmp_val (c : cmp) (x y : R) : bool :=
  match c with
  | Lt => Rlt_bool x y | Le => Rle_bool x y | Gt => Rlt_bool y x | Ge => Rle_bool y x
  | Eq => Req_bool x y | Ne => negb (Req_bool x y)
  end.
Fixpoint eval (e : expr) (x : list R) : R :=
  match e with
  | Var i => nth i x 0
  | Const c => c
  | Un u e => un_val u (eval e x)
  | Bin b e1 e2 => bin_val b (eval e1 x) (eval e2 x)
  | Tern t e1 e2 e3 => tern_val t (eval e1 x) (eval e2 x) (eval e3 x)
  | If c e1 e2 e3 e4 => if cmp_val c (eval e1 x) (eval e2 x) then eval e3 x else eval e4 x
  end.

(** *** The same code on jets. *)
Definition un_jet (N : option nat) (u : un) (f : Jet) : outcome Jet :=
  match u with
  | Neg => Ret (jet_neg f) | Abs => Ret (jet_abs f) | Log => Ret (jet_log f)
  | Log10 => Ret (jet_log10 f) | Log1p => Ret (jet_log1p f) | Exp => Ret (jet_exp f)
  | Expm1 => Ret (jet_expm1 f) | Sqrt => Ret (jet_sqrt f) | Cos => Ret (jet_cos f)
  | Acos => Ret (jet_acos f) | Sin => Ret (jet_sin f) | Asin => Ret (jet_asin f)
  | Tan => Ret (jet_tan f) | Atan => Ret (jet_atan f) | Sinh => Ret (jet_sinh f)
  | Cosh => Ret (jet_cosh f) | Tanh => Ret (jet_tanh f) | Floor => Ret (jet_floor N f)
  | Ceil => Ret (jet_ceil N f) | Cbrt => Ret (jet_cbrt f) | Exp2 => Ret (jet_exp2 f)
  | Log2 => Ret (jet_log2 f) | Erf => Ret (jet_erf f) | Erfc => Ret (jet_erfc f)
  | Norm => Ret (jet_norm f)
  | AddS s => Ret (jet_add_s f s) | SAdd s => Ret (jet_s_add s f) | SubS s => Ret (jet_sub_s f s)
  | SSub s => Ret (jet_s_sub s f) | MulS s => Ret (jet_mul_s f s) | SMul s => Ret (jet_s_mul s f)
  | SDiv s => Ret (jet_s_div s f) | DivS s => Ret (jet_div_s f s) | PowS p => Ret (jet_pow_s f p)
  | SPow s => jet_s_pow N s f
  end.
Definition bin_jet (N : option nat) (b : bin) : Jet -> Jet -> outcome Jet :=
  match b with
  | Add => jet_add N | Sub => jet_sub N | Mul => jet_mul N | Div => jet_div N
  | Copysign => jet_copysign N | Hypot => jet_hypot | Fmax => jet_fmax N | Fmin => jet_fmin N
  | Fdim => jet_fdim N | Midpoint => jet_midpoint N | Atan2 => jet_atan2 N | Pow => jet_pow N
  end.
Definition tern_jet (t : tern) : Jet -> Jet -> Jet -> outcome Jet :=
  match t with Hypot3 => jet_hypot3 | Fma => jet_fma | Lerp => jet_lerp end.
Definition cmp_jet (c : cmp) : Jet -> Jet -> bool :=
  match c with
  | Lt => jet_lt | Le => jet_le | Gt => jet_gt | Ge => jet_ge | Eq => jet_eq | Ne => jet_ne
  end.
Fixpoint eval_jet (N : option nat) (e : expr) (x : list Jet) : outcome Jet :=
  match e with
  | Var i => match nth_error x i with Some j => Ret j | None => UB UBOutOfBounds end
  | Const c => Ret (Jet_const N c)
  | Un u e => do j <- eval_jet N e x; un_jet N u j
  | Bin b e1 e2 => do j1 <- eval_jet N e1 x; do j2 <- eval_jet N e2 x; bin_jet N b j1 j2
  | Tern t e1 e2 e3 =>
      do j1 <- eval_jet N e1 x; do j2 <- eval_jet N e2 x; do j3 <- eval_jet N e3 x; tern_jet t j1 j2 j3
  | If c e1 e2 e3 e4 =>
      do j1 <- eval_jet N e1 x; do j2 <- eval_jet N e2 x;
      if cmp_jet c j1 j2 then eval_jet N e3 x else eval_jet N e4 x
  end.

(** *** Where the functions are differentiable. *)
Definition not_int (x : R) : Prop := forall z : Z, x <> IZR z.
Definition un_smooth (u : un) (x : R) : Prop :=
  match u with
  | Abs | Cbrt | SDiv _ => x <> 0
  | Log | Log10 | Log2 | Sqrt => 0 < x
  | Log1p => -1 < x
  | Acos | Asin => -1 < x < 1
  | Tan => cos x <> 0
  | Floor | Ceil => not_int x
  | DivS s => s <> 0
  | PowS p => 0 < x \/ (exists n : Z, p = IZR n /\ (x <> 0 \/ (1 <= n)%Z))
  | SPow s => 0 < s \/ (s = 0 /\ 0 < x)
  | _ => True
  end.
Definition bin_smooth (b : bin) (x y : R) : Prop :=
  match b with
  | Div => y <> 0
  | Copysign => x <> 0 /\ y <> 0
  | Hypot => x <> 0 \/ y <> 0
  | Fmax | Fmin | Fdim => x <> y
  | Atan2 => 0 < y \/ x <> 0
  | Pow => 0 < x
  | _ => True
  end.
Definition tern_smooth (t : tern) (x y z : R) : Prop :=
  match t with Hypot3 => x <> 0 \/ y <> 0 \/ z <> 0 | _ => True end.
(** A power with a constant integer exponent is also smooth at negative numbers. *)
Definition int_power (b : bin) (e2 : expr) (x : R) : Prop :=
  b = Pow /\ exists n : Z, e2 = Const (IZR n) /\ (x <> 0 \/ (1 <= n)%Z).
Fixpoint smooth (e : expr) (x : list R) : Prop :=
  match e with
  | Var i => (i < List.length x)%nat
  | Const _ => True
  | Un u e => smooth e x /\ un_smooth u (eval e x)
  | Bin b e1 e2 => smooth e1 x /\ smooth e2 x /\
      (bin_smooth b (eval e1 x) (eval e2 x) \/ int_power b e2 (eval e1 x))
  | Tern t e1 e2 e3 => smooth e1 x /\ smooth e2 x /\ smooth e3 x /\
      tern_smooth t (eval e1 x) (eval e2 x) (eval e3 x)
  | If c e1 e2 e3 e4 => smooth e1 x /\ smooth e2 x /\ eval e1 x <> eval e2 x /\
      if cmp_val c (eval e1 x) (eval e2 x) then smooth e3 x else smooth e4 x
  end.

(** *** Derivatives *)
Fixpoint set_nth (x : list R) (k : nat) (t : R) : list R :=
  match x, k with
  | [], _ => []
  | _ :: x, O => t :: x
  | y :: x, S k => y :: set_nth x k t
  end.
(** The partial derivative of [f] with respect to x_k at x is [d]. *)
Definition is_partial (f : list R -> R) (x : list R) (k : nat) (d : R) : Prop :=
  is_derive (fun t => f (set_nth x k t)) (nth k x 0) d.

(** The curve c goes through x at time t0 with velocity d. *)
Definition curve_through (x d : list R) (c : R -> list R) (t0 : R) : Prop :=
  c t0 = x /\ (forall t, List.length (c t) = List.length x) /\
  forall i, (i < List.length x)%nat -> is_derive (fun t => nth i (c t) 0) t0 (nth i d 0).
(** J is the derivative of F at x: along every differentiable curve through x the derivative
    of F is J . velocity. Missing entries of J are zeros. *)
Definition derivative_of (F : list R -> R) (x J : list R) : Prop :=
  forall c t0 d, curve_through x d c t0 -> is_derive (fun t => F (c t)) t0 (sum (List.length x) (fun i => nth i J 0 * nth i d 0)).

(** The k-th unit vector of size n. *)
Definition unit_vec (n k : nat) : list R := map (fun i => if (i =? k)%nat then 1 else 0) (seq 0 n).
(** The parameters as jets, with the unit vectors as infinitesimal parts. *)
Definition seeds (x : list R) : list Jet :=
  map (fun p => mkJet (fst p) (unit_vec (List.length x) (snd p))) (combine x (seq 0 (List.length x))).

(** *** Dynamic jets *)
(** Expressions over variables of x. *)
Fixpoint scoped (e : expr) (n : nat) : Prop :=
  match e with
  | Var i => (i < n)%nat
  | Const _ => True
  | Un _ e => scoped e n
  | Bin _ e1 e2 => scoped e1 n /\ scoped e2 n
  | Tern _ e1 e2 e3 => scoped e1 n /\ scoped e2 n /\ scoped e3 n
  | If _ e1 e2 e3 e4 => scoped e1 n /\ scoped e2 n /\ scoped e3 n /\ scoped e4 n
  end.
(** Expressions without the functions that mishandle dynamic jets: hypot, fma, lerp, midpoint,
    fmax and fmin of equal values, powers of a negative scalar. *)
Fixpoint dyn_safe (e : expr) (x : list R) : Prop :=
  match e with
  | Var _ | Const _ => True
  | Un u e => dyn_safe e x /\ match u with SPow s => 0 <= s | _ => True end
  | Bin b e1 e2 => dyn_safe e1 x /\ dyn_safe e2 x /\
      match b with Hypot | Midpoint => False | Fmax | Fmin => eval e1 x <> eval e2 x | _ => True end
  | Tern _ _ _ _ => False
  | If _ e1 e2 e3 e4 => dyn_safe e1 x /\ dyn_safe e2 x /\ dyn_safe e3 x /\ dyn_safe e4 x
  end.
(** A dynamic derivative vector stands for a static one: an empty vector for zeros. *)
Definition stands_for (d s : list R) : Prop := d = s \/ (d = [] /\ s = repeat 0 (List.length s)).
