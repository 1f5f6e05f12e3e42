(** 3rdparty/ceres/jet.h for jets of jets: Jet<T, N> where T is itself a jet, in exact
    arithmetic and with a fixed N. The functions and expressions are those of JetSpec.v.
    A constant T(c) is the constant of the level below; in C++ this constructor only exists up
    to two levels, so deeper jets only compile for functions without constants. pow needs the
    same N at every level, because it compares g with floor(g.a). There is no NaN and no
    infinity here: [nan_] stands for them. Definitions only. *)
From Coq Require Import ZArith List Bool Reals.
From Flocq Require Import Core.Raux.
From Verif Require Import FunModel JetModel JetSpec.
Import ListNotations.
Open Scope R_scope.

(** A number type: constants, the innermost scalar part (AsScalar, isnan, fpclassify and the
    comparisons only look at that), and the functions. *)
Record Num (T : Type) := mkNum {
  cst : R -> T;
  re : T -> R;
  uno : un -> T -> T;
  bino : bin -> T -> T -> T;
  terno : tern -> T -> T -> T -> T }.
Arguments cst {T}. Arguments re {T}. Arguments uno {T}. Arguments bino {T}. Arguments terno {T}.

Definition real_num : Num R := mkNum R (fun c => c) (fun x => x) un_val bin_val tern_val.

(** jet.h:216-298 *)
Record gjet (T : Type) := J { ja : T; jv : list T }.
Arguments J {T}. Arguments ja {T}. Arguments jv {T}.
Fixpoint zip2 {T} (f : T -> T -> T) (u w : list T) : list T :=
  match u, w with x :: u, y :: w => f x y :: zip2 f u w | _, _ => [] end.
Fixpoint zip3 {T} (f : T -> T -> T -> T) (u w z : list T) : list T :=
  match u, w, z with x :: u, y :: w, p :: z => f x y p :: zip3 f u w z | _, _, _ => [] end.

Section Jet_over.
Variables (T : Type) (L : Num T) (n : nat).
Notation "'k' c" := (cst L c) (at level 9).
Notation neg' := (uno L Neg).
Notation add := (bino L Add).
Notation sub := (bino L Sub).
Notation mul := (bino L Mul).
Notation div := (bino L Div).

(** jet.h:228-232: Jet(const T&). *)
Definition jconst (x : T) : gjet T := J x (repeat (k 0) n).
(** jet.h:234-240: Jet(const T&, int). *)
Definition jvar (x : T) (i : nat) : gjet T :=
  J x (map (fun l => if (l =? i)%nat then k 1 else k 0) (seq 0 n)).

(** jet.h:303-423, 556-909, 1249-1303. [s] in the mixed operators is a constant of type T,
    in pow(Jet, double) it is a double. *)
Definition nest_un (u : un) (f : gjet T) : gjet T :=
  let a := ja f in
  let v := jv f in
  match u with
  | Neg => J (neg' a) (map neg' v)
  | Abs => J (uno L Abs a) (map (mul (bino L Copysign (k 1) a)) v)
  | Log => let a_inverse := div (k 1) a in J (uno L Log a) (map (fun w => mul w a_inverse) v)
  | Log10 => let a_inverse := div (k 1) (mul a (uno L Log (k 10))) in
      J (uno L Log10 a) (map (fun w => mul w a_inverse) v)
  | Log1p => let a_inverse := div (k 1) (add (k 1) a) in
      J (uno L Log1p a) (map (fun w => mul w a_inverse) v)
  | Exp => let tmp := uno L Exp a in J tmp (map (mul tmp) v)
  | Expm1 => let tmp := uno L Expm1 a in let expa := add tmp (k 1) in J tmp (map (mul expa) v)
  | Sqrt => let tmp := uno L Sqrt a in let two_a_inverse := div (k 1) (mul (k 2) tmp) in
      J tmp (map (fun w => mul w two_a_inverse) v)
  | Cos => J (uno L Cos a) (map (mul (neg' (uno L Sin a))) v)
  | Acos => let tmp := div (neg' (k 1)) (uno L Sqrt (sub (k 1) (mul a a))) in
      J (uno L Acos a) (map (mul tmp) v)
  | Sin => J (uno L Sin a) (map (mul (uno L Cos a)) v)
  | Asin => let tmp := div (k 1) (uno L Sqrt (sub (k 1) (mul a a))) in
      J (uno L Asin a) (map (mul tmp) v)
  | Tan => let tan_a := uno L Tan a in let tmp := add (k 1) (mul tan_a tan_a) in
      J tan_a (map (mul tmp) v)
  | Atan => let tmp := div (k 1) (add (k 1) (mul a a)) in J (uno L Atan a) (map (mul tmp) v)
  | Sinh => J (uno L Sinh a) (map (mul (uno L Cosh a)) v)
  | Cosh => J (uno L Cosh a) (map (mul (uno L Sinh a)) v)
  | Tanh => let tanh_a := uno L Tanh a in let tmp := sub (k 1) (mul tanh_a tanh_a) in
      J tanh_a (map (mul tmp) v)
  | Floor => jconst (uno L Floor a)
  | Ceil => jconst (uno L Ceil a)
  | Cbrt => let derivative := div (k 1) (mul (k 3) (uno L Cbrt (mul a a))) in
      J (uno L Cbrt a) (map (fun w => mul w derivative) v)
  | Exp2 => let tmp := uno L Exp2 a in let derivative := mul tmp (uno L Log (k 2)) in
      J tmp (map (fun w => mul w derivative) v)
  | Log2 => let derivative := div (k 1) (mul a (uno L Log (k 2))) in
      J (uno L Log2 a) (map (fun w => mul w derivative) v)
  | Erf => J (uno L Erf a)
      (map (fun w => mul (mul w (uno L Exp (mul (neg' a) a)))
                         (div (k 1) (uno L Sqrt (uno L Atan (k 1))))) v)
  | Erfc => J (uno L Erfc a)
      (map (fun w => mul (mul (neg' w) (uno L Exp (mul (neg' a) a)))
                         (div (k 1) (uno L Sqrt (uno L Atan (k 1))))) v)
  | Norm => J (uno L Norm a) (map (mul (mul (k 2) a)) v)
  | AddS s => J (add a (k s)) v
  | SAdd s => J (add a (k s)) v
  | SubS s => J (sub a (k s)) v
  | SSub s => J (sub (k s) a) (map neg' v)
  | MulS s => J (mul a (k s)) (map (fun w => mul w (k s)) v)
  | SMul s => J (mul a (k s)) (map (fun w => mul w (k s)) v)
  | SDiv s => let minus_s_g_a_inverse2 := div (neg' (k s)) (mul a a) in
      J (div (k s) a) (map (fun w => mul w minus_s_g_a_inverse2) v)
  | DivS s => let s_inverse := div (k 1) (k s) in
      J (mul a s_inverse) (map (fun w => mul w s_inverse) v)
  | PowS p => let tmp := uno L (SMul p) (bino L Pow a (uno L (SSub p) (k 1))) in
      J (uno L (PowS p) a) (map (mul tmp) v)
  | SPow s =>
      if Req_bool (re L (k s)) 0 && Rlt_bool 0 (re L a) then jconst (k 0)
      else if Rlt_bool (re L (k s)) 0 && Req_bool (re L a) (re L (uno L Floor a)) then
        J (bino L Pow (k s) a)
          (map (fun w => if Req_bool (re L w) 0 then k 0 else k nan_) v)
      else
        let tmp := bino L Pow (k s) a in
        J tmp (map (mul (mul (uno L Log (k s)) tmp)) v)
  end.

(** jet.h:1195-1215 *)
Definition nest_midpoint (f g : gjet T) : gjet T :=
  J (bino L Midpoint (ja f) (ja g)) (zip2 (bino L Midpoint) (jv f) (jv g)).

(** jet.h:311-412, 583-602, 752-765, 829-884, 1218-1238, 1337-1368. *)
Definition nest_bin (b : bin) (f g : gjet T) : gjet T :=
  let fa := ja f in
  let ga := ja g in
  match b with
  | Add => J (add fa ga) (zip2 add (jv f) (jv g))
  | Sub => J (sub fa ga) (zip2 sub (jv f) (jv g))
  | Mul => J (mul fa ga) (zip2 (fun p q => add (mul fa q) (mul p ga)) (jv f) (jv g))
  | Div =>
      let g_a_inverse := div (k 1) ga in
      let f_a_by_g_a := mul fa g_a_inverse in
      J f_a_by_g_a (zip2 (fun p q => mul (sub p (mul f_a_by_g_a q)) g_a_inverse) (jv f) (jv g))
  | Copysign =>
      let d := if Req_bool (re L ga) 0 then k nan_ else k 0 in
      let sa := bino L Copysign (k 1) fa in
      let sb := bino L Copysign (k 1) ga in
      J (bino L Copysign fa ga)
        (zip2 (fun p q => add (mul (mul sa sb) p) (mul (mul (uno L Abs fa) d) q)) (jv f) (jv g))
  | Hypot =>
      let tmp := bino L Hypot fa ga in
      J tmp (zip2 (fun p q => add (mul (div fa tmp) p) (mul (div ga tmp) q)) (jv f) (jv g))
  | Fmax =>
      if Rlt_bool (re L fa) (re L ga) || Rlt_bool (re L ga) (re L fa)
      then (if Rlt_bool (re L fa) (re L ga) then g else f) else nest_midpoint f g
  | Fmin =>
      if Rlt_bool (re L fa) (re L ga) || Rlt_bool (re L ga) (re L fa)
      then (if Rlt_bool (re L ga) (re L fa) then g else f) else nest_midpoint f g
  | Fdim =>
      if Rlt_bool (re L ga) (re L fa) then J (sub fa ga) (zip2 sub (jv f) (jv g))
      else jconst (k 0)
  | Midpoint => nest_midpoint f g
  | Atan2 =>                                           (* the code calls them (g, f) *)
      let tmp := div (k 1) (add (mul ga ga) (mul fa fa)) in
      J (bino L Atan2 fa ga)
        (zip2 (fun p q => mul tmp (add (mul (neg' fa) q) (mul ga p))) (jv f) (jv g))
  | Pow =>
      if Req_bool (re L fa) 0 && Rle_bool 1 (re L ga) then
        (if Rlt_bool 1 (re L ga) then jconst (k 0) else f)
      else if Rlt_bool (re L fa) 0 && Req_bool (re L ga) (re L (uno L Floor ga)) then
        let tmp := mul ga (bino L Pow fa (sub ga (k 1))) in
        J (bino L Pow fa ga)
          (zip2 (fun p q => if Req_bool (re L q) 0 then mul tmp p else k nan_) (jv f) (jv g))
      else
        let tmp1 := bino L Pow fa ga in
        let tmp2 := mul ga (bino L Pow fa (sub ga (k 1))) in
        let tmp3 := mul tmp1 (uno L Log fa) in
        J tmp1 (zip2 (fun p q => add (mul tmp2 p) (mul tmp3 q)) (jv f) (jv g))
  end.

(** jet.h:767-796, 1174-1182 *)
Definition nest_tern (t : tern) (f g h : gjet T) : gjet T :=
  let x := ja f in
  let y := ja g in
  let z := ja h in
  match t with
  | Hypot3 =>
      let tmp := terno L Hypot3 x y z in
      J tmp (zip3 (fun p q r => add (add (mul (div x tmp) p) (mul (div y tmp) q))
                                    (mul (div z tmp) r)) (jv f) (jv g) (jv h))
  | Fma => J (terno L Fma x y z)
             (zip3 (fun p q r => add (add (mul y p) (mul x q)) r) (jv f) (jv g) (jv h))
  | Lerp => J (terno L Lerp x y z)
              (zip3 (fun p q r => add (add (mul (sub (k 1) z) p) (mul z q)) (mul (sub y x) r))
                    (jv f) (jv g) (jv h))
  end.

Definition jet_num : Num (gjet T) :=
  mkNum (gjet T) (fun c => jconst (k c)) (fun f => re L (ja f)) nest_un nest_bin nest_tern.
End Jet_over.

(** Jets nested [d] times, with [n] derivatives at each level. *)
Fixpoint tower (d : nat) : Type := match d with O => R | S d => gjet (tower d) end.
Fixpoint nest (n d : nat) : Num (tower d) :=
  match d with O => real_num | S d => jet_num (tower d) (nest n d) n end.

(** User code evaluated with such numbers. Variables are in range. *)
Fixpoint eval_num {T} (L : Num T) (e : expr) (xs : list T) : T :=
  match e with
  | Var i => nth i xs (cst L 0)
  | Const c => cst L c
  | Un u e => uno L u (eval_num L e xs)
  | Bin b e1 e2 => bino L b (eval_num L e1 xs) (eval_num L e2 xs)
  | Tern t e1 e2 e3 => terno L t (eval_num L e1 xs) (eval_num L e2 xs) (eval_num L e3 xs)
  | If c e1 e2 e3 e4 =>
      if cmp_val c (re L (eval_num L e1 xs)) (re L (eval_num L e2 xs))
      then eval_num L e3 xs else eval_num L e4 xs
  end.

(** Variable [i] with value [c] as a nested jet: Jet(Jet(...(c, i)..., i), i). *)
Fixpoint nest_var (n d : nat) (c : R) (i : nat) : tower d :=
  match d with
  | O => c
  | S d => jvar (tower d) (nest n d) n (nest_var n d c i) i
  end.
Definition nest_seeds (d : nat) (x : list R) : list (tower d) :=
  map (fun i => nest_var (List.length x) d (nth i x 0) i) (seq 0 (List.length x)).
