(** diff/optimize_autodiff.h in any arithmetic, in particular IEEE: from the jets the user's
    function returns to the cost, the gradient and the Hessian. Definitions only. *)
From Coq Require Import ZArith List Bool String.
From Verif Require Import BaseModel NumModel CostModel OptionsModel JetFloatModel.
Import ListNotations.

(** optimize_autodiff.h:104-107. The user's function returns a jet or a vector or matrix of jets, in column-major order. *)
Inductive jets (A : Arith) := OneJet (j : FJet A) | JetVector (js : list (FJet A)).
Arguments OneJet {A} j.
Arguments JetVector {A} js.

Section Accum.
Context {A : Arith}.
Variable T : fmt.                              (* Scalar *)
Variable dot : list A -> list A -> A.          (* one entry of a product of Eigen matrices *)
Variable sqnorm : list A -> A.                 (* Eigen: res_f.squaredNorm() *)

(** optimize_autodiff.h:59-87: the parameters of an Eigen vector or matrix, in column-major order,
    as jets with v[i] = 1 in the i-th. *)
Definition seeded (x : list A) : list (FJet A) :=
  let n := List.length x in
  map (fun i => mkFJet (nth i x (nzero T)) (map (fun k => if (k =? i)%nat then none_ T else nzero T) (seq 0 n))) (seq 0 n).

(** optimize_autodiff.h:127-148: the columns of J; J.row(i) = res[i].v. *)
Definition jet_columns (dims : nat) (js : list (FJet A)) : list (list A) :=
  map (fun k => map (fun j => nth k (inf j) (nzero T)) js) (seq 0 dims).

(** optimize_autodiff.h:91-165: [is_nlls] is IsNLLS, [float_x] says that X_t is a floating
    point type, [dims] is the number of parameters. Rows of another size violate an
    assertion of Eigen. *)
Definition auto_sums (is_nlls float_x : bool) (dims : nat) (res : jets A) : outcome (Cost A * list A * mat A) :=
  match res with
  | OneJet j =>
      do gH <- (if float_x
                then match inf j with
                     | [] => UB UBOutOfBounds
                     | d :: _ => Ret ([nmul T d (re j)], [[nmul T d d]])
                     end
                else Ret (map (fun d => nmul T d (re j)) (inf j), map (fun d => map (nmul T d) (inf j)) (inf j)));
      Ret (Cost_scalar (ncvt F64 (if is_nlls then nmul T (re j) (re j) else re j)), fst gH, snd gH)
  | JetVector js =>
      if forallb (fun j => (List.length (inf j) =? dims)%nat) js then
        let res_f := map re js in
        let J := jet_columns dims js in
        Ret (Cost_make (ncvt F64 (sqnorm res_f)) (int_wrap (Z.of_nat (List.length js))) (none_ F32) "",
             map (fun c => dot c res_f) J, map (fun c => map (dot c) J) J)
      else UB UBOutOfBounds
  end.
End Accum.
