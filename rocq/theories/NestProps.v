(** Property C69: nested jets. *)
From Coq Require Import ZArith List Bool Reals.
From Coquelicot Require Import Coquelicot.
From Verif Require Import BaseModel FunModel JetModel JetSpec JetExamples NestModel NestSpec NestMainProofs NestFlatProofs NestSchwarzProofs NestExamples.
Import ListNotations.
Open Scope R_scope.

(** C69: evaluating an expression on jets nested [d] times gives all its partial derivatives up
    to order [d]: the entry for the indices i1, ..., ik is the derivative by xi1, then xi2, ...
    All these derivatives exist. The functions have to be differentiable at x and the bases of
    powers must not be zero. *)
Theorem C69_partial : forall (e : expr) (x : list R) (is : list nat),
  smooth e x -> nonzero_bases e x -> List.Forall (fun i => (i < List.length x)%nat) is ->
  (forall d, (List.length is <= d)%nat ->
    entry (List.length x) d (eval_num (nest (List.length x) d) e (nest_seeds d x)) is = partials (eval e) is x) /\
  forall i, (i < List.length x)%nat -> ex_derive (fun t => partials (eval e) is (set_nth x i t)) (nth i x 0).
Proof. exact every_order_lemma. Qed.
Print Assumptions C69_partial.
Example C69_partial_ex : smooth ex_expr ex_point /\ nonzero_bases ex_expr ex_point.
Proof. exact (conj ex_smooth ex_bases). Qed.
Example C69_entries_ex : let j := eval_num (nest 2 3) cubic (nest_seeds 3 [2; 3]) in
  entry 2 3 j [] = 12 /\ entry 2 3 j [0%nat] = 12 /\ entry 2 3 j [0; 0]%nat = 6 /\ entry 2 3 j [0; 1]%nat = 4 /\
  entry 2 3 j [0; 0; 1]%nat = 2 /\ entry 2 3 j [1; 1; 0]%nat = 0.
Proof. exact ex_cubic. Qed.

(** C69: pow(x, 2) with jets for x and 2 has the second derivative 0 at x = 0, instead of 2. *)
Theorem C69_refuted : smooth square [0] /\
  entry 1 2 (eval_num (nest 1 2) square (nest_seeds 2 [0])) [0; 0]%nat = 0 /\
  is_partial (partial (eval square) 0) [0] 0 2 /\
  (forall x, x <> 0 -> entry 1 2 (eval_num (nest 1 2) square (nest_seeds 2 [x])) [0; 0]%nat = 2).
Proof. exact refuted_lemma. Qed.
Print Assumptions C69_refuted.

(** C69: the value is right at every point and depth, differentiable or not. *)
Theorem C69_value : forall (e : expr) (x : list R) (d : nat),
  re (nest (List.length x) d) (eval_num (nest (List.length x) d) e (nest_seeds d x)) = eval e x.
Proof. exact value_lemma. Qed.
Print Assumptions C69_value.
Example C69_value_ex : re (nest 1 2) (eval_num (nest 1 2) (Un Abs (Var 0)) (nest_seeds 2 [-3])) = 3.
Proof. exact (eq_trans (value_lemma (Un Abs (Var 0)) [-3] 2) (eq_trans (Rabs_Ropp 3) (Rabs_pos_eq 3 (IZR_le 0 3 ltac:(discriminate))))). Qed.

(** C69: the second derivatives are symmetric, and both ways to read a first derivative agree,
    wherever the functions are differentiable, also for bases that are zero. *)
Theorem C69_symmetric : forall (e : expr) (x : list R) (i k : nat),
  smooth e x -> (i < List.length x)%nat -> (k < List.length x)%nat ->
  let j := eval_num (nest (List.length x) 2) e (nest_seeds 2 x) in
  entry (List.length x) 2 j [i; k] = entry (List.length x) 2 j [k; i] /\
  nth i (jv (ja j)) 0 = entry (List.length x) 2 j [i].
Proof. exact symmetric_lemma. Qed.
Print Assumptions C69_symmetric.
Example C69_symmetric_ex : smooth square [0].
Proof. exact (proj1 refuted_lemma). Qed.

(** C69: so partial derivatives of such expressions commute. *)
Theorem C69_schwarz : forall (e : expr) (x : list R) (i k : nat), smooth e x -> nonzero_bases e x ->
  (i < List.length x)%nat -> (k < List.length x)%nat ->
  partials (eval e) [i; k] x = partials (eval e) [k; i] x.
Proof. exact schwarz_lemma. Qed.
Print Assumptions C69_schwarz.
Example C69_schwarz_ex : smooth cubic [2; 3] /\ nonzero_bases cubic [2; 3].
Proof. exact cubic_smooth. Qed.

(** C69: with one level these are the jets of C35, at every point. *)
Theorem C69_one_level : forall (e : expr) (x : list R), scoped e (List.length x) ->
  let j := eval_num (nest (List.length x) 1) e (nest_seeds 1 x) in
  eval_jet (Some (List.length x)) e (seeds x) = Ret (mkJet (ja j) (jv j)).
Proof. exact flat_lemma. Qed.
Print Assumptions C69_one_level.
Example C69_one_level_ex : scoped ex_expr (List.length ex_point).
Proof. exact ex_scoped. Qed.
