(** Nested jets: examples and the second derivative of pow at zero. *)
From Coq Require Import ZArith List Bool Reals Lra Lia.
From Flocq Require Import Core.Raux.
From Coquelicot Require Import Coquelicot.
From Verif Require Import BaseModel FunModel JetModel JetSpec DerivProofs JetProofs JetExamples NestModel NestSpec NestProofs NestMainProofs NestSchwarzProofs.
Import ListNotations.
Open Scope R_scope.

Lemma ex_bases : nonzero_bases ex_expr ex_point.
Proof. cbn. repeat split; auto. unfold Rmax. destruct (Rle_dec 1 (-1)); lra. Qed.

(** x^2 y at (2, 3) *)
Definition cubic : expr := Bin Mul (Bin Mul (Var 0) (Var 0)) (Var 1).
Lemma ex_cubic : let j := eval_num (nest 2 3) cubic (nest_seeds 3 [2; 3]) in
  entry 2 3 j [] = 12 /\ entry 2 3 j [0%nat] = 12 /\ entry 2 3 j [0; 0]%nat = 6 /\ entry 2 3 j [0; 1]%nat = 4 /\
  entry 2 3 j [0; 0; 1]%nat = 2 /\ entry 2 3 j [1; 1; 0]%nat = 0.
Proof. cbn. repeat split; ring. Qed.
Lemma cubic_smooth : smooth cubic [2; 3] /\ nonzero_bases cubic [2; 3].
Proof. cbn. repeat split; auto; lia. Qed.
Lemma schwarz_lemma e x i k : smooth e x -> nonzero_bases e x -> (i < List.length x)%nat -> (k < List.length x)%nat ->
  partials (eval e) [i; k] x = partials (eval e) [k; i] x.
Proof.
  intros S0 NB Hi Hk.
  rewrite <- (entries_lemma e x 2 [i; k]), <- (entries_lemma e x 2 [k; i]); auto; try (repeat constructor; assumption).
  now apply symmetric_lemma.
Qed.

(** pow(x, 2) at x = 0. *)
Definition square : expr := Bin Pow (Var 0) (Const 2).
Lemma square_partial y : List.length y = 1%nat -> partial (eval square) 0 y = 2 * nth 0 y 0.
Proof.
  destruct y as [|t [|? ?]]; intros L; cbn in L; try lia. unfold partial. cbn [nth set_nth].
  apply is_derive_unique. apply (is_derive_ext (fun u => u * u)).
  - intros u. cbn. rewrite (pow_int_pos u 2) by lia. change (powerRZ u 2) with (u * (u * 1)). ring.
  - auto_derive; [trivial|ring].
Qed.
Lemma refuted_lemma : smooth square [0] /\
  entry 1 2 (eval_num (nest 1 2) square (nest_seeds 2 [0])) [0; 0]%nat = 0 /\
  is_partial (partial (eval square) 0) [0] 0 2 /\
  (forall x, x <> 0 -> entry 1 2 (eval_num (nest 1 2) square (nest_seeds 2 [x])) [0; 0]%nat = 2).
Proof.
  split; [|split; [|split]].
  - cbn. repeat split; [lia|]. right. split; [reflexivity|]. exists 2%Z. split; [reflexivity|right; lia].
  - cbn. rewrite Req_bool_true, Rle_bool_true, Rlt_bool_true by lra. cbn. reflexivity.
  - unfold is_partial. apply (is_derive_ext (fun t => 2 * t)).
    + intros t. symmetry. now apply square_partial.
    + auto_derive; [trivial|ring].
  - intros x Hx. refine (eq_trans (entries_lemma square [x] 2 [0; 0]%nat _ _ _ _) _).
    + cbn. repeat split; [lia|]. right. split; [reflexivity|]. exists 2%Z. split; [reflexivity|left; exact Hx].
    + cbn. repeat split; auto.
    + repeat constructor.
    + cbn. lia.
    + cbn [partials]. unfold partial at 1. apply is_derive_unique. apply (is_derive_ext (fun t => 2 * t)).
      * intros t. symmetry. now apply square_partial.
      * auto_derive; [trivial|ring].
Qed.
