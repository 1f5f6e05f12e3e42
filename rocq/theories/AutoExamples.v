(** Concrete functions meeting the hypotheses of the theorems on automatic differentiation,
    and the witnesses of the refutations. *)
From Coq Require Import ZArith List Bool Lia Reals Lra.
From Coquelicot Require Import Coquelicot.
From Verif Require Import BaseModel NumModel RealModel CostModel TraitsModel TraitsSpec JetModel JetSpec SumSpec DiffModel DiffSpec
  DiffRealSpec DiffExamples AutoModel AutoSpec AutoProofs.
Import ListNotations.
Open Scope R_scope.

(** x_0 x_1 and x_0 - 3 for a static and for a dynamic vector. *)
Definition a_f : user_fun := FMat 2 1 [Bin Mul (Var 0) (Var 1); Bin Sub (Var 0) (Const 3)].
Definition a_ty (dynamic : bool) : ty := TMat (if dynamic then None else Some 2%nat) (Some 1%nat).
Definition a_x0 : val R := VMat 2 1 [1; 2].
Definition a_x : val R := VMat 2 1 [5; 7].
Lemma a_good d : good_params (a_ty d) a_x0.
Proof. destruct d; repeat split; try (now vm_compute). Qed.
Lemma a_type d : has_type (a_ty d) a_x.
Proof. destruct d; now vm_compute. Qed.
Lemma a_shape : same_shape a_x0 a_x.
Proof. repeat split. Qed.
Lemma a_smooth d : forall e, In e (residual_exprs a_f) ->
  smooth e (flatten a_x) /\ safe_for (a_ty d) e (flatten a_x) /\ connected (a_ty d) e (flatten a_x).
Proof.
  cbn [residual_exprs a_f In]. intros e [<-|[<-|[]]]; destruct d; cbn -[eval_jet seeds]; repeat split; try lia; try exact I.
  - intros j H. cbn in H. injection H as <-. discriminate.
  - intros j H. cbn in H. injection H as <-. discriminate.
Qed.
(** A cost with parameters of type std::vector<double>: x_0 x_1. *)
Definition a_c : user_fun := FScalar (Bin Mul (Var 0) (Var 1)).
Lemma a_cost_smooth d : forall e, In e (residual_exprs a_c) ->
  smooth e (flatten a_x) /\ safe_for (a_ty d) e (flatten a_x) /\ connected (a_ty d) e (flatten a_x).
Proof. intros e [<-|[]]. apply a_smooth. now left. Qed.

(** A constant residual of a dynamic vector. *)
Definition u_ty : ty := TMat None (Some 1%nat).
Definition u_x : val R := VMat 1 1 [1].
Definition u_f : user_fun := FMat 2 1 [Var 0; Const 3].
Definition u_c : user_fun := FScalar (Const 3).
Lemma u_good : good_params u_ty u_x.
Proof. repeat split; try (now vm_compute). Qed.
Lemma u_smooth : forall e, In e (residual_exprs u_f) -> smooth e (flatten u_x) /\ safe_for u_ty e (flatten u_x).
Proof. cbn [residual_exprs u_f In]. intros e [<-|[<-|[]]]; cbn; repeat split; lia. Qed.
Lemma u_ub nlls : exists k, kept u_ty u_x = Ret k /\ auto_acc u_ty nlls u_f k u_x = UB UBOutOfBounds /\ exists c, auto_eval u_ty nlls u_f k u_x = Ret c.
Proof. eexists. split; [reflexivity|]. split; [reflexivity|]. eexists. reflexivity. Qed.
Lemma u_empty nlls : exists k c, kept u_ty u_x = Ret k /\ auto_acc u_ty nlls u_c k u_x = Ret (c, [], []).
Proof. eexists _, _. split; [reflexivity|]. reflexivity. Qed.
Lemma u_eval : Eval u_ty u_f false u_x = UB UBOutOfBounds /\ Eval u_ty u_f true u_x = Ret ([1; 3], [[1]; [0]]).
Proof. split; reflexivity. Qed.

(** Gradient descent on x - 3 at x = 1. *)
Definition n_f : user_fun := FScalar (Bin Sub (Var 0) (Const 3)).
Lemma n_good : good_params TScalar (VScalar 1).
Proof. repeat split; try (now vm_compute). Qed.
Lemma n_wrong : exists k c, kept TScalar (VScalar 1) = Ret k /\ auto_acc TScalar false n_f k (VScalar 1) = Ret (c, [-2], [[1]]) /\
  cost c = -2 /\ is_partial (residual n_f 0) [1] 0 1.
Proof.
  eexists _, _. split; [reflexivity|]. split; [cbn; unfold jet_sub; cbn; repeat (f_equal; try lra)|].
  split; [cbn; lra|]. unfold is_partial, residual. cbn. auto_derive; [trivial|ring].
Qed.

(** The residual x at x = 3, differentiated automatically and numerically. *)
Definition id_f : user_fun := FMat 1 1 [Var 0].
Definition id_num (y : val R) : residuals R := RMat 1 1 (flatten y).
Lemma id_auto nlls : exists k c H, kept TScalar (VScalar 3) = Ret k /\ auto_acc TScalar nlls id_f k (VScalar 3) = Ret (c, [3], H) /\ cost c = 9.
Proof. eexists _, _, _. split; [reflexivity|]. split; [cbn; change (Pos.to_nat 1) with 1%nat; cbn; unfold JtR, dotp; cbn; replace (1 * 3 + 0) with 3 by lra; reflexivity|]. cbn. unfold dotp. cbn. lra. Qed.
Lemma id_diff sc method h log : h <> 0 ->
  exists log' c H, @NumDiffFunc2 REAL _ sc TScalar inner (fun l => sqrt (inner l l)) (@logged REAL id_num) method h (VScalar 3) log = Ret (log', c, [3], H) /\
  cost c = 3.
Proof.
  intros Hh.
  enough (K : exists log' c g H, @NumDiffFunc2 REAL _ sc TScalar inner (fun l => sqrt (inner l l)) (@logged REAL id_num) method h (VScalar 3) log = Ret (log', c, [g], H) /\
    g = 3 /\ cost c = 3) by (destruct K as (log' & c & g & H & K1 & -> & K3); now exists log', c, H).
  destruct method; eexists _, _, _, _; (split; [reflexivity|]); (split; [unfold inner; cbn; field; exact Hh|]);
  cbn; unfold inner; cbn; replace (0 + 3 * 3) with (3 * 3) by ring; apply sqrt_square; lra.
Qed.
(** Gradient descent with numerical differentiation of x - 3 at x = 1. *)
Definition n_num (y : val R) : residuals R := RScalar (nth 0 (flatten y) 0 - 3).
Lemma n_diff sc method h log norm : h <> 0 ->
  exists log' c, @NumDiffFunc1 REAL _ sc TScalar inner norm (@logged REAL n_num) method h (VScalar 1) log = Ret (log', c, [-2]) /\ cost c = 2.
Proof.
  intros Hh.
  enough (K : exists log' c g, @NumDiffFunc1 REAL _ sc TScalar inner norm (@logged REAL n_num) method h (VScalar 1) log = Ret (log', c, [g]) /\ g = -2 /\ cost c = 2)
    by (destruct K as (log' & c & g & K1 & -> & K3); now exists log', c).
  destruct method; eexists _, _, _; (split; [reflexivity|]); (split; [unfold inner; cbn; field; exact Hh|]);
  cbn; replace (1 - 3) with (-2) by ring; rewrite Rabs_left; lra.
Qed.
Lemma a_columns : match DiffExamples.d_f DiffExamples.d_x with RScalar _ => True | RMat _ c _ => c = 1%nat end.
Proof. reflexivity. Qed.
Lemma a_system : exists g H D, gauss_newton a_f (flatten a_x) g H D.
Proof.
  destruct (auto_ok (a_ty false) a_f a_x0 a_x true (a_good _) (a_type _) a_shape (a_smooth _)) as (k & c & g & H & D & _ & _ & _ & _ & _ & G).
  now exists g, H, D.
Qed.
