(** Concrete expressions and points for the jet theorems, and witnesses against dynamic jets. *)
From Coq Require Import ZArith List Bool Reals Lra Lia.
From Flocq Require Import Core.Raux.
From Coquelicot Require Import Coquelicot.
From Verif Require Import BaseModel FunModel JetModel JetSpec DerivProofs JetProofs DynProofs.
Import ListNotations.
Open Scope R_scope.

(** if x0 < x1 then atan2(x1, exp(x0)) / (x2 + 3) + max(x0, x2)^2 else x1 *)
Definition ex_expr : expr :=
  If Lt (Var 0) (Var 1)
    (Bin Add (Bin Div (Bin Atan2 (Var 1) (Un Exp (Var 0))) (Bin Add (Var 2) (Const 3)))
             (Bin Pow (Bin Fmax (Var 0) (Var 2)) (Const 2)))
    (Var 1).
Definition ex_point : list R := [1; 2; -1].

Lemma ex_smooth : smooth ex_expr ex_point.
Proof.
  cbn. rewrite Rlt_bool_true by lra. cbn. repeat split; try lia; try lra; auto; try (left; repeat split; lra).
  right. split; [reflexivity|]. exists 2%Z. split; [reflexivity|]. right. lia.
Qed.
Lemma ex_safe : dyn_safe ex_expr ex_point.
Proof. cbn. repeat split; lra. Qed.
Lemma ex_scoped : scoped ex_expr (List.length ex_point).
Proof. cbn. repeat split; lia. Qed.

(** hypot(2, x), fma(x, x, 1), lerp(0, 1, x), midpoint(x, x), fmax(x, x), pow(-2, x) at x = 1. *)
Definition bad_exprs : list expr :=
  [Bin Hypot (Const 2) (Var 0); Tern Fma (Var 0) (Var 0) (Const 1); Tern Lerp (Const 0) (Const 1) (Var 0);
   Bin Midpoint (Var 0) (Var 0); Bin Fmax (Var 0) (Var 0); Un (SPow (-2)) (Var 0)].
Lemma one_int : is_int 1 = true.
Proof. exact (is_int_IZR 1). Qed.
Lemma bad_static e : In e bad_exprs -> exists j, eval_jet (Some 1%nat) e (seeds [1]) = Ret j /\ a j = eval e [1].
Proof.
  cbn [bad_exprs In]. intros [<-|[<-|[<-|[<-|[<-|[<-|[]]]]]]]; cbn.
  - eexists. split; reflexivity.
  - eexists. split; [reflexivity|]. reflexivity.
  - eexists. split; reflexivity.
  - eexists. split; reflexivity.
  - unfold jet_fmax, jet_lt, jet_gt. cbn. rewrite Rlt_bool_false by lra. cbn. eexists. split; [reflexivity|]. cbn.
    unfold std_midpoint. rewrite Rmax_left by lra. lra.
  - unfold jet_s_pow. cbn. rewrite Req_bool_false, (Rlt_bool_true (-2) 0), one_int by lra. cbn. eexists. split; reflexivity.
Qed.
Lemma bad_dynamic e : In e bad_exprs -> eval_jet None e (seeds [1]) = UB UBOutOfBounds.
Proof.
  cbn [bad_exprs In]. intros [<-|[<-|[<-|[<-|[<-|[<-|[]]]]]]]; cbn.
  - reflexivity.
  - reflexivity.
  - reflexivity.
  - reflexivity.
  - unfold jet_fmax, jet_lt, jet_gt. cbn. rewrite Rlt_bool_false by lra. reflexivity.
  - unfold jet_s_pow. cbn. rewrite Req_bool_false, (Rlt_bool_true (-2) 0), one_int by lra. cbn.
    unfold mark_nan. cbn. rewrite Req_bool_false by lra. reflexivity.
Qed.
Lemma hypot_smooth : smooth (Bin Hypot (Const 2) (Var 0)) [1].
Proof. cbn. repeat split; try lia. left. left. lra. Qed.
Lemma fma_smooth : smooth (Tern Fma (Var 0) (Var 0) (Const 1)) [1].
Proof. cbn. repeat split; lia. Qed.
Lemma lerp_smooth : smooth (Tern Lerp (Const 0) (Const 1) (Var 0)) [1].
Proof. cbn. repeat split; lia. Qed.
Lemma midpoint_smooth : smooth (Bin Midpoint (Var 0) (Var 0)) [1].
Proof. cbn. repeat split; auto. Qed.

(** midpoint(3, x): the derivative is 1/2, the dynamic jet says 0. *)
Lemma midpoint_lost : exists j, eval_jet None (Bin Midpoint (Const 3) (Var 0)) (seeds [1]) = Ret j /\ v j = []
  /\ is_partial (eval (Bin Midpoint (Const 3) (Var 0))) [1] 0 (1 / 2).
Proof.
  eexists. split; [reflexivity|]. split; [reflexivity|]. unfold is_partial. cbn. auto_derive; [trivial|]. field.
Qed.

(** A value and gradient that is not zero. *)
Lemma ex_value : exists j, eval_jet (Some 2%nat) (Bin Mul (Var 0) (Var 1)) (seeds [2; 3]) = Ret j /\ a j = 6 /\ v j = [3; 2].
Proof. eexists. split; [reflexivity|]. cbn. split; [lra|]. repeat (f_equal; try lra). Qed.
