(** Concrete functions meeting the hypotheses of the theorems, and the witnesses of the
    refutations. *)
From Coq Require Import ZArith List Bool Lia Reals Lra.
From Coquelicot Require Import Coquelicot.
From Verif Require Import BaseModel NumModel RealModel NumSpec IeeeProofs TraitsModel TraitsSpec TraitsProofs TraitsExamples
  DiffModel DiffSpec JetSpec SumSpec DiffRealSpec.
Import ListNotations.
Open Scope R_scope.

(** x_0^3 + x_1 and x_0 - 2 x_1 + 5 and x_0 x_1 *)
Definition d_F (X : list R) : list R :=
  [nth 0 X 0 * nth 0 X 0 * nth 0 X 0 + nth 1 X 0; nth 0 X 0 - 2 * nth 1 X 0 + 5; nth 0 X 0 * nth 1 X 0].
Definition d_f (y : val R) : residuals R := RMat 3 1 (d_F (flatten y)).
Definition d_ty := TMat (Some 2%nat) (Some 1%nat).
Definition d_x : val R := VMat 2 1 [1; 2].
Lemma d_good : good_params d_ty d_x.
Proof. repeat split; try (now vm_compute). Qed.
Lemma d_returns method : @returns REAL method d_f 3.
Proof. intros y. split; [reflexivity|]. intros _. reflexivity. Qed.
Lemma d_computes : computes d_x d_f d_F.
Proof. intros y _. reflexivity. Qed.
Lemma d_derivatives : forall c h,
  derivative_on (c - h) (c + h) (along d_F 0 [1; 2] 0) (fun s => 3 * (s * s)) /\ derivative_on (c - h) (c + h) (fun s => 3 * (s * s)) (fun s => 6 * s) /\
  derivative_on (c - h) (c + h) (fun s => 6 * s) (fun _ => 6) /\ forall s : R, c - h <= s <= c + h -> Rabs 6 <= 6.
Proof.
  intros c h. split; [|split; [|split]]; try (intros s _; unfold along; cbn; auto_derive; [trivial|ring]).
  intros s _. rewrite Rabs_right; lra.
Qed.
Lemma d_forward_derivatives : derivative_on 1 (1 + 1 / 10) (along d_F 0 [1; 2] 0) (fun s => 3 * (s * s)) /\
  derivative_on 1 (1 + 1 / 10) (fun s => 3 * (s * s)) (fun s => 6 * s) /\ (forall s, 1 <= s <= 1 + 1 / 10 -> Rabs (6 * s) <= 7).
Proof.
  split; [|split]; try (intros s _; unfold along; cbn; auto_derive; [trivial|ring]).
  intros s Hs. rewrite Rabs_right; lra.
Qed.
Lemma d_affine : affine_in 2 d_F 1 5 (fun k => match k with O => 1 | _ => -2 end).
Proof. intros y _. cbn. ring. Qed.
Lemma d_quadratic : quadratic_in 2 d_F 2 0 (fun _ => 0) (fun k l => match k, l with O, 1%nat => 1 | _, _ => 0 end).
Proof. intros y _. cbn. ring. Qed.

(** The cost x_0^3 + x_1 with its gradient. *)
Definition d_C (X : list R) : R := nth 0 (d_F X) 0.
Definition d_c (y : val R) : R := d_C (flatten y).
Definition d_G (y : val R) : list R := [3 * (nth 0 (flatten y) 0 * nth 0 (flatten y) 0); 1].
Definition d_c1 (j : nat) (s : R) : R := match j with O => 3 * (s * s) | _ => 1 end.
Definition d_c2 (j : nat) (s : R) : R := match j with O => 6 * s | _ => 0 end.
Definition d_c3 (j : nat) (s : R) : R := match j with O => 6 | _ => 0 end.
Lemma d_third h : forall j, (j < 2)%nat -> third_order d_C [1; 2] j h 6 (d_c1 j) (d_c2 j) (d_c3 j).
Proof.
  intros [|[|j]] Hj; [| |lia]; unfold third_order; cbv zeta; unfold d_c1, d_c2, d_c3; (split; [|split; [|split]]).
  - intros s _. unfold d_C; cbn. auto_derive; [trivial|ring].
  - intros s _. cbn. auto_derive; [trivial|ring].
  - intros s _. cbn. auto_derive; [trivial|ring].
  - intros s _. cbn [d_c3]. rewrite Rabs_right; lra.
  - intros s _. unfold d_C; cbn. auto_derive; [trivial|ring].
  - intros s _. cbn. auto_derive; [trivial|ring].
  - intros s _. cbn. auto_derive; [trivial|ring].
  - intros s _. cbn [d_c3]. rewrite Rabs_R0; lra.
Qed.
Lemma d_gradient : forall j, (j < 2)%nat -> nth j (d_G d_x) 0 = d_c1 j (nth j [1; 2] 0).
Proof. intros [|[|j]] Hj; [| |lia]; cbn; ring. Qed.
(** A wrong gradient. *)
Definition d_wrong (y : val R) : list R := [3 * (nth 0 (flatten y) 0 * nth 0 (flatten y) 0); 2].

(** Residuals with their gradient and Hessian. *)
Definition d_H (y : val R) : list (list R) := [[1; 0]; [0; 1]].

(** Forward differences of a 1 x 2 matrix of residuals. *)
Lemma forward_matrix (A : Arith) (sc : fmt) (h a : A) :
  NumEval sc TScalar (logged (fun y => RMat 1 2 (flatten y ++ flatten y))) kForward h (VScalar a) [] = UB UBOutOfBounds.
Proof. reflexivity. Qed.
Lemma central_matrix (A : Arith) (sc : fmt) (h a : A) :
  exists r, NumEval sc TScalar (logged (fun y => RMat 1 2 (flatten y ++ flatten y))) kCentral h (VScalar a) [] = Ret r.
Proof. eexists. reflexivity. Qed.

(** Double. *)
Definition i_x : val IEEE := VMat 2 1 [nofZ F64 1; nofZ F64 2].
Lemma i_good : good_params d_ty i_x.
Proof. repeat split; try (now vm_compute). Qed.
Definition i_c (y : val IEEE) : IEEE := match flatten y with [a; b] => ncvt F64 (nadd F64 (nmul F64 a a) b) | _ => nzero F64 end.
Definition i_G (y : val IEEE) : list IEEE := match flatten y with [a; b] => [nmul F64 (nofZ F64 2) a; nofZ F64 1] | l => l end.
Definition i_eps : IEEE := nlit F64 1 (-10).
Lemma i_true : match @CheckGradient IEEE _ F64 d_ty (pure i_c i_G) i_eps kCentral i_x [] with Ret (_, b) => b | _ => false end = true.
Proof. vm_compute. reflexivity. Qed.
Lemma i_eps_fmt : is_fmt F64 i_eps = true.
Proof. vm_compute. reflexivity. Qed.
Lemma i_eps_fin : is_fin i_eps = true.
Proof. vm_compute. reflexivity. Qed.
Lemma i_c_fmt : forall y, is_fmt F64 (i_c y) = true.
Proof. intros y. unfold i_c. destruct (flatten y) as [|a [|b [|]]]; try apply fmt_zero. apply fmt_cvt. Qed.
Lemma i_G_fmt : List.Forall (fun g => is_fmt F64 g = true) (i_G i_x).
Proof. repeat constructor. Qed.
Lemma d_small : 1 / 10 * (1 / 10) * 6 / 6 < 1.
Proof. lra. Qed.
Lemma d_off : exists j, (j < 2)%nat /\ 1 / 10 + 1 / 100 * (1 / 100) * 6 / 6 <= Rabs (nth j (d_wrong d_x) 0 - d_c1 j (nth j [1; 2] 0)).
Proof. exists 1%nat. split; [lia|]. cbn [nth d_wrong d_c1]. rewrite Rabs_right; lra. Qed.
Lemma d_H_square : List.Forall (fun r => List.length r = List.length (flatten d_x)) (d_H d_x).
Proof. repeat constructor. Qed.
