(** Concrete cases for the statements about losses. *)
From Coq Require Import ZArith List Bool Lia Reals Lra Psatz.
From Flocq Require Import Core.Raux.
From Coquelicot Require Import Coquelicot.
From Verif Require Import BaseModel JetModel JetSpec JetProofs SumSpec SumProofs AutoModel AutoProofs DerivProofs LossModel LossSpec LossProofs LinfProofs RobustProofs ClassifProofs NormProofs.
Import ListNotations.
Open Scope R_scope.

Definition l_p : list R := [3; 1].
Definition l_X (q : list R) : list R := [nth 0 q 0 * nth 1 q 0; nth 0 q 0 + nth 1 q 0].
Definition l_Jx : list (list R) := [[1; 3]; [1; 1]].
Definition l_x : list R := [3; 4].
Lemma l_val : l_X l_p = l_x.
Proof. unfold l_X, l_p, l_x. cbn. f_equal; [ring|]. f_equal. ring. Qed.
Lemma l_param : parametrised l_X l_p l_Jx.
Proof.
  split; [reflexivity|]. split; [reflexivity|]. split; [discriminate|]. intros i Hi. cbn in Hi.
  destruct i as [|[|]]; [| |lia]; (split; [reflexivity|]); intros k Hk; cbn in Hk; (destruct k as [|[|]]; [| |lia]); unfold is_partial; cbn;
    auto_derive; try trivial; ring.
Qed.
Lemma l_sq : SquaredL2 l_x = 25.
Proof. cbn. ring. Qed.
Lemma l_norm : FloatEpsilon < euclidean l_x.
Proof. unfold euclidean. rewrite <- sq_value, l_sq. replace 25 with (5 ^ 2) by ring. rewrite sqrt_pow2 by lra. unfold FloatEpsilon. lra. Qed.
Lemma l_nonzero : forall i, (i < List.length l_x)%nat -> nth i l_x 0 <> 0.
Proof. intros [|[|i]] H; cbn in *; try lra. lia. Qed.
Lemma l_max : (1 < List.length l_x)%nat /\ nth 1 l_x 0 <> 0 /\
  (forall i, (i < List.length l_x)%nat -> i <> 1%nat -> Rabs (nth i l_x 0) < Rabs (nth 1 l_x 0)).
Proof.
  split; [cbn; lia|]. split; [cbn; lra|]. intros [|[|i]] H N; [|congruence|cbn in H; lia]. cbn [nth l_x]. rewrite !Rabs_right; lra.
Qed.
Lemma l_huber : 0 < 1 /\ smooth_at Huber 1 (SquaredL2 l_x) /\
  (floored Huber = true -> forall d, is_derive (textbook Huber 1) (SquaredL2 l_x) d -> / 100 <= d).
Proof.
  split; [lra|]. split; [discriminate|]. intros _ d D.
  assert (D' : is_derive (loss Huber 1) (SquaredL2 l_x) d) by (apply (is_derive_ext (textbook Huber 1)); [intros; symmetry; apply loss_textbook|exact D]).
  pose proof (loss_derive Huber 1 (SquaredL2 l_x) ltac:(lra) (sq_nonneg _) ltac:(discriminate)) as D2.
  pose proof (eq_trans (eq_sym (is_derive_unique _ _ _ D')) (is_derive_unique _ _ _ D2)) as ->. unfold drho. rewrite l_sq, Rle_bool_false by lra.
  replace 25 with (5 ^ 2) by ring. rewrite sqrt_pow2, sqrt_1 by lra. lra.
Qed.
Lemma l_smooth : List.Forall (smooth_act (LeakyReLU (/ 10))) [1; -2] /\ List.Forall (smooth_act Sigmoid) [0; 1].
Proof. split; repeat constructor; cbn; lra. Qed.
(** The Jacobian of Softmax at (0, 0). *)
Lemma l_softmax : Softmax [0; 0] = [/ 2; / 2] /\ softmax_jac (Softmax [0; 0]) = [[/ 4; - / 4]; [- / 4; / 4]].
Proof.
  assert (E : Softmax [0; 0] = [/ 2; / 2]) by (cbn; rewrite exp_0; repeat f_equal; field). split; [exact E|]. rewrite E.
  unfold softmax_jac, softmax_lower. cbn. repeat (f_equal; try field).
Qed.
(** The scalar version of Softmax is constant, yet exports 1. *)
Lemma softmax_scalar x : Softmax [x] = [fst Softmax_s] /\ is_derive (fun x => nth 0 (Softmax [x]) 0) x 0 /\ snd Softmax_s <> 0.
Proof.
  assert (E : forall x, Softmax [x] = [1]) by (intros y; cbn; f_equal; pose proof (exp_pos y); field; lra).
  split; [apply E|]. split; [|cbn; lra]. apply (is_derive_ext (fun _ => 1)); [intros; now rewrite E|apply const_derive].
Qed.
