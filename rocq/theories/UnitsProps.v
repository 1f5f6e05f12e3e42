(** C66: the choice of units and of the origin of the parameters does not matter. *)
From Coq Require Import ZArith List Bool Reals Lia Lra.
From Verif Require Import BaseModel NumModel RealModel CostModel StopModel OptionsModel SolverModel OptimizerModel RunModel RunSpec LmSpec SumSpec
  LossSpec StepSpec LmAffineSpec StoreSpec RealExampleModel GdExamples UnitsSpec UnitsRunProofs UnitsChainProofs UnitsExamples.
Import ListNotations.
Open Scope R_scope.

(** Gauss-Newton: x = c + T y for any invertible T. *)
Theorem C66_gauss_newton : forall U (P Q : Problem REAL U (list R)) n T c, same_kind P Q n -> chain_rule2 P Q n T c -> invertible n T ->
  no_entry_tests (p_options P) -> sizes_agree P n T -> ideal_ldlt (p_backend P) n ->
  forall fuel u x y max_iters, placed n T c x y ->
  same_up_to n T c (sizes_related P n T) (pulled_hessian n T)
    (run P GaussNewton fuel u (fresh P GaussNewton) x max_iters) (run Q GaussNewton fuel u (fresh Q GaussNewton) y max_iters).
Proof. exact @gn_units. Qed.
Print Assumptions C66_gauss_newton.
(** A shear and a shift of the plane, two residuals that are not linear. *)
Example C66_gauss_newton_ex : same_kind pb_P (pb_Q shear pb_off) 2 /\ chain_rule2 pb_P (pb_Q shear pb_off) 2 shear pb_off /\ invertible 2 shear /\
  no_entry_tests (p_options pb_P) /\ sizes_agree pb_P 2 shear /\ ideal_ldlt (p_backend pb_P) 2 /\ placed 2 shear pb_off [10; 2] [1; 1].
Proof.
  split; [apply ls_change|]. split; [apply ls_chain; [intros; reflexivity|exact pb_jac]|]. split; [exact shear_ok|].
  split; [apply pb_tests|]. split; [left; apply (pb_tests (1 / 2))|]. split; [apply ideal_ok|].
  split; [reflexivity|]. split; [reflexivity|]. intros [|[|i]] Hi; [| |lia]; unfold shear, table, pb_off; cbn; ring.
Qed.

(** Levenberg-Marquardt: other units and another origin for each parameter. *)
Theorem C66_levenberg_marquardt : forall U (P Q : Problem REAL U (list R)) n T c, same_kind P Q n -> chain_rule2 P Q n T c -> scaling n T ->
  no_entry_tests (p_options P) -> sizes_agree P n T -> ideal_ldlt (p_backend P) n ->
  forall fuel u x y max_iters, placed n T c x y ->
  same_up_to n T c (sizes_related P n T) (pulled_hessian n T)
    (run P LevenbergMarquardt fuel u (fresh P LevenbergMarquardt) x max_iters) (run Q LevenbergMarquardt fuel u (fresh Q LevenbergMarquardt) y max_iters).
Proof. exact @lm_units. Qed.
Print Assumptions C66_levenberg_marquardt.
Example C66_levenberg_marquardt_ex : same_kind pb_P (pb_Q units_2_3 pb_off) 2 /\ chain_rule2 pb_P (pb_Q units_2_3 pb_off) 2 units_2_3 pb_off /\ scaling 2 units_2_3 /\
  no_entry_tests (p_options pb_P) /\ sizes_agree pb_P 2 units_2_3 /\ ideal_ldlt (p_backend pb_P) 2 /\ placed 2 units_2_3 pb_off [9; 2] [1; 1].
Proof.
  split; [apply ls_change|]. split; [apply ls_chain; [intros; reflexivity|exact pb_jac]|]. split; [exact scaling_ok|].
  split; [apply pb_tests|]. split; [left; apply (pb_tests (1 / 2))|]. split; [apply ideal_ok|].
  split; [reflexivity|]. split; [reflexivity|]. intros [|[|i]] Hi; [| |lia]; unfold units_2_3, table, pb_off; cbn; ring.
Qed.

(** Gradient descent: rotations, reflections and another origin. *)
Theorem C66_gradient_descent : forall U (P Q : Problem REAL U (list R)) n T c, same_kind P Q n -> chain_rule1 P Q n T c -> orthogonal n T ->
  grad_clipping (p_options P) = 0 -> sizes_agree P n T ->
  forall fuel u x y max_iters, placed n T c x y ->
  same_up_to n T c (sizes_related P n T) eq
    (run P GradientDescent fuel u (fresh P GradientDescent) x max_iters) (run Q GradientDescent fuel u (fresh Q GradientDescent) y max_iters).
Proof. exact @gd_units. Qed.
Print Assumptions C66_gradient_descent.
Example C66_gradient_descent_ex : same_kind pb_P (pb_Q rotation pb_off) 2 /\ chain_rule1 pb_P (pb_Q rotation pb_off) 2 rotation pb_off /\ orthogonal 2 rotation /\
  grad_clipping (p_options pb_P) = 0 /\ sizes_agree pb_P 2 rotation /\ placed 2 rotation pb_off [10; 3] [5; 0].
Proof.
  split; [apply ls_change|]. split; [apply ls_chain1; [intros; reflexivity|exact pb_jac]|]. split; [exact rotation_ok|].
  split; [reflexivity|]. split; [right; split; [exact rotation_ok|]; split; [apply ideal_euclidean|reflexivity]|].
  split; [reflexivity|]. split; [reflexivity|]. intros [|[|i]] Hi; [| |lia]; unfold rotation, table, pb_off; cbn; field.
Qed.

(** The same residuals as functions of x and of y give Gauss-Newton systems that obey the chain rule. *)
Theorem C66_residuals : forall U (P Q : Problem REAL U (list R)) (r r' : list R -> list R) m n T c, residual_problem P r m n -> residual_problem Q r' m n ->
  (forall x y, placed n T c x y -> r' y = r x) -> chain_rule2 P Q n T c.
Proof. exact @residuals_chain. Qed.
Print Assumptions C66_residuals.
Example C66_residuals_ex : residual_problem pb_P pb_r 2 2 /\ residual_problem (pb_Q shear pb_off) (in_y 2 shear pb_off pb_r) 2 2 /\
  (forall x y, placed 2 shear pb_off x y -> in_y 2 shear pb_off pb_r y = pb_r x).
Proof.
  split; [apply ls_residual; [intros; reflexivity|exact pb_jac]|]. split.
  - apply ls_residual; [intros; reflexivity|]. apply in_y_jacobian. exact pb_jac.
  - intros x y Hx. unfold in_y. now rewrite <- (placed_apply 2 shear pb_off x y Hx).
Qed.
