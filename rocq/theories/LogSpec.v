(** Vocabulary of the statements about the log. *)
From Coq Require Import ZArith Reals List Bool.
From Verif Require Import IeeeProofs NumSpec BaseModel NumModel CostModel OptionsModel SolverModel RunModel LogModel.
Import ListNotations.
Open Scope Z_scope.

(** Every cost that the user's function returns has the property [Q]. *)
Definition user_costs {A U X} (P : Problem A U X) (Q : Cost A -> Prop) : Prop :=
  (forall u x g H, Q (snd (fst (fst (acc_full (p_acc P) u x g H))))) /\
  (forall u x, Q (snd (acc_eval (p_acc P) u x))) /\
  (forall u x g, Q (snd (fst (p_acc1 P u x g)))).

(** The number of inliers of this cost fits in an int. *)
Definition countable (c : Cost IEEE) : Prop :=
  is_fmt F32 (inlier_ratio c) = true /\ is_fin (inlier_ratio c) = true /\
  (0 <= toR (inlier_ratio c) <= 1)%R /\ 0 <= num_resisuals c <= 2147483520.

(** The standard deviations can be printed: not with Gauss-Newton, or there is one parameter
    (known at compile time), or the system is solved by the same decomposition that the
    covariance is computed with. *)
Definition stdev_available {A U X} (P : Problem A U X) (inv : mat A -> option (mat A))
           (k : SolverType) : Prop :=
  k <> GaussNewton \/
  (p_dims P = Some 1 /\ p_sparse P = false) \/
  ((use_ldlt (p_options P) = true \/ p_sparse P = true) /\
   (forall M b, be_ldlt (p_backend P) M b <> None -> inv M <> None) /\
   (forall u x g H, snd (acc_full (p_acc P) u x g H) <> [])).
