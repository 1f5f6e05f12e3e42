(** Vocabulary used by the statements about steps computed in floating point. *)
From Coq Require Import ZArith List Bool Reals Floats.SpecFloat.
From Verif Require Import BaseModel NumModel NumSpec IeeeProofs CostModel OptionsModel SolverModel RunModel LmSpec SumSpec LossSpec StepSpec AccumSpec.
Import ListNotations.
Open Scope R_scope.

(** Entries of vectors and matrices of floating-point numbers. *)
Definition real_at (g : list IEEE) (k : nat) : R := toR (nth k g S754_nan).
Definition real_entry (M : mat IEEE) (k l : nat) : R := toR (nth l (nth k M []) S754_nan).
Definition finite_at (T : fmt) (g : list IEEE) (k : nat) : Prop := is_fmt T (nth k g S754_nan) = true /\ is_fin (nth k g S754_nan) = true.
Definition finite_entry (T : fmt) (M : mat IEEE) (k l : nat) : Prop :=
  is_fmt T (nth l (nth k M []) S754_nan) = true /\ is_fin (nth l (nth k M []) S754_nan) = true.
Definition square_mat (n : nat) (M : mat IEEE) : Prop := List.length M = n /\ List.Forall (fun w => List.length w = n) M.

(** g and the upper triangle of H are the gradient J^T r and the matrix J^T J of the m residuals r
    at x, J their Jacobian, up to eg and eH. *)
Definition near_system (T : fmt) (r : list R -> list R) (m : nat) (x : list R) (J : list (list R)) (g : list IEEE) (H : mat IEEE) (eg eH : R) : Prop :=
  let n := List.length x in
  (forall y, List.length y = n -> List.length (r y) = m) /\ jacobian_of r m x J /\ List.length g = n /\ square_mat n H /\
  (forall k, (k < n)%nat -> finite_at T g k /\ Rabs (real_at g k - sum m (fun i => entry J i k * nth i (r x) 0)) <= eg) /\
  (forall k l, (k <= l)%nat -> (l < n)%nat -> finite_entry T H k l /\ Rabs (real_entry H k l - sum m (fun i => entry J i k * entry J i l)) <= eH) /\
  (forall k, (k < n)%nat -> 0 <= real_entry H k k).
(** J^T J >= sigma *)
Definition gram_above (m n : nat) (J : list (list R)) (sigma : R) : Prop :=
  forall v : nat -> R, sigma * sum n (fun k => v k ^ 2) <= sum m (fun i => sum n (fun k => entry J i k * v k) ^ 2).

(** The decomposition of positive semidefinite matrices is backward stable: unless something
    overflows, the solution solves a system whose matrix differs by c times the largest entry. *)
Definition stable_ldlt (T : fmt) (be : Backend IEEE) (n : nat) (c : R) : Prop :=
  forall (M : mat IEEE) (b dx : list IEEE) (B : R), square_mat n M -> List.length b = n ->
  (forall k l, (k < n)%nat -> (l < n)%nat -> finite_entry T M k l /\ real_entry M k l = real_entry M l k /\ Rabs (real_entry M k l) <= B) ->
  (forall v : nat -> R, 0 <= sum n (fun k => v k * sum n (fun l => real_entry M k l * v l))) ->
  (forall k, (k < n)%nat -> finite_at T b k) ->
  be_ldlt be M b = Some dx -> (forall k, (k < n)%nat -> finite_at T dx k) ->
  List.length dx = n /\ exists E : nat -> nat -> R, (forall k l, (k < n)%nat -> (l < n)%nat -> Rabs (E k l) <= c * B) /\
    forall k, (k < n)%nat -> sum n (fun l => (real_entry M k l + E k l) * real_at dx l) = real_at b k.
(** The step dx decreases the sum of squares of r, or all entries of its gradient J^T r are of the
    size of their errors eg. B bounds the matrix that is decomposed. *)
Definition descends (r : list R -> list R) (m : nat) (x : list R) (J : list (list R)) (dx : list IEEE) (sigma eg B c : R) : Prop :=
  let n := List.length x in
  downhill (fun y => sum_squares (r y)) x (map toR dx) \/
  forall k, (k < n)%nat -> Rabs (sum m (fun i => entry J i k * nth i (r x) 0)) <= eg * (1 + 2 * INR n * (B + c * B) / sigma).

(** The columns Jc and the residuals rc hold J and rx without error. *)
Definition exact_jets (T : fmt) (Jc : list (list IEEE)) (rc : list IEEE) (J : list (list R)) (rx : list R) (m n : nat) : Prop :=
  List.length Jc = n /\ List.length rc = m /\ sized_columns Jc rc /\
  (forall i, (i < m)%nat -> real_at rc i = nth i rx 0) /\
  (forall i k, (i < m)%nat -> (k < n)%nat -> real_at (column_of Jc k) i = entry J i k).
