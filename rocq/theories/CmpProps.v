(** C92: the order of costs. *)
From Coq Require Import ZArith List Bool String Reals Floats.SpecFloat.
From Verif Require Import BaseModel NumModel NumSpec CostModel ExampleModel SpecialSpec CmpProofs.
Open Scope Z_scope.

(** Costs that are doubles compare like their values, infinite or not; the other members do not matter. *)
Theorem C92_value : forall a b : Cost IEEE, is_fmt F64 (cost a) = true -> is_fmt F64 (cost b) = true ->
  (Cost_lt a b = true <-> below (cost a) (cost b)) /\ (Cost_le a b = true <-> below (cost a) (cost b) \/ same (cost a) (cost b)).
Proof. intros a b Ha Hb. exact (conj (lt_value a b Ha Hb) (le_value a b Ha Hb)). Qed.
Print Assumptions C92_value.
(** Minus and plus zero have the same value. *)
Example C92_value_ex : Cost_le (cost_of (S754_zero false)) (cost_of (S754_zero true)) = true /\ Cost_lt (cost_of (S754_zero true)) (cost_of (S754_zero false)) = false /\
  Cost_lt (cost_of (d64 5 70)) (cost_of (S754_infinity false)) = true /\ is_fmt F64 (cost (cost_of (d64 5 70))) = true.
Proof. repeat split; vm_compute; reflexivity. Qed.

(** Strict, transitive, and total where no cost is NaN. *)
Theorem C92_order : forall a b c : Cost IEEE, is_fmt F64 (cost a) = true -> is_fmt F64 (cost b) = true -> is_fmt F64 (cost c) = true ->
  Cost_lt a a = false /\ (Cost_lt a b = true -> Cost_lt b c = true -> Cost_lt a c = true) /\
  (~ not_a_number (cost a) -> ~ not_a_number (cost b) -> Cost_le a b = negb (Cost_lt b a)).
Proof. intros a b c Ha Hb Hc. exact (conj (lt_irreflexive a Ha) (conj (lt_transitive a b c Ha Hb Hc) (le_not_gt a b Ha Hb))). Qed.
Print Assumptions C92_order.
Example C92_order_ex : Cost_lt (cost_of (d64 1 0)) (cost_of (d64 2 0)) = true /\ Cost_lt (cost_of (d64 2 0)) (cost_of (d64 3 0)) = true /\
  is_fmt F64 (cost (cost_of (d64 3 0))) = true /\ ~ not_a_number (d64 2 0) /\ ~ not_a_number (d64 3 0).
Proof. repeat split; try (vm_compute; reflexivity); apply not_nan; vm_compute; reflexivity. Qed.

(** With NaN it is no strict weak order, as the standard's sort and min_element require: NaN is equivalent to 1 and to 2, and 1 < 2. *)
Theorem C92_nan_refuted : exists a b c : Cost IEEE, is_fmt F64 (cost a) = true /\ is_fmt F64 (cost b) = true /\ is_fmt F64 (cost c) = true /\
  (Cost_lt a b = false /\ Cost_lt b a = false) /\ (Cost_lt b c = false /\ Cost_lt c b = false) /\ Cost_lt a c = true.
Proof. exists (cost_of (d64 1 0)), (cost_of S754_nan), (cost_of (d64 2 0)). exact nan_between. Qed.
Print Assumptions C92_nan_refuted.
