(** Costs are ordered by their values. *)
From Coq Require Import ZArith List Bool String Reals Lra Floats.SpecFloat.
From Coquelicot Require Import Rbar.
From Verif Require Import BaseModel NumModel NumSpec CostModel ExampleModel IeeeProofs SpecialSpec SpecialProofs.
Open Scope Z_scope.

Lemma lt_value (a b : Cost IEEE) : is_fmt F64 (cost a) = true -> is_fmt F64 (cost b) = true -> (Cost_lt a b = true <-> below (cost a) (cost b)).
Proof. intros Ha Hb. exact (below_ltb F64 _ _ Ha Hb). Qed.
Lemma le_value (a b : Cost IEEE) : is_fmt F64 (cost a) = true -> is_fmt F64 (cost b) = true -> (Cost_le a b = true <-> below (cost a) (cost b) \/ same (cost a) (cost b)).
Proof.
  intros Ha Hb. unfold Cost_le. rewrite leb_split, orb_true_iff. rewrite (below_ltb F64 _ _ Ha Hb), (same_eqb F64 _ _ Ha Hb). reflexivity.
Qed.
Lemma value_some (x : IEEE) : ~ not_a_number x -> exists p, value x = Some p.
Proof. unfold not_a_number. destruct (value x) as [p|]; [eauto|tauto]. Qed.
Lemma lt_irreflexive (a : Cost IEEE) : is_fmt F64 (cost a) = true -> Cost_lt a a = false.
Proof.
  intros Ha. apply not_true_iff_false. rewrite lt_value by assumption. intros (p & q & E1 & E2 & L). assert (p = q) by congruence. subst q. exact (Rbar_lt_not_eq _ _ L eq_refl).
Qed.
Lemma lt_transitive (a b c : Cost IEEE) : is_fmt F64 (cost a) = true -> is_fmt F64 (cost b) = true -> is_fmt F64 (cost c) = true ->
  Cost_lt a b = true -> Cost_lt b c = true -> Cost_lt a c = true.
Proof.
  intros Ha Hb Hc. rewrite !lt_value by assumption. intros (p & q & E1 & E2 & L) (q' & r & E3 & E4 & L'). assert (q' = q) by congruence. subst q'.
  exists p, r. split; [exact E1|]. split; [exact E4|]. exact (Rbar_lt_trans _ _ _ L L').
Qed.
Lemma le_not_gt (a b : Cost IEEE) : is_fmt F64 (cost a) = true -> is_fmt F64 (cost b) = true -> ~ not_a_number (cost a) -> ~ not_a_number (cost b) ->
  Cost_le a b = negb (Cost_lt b a).
Proof.
  intros Ha Hb Na Nb. destruct (value_some _ Na) as (p & Ep). destruct (value_some _ Nb) as (q & Eq). apply eq_true_iff_eq. rewrite negb_true_iff, <- not_true_iff_false.
  rewrite le_value, lt_value by assumption. unfold below, same. split.
  - intros H (q' & p' & E1 & E2 & L). assert (q' = q) by congruence. assert (p' = p) by congruence. subst q' p'. destruct H as [(p2 & q2 & E3 & E4 & L')|(r & E3 & E4)].
    + assert (p2 = p) by congruence. assert (q2 = q) by congruence. subst p2 q2. exact (Rbar_lt_not_eq _ _ (Rbar_lt_trans _ _ _ L L') eq_refl).
    + apply (Rbar_lt_not_eq _ _ L). congruence.
  - intros H. destruct (Rbar_lt_dec q p) as [L|L]; [exfalso; apply H; exists q, p; auto|]. apply Rbar_not_lt_le, Rbar_le_lt_or_eq_dec in L. destruct L as [L|L].
    + left. exists p, q. auto.
    + right. exists p. split; [exact Ep|congruence].
Qed.
Definition cost_of (x : IEEE) : Cost IEEE := mkCost (A:=IEEE) x 1 (@nlit IEEE F32 1 0) EmptyString.
Lemma nan_between : is_fmt F64 (cost (cost_of (d64 1 0))) = true /\ is_fmt F64 (cost (cost_of S754_nan)) = true /\ is_fmt F64 (cost (cost_of (d64 2 0))) = true /\
  (Cost_lt (cost_of (d64 1 0)) (cost_of S754_nan) = false /\ Cost_lt (cost_of S754_nan) (cost_of (d64 1 0)) = false) /\
  (Cost_lt (cost_of S754_nan) (cost_of (d64 2 0)) = false /\ Cost_lt (cost_of (d64 2 0)) (cost_of S754_nan) = false) /\
  Cost_lt (cost_of (d64 1 0)) (cost_of (d64 2 0)) = true.
Proof. repeat split; vm_compute; reflexivity. Qed.
Lemma not_nan x : ieee_isnan x = false -> ~ not_a_number x.
Proof. intros H K. apply nan_isnan in K. cbn in K. congruence. Qed.
