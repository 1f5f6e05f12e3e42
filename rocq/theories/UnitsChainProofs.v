(** The Gauss-Newton systems of residuals of y obey the chain rule. *)
From Coq Require Import ZArith List Bool Lia Reals Lra.
From Coquelicot Require Import Coquelicot.
From Verif Require Import BaseModel NumModel RealModel CostModel StopModel OptionsModel SolverModel OptimizerModel RunModel RunSpec LmSpec LmProofs SumSpec SumProofs
  JetSpec AutoProofs LossSpec LossProofs StepSpec StepProofs LmAffineSpec LinearProofs UnitsSpec UnitsProofs.
Import ListNotations.
Open Scope R_scope.

Section Chain.
Variables (n m : nat) (T : nat -> nat -> R) (off : nat -> R) (r r' : list R -> list R).
Hypothesis Hr : forall x y, placed n T off x y -> r' y = r x.
Variables (x y : list R) (J J' : list (list R)) (g g' : list R) (H H' : list (list R)).
Hypothesis Hx : placed n T off x y.
Hypothesis G : gn_system false r m x J g H.
Hypothesis G' : gn_system false r' m y J' g' H'.
Lemma chain_jacobian i k : (i < m)%nat -> (k < n)%nat -> entry J' i k = sum n (fun j => entry J i j * T j k).
Proof.
  intros Hi Hk. pose proof Hx as (Lx & Ly & _).
  set (e := map (fun l => identity k l) (seq 0 n)). set (c := map (fun j => T j k) (seq 0 n)).
  assert (Hc : mapped n T c e).
  { split; [unfold c; now rewrite map_length, seq_length|]. split; [unfold e; now rewrite map_length, seq_length|]. intros j Hj. unfold c, e.
    rewrite nth_map_seq by exact Hj. rewrite <- (sum_identity n k (fun l => T j l) Hk) . apply sum_ext. intros l Hl. rewrite nth_map_seq by exact Hl. ring. }
  destruct G as (_ & (_ & D) & _). destruct G' as (_ & (_ & D') & _).
  pose proof (proj2 (D i Hi) _ _ _ (along_curve x c)) as E. pose proof (proj2 (D' i Hi) _ _ _ (along_curve y e)) as E'. cbv beta in E, E'.
  apply (is_derive_ext _ (fun t => nth i (r (along x c t)) 0)) in E'; [|intros t; now rewrite (Hr (along x c t) (along y e t)) by now apply placed_along].
  pose proof (is_derive_unique _ _ _ E) as U1. pose proof (is_derive_unique _ _ _ E') as U2. rewrite U1 in U2. clear - U2 Lx Ly Hk.
  rewrite Lx, Ly in U2. unfold entry. symmetry.
  transitivity (sum n (fun k0 => nth k0 (nth i J []) 0 * nth k0 c 0)).
  { apply sum_ext. intros j Hj. unfold c. now rewrite nth_map_seq by exact Hj. }
  refine (eq_trans U2 _). refine (eq_trans _ (sum_identity n k (fun l => nth l (nth i J' []) 0) Hk)). apply sum_ext. intros l Hl. unfold e. rewrite nth_map_seq by exact Hl. ring.
Qed.
Lemma chain_gradient : pulled_gradient n T g g'.
Proof.
  pose proof Hx as (Lx & Ly & _). pose proof G as (_ & _ & Lg & _ & Eg & _). pose proof G' as (_ & _ & Lg' & _ & Eg' & _). rewrite Lx in *. rewrite Ly in *.
  split; [exact Lg|]. split; [exact Lg'|]. intros k Hk. rewrite (Eg' k Hk), (Hr x y Hx).
  transitivity (sum m (fun i => sum n (fun j => entry J i j * T j k * nth i (r x) 0))).
  { apply sum_ext. intros i Hi. rewrite (chain_jacobian i k Hi Hk). now rewrite <- sum_scal_r. }
  rewrite sum_exchange. apply sum_ext. intros j Hj. rewrite (Eg j Hj), <- sum_scal. apply sum_ext. intros. ring.
Qed.
Lemma gram_symmetrised full q z K h A : gn_system full q m z K h A -> List.length z = n -> forall k l, (k < n)%nat -> (l < n)%nat ->
  symmetrised A k l = sum m (fun i => entry K i k * entry K i l).
Proof.
  intros (_ & _ & _ & _ & _ & E) L k l Hk Hl. rewrite L in E. unfold symmetrised. destruct (Nat.leb_spec k l).
  - apply E; auto.
  - rewrite E by (auto; right; lia). apply sum_ext. intros. ring.
Qed.
Lemma chain_hessian : pulled_hessian n T H H'.
Proof.
  pose proof Hx as (Lx & Ly & _). pose proof G as (_ & _ & _ & LH & _). pose proof G' as (_ & _ & _ & LH' & _). rewrite Lx in LH. rewrite Ly in LH'.
  split; [exact LH|]. split; [exact LH'|]. intros k l Hk Hl. rewrite (gram_symmetrised _ _ _ _ _ _ G' Ly k l Hk Hl).
  transitivity (sum m (fun i => sum n (fun p => sum n (fun q => T p k * (entry J i p * entry J i q) * T q l)))).
  { apply sum_ext. intros i Hi. rewrite !chain_jacobian by assumption. rewrite <- sum_scal_r. apply sum_ext. intros p Hp.
    rewrite <- sum_scal. apply sum_ext. intros. ring. }
  rewrite sum_exchange. apply sum_ext. intros p Hp. rewrite sum_exchange. apply sum_ext. intros q Hq.
  rewrite (gram_symmetrised _ _ _ _ _ _ G Lx p q Hp Hq).
  transitivity (T p k * T q l * sum m (fun i => entry J i p * entry J i q)); [|ring].
  rewrite <- sum_scal. apply sum_ext. intros. ring.
Qed.
End Chain.

Theorem residuals_chain {U} (P Q : Problem REAL U (list R)) (r r' : list R -> list R) m n T off : residual_problem P r m n -> residual_problem Q r' m n ->
  (forall x y, placed n T off x y -> r' y = r x) -> chain_rule2 P Q n T off.
Proof.
  intros (F & E) (F' & E') Hr u x y Hx. pose proof Hx as (Lx & Ly & _). split; [|now rewrite (E u x Lx), (E' u y Ly), (Hr x y Hx)].
  destruct (F u x (repeat 0 n) (repeat (repeat 0 n) n) Lx) as (J & g & H & G & ->). destruct (F' u y (repeat 0 n) (repeat (repeat 0 n) n) Ly) as (J' & g' & H' & G' & ->).
  rewrite (Hr x y Hx). split; [reflexivity|]. split; [reflexivity|]. split; [now apply (chain_gradient n m T off r r' Hr x y J J' g g' H H')|now apply (chain_hessian n m T off r r' Hr x y J J' g g' H H')].
Qed.
