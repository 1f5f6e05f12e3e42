(** C74: Bessel functions of jets. *)
From Coq Require Import ZArith List Reals Lra.
From Coquelicot Require Import Hierarchy Derive.
From Verif Require Import JetModel BesselModel BesselSpec BesselProofs.
Import ListNotations.
Open Scope R_scope.

(** The functions of the statements are the Bessel functions: they solve Bessel's equation, with
    the right recurrence, symmetry and values at 0. *)
Theorem C74_functions : forall n x,
  (exists d2, is_derive (Derive (J n)) x d2 /\ x * x * d2 + x * Derive (J n) x + (x * x - IZR n * IZR n) * J n x = 0) /\
  2 * IZR n * J n x = x * (J (n - 1) x + J (n + 1) x) /\
  J (- n) x = (-1) ^ Z.to_nat (Z.abs n) * J n x /\
  J n 0 = (if (n =? 0)%Z then 1 else 0).
Proof. exact (fun n x => conj (J_equation n x) (conj (J_rec n x) (conj (J_negative n x) (J_at_0 n)))). Qed.
Print Assumptions C74_functions.

(** POSIX: value and derivatives of J_n of a jet, for every order and argument. *)
Theorem C74_derivative : forall n f, composed (J n) f (BesselJn J n f).
Proof. exact posix_n. Qed.
Print Assumptions C74_derivative.
Example C74_derivative_ex : composed (J 0) (mkJet 0 [1; 2]) (mkJet 1 [0; 0]).
Proof.
  pose proof (posix_n 0 (mkJet 0 [1; 2])) as H. unfold BesselJn in H. cbn [a v scl map] in H.
  rewrite !J_at_0 in H. cbn [Z.eqb Z.sub Z.add Z.opp Pos.eqb] in H.
  replace (/ 2 * (0 - 0) * 1) with 0 in H by ring. replace (/ 2 * (0 - 0) * 2) with 0 in H by ring. exact H.
Qed.
Example C74_derivative_one_ex : composed (J 1) (mkJet 0 [6]) (mkJet 0 [3]).
Proof.
  pose proof (posix_n 1 (mkJet 0 [6])) as H. unfold BesselJn in H. cbn [a v scl map] in H.
  rewrite !J_at_0 in H. cbn [Z.eqb Z.sub Z.add Z.opp Pos.eqb Z.pos_sub Pos.add] in H.
  replace (/ 2 * (1 - 0) * 6) with 3 in H by lra. exact H.
Qed.

(** BesselJ0 and BesselJ1 are the functions of order 0 and 1. *)
Theorem C74_orders : forall f, BesselJ0 J f = BesselJn J 0 f /\ BesselJ1 J f = BesselJn J 1 f.
Proof. exact (fun f => conj (posix_0 f) (posix_1 f)). Qed.
Print Assumptions C74_orders.

(** C++17: orders 0 and >= 1, positive arguments. *)
Theorem C74_real_order_partial : forall G cyl nu f, gamma_like G -> computes_bessel G cyl -> nu = 0 \/ 1 <= nu -> 0 < a f ->
  exists j, cyl_bessel_j cyl nu f = Some j /\ composed (J_real G nu) f j.
Proof. exact cyl_real. Qed.
Print Assumptions C74_real_order_partial.
Example C74_real_order_ex : gamma_like G0 /\ computes_bessel G0 cyl0 /\
  exists j, cyl_bessel_j cyl0 (3 / 2) (mkJet 2 [1; -1]) = Some j /\ composed (J_real G0 (3 / 2)) (mkJet 2 [1; -1]) j.
Proof.
  split; [exact G0_gamma|]. split; [exact cyl0_computes|].
  apply cyl_real; [exact G0_gamma|exact cyl0_computes|right; lra|cbn; lra].
Qed.

(** For integer orders and arguments >= 0 both versions agree. *)
Theorem C74_integer_order_partial : forall G cyl n f, computes_bessel G cyl -> (0 <= n)%Z -> 0 <= a f ->
  BesselJn_17 cyl n f = Some (BesselJn J n f).
Proof. exact cyl_integer. Qed.
Print Assumptions C74_integer_order_partial.
Example C74_integer_order_ex : BesselJn_17 cyl0 2 (mkJet 0 [1]) = Some (BesselJn J 2 (mkJet 0 [1])).
Proof. apply (cyl_integer G0); [exact cyl0_computes|easy|cbn; lra]. Qed.

(** The C++17 version throws exactly for negative arguments, negative orders and orders between 0 and 1. *)
Theorem C74_throws : forall cyl nu f, cyl_bessel_j cyl nu f = None <-> nu < 0 \/ 0 < nu < 1 \/ a f < 0.
Proof. exact cyl_throws. Qed.
Print Assumptions C74_throws.

(** Where it throws the functions are smooth, and the POSIX version has their derivatives. *)
Theorem C74_refuted :
  (forall cyl f, a f < 0 -> BesselJ0_17 cyl f = None /\ BesselJ1_17 cyl f = None /\
     composed (J 0) f (BesselJ0 J f) /\ composed (J 1) f (BesselJ1 J f)) /\
  (forall cyl n f, (n < 0)%Z -> BesselJn_17 cyl n f = None /\ composed (J n) f (BesselJn J n f)) /\
  (forall cyl G nu f, gamma_like G -> 0 < nu < 1 -> 0 < a f ->
     cyl_bessel_j cyl nu f = None /\ std_cyl_bessel_j cyl nu (a f) = Some (cyl nu (a f)) /\ ex_derive (J_real G nu) (a f)).
Proof. exact cyl_refuted. Qed.
Print Assumptions C74_refuted.
Example C74_refuted_ex : a (mkJet (-1) [1]) < 0 /\ 0 < 1 / 2 < 1.
Proof. cbn. lra. Qed.
