(** Properties of the rounding errors of derivatives computed with jets. *)
From Coq Require Import ZArith List Bool Reals Lra.
From Coquelicot Require Import Coquelicot.
From Flocq Require Import Core.
From Verif Require Import BaseModel NumModel NumSpec IeeeProofs RollSpec RealModel DiffFloatSpec JetFloatModel JetFloatSpec JetRealSpec JetErrSpec JetErrProofs JetErrExamples.
Import ListNotations.
Open Scope R_scope.

(** C87: the value and every derivative computed with jets of IEEE numbers are finite numbers
    that differ from the value of the function and from its derivative by at most the errors that
    the operations propagate and one rounding of each, if nothing overflows and the errors of
    divisors and of compared numbers are too small to matter. *)
Theorem C87_errors : forall T n (x : list (FJet IEEE)) k, jets_of T n x -> (k < n)%nat -> forall p, guarded T x k p ->
  let j := on_jets T n (as_run p) x in
  within_ball T (re j) (value_ball T x p) /\ within_ball T (nth k (inf j) (nzero T)) (slope_ball T x k p) /\
  (forall v, evaluates (as_meant p) (map re (map exact_jet x)) v <-> v = mid (value_ball T x p)) /\
  exists W : R -> R, locally 0 (fun t => evaluates (as_meant p) (moved (map exact_jet x) k t) (W t)) /\ is_derive W 0 (mid (slope_ball T x k p)).
Proof. exact all_errors. Qed.
Print Assumptions C87_errors.
(** x < y ? sqrt (x * y) / (y - 3) : |x| at x = 2, y = 8; the derivative is 1/5. *)
Example C87_errors_ex : jets_of F64 2 je_x /\ guarded F64 je_x 0 je_prog /\ mid (value_ball F64 je_x je_prog) = 4 / 5 /\ mid (slope_ball F64 je_x 0 je_prog) = / 5.
Proof. split; [exact je_jets|]. split; [exact je_guarded|exact je_mid]. Qed.

(** A polynomial with m operations: the errors of value and derivative relative to the sizes of
    their terms are at most (1 + u)^(2m) - 1. *)
Theorem C87_polynomial : forall T n (x : list (FJet IEEE)) k p, jets_of T n x -> (k < n)%nat -> polynomial p -> guarded T x k p ->
  exists v d, evaluates (as_meant p) (map re (map exact_jet x)) v /\
  (exists W : R -> R, locally 0 (fun t => evaluates (as_meant p) (moved (map exact_jet x) k t) (W t)) /\ is_derive W 0 d) /\
  let j := on_jets T n (as_run p) x in let w := (1 + unit_roundoff T) ^ (2 * operations p) - 1 in
  Rabs (toR (re j) - v) <= w * size T x p /\ Rabs (toR (nth k (inf j) (nzero T)) - d) <= w * slope_size T x k p.
Proof. exact polynomial_ok. Qed.
Print Assumptions C87_polynomial.
(** x * y - 3 * x at x = 2, y = 8. *)
Example C87_polynomial_ex : jets_of F64 2 je_x /\ polynomial je_poly /\ guarded F64 je_x 0 je_poly /\ operations je_poly = 3%nat.
Proof. split; [exact je_jets|]. split; [exact (proj1 je_poly_guarded)|]. split; [exact (proj2 je_poly_guarded)|reflexivity]. Qed.

(** The square root and the absolute value are as accurate as the statements above require. *)
Theorem C87_square_root : forall T a, rad a < mid a -> 0 <= rad a ->
  let w := b_mul T (exactly 2) (b_sqrt T a) in fits T w -> divides w -> fits T (b_div T (exactly 1) w) -> accurate T (square_root T) a.
Proof. exact square_root_ok. Qed.
Print Assumptions C87_square_root.
Example C87_square_root_ex : accurate F64 (square_root F64) (value_ball F64 je_x je_m) /\ within_ball F64 (je_lit 16) (value_ball F64 je_x je_m).
Proof.
  split; [exact je_root|]. split; [split; reflexivity|]. rewrite (proj1 je_Vm). assert (E : toR (je_lit 16) = 16) by (cbn; unfold F2R; cbn; lra). rewrite E, Rminus_eq_0, Rabs_R0. exact (proj1 (proj2 je_Vm)).
Qed.
Theorem C87_absolute : forall T a, divides a -> 0 <= rad a -> accurate T (absolute T) a.
Proof. exact absolute_ok. Qed.
Print Assumptions C87_absolute.
Example C87_absolute_ex : divides (Ball (-3) (/ 8)) /\ within_ball F64 (nopp (je_lit 3)) (Ball (-3) (/ 8)).
Proof.
  split; [unfold divides; cbn [mid rad]; rewrite Rabs_left by lra; lra|]. split; [split; reflexivity|]. rewrite RollProofs.toR_opp, je_3. cbn [mid rad]. replace (- (3) - -3) with 0 by lra. rewrite Rabs_R0. lra.
Qed.
