(** Properties of values computed with jets in floating-point arithmetic. *)
From Coq Require Import ZArith List Bool Reals Floats.SpecFloat Lra.
From Verif Require Import BaseModel NumModel NumSpec IeeeProofs RoundProofs JetFloatModel JetFloatSpec JetFloatProofs.
Import ListNotations.
Open Scope R_scope.

(** C57: a function evaluated with jets instead of numbers returns the same value, bit for bit,
    and takes the same branches, provided it divides by no jet and only by numbers whose inverse
    is not rounded. What is missing are the other divisions, for which it is wrong: see
    [C57_refuted] and [C57_division]. *)
Theorem C57_values_partial : forall T n (x : list (FJet IEEE)) p,
  (forall j, In j x -> is_fmt T (re j) = true) -> division_free T p ->
  re (on_jets T n p x) = on_numbers T p (map re x).
Proof. exact (fun T n x p Hx Hp => values_same T n x Hx p Hp). Qed.
Print Assumptions C57_values_partial.
(** 3 + (x < y ? -x * y : 1 / x) / 4 with a function that rounds nothing. *)
Definition jf_prog : prog IEEE (Unary IEEE) :=
  PSAdd (@nlit IEEE F64 3 0) (PDivS (PIf Lt (PVar 0) (PVar 1) (PMul (PNeg (PVar 0)) (PFun (mkUnary (fun y => @nopp IEEE y) (fun _ _ => @nopp IEEE (@none_ IEEE F64))) (PVar 1)))
    (PSDiv (@none_ IEEE F64) (PVar 0))) (@nlit IEEE F64 4 0)).
Example C57_values_ex : division_free F64 jf_prog /\
  (let x := [mkFJet (@nlit IEEE F64 10 0) [@none_ IEEE F64; @nzero IEEE F64]; mkFJet (@nlit IEEE F64 7 0) [@nzero IEEE F64; @none_ IEEE F64]] in
   (forall j, In j x -> is_fmt F64 (re j) = true) /\
   on_numbers F64 jf_prog (map re x) <> @nlit IEEE F64 3 0).
Proof.
  split.
  - cbn [jf_prog division_free]. split; [apply fmt_lit|]. split.
    + split; [apply fmt_lit|]. split; [reflexivity|]. split; [reflexivity|]. vm_compute. lra.
    + split; [exact I|]. split; [exact I|]. split; [|split; [apply fmt_lit|exact I]]. split; [exact I|]. split; [|exact I]. intros y Hy. now destruct y.
  - split; [intros j [<-|[<-|[]]]; apply fmt_lit|]. vm_compute. discriminate.
Qed.

(** C57 fails for divisions: 3 / x with x = 10, and x / 10 with x = 3, give another double with
    jets than without. *)
Theorem C57_refuted : exists x : list (FJet IEEE), (forall j, In j x -> is_fmt F64 (re j) = true) /\
  re (on_jets F64 1 (PDiv (PConst (@nlit IEEE F64 3 0)) (PVar 0)) x) <> on_numbers F64 (PDiv (PConst (@nlit IEEE F64 3 0)) (PVar 0)) (map re x) /\
  re (on_jets F64 1 (PDivS (PVar 0) (@nlit IEEE F64 10 0)) [mkFJet (@nlit IEEE F64 3 0) [@none_ IEEE F64]]) <>
    on_numbers F64 (PDivS (PVar 0) (@nlit IEEE F64 10 0)) [@nlit IEEE F64 3 0].
Proof. exact quotient_differs. Qed.
Print Assumptions C57_refuted.

(** C57: away from overflow and underflow a division by a jet or by a number differs from the
    exact quotient by at most twice the unit roundoff u, plus u^2, relatively. *)
Theorem C57_division : forall T (f g : FJet IEEE), moderate T (re f) -> moderate T (re g) ->
  let u := / 2 ^ Z.to_nat (prec_of T) in
  let q := toR (re f) / toR (re g) in
  (is_fin (re (fj_div T f g)) = true /\ Rabs (toR (re (fj_div T f g)) - q) <= (2 * u + u * u) * Rabs q) /\
  (is_fin (re (fj_div_s T f (re g))) = true /\ Rabs (toR (re (fj_div_s T f (re g))) - q) <= (2 * u + u * u) * Rabs q).
Proof. exact (fun T f g Hf Hg => conj (quotient_error T f g Hf Hg) (quotient_error T f g Hf Hg)). Qed.
Print Assumptions C57_division.
Example C57_division_ex : moderate F64 (@nlit IEEE F64 3 0) /\ moderate F64 (@nlit IEEE F64 10 0).
Proof.
  assert (B : forall z, 1 <= toR z <= 10 -> / 2 ^ Z.to_nat (range_exp F64) <= Rabs (toR z) <= 2 ^ Z.to_nat (range_exp F64)).
  { intros z (L & U). rewrite Rabs_pos_eq by lra. assert (H : 2 ^ 4 <= 2 ^ Z.to_nat (range_exp F64)) by (apply Rle_pow; [lra|apply Nat.leb_le; reflexivity]).
    split; [|lra]. apply Rle_trans with (/ 1); [|lra]. apply Rinv_le_contravar; lra. }
  split; (split; [apply fmt_lit|apply B; vm_compute; lra]).
Qed.

(** C57: whatever branches are taken, the result has as many derivatives as the parameters. *)
Theorem C57_size : forall (A : Arith) T n (x : list (FJet A)) p,
  (forall j, In j x -> List.length (inf j) = n) -> List.length (inf (on_jets T n p x)) = n.
Proof. exact (fun A T n x p H => jets_size T n x H p). Qed.
Print Assumptions C57_size.
Example C57_size_ex :
  List.length (inf (on_jets F64 2 jf_prog [mkFJet (@nlit IEEE F64 10 0) [@none_ IEEE F64; @nzero IEEE F64]; mkFJet (@nlit IEEE F64 7 0) [@nzero IEEE F64; @none_ IEEE F64]])) = 2%nat.
Proof. vm_compute. reflexivity. Qed.
