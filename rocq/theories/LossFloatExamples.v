(** A library and inputs for the examples about losses in floating point. *)
From Coq Require Import ZArith List Bool Reals Floats.SpecFloat Permutation Lia Lra.
From Flocq Require Import Core.
From Verif Require Import BaseModel NumModel NumSpec IeeeProofs RoundProofs RollSpec DiffFloatSpec DiffFloatProofs LossModel LossFloatModel LossFloatSpec LossFloatProofs.
Import ListNotations.
Open Scope R_scope.

(** Additions from left to right. *)
Definition left_sum (T : fmt) (l : list IEEE) : IEEE := match l with [] => nzero T | x :: l => fold_left (nadd T) l x end.
Lemma left_sums T : sums T (left_sum T).
Proof.
  intros [|x l] NE; [congruence|]. cbn [left_sum].
  assert (G : forall l l0 a, summed T l0 a -> summed T (l0 ++ l) (fold_left (nadd T) l a)).
  { clear. induction l as [|y l IH]; intros l0 a H; cbn [fold_left]; [now rewrite app_nil_r|].
    replace (l0 ++ y :: l) with ((l0 ++ [y]) ++ l) by (now rewrite <- app_assoc). apply IH. apply summed_add with l0 [y]; [exact H|constructor|apply Permutation_refl]. }
  exact (G l [x] x (summed_one T x)).
Qed.
(** A very rough exponential function for doubles: 0 below -745, 1/2 below 0, 1 at 0, 2 up to 709
    and +infinity above. *)
Definition rough_exp (y : IEEE) : IEEE :=
  match y with
  | S754_nan => S754_nan
  | S754_zero _ => none_ F64
  | _ => if nltb y (nofZ F64 (-745)) then nzero F64 else if nltb y (nzero F64) then nlit F64 1 (-1)
         else if nltb (nofZ F64 709) y then inf_ else nofZ F64 2
  end.
Definition rough : Libm IEEE := @mkLibm IEEE rough_exp (fun y => match y with S754_zero _ => S754_infinity true | _ => nzero F64 end) (fun _ _ => nzero F64).
Lemma half_R : toR (@nlit IEEE F64 1 (-1)) = / 2.
Proof. vm_compute. lra. Qed.
Lemma rough_like : exp_like F64 rough_exp.
Proof.
  split.
  - intros y (s & ->). cbn [rough_exp]. split; [split; reflexivity|apply one_R].
  - intros y Hy L. destruct y as [s|s| |s m e]; cbn [rough_exp].
    + split; [split; reflexivity|]. rewrite one_R. lra.
    + destruct s; [|discriminate L]. change (nltb (S754_infinity true : IEEE) (nofZ F64 (-745))) with true. split; [split; reflexivity|]. cbn. lra.
    + discriminate L.
    + destruct s; [|discriminate L]. destruct (nltb _ (nofZ F64 (-745))); [split; [split; reflexivity|]; cbn; lra|].
      change (nltb (S754_finite true m e : IEEE) (nzero F64)) with true. cbv iota. split; [split; reflexivity|]. rewrite half_R. lra.
Qed.
Lemma rough_grows : exp_grows F64 rough_exp.
Proof.
  intros y Hy L. destruct y as [s|[]| |[] m e]; cbn [rough_exp]; try discriminate L; [split; reflexivity|split; reflexivity|].
  replace (nltb (S754_finite false m e : IEEE) (nofZ F64 (-745))) with false by reflexivity. change (nltb (S754_finite false m e : IEEE) (nzero F64)) with false. cbv iota.
  destruct (nltb _ _); split; reflexivity.
Qed.
Lemma rough_agree : agree F64 0 rough_exp (l_exp rough).
Proof. intros y _ _. cbn [l_exp rough]. rewrite Rminus_diag_eq, Rabs_R0 by reflexivity. lra. Qed.
Lemma rough_monotone : monotone F64 rough_exp.
Proof.
  intros y z Hy Hz L Lz. pose proof half_R as HR. pose proof (one_R F64) as H1. pose proof (toR_zero F64) as H0.
  assert (B : forall w : IEEE, is_fmt F64 w = true -> nleb w (nzero F64) = true -> 0 <= toR (rough_exp w) <= 1) by (intros w A C; apply rough_like; assumption).
  assert (Ly : nleb y (nzero F64) = true). { destruct y as [sy|[]| |[] my ey], z as [sz|[]| |[] mz ez]; cbn in *; try discriminate; try reflexivity. }
  destruct z as [sz|sz| |sz mz ez].
  - cbn [rough_exp]. rewrite H1. now apply B.
  - destruct sz; [|discriminate Lz]. destruct y as [sy|[]| |[] my ey]; cbn in L; try discriminate L. lra.
  - discriminate Lz.
  - destruct sz; [|discriminate Lz]. cbn [rough_exp]. destruct (nltb (S754_finite true mz ez : IEEE) (nofZ F64 (-745))) eqn:C.
    + (* then y is below as well *)
      assert (Y : rough_exp y = nzero F64); [|rewrite Y; lra].
      destruct y as [sy|[]| |[] my ey]; try (cbn in L; discriminate L); [reflexivity|]. cbn [rough_exp].
      replace (nltb (S754_finite true my ey : IEEE) (nofZ F64 (-745))) with true; [reflexivity|]. symmetry.
      apply (lt_fin F64) in C; [|exact Hz|apply fmt_lit|reflexivity|reflexivity]. apply (le_fin F64) in L; [|exact Hy|exact Hz|reflexivity|reflexivity].
      apply (lt_fin F64); [exact Hy|apply fmt_lit|reflexivity|reflexivity|]. apply Rle_lt_trans with (1 := L), C.
    + change (nltb (S754_finite true mz ez : IEEE) (nzero F64)) with true. cbv iota. rewrite HR.
      destruct y as [sy|[]| |[] my ey]; cbn [rough_exp]; try (cbn in Ly; discriminate Ly); try (cbn in L; discriminate L).
      * change (nltb (S754_infinity true : IEEE) (nofZ F64 (-745))) with true. cbn. lra.
      * destruct (nltb (S754_finite true my ey : IEEE) (nofZ F64 (-745))); [cbv iota; rewrite H0; lra|]. change (nltb (S754_finite true my ey : IEEE) (nzero F64)) with true. cbv iota. rewrite HR. lra.
Qed.
Definition d (z : Z) : IEEE := nofZ F64 z.
