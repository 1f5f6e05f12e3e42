(** Exact arithmetic: the real numbers as an instance of [Arith]. Used to state what the
    algorithms compute apart from rounding. Definitions only. *)
From Coq Require Import ZArith Reals.
From Flocq Require Import Core.Zaux Core.Raux.
From Verif Require Import NumModel.
Open Scope R_scope.

(** Operations ignore the format; there is no NaN and no infinity ([nnan] is never
    produced). [nmax f] is the largest number of format [f]. *)
Definition REAL : Arith := {|
  num := R;
  nadd := fun _ => Rplus;
  nsub := fun _ => Rminus;
  nmul := fun _ => Rmult;
  ndiv := fun _ => Rdiv;
  nsqrt := fun _ => sqrt;
  nopp := Ropp;
  nabs := Rabs;
  ncvt := fun _ x => x;
  nlit := fun _ m e => IZR m * bpow radix2 e;
  nltb := Rlt_bool;
  nleb := Rle_bool;
  neqb := Req_bool;
  nisnan := fun _ => false;
  nisinf := fun _ => false;
  nmax := fun f => IZR (2 ^ prec_of f - 1) * bpow radix2 (emax_of f - prec_of f);
  nnan := 0;
  ntrunc := fun x => Some (Ztrunc x)
|}.
