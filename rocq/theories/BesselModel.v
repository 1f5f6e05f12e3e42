(** jet.h:910-1011: Bessel functions of the first kind, in exact arithmetic. Which half of each
    function is compiled depends on port.h:89-105: with a standard library that has the C++17
    special functions (GCC's) it is the first, otherwise the POSIX one. [j0], [j1], [jn] and
    [cyl_bessel_j] of doubles are arguments. Definitions only. *)
From Coq Require Import ZArith List Reals.
From Flocq Require Import Core.Raux.
From Verif Require Import JetModel.
Import ListNotations.
Open Scope R_scope.

Section Posix.
Variable jn : Z -> R -> R.          (* <math.h>; j0 and j1 are jn(0, .) and jn(1, .) *)
(** jet.h:958-962 *)
Definition BesselJ0 (f : Jet) : Jet := mkJet (jn 0 (a f)) (scl (- jn 1 (a f)) (v f)).
(** jet.h:969-974 *)
Definition BesselJ1 (f : Jet) : Jet := mkJet (jn 1 (a f)) (scl (/ 2 * (jn 0 (a f) - jn 2 (a f))) (v f)).
(** jet.h:981-987. [n - 1] and [n + 1] do not overflow here. *)
Definition BesselJn (n : Z) (f : Jet) : Jet :=
  mkJet (jn n (a f)) (scl (/ 2 * (jn (n - 1) (a f) - jn (n + 1) (a f))) (v f)).
End Posix.

Section Cpp17.
(** std::cyl_bessel_j of real order: [None] is std::domain_error, which libstdc++ throws when
    the order or the argument is negative. *)
Variable cyl : R -> R -> R.
Definition std_cyl_bessel_j (nu x : R) : option R :=
  if Rlt_bool nu 0 then None else if Rlt_bool x 0 then None else Some (cyl nu x).
(** jet.h:998-1009 *)
Definition cyl_bessel_j (nu : R) (f : Jet) : option Jet :=
  if Req_bool nu 0 then
    match std_cyl_bessel_j 0 (a f), std_cyl_bessel_j 1 (a f) with
    | Some y, Some d => Some (mkJet y (scl (- d) (v f)))
    | _, _ => None
    end
  else
    match std_cyl_bessel_j nu (a f), std_cyl_bessel_j (nu - 1) (a f), std_cyl_bessel_j (nu + 1) (a f) with
    | Some y, Some l, Some r => Some (mkJet y (scl (/ 2 * (l - r)) (v f)))
    | _, _, _ => None
    end.
(** jet.h:958-983, first halves. *)
Definition BesselJ0_17 (f : Jet) : option Jet := cyl_bessel_j 0 f.
Definition BesselJ1_17 (f : Jet) : option Jet := cyl_bessel_j 1 f.
Definition BesselJn_17 (n : Z) (f : Jet) : option Jet := cyl_bessel_j (IZR n) f.
(** jet.h:919-947, on doubles, first halves. *)
Definition BesselJn_double_17 (n : Z) (x : R) : option R := std_cyl_bessel_j (IZR n) x.
End Cpp17.
