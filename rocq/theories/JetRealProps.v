(** Properties of derivatives computed with jets of exact numbers. *)
From Coq Require Import ZArith List Bool Reals Lra Lia.
From Coquelicot Require Import Coquelicot.
From Verif Require JetSpec.
From Verif Require Import BaseModel NumModel RealModel JetFloatModel JetFloatSpec JetRealSpec JetRealProofs JetLinProofs.
Import ListNotations.
Open Scope R_scope.

(** C57: in exact arithmetic the value computed with jets is the value of the function, with the
    branches it takes, and every infinitesimal part is the derivative of the function in the
    direction given by the parameters. *)
Theorem C57_derivatives : forall T n (x : list (FJet REAL)) p k,
  (forall j, In j x -> List.length (inf j) = n) -> (k < n)%nat -> smooth p (map re x) ->
  (forall v, evaluates p (map re x) v <-> v = re (on_jets T n p x)) /\
  exists V : R -> R, locally 0 (fun t => evaluates p (moved x k t) (V t)) /\ is_derive V 0 (nth k (inf (on_jets T n p x)) 0).
Proof. exact derivatives_ok. Qed.
Print Assumptions C57_derivatives.
(** (x <= y ? exp (x * y) / (3 - y) : 1 / x) at x = 2, y = 5. *)
Definition jr_prog : prog REAL (Unary REAL) :=
  PIf Le (PVar 0) (PVar 1)
    (PDiv (PFun (@mkUnary REAL exp (fun _ v => v)) (PMul (PVar 0) (PVar 1))) (PSSub (3 : REAL) (PVar 1)))
    (PSDiv (1 : REAL) (PVar 0)).
Definition jr_x : list (FJet REAL) := [mkFJet (2 : REAL) [1 : REAL; 0 : REAL]; mkFJet (5 : REAL) [0 : REAL; 1 : REAL]].
Example C57_derivatives_ex : (forall j, In j jr_x -> List.length (inf j) = 2%nat) /\ smooth jr_prog (map re jr_x).
Proof.
  split; [intros j [<-|[<-|[]]]; reflexivity|]. cbn [jr_prog smooth map jr_x re evaluates nth]. split; [exact Logic.I|]. split; [exact Logic.I|]. intros u w -> ->. split; [lra|]. split; [|cbn; lra].
  intros _. split; [|split; [exact Logic.I|]].
  - split; [split; exact Logic.I|]. intros a _. exact (is_derive_exp a).
  - intros (a & -> & E). lra.
Qed.

(** C57, total derivatives: called with the unit vectors as infinitesimal parts, the infinitesimal
    part of the result is the total derivative of the function: along every differentiable curve
    through the parameters the function has the derivative it gives. *)
Theorem C57_total : forall T F p x, smooth p x -> function_of p F -> JetSpec.derivative_of F x (inf (on_jets T (List.length x) p (unit_jets x))).
Proof. exact total_derivative. Qed.
Print Assumptions C57_total.
Definition jr_F (y : list R) : R := let a := nth 0 y 0 in let b := nth 1 y 0 in if Rle_dec a b then exp (a * b) / (3 - b) else 1 / a.
Example C57_total_ex : smooth jr_prog [2; 5] /\ function_of jr_prog jr_F.
Proof.
  split; [exact (proj2 C57_derivatives_ex)|]. intros y v (a & b & -> & -> & [(H & K)|(H & K)]); cbn [holds] in H; unfold jr_F; destruct (Rle_dec (nth 0 y 0) (nth 1 y 0)) as [L|L]; try contradiction.
  - destruct K as (e & f & (g & (a & b & -> & -> & ->) & ->) & (h & -> & ->) & _ & ->). reflexivity.
  - destruct K as (a & -> & _ & ->). reflexivity.
Qed.
