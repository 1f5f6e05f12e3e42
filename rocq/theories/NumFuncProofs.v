(** The functions made by CreateNumDiffFunc1 and CreateNumDiffFunc2, and consequences of
    automatic differentiation for gradient descent. *)
From Coq Require Import ZArith List Bool Lia Reals Lra.
From Coquelicot Require Import Coquelicot.
From Verif Require Import BaseModel NumModel RealModel CostModel TraitsModel TraitsSpec JetModel JetSpec SumSpec SumProofs
  DiffModel DiffSpec DiffRealSpec DiffProofs DiffRealProofs DiffAccProofs AutoModel AutoSpec AutoProofs.
Import ListNotations.
Open Scope R_scope.

Section Unfold.
Context {A : Arith} {sc : fmt} {t : ty} {dot : list A -> list A -> A} {norm : list A -> A} {f : val A -> residuals A}
  {method : Method} {h : A} {x : val A} {log log' : list (val A)} {J : list (list A)} {r : list A}.
Hypothesis E : NumEval sc t (logged f) method h x (log ++ [x]) = Ret (log', f x, J).
Hypothesis Ec : as_column (f x) = Ret r.
Lemma func2_unfold : NumDiffFunc2 sc t dot norm (logged f) method h x log = Ret (log', num_cost norm (f x), map (fun c => dot c r) J, gram dot J).
Proof. unfold NumDiffFunc2, EstimateNumJac, logged at 1. rewrite E. cbn [bind]. unfold grad_of. rewrite Ec. reflexivity. Qed.
Lemma func1_unfold : NumDiffFunc1 sc t dot norm (logged f) method h x log = Ret (log', num_cost norm (f x), map (fun c => dot c r) J).
Proof. unfold NumDiffFunc1, EstimateNumJac, logged at 1. rewrite E. cbn [bind]. unfold grad_of. rewrite Ec. reflexivity. Qed.
End Unfold.

Section Func.
Variables (sc : fmt) (t : ty) (f : val R -> residuals R) (method : Method) (h : R) (x : val R) (m : nat).
Hypothesis P : good_params t x.
Hypothesis Rm : @returns REAL method f m.
Hypothesis Col : match f x with RScalar _ => True | RMat _ c _ => c = 1%nat end.
Variable norm : list R -> R.
Let X := flatten x.
Let r := coefs_of (f x).

Lemma num_func_ok (log : list (val R)) : exists (log' : list (val R)) (J : list (list R)) (c : Cost REAL) (g : list R) (H : list (list R)),
  @NumEval REAL _ sc t (@logged REAL f) method h x (log ++ [x]) = Ret (log', f x, J) /\
  @NumDiffFunc2 REAL _ sc t inner norm (@logged REAL f) method h x log = Ret (log', c, g, H) /\
  @NumDiffFunc1 REAL _ sc t inner norm (@logged REAL f) method h x log = Ret (log', c, g) /\
  @NumDiffEval REAL _ norm (@logged REAL f) x log = (log ++ [x], c) /\
  cost c = (match f x with RScalar s => Rabs s | RMat _ _ l => norm l end) /\ ((Z.of_nat m <= INT_MAX)%Z -> num_resisuals c = Z.of_nat m) /\
  quotient_system m X r g H (fun i k => nth i (nth k J []) 0).
Proof.
  destruct (NumEval_ok (A := REAL) sc t f method h x m P Rm (log ++ [x])) as (ps & qs & J0 & E & _ & _ & LJ & HJ).
  pose (J := (J0 : list (list R))).
  assert (Lc : forall k, (k < List.length X)%nat -> List.length (nth k J []) = m).
  { intros k Hk. destruct (HJ k Hk) as (p & q & c & _ & _ & E3 & Hc). destruct Hc as (_ & _ & Lc & _).
    rewrite <- Lc. unfold J. exact (f_equal (@List.length R) (nth_error_nth _ _ [] E3)). }
  assert (Lr : List.length r = m) by (destruct (Rm x) as (L & _); exact L).
  assert (Ec : @as_column REAL (f x) = Ret r).
  { unfold r. unfold as_column. destruct (f x); [reflexivity|]. rewrite Col. reflexivity. }
  eexists _, J, (@num_cost REAL norm (f x)), (map (fun c => inner c r) J), (map (fun c => map (inner c) J) J). split; [exact E|].
  split; [exact (eq_trans (func2_unfold E Ec) eq_refl)|]. split; [exact (eq_trans (func1_unfold E Ec) eq_refl)|].
  split; [reflexivity|]. split; [|split].
  - unfold num_cost. destruct (f x); reflexivity.
  - rewrite <- Lr. unfold r, num_cost. destruct (f x) as [|rw cl l]; cbn [coefs_of num_resisuals Cost_make]; [reflexivity|]. intros L. apply TraitsProofs.wrap_id. lia.
  - assert (LJ' : List.length J = List.length X) by exact LJ. unfold quotient_system.
    assert (M : forall (S : Type) (g : list R -> S) k d, (k < List.length X)%nat -> nth k (map g J) d = g (nth k J [])).
    { intros S g k d Hk. rewrite (nth_indep _ d (g [])) by (rewrite map_length; lia). apply map_nth. }
    assert (In_ : forall k w, (k < List.length X)%nat -> inner (nth k J []) w = sum m (fun i => nth i (nth k J []) 0 * nth i w 0)).
    { intros k w Hk. unfold inner. now rewrite Lc. }
    split; [now rewrite map_length|]. split; [now rewrite map_length|]. split; [|split].
    + intros k Hk. rewrite (M (list R) (fun c => map (inner c) J) k [] Hk). now rewrite map_length.
    + intros k Hk. rewrite (M R (fun c => inner c r) k 0 Hk). now apply In_.
    + intros k l Hk Hl. rewrite (M (list R) (fun c => map (inner c) J) k [] Hk).
      rewrite (M R (inner (nth k J [])) l 0 Hl). now apply In_.
Qed.
End Func.

(** With exact quotients the system is the Gauss-Newton system of the residuals. *)
Lemma quotients_affine sc t f F method h x m log log' J res : good_params t x -> computes x f F -> @returns REAL method f m -> h <> 0 ->
  @NumEval REAL _ sc t (@logged REAL f) method h x log = Ret (log', res, J) ->
  forall i j a b, (i < m)%nat -> (j < List.length (flatten x))%nat -> affine_in (List.length (flatten x)) F i a b ->
  nth i (nth j (J : list (list R)) []) 0 = b j.
Proof.
  intros P C Rm Hh E. destruct (affine_exact sc t f F h x m P C log method Rm Hh) as (log2 & J2 & E2 & _ & K).
  pose proof (eq_trans (eq_sym E) E2) as E3. injection E3 as _ _ ->. exact K.
Qed.

Section Descent.
Variables (t : ty) (e : expr) (x0 x : val R).
Hypothesis P0 : good_params t x0.
Hypothesis Ht : has_type t x.
Hypothesis Hs : same_shape x0 x.
Let X := flatten x.
Hypothesis S1 : smooth e X.
Hypothesis S2 : safe_for t e X.
Hypothesis S3 : connected t e X.

Lemma scaled_gradient : exists k c g H D, kept t x0 = Ret k /\ auto_acc t false (FScalar e) k x = Ret (c, g, H) /\
  auto_eval t false (FScalar e) k x = Ret c /\ cost c = eval e X /\ List.length g = List.length X /\
  derivative_of (eval e) X (map D (seq 0 (List.length X))) /\ (forall k, (k < List.length X)%nat -> nth k g 0 = eval e X * D k) /\
  sum (List.length X) (fun k => D k * - nth k g 0) = - eval e X * sum (List.length X) (fun k => D k * D k).
Proof.
  destruct (auto_ok t (FScalar e) x0 x false P0 Ht Hs) as (k & c & g & H & D & E1 & E2 & E3 & _ & E4 & G1 & G2 & _ & _ & G5 & _).
  { intros e' [<-|[]]. auto. }
  exists k, c, g, H, (D 0%nat). split; [exact E1|]. split; [exact E2|]. split; [exact E3|]. split; [exact E4|]. split; [exact G2|].
  assert (G : forall k, (k < List.length X)%nat -> nth k g 0 = eval e X * D 0%nat k).
  { intros j Hj. rewrite (G5 j Hj). cbn. unfold residual. cbn. fold X. ring. }
  split; [|split; [exact G|]].
  - exact (G1 0%nat ltac:(cbn; lia)).
  - rewrite <- sum_scal. apply sum_ext. intros j Hj. rewrite (G j Hj). ring.
Qed.
End Descent.

Lemma auto_nlls t f x0 x : good_params t x0 -> has_type t x -> same_shape x0 x ->
  (forall e, In e (residual_exprs f) -> smooth e (flatten x) /\ safe_for t e (flatten x) /\ connected t e (flatten x)) ->
  exists k c g H D, kept t x0 = Ret k /\ auto_acc t true f k x = Ret (c, g, H) /\ auto_eval t true f k x = Ret c /\
    ((Z.of_nat (num_res f) <= INT_MAX)%Z -> num_resisuals c = Z.of_nat (num_res f)) /\ cost c = sum_sq f (flatten x) /\ gauss_newton f (flatten x) g H D.
Proof.
  intros P0 Ht Hs Hf. destruct (auto_ok t f x0 x true P0 Ht Hs Hf) as (k & c & g & H & D & E1 & E2 & E3 & E4 & E5 & G).
  exists k, c, g, H, D. split; [exact E1|]. split; [exact E2|]. split; [exact E3|]. split; [exact E4|]. split; [|exact G].
  rewrite E5. now destruct f.
Qed.
Lemma gn_semi_definite f X g H D : gauss_newton f X g H D ->
  forall w : nat -> R, 0 <= sum (List.length X) (fun k => sum (List.length X) (fun l => w k * nth l (nth k H []) 0 * w l)).
Proof.
  intros G w. rewrite (gn_psd f X g H D G w). apply sum_nonneg. intros i _. apply Rle_0_sqr.
Qed.
