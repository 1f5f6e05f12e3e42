(** Accuracy of numerical differentiation and of the gradient check. *)
From Coq Require Import ZArith List Bool Reals Lra Lia Floats.SpecFloat.
From Flocq Require Import Core BinarySingleNaN.
From Coquelicot Require Import Coquelicot.
From Verif Require Import BaseModel NumModel RealModel NumSpec IeeeProofs TraitsModel TraitsSpec TraitsProofs
  DiffModel DiffSpec DiffProofs JetSpec JetProofs SumSpec SumProofs DiffRealSpec DiffRealProofs.
Import ListNotations.
Open Scope R_scope.

Section Acc.
Variables (sc : fmt) (t : ty) (f : val R -> residuals R) (F : list R -> list R) (h : R) (x : val R) (m : nat).
Hypothesis P : good_params t x.
Hypothesis HF : computes x f F.
Let n := List.length (flatten x).
Let X := flatten x.

Lemma forward_accuracy (log : list (val R)) : @returns REAL kForward f m -> 0 < h ->
  exists (log' : list (val R)) (J : list (list R)), @NumEval REAL _ sc t (@logged REAL f) kForward h x log = Ret (log', f x, J) /\ List.length J = n /\
  forall i j f1 f2 M, (i < m)%nat -> (j < n)%nat -> let c := nth j X 0 in
    derivative_on c (c + h) (along F i X j) f1 -> derivative_on c (c + h) f1 f2 -> (forall s, c <= s <= c + h -> Rabs (f2 s) <= M) ->
    Rabs (nth i (nth j J []) 0 - f1 c) <= h * M / 2.
Proof.
  intros Rm Hh. destruct (num_jac sc t f F kForward h x m P Rm HF log) as (log' & J & E & L & H).
  exists log', J. split; [exact E|]. split; [exact L|]. intros i j f1 f2 M Hi Hj c D1 D2 B. rewrite (H i j Hi Hj).
  pose proof (forward_error (along F i X j) f1 f2 c h M Hh D1 D2 B) as K. unfold along in K.
  rewrite (set_nth_id (flatten x)) in K by exact Hj. exact K.
Qed.

Lemma central_accuracy (log : list (val R)) method : method <> kForward -> @returns REAL method f m -> 0 < h ->
  exists (log' : list (val R)) (J : list (list R)), @NumEval REAL _ sc t (@logged REAL f) method h x log = Ret (log', f x, J) /\ List.length J = n /\
  forall i j f1 f2 f3 M, (i < m)%nat -> (j < n)%nat -> let c := nth j X 0 in
    derivative_on (c - h) (c + h) (along F i X j) f1 -> derivative_on (c - h) (c + h) f1 f2 -> derivative_on (c - h) (c + h) f2 f3 ->
    (forall s, c - h <= s <= c + h -> Rabs (f3 s) <= M) ->
    Rabs (nth i (nth j J []) 0 - f1 c) <= h * h * M / 6.
Proof.
  intros Nm Rm Hh. destruct (num_jac sc t f F method h x m P Rm HF log) as (log' & J & E & L & H).
  exists log', J. split; [exact E|]. split; [exact L|]. intros i j f1 f2 f3 M Hi Hj c D1 D2 D3 B. rewrite (H i j Hi Hj).
  pose proof (central_error (along F i X j) f1 f2 f3 c h M Hh D1 D2 D3 B) as K. unfold along in K.
  destruct method; [congruence|exact K|exact K].
Qed.

Lemma nth_set k j s : (j < n)%nat -> nth k (set_nth X j s) 0 = if (k =? j)%nat then s else nth k X 0.
Proof.
  intros Hj. destruct (Nat.eqb_spec k j) as [->|N]; [now apply set_nth_same|now apply set_nth_other].
Qed.
Lemma sum_set j s (b : nat -> R) : (j < n)%nat ->
  sum n (fun k => b k * nth k (set_nth X j s) 0) = sum n (fun k => b k * nth k X 0) + b j * (s - nth j X 0).
Proof.
  intros Hj.
  rewrite (sum_ext n _ (fun k => b k * nth k X 0 + (if (k =? j)%nat then b j * (s - nth j X 0) else 0))).
  - rewrite sum_plus. f_equal. rewrite (sum_one n j).
    + now rewrite Nat.eqb_refl.
    + exact Hj.
    + intros i _ Ni. now destruct (Nat.eqb_spec i j).
  - intros k _. rewrite nth_set by exact Hj. destruct (Nat.eqb_spec k j) as [->|]; ring.
Qed.
Lemma quad_set j s (Q : nat -> nat -> R) : (j < n)%nat ->
  sum n (fun k => sum n (fun l => Q k l * nth k (set_nth X j s) 0 * nth l (set_nth X j s) 0)) =
  sum n (fun k => sum n (fun l => Q k l * nth k X 0 * nth l X 0)) +
  (s - nth j X 0) * sum n (fun l => (Q j l + Q l j) * nth l X 0) + Q j j * ((s - nth j X 0) * (s - nth j X 0)).
Proof.
  intros Hj. set (d := s - nth j X 0).
  rewrite (sum_ext n _ (fun k => sum n (fun l => Q k l * nth k (set_nth X j s) 0 * nth l X 0) + d * (Q k j * nth k (set_nth X j s) 0))).
  2:{ intros k _. rewrite (sum_set j s (fun l => Q k l * nth k (set_nth X j s) 0) Hj). unfold d. ring. }
  rewrite sum_plus, sum_scal, (sum_set j s (fun k => Q k j) Hj). fold d.
  rewrite sum_exchange.
  rewrite (sum_ext n _ (fun l => sum n (fun k => Q k l * nth k X 0 * nth l X 0) + d * (Q j l * nth l X 0))).
  2:{ intros l _. transitivity (sum n (fun k => Q k l * nth l X 0 * nth k (set_nth X j s) 0)); [apply sum_ext; intros; ring|].
      rewrite (sum_set j s (fun k => Q k l * nth l X 0) Hj). fold d.
      rewrite (sum_ext n (fun k => Q k l * nth l X 0 * nth k X 0) (fun k => Q k l * nth k X 0 * nth l X 0)) by (intros; ring). ring. }
  rewrite sum_plus, sum_scal, sum_exchange.
  rewrite (sum_ext n (fun l => (Q j l + Q l j) * nth l X 0) (fun l => Q j l * nth l X 0 + Q l j * nth l X 0)) by (intros; ring).
  rewrite sum_plus. ring.
Qed.

Lemma affine_exact (log : list (val R)) method : @returns REAL method f m -> h <> 0 ->
  exists (log' : list (val R)) (J : list (list R)), @NumEval REAL _ sc t (@logged REAL f) method h x log = Ret (log', f x, J) /\ List.length J = n /\
  forall i j a b, (i < m)%nat -> (j < n)%nat -> affine_in n F i a b -> nth i (nth j J []) 0 = b j.
Proof.
  intros Rm Hh. destruct (num_jac sc t f F method h x m P Rm HF log) as (log' & J & E & L & H).
  exists log', J. split; [exact E|]. split; [exact L|]. intros i j a b Hi Hj Af. rewrite (H i j Hi Hj).
  pose proof (Af X eq_refl) as E0.
  assert (E1 : forall s, nth i (F (set_nth X j s)) 0 = nth i (F X) 0 + b j * (s - nth j X 0)).
  { intros s. rewrite E0, Af by now rewrite set_nth_len. rewrite sum_set by exact Hj. ring. }
  destruct method; rewrite !E1; fold X; field; lra.
Qed.
Lemma quadratic_exact (log : list (val R)) method : method <> kForward -> @returns REAL method f m -> h <> 0 ->
  exists (log' : list (val R)) (J : list (list R)), @NumEval REAL _ sc t (@logged REAL f) method h x log = Ret (log', f x, J) /\ List.length J = n /\
  forall i j a b Q, (i < m)%nat -> (j < n)%nat -> quadratic_in n F i a b Q ->
    nth i (nth j J []) 0 = b j + sum n (fun l => (Q j l + Q l j) * nth l X 0).
Proof.
  intros Nm Rm Hh. destruct (num_jac sc t f F method h x m P Rm HF log) as (log' & J & E & L & H).
  exists log', J. split; [exact E|]. split; [exact L|]. intros i j a b Q Hi Hj Af. rewrite (H i j Hi Hj).
  pose proof (Af X eq_refl) as E0.
  assert (E1 : forall s, nth i (F (set_nth X j s)) 0 = nth i (F X) 0 + b j * (s - nth j X 0) +
    ((s - nth j X 0) * sum n (fun l => (Q j l + Q l j) * nth l X 0) + Q j j * ((s - nth j X 0) * (s - nth j X 0)))).
  { intros s. rewrite E0, Af by now rewrite set_nth_len. rewrite sum_set, quad_set by exact Hj. ring. }
  destruct method; [congruence|..]; rewrite !E1; fold X; field; lra.
Qed.
End Acc.

(** *** Gradient check *)
Lemma real_check sc t (c : val R -> R) (G : val R -> list R) method (eps : R) (x : val R) (log : list (val R)) :
  good_params t x -> (0 < List.length (flatten x))%nat -> List.length (G x) = List.length (flatten x) ->
  exists (log' : list (val R)) b, @CheckGradient REAL _ sc t (@pure REAL c G) eps method x log = Ret (log', b) /\
    forall C : list R -> R, (forall y, same_shape x y -> c y = C (flatten y)) ->
    (b = true <-> forall j, (j < List.length (flatten x))%nat ->
       Rabs (real_quotient method (eps / 10) C (flatten x) j - nth j (G x) 0) < eps).
Proof.
  intros P Hn HG.
  assert (Lt : forall a b : REAL, True -> True -> nltb a b = Rlt_bool a b) by reflexivity.
  assert (Cv : forall a : REAL, True -> nltb (ncvt F64 a) (eps : REAL) = Rlt_bool a eps) by reflexivity.
  destruct (@check_ok REAL (fun _ => True) (fun a => a) eps Lt Cv sc t c G method x P log Hn HG) as (log' & ps & qs & N & b & E & LN & Hq & Hb).
  exists log', b. split; [exact E|]. intros C HC. rewrite (Hb (fun _ _ => I)). clear Hb.
  set (n := List.length (flatten x)) in *. set (X := flatten x) in *.
  assert (T10 : @ncvt REAL sc (@ndiv REAL F64 eps (@nofZ REAL F64 10)) = eps / 10) by (unfold nofZ; cbn; f_equal; ring).
  rewrite T10 in Hq. set (h := eps / 10) in *.
  assert (Z : @nzero REAL sc = 0) by (unfold nzero; cbn; ring).
  assert (T : @nofZ REAL sc 2 = 2) by (unfold nofZ; cbn; ring).
  assert (T' : @nofZ REAL sc (-2) = -2) by (unfold nofZ; cbn; ring).
  assert (SH : forall (y y' : val R) (d : R) j, (j < n)%nat -> same_shape x y -> @shifted REAL sc y (@step_vec REAL sc n j d) y' ->
    c y' = C (set_nth (flatten y) j (nth j (flatten y) 0 + d)) /\ flatten y' = set_nth (flatten y) j (nth j (flatten y) 0 + d) /\ same_shape x y').
  { intros y y' d j Hj Hy (S1 & S2).
    assert (S3 : same_shape x y') by now apply (shape_trans _ y).
    assert (Fl : flatten y' = set_nth (flatten y) j (nth j (flatten y) 0 + d)).
    { refine (eq_trans S2 _). unfold n, X. rewrite (@shape_len R _ _ Hy). apply step_shift. rewrite <- (shape_len _ _ Hy). exact Hj. }
    split; [exact (eq_trans (HC y' S3) (f_equal C Fl))|now split]. }
  assert (Q : forall j, (j < n)%nat -> nth j (N : list R) 0 =
    match method with
    | kForward => (C (set_nth X j (nth j X 0 + h)) - C X) / h
    | _ => (C (set_nth X j (nth j X 0 + h)) - C (set_nth X j (nth j X 0 - h))) / (2 * h)
    end).
  { intros j Hj. destruct (Hq j Hj) as (p & q & _ & _ & Sp & Sq & Ej). rewrite Z in Ej. refine (eq_trans Ej _). clear Ej.
    destruct (SH x p h j Hj (shape_refl x) Sp) as (Fp & Flp & Sxp). fold X in Fp, Flp. unfold quotient. rewrite T.
    assert (Fx : c x = C X) by exact (HC x (shape_refl x)).
    change (num REAL) with R in *. destruct method.
    - rewrite Fp, Fx. reflexivity.
    - destruct (SH x q (- h) j Hj (shape_refl x) Sq) as (Fq & _). rewrite Fp, Fq. reflexivity.
    - rewrite T' in Sq. destruct (SH p q (-2 * h) j Hj Sxp Sq) as (Fq & _). rewrite Flp, set_nth_same, set_set in Fq by exact Hj.
      replace (nth j X 0 + h + -2 * h) with (nth j X 0 - h) in Fq by ring. rewrite Fp, Fq. reflexivity. }
  split; intros K j Hj; specialize (K j Hj); unfold real_quotient in *; rewrite <- (Q j Hj) in *; [|].
  - rewrite Z in K. exact K.
  - rewrite Z. exact K.
Qed.

(** The derivative of the cost along every coordinate, with a bound on the third derivative
    on the steps of CheckGradient. *)
Section Verdict.
Variables (sc : fmt) (t : ty) (c : val R -> R) (G : val R -> list R) (method : Method) (eps M : R) (x : val R)
  (C : list R -> R) (c1 c2 c3 : nat -> R -> R) (log : list (val R)).
Hypothesis P : good_params t x.
Hypothesis Hn : (0 < List.length (flatten x))%nat.
Hypothesis HG : List.length (G x) = List.length (flatten x).
Hypothesis HC : forall y, same_shape x y -> c y = C (flatten y).
Hypothesis Nm : method <> kForward.
Hypothesis He : 0 < eps.
Let h := eps / 10.
Hypothesis D : forall j, (j < List.length (flatten x))%nat -> third_order C (flatten x) j h M (c1 j) (c2 j) (c3 j).

Lemma quotient_error j : (j < List.length (flatten x))%nat ->
  Rabs ((C (set_nth (flatten x) j (nth j (flatten x) 0 + h)) - C (set_nth (flatten x) j (nth j (flatten x) 0 - h))) / (2 * h)
        - c1 j (nth j (flatten x) 0)) <= h * h * M / 6.
Proof.
  intros Hj. destruct (D j Hj) as (D1 & D2 & D3 & B).
  apply (central_error (fun s => C (set_nth (flatten x) j s)) (c1 j) (c2 j) (c3 j)); auto. unfold h; lra.
Qed.
Lemma accepts : h * h * M / 6 < eps -> (forall j, (j < List.length (flatten x))%nat -> nth j (G x) 0 = c1 j (nth j (flatten x) 0)) ->
  exists log' : list (val R), @CheckGradient REAL _ sc t (@pure REAL c G) eps method x log = Ret (log', true).
Proof.
  intros Hb Hg. destruct (real_check sc t c G method eps x log P Hn HG) as (log' & b & E & H). exists log'. rewrite E. do 2 f_equal.
  apply (H C HC). intros j Hj. unfold real_quotient. rewrite (Hg j Hj). pose proof (quotient_error j Hj) as K. fold h.
  destruct method; [congruence|lra|lra].
Qed.
Lemma rejects : (exists j, (j < List.length (flatten x))%nat /\ eps + h * h * M / 6 <= Rabs (nth j (G x) 0 - c1 j (nth j (flatten x) 0))) ->
  exists log' : list (val R), @CheckGradient REAL _ sc t (@pure REAL c G) eps method x log = Ret (log', false).
Proof.
  intros (j & Hj & Hg). destruct (real_check sc t c G method eps x log P Hn HG) as (log' & b & E & H). exists log'. rewrite E. do 2 f_equal.
  destruct b; [|reflexivity]. exfalso. destruct (H C HC) as (H1 & _). specialize (H1 eq_refl j Hj). unfold real_quotient in H1. fold h in H1.
  pose proof (quotient_error j Hj) as K.
  set (q := (C (set_nth (flatten x) j (nth j (flatten x) 0 + h)) - C (set_nth (flatten x) j (nth j (flatten x) 0 - h))) / (2 * h)) in *.
  assert (Hq : Rabs (q - nth j (G x) 0) < eps) by (destruct method; [congruence|exact H1|exact H1]).
  pose proof (Rabs_triang (nth j (G x) 0 - q) (q - c1 j (nth j (flatten x) 0))) as T.
  replace (nth j (G x) 0 - q + (q - c1 j (nth j (flatten x) 0))) with (nth j (G x) 0 - c1 j (nth j (flatten x) 0)) in T by ring.
  rewrite (Rabs_minus_sym (nth j (G x) 0) q) in T. lra.
Qed.
End Verdict.

(** *** Residuals and Hessian *)
Lemma real_max_dist sc (p q : list R) e : List.length p = List.length q -> p <> [] ->
  exists d, @max_dist REAL sc p q = Ret d /\ (d < e <-> forall k, (k < List.length p)%nat -> Rabs (nth k p 0 - nth k q 0) < e).
Proof.
  intros L Np. unfold max_dist.
  match goal with |- context [if ?b then _ else _] => replace b with true by (symmetry; apply Nat.eqb_eq; exact L) end.
  assert (AD : forall k, (k < List.length p)%nat -> nth_error (@abs_diffs REAL sc p q) k = Some (Rabs (nth k p 0 - nth k q 0))).
  { intros k Hk. pose proof (@abs_diffs_nth REAL sc p q k Hk L) as K.
    assert (Z : @nzero REAL sc = 0) by (unfold nzero; cbn; ring). rewrite Z in K. exact K. }
  assert (LA : List.length (@abs_diffs REAL sc p q) = List.length p) by exact (@abs_diffs_len REAL sc p q L).
  destruct (@abs_diffs REAL sc p q) as [|d ds] eqn:Ed; [destruct p; [congruence|discriminate LA]|].
  exists (@max_from REAL d ds). split; [reflexivity|].
  assert (Lt : forall a b : REAL, True -> True -> nltb a b = Rlt_bool a b) by reflexivity.
  destruct (@max_from_lt REAL (fun _ => True) (fun a => a) Lt e ds d I) as (M1 & _); [apply Forall_forall; trivial|].
  etransitivity; [exact M1|]. transitivity (List.Forall (fun y => y < e) (d :: ds)); [now rewrite List.Forall_cons_iff|]. split.
  - intros F k Hk. rewrite Forall_forall in F. apply F. apply nth_error_In with k. now apply AD.
  - intros M. apply Forall_forall. intros y Hy. apply In_nth_error in Hy as (k & Hk).
    assert (Hl : (k < List.length p)%nat).
    { rewrite <- LA. apply (proj1 (nth_error_Some _ _)). intros E0. discriminate (eq_trans (eq_sym Hk) E0). }
    assert (K : Some (Rabs (nth k p 0 - nth k q 0)) = Some y) by exact (eq_trans (eq_sym (AD k Hl)) Hk).
    injection K as <-. now apply M.
Qed.

Lemma concat_sq n (M : list (list R)) : List.Forall (fun r => List.length r = n) M ->
  List.length (List.concat M) = (List.length M * n)%nat /\
  forall i j, (i < List.length M)%nat -> (j < n)%nat -> nth (i * n + j) (List.concat M) 0 = nth j (nth i M []) 0.
Proof.
  induction 1 as [|r M H _ (IH1 & IH2)]; cbn [List.concat List.length].
  - split; [reflexivity|]. intros i j Hi. lia.
  - split; [rewrite app_length, IH1, H; lia|]. intros [|i] j Hi Hj; cbn [nth].
    + rewrite app_nth1 by lia. reflexivity.
    + rewrite app_nth2 by (rewrite H; nia). rewrite H. replace (S i * n + j - n)%nat with (i * n + j)%nat by nia. apply IH2; lia.
Qed.

Section ResidualCheck.
Variables (sc : fmt) (t : ty) (f : val R -> residuals R) (G : val R -> list R) (H : val R -> list (list R))
  (method : Method) (eps : R) (x : val R) (m : nat) (check_H downscale : bool) (log : list (val R)) (F : list R -> list R).
Hypothesis P : good_params t x.
Hypothesis Hn : (0 < List.length (flatten x))%nat.
Hypothesis HG : List.length (G x) = List.length (flatten x).
Hypothesis HH : List.length (H x) = List.length (flatten x).
Hypothesis HH' : List.Forall (fun r => List.length r = List.length (flatten x)) (H x).
Hypothesis Rm : @returns REAL method f m.
Hypothesis HF : computes x f F.
Let s := if downscale then 1 / 2 else 1.
Let n := List.length (flatten x).
Let h := eps / 10.
Lemma residual_check : exists (log' : list (val R)) b,
  @CheckResidualsGradient REAL _ sc t inner (pure_residuals f G H) eps method check_H downscale x log = Ret (log', b) /\
  (b = true <->
   (forall j, (j < n)%nat -> Rabs (real_quotient method h (fun X => s * inner (F X) (F X)) (flatten x) j - nth j (G x) 0) < eps) /\
   (check_H = true -> forall j k, (j < n)%nat -> (k < n)%nat ->
     Rabs (sum m (fun i => real_quotient method h (fun X => nth i (F X) 0) (flatten x) j * real_quotient method h (fun X => nth i (F X) 0) (flatten x) k)
           - nth k (nth j (H x) []) 0) < eps)).
Proof.
  assert (Es : @nlit REAL F64 1 (-1) = 1 / 2) by (cbn; field).
  assert (E1 : @none_ REAL F64 = 1) by (unfold none_; cbn; ring).
  assert (T10 : @ncvt REAL sc (@ndiv REAL F64 eps (@nofZ REAL F64 10)) = h) by (unfold nofZ, h; cbn; f_equal; ring).
  pose (c := fun y => s * inner (coefs_of (f y)) (coefs_of (f y))).
  destruct (real_check sc t c G method eps x log P Hn HG) as (log1 & b1 & C1 & HC).
  destruct (num_jac sc t f F method h x m P Rm HF (log1 ++ [x])) as (log2 & J & EJ & LJ & HJ).
  assert (HC' : b1 = true <-> forall j, (j < n)%nat -> Rabs (real_quotient method h (fun X => s * inner (F X) (F X)) (flatten x) j - nth j (G x) 0) < eps).
  { apply HC. intros y Hy. unfold c. now rewrite (HF y Hy). }
  unfold CheckResidualsGradient. destruct P as (Pr & Pc & Pt & Pi & Ps).
  change (num REAL) with R in *. rewrite (DynDims_size t x Pt Pi Ps). cbn [bind]. rewrite Es, E1. fold s.
  match goal with |- context [@CheckGradient REAL _ sc t ?ck eps method x log] => change ck with (@pure REAL c G) end.
  rewrite C1. cbn [bind]. destruct check_H; cbn [negb].
  2:{ exists log1, b1. split; [reflexivity|]. rewrite HC'. split; [intros K; split; [exact K|discriminate]|tauto]. }
  cbn [rs_full pure_residuals]. rewrite T10. unfold EstimateNumJac.
  change (rs_null (pure_residuals f G H)) with (@logged REAL f).
  pose proof EJ as EJ'. change (num REAL) with R in *. rewrite EJ'. cbn [bind].
  assert (LC : forall j, (j < n)%nat -> List.length (nth j J []) = m).
  { intros j Hj. destruct (@NumEval_ok REAL sc t f method h x m (conj Pr (conj Pc (conj Pt (conj Pi Ps)))) Rm (log1 ++ [x])) as (ps & qs & J' & E' & _ & _ & _ & K).
    change (num REAL) with R in *. rewrite E' in EJ'. injection EJ' as _ <-. destruct (K j Hj) as (p & q & cc & _ & _ & Ej & (_ & _ & Lc & _)).
    rewrite (nth_error_nth J' j [] Ej). exact Lc. }
  pose (N := (@gram REAL inner J : list (list R))). change (@gram REAL inner J) with N.
  assert (LN : List.length N = n) by (unfold N, gram; rewrite map_length; exact LJ).
  assert (FN : List.Forall (fun r => List.length r = n) N).
  { apply Forall_forall. intros r Hr. unfold N, gram in Hr. apply in_map_iff in Hr as (cc & <- & _). rewrite map_length. exact LJ. }
  destruct (concat_sq n N FN) as (L1 & I1). destruct (concat_sq n (H x) HH') as (L2 & I2). rewrite HH in L2, I2. rewrite LN in L1, I1.
  destruct (real_max_dist sc (List.concat N) (List.concat (H x)) eps) as (d & Ed & Hd).
  { rewrite L1, L2. reflexivity. }
  { intros E0. rewrite E0 in L1. cbn in L1. unfold n in L1. nia. }
  change (num REAL) with R in *. rewrite Ed. cbn [bind].
  eexists; eexists. split; [reflexivity|]. rewrite andb_true_iff, HC'.
  change (@nltb REAL (@ncvt REAL F64 d) eps) with (Rlt_bool d eps).
  assert (B : Rlt_bool d eps = true <-> d < eps) by (destruct (Rlt_bool_spec d eps); split; intros; auto; try discriminate; lra).
  rewrite B, Hd. apply and_iff_compat_l.
  assert (EN : forall j k, (j < n)%nat -> (k < n)%nat -> nth k (nth j N []) 0 =
    sum m (fun i => real_quotient method h (fun X => nth i (F X) 0) (flatten x) j * real_quotient method h (fun X => nth i (F X) 0) (flatten x) k)).
  { intros j k Hj Hk. unfold N, gram.
    assert (Ej : nth j (map (fun c0 => map (inner c0) J) J) [] = map (inner (nth j J [])) J).
    { rewrite (nth_indep _ [] (map (inner []) J)) by (rewrite map_length; rewrite LJ; exact Hj). now rewrite (map_nth (fun c0 => map (inner c0) J)). }
    refine (eq_trans (f_equal (fun r => nth k r 0) Ej) _). clear Ej.
    rewrite (nth_indep _ 0 (inner (nth j J []) [])) by (rewrite map_length; rewrite LJ; exact Hk). rewrite map_nth. unfold inner. rewrite (LC j Hj).
    apply sum_ext. intros i Hi. rewrite (HJ i j Hi Hj), (HJ i k Hi Hk). reflexivity. }
  rewrite L1. split.
  - intros K _ j k Hj Hk. specialize (K (j * n + k)%nat). rewrite (I1 j k Hj Hk), (I2 j k Hj Hk) in K. rewrite <- (EN j k Hj Hk). apply K. nia.
  - intros K q Hq. assert (n <> O) by lia. pose proof (Nat.div_mod q n H0) as DM.
    assert (Hj : (q / n < n)%nat) by (apply Nat.div_lt_upper_bound; lia). assert (Hk : (q mod n < n)%nat) by now apply Nat.mod_upper_bound.
    specialize (K eq_refl _ _ Hj Hk). rewrite <- (EN _ _ Hj Hk) in K. rewrite <- (I1 _ _ Hj Hk), <- (I2 _ _ Hj Hk) in K.
    replace (q / n * n + q mod n)%nat with q in K by lia. exact K.
Qed.
End ResidualCheck.

(** *** In floating point *)
(** Conversions to double are exact. *)
Lemma cvt_wide sc (a : IEEE) : is_fmt sc a = true -> is_fin a = true ->
  toR (@ncvt IEEE F64 a) = toR a /\ is_fin (@ncvt IEEE F64 a) = true.
Proof.
  intros Ha Fa. destruct a as [s|s| |s m e]; try discriminate Fa; [now split|].
  cbn [ncvt IEEE ieee_cvt]. change (if s then Z.neg m else Z.pos m) with (cond_Zopp s (Z.pos m)).
  rewrite normalize_equiv, toR_B2SF, is_fin_B2SF.
  pose proof (binary_normalize_correct (prec_of F64) (emax_of F64) _ _ mode_NE (cond_Zopp s (Z.pos m)) e s) as K.
  set (b := toB sc (S754_finite s m e) Ha).
  assert (Eb : B2R b = F2R (Float radix2 (cond_Zopp s (Z.pos m)) e)) by (unfold b; now rewrite toB_R).
  cbv zeta in K. rewrite <- Eb in K.
  assert (Gf : generic_format radix2 (SpecFloat.fexp (prec_of F64) (emax_of F64)) (B2R b)).
  { change (SpecFloat.fexp (prec_of F64) (emax_of F64)) with (FLT_exp (3 - emax_of F64 - prec_of F64) (prec_of F64)).
    apply generic_format_FLT.
    assert (Gb : generic_format radix2 (FLT_exp (3 - emax_of sc - prec_of sc) (prec_of sc)) (B2R b)) by apply (generic_format_B2R (prec_of sc) (emax_of sc)).
    apply FLT_format_generic in Gb; [|apply prec_gt_0_of]. destruct Gb as [g E1 E2 E3]. apply (FLT_spec _ _ _ _ g); [exact E1| |].
    - destruct sc; [eapply Z.lt_trans; [exact E2|reflexivity]|exact E2].
    - destruct sc; [eapply Z.le_trans; [|exact E3]; discriminate|exact E3]. }
  rewrite round_generic in K; [|apply valid_rnd_round_mode|exact Gf].
  rewrite Rlt_bool_true in K; [destruct K as (K1 & K2 & _); now rewrite K1|].
  eapply Rlt_le_trans; [apply abs_B2R_lt_emax|]. apply bpow_le. destruct sc; discriminate.
Qed.

Lemma ieee_check sc t (c : val IEEE -> IEEE) (G : val IEEE -> list IEEE) method (eps : IEEE) (x : val IEEE) (log : list (val IEEE)) :
  good_params t x -> (0 < List.length (flatten x))%nat -> List.length (G x) = List.length (flatten x) ->
  is_fmt F64 eps = true -> is_fin eps = true -> (forall y, is_fmt sc (c y) = true) -> List.Forall (fun g => is_fmt sc g = true) (G x) ->
  let n := List.length (flatten x) in let h := ncvt sc (ndiv F64 eps (nofZ F64 10)) in
  exists log' ps qs N b, @CheckGradient IEEE _ sc t (@pure IEEE c G) eps method x log = Ret (log', b) /\ List.length N = n /\
    (forall j, (j < n)%nat -> exists p q, nth_error ps j = Some p /\ nth_error qs j = Some q /\
       shifted sc x (step_vec sc n j h) p /\
       match method with
       | kForward => True
       | kCentral => shifted sc x (step_vec sc n j (nopp h)) q
       | kFastCentral => shifted sc p (step_vec sc n j (nmul sc (nofZ sc (-2)) h)) q
       end /\
       nth j N (nzero sc) = quotient sc method h (c p) (c q) (c x)) /\
    ((forall j, (j < n)%nat -> is_fin (nsub sc (nth j N (nzero sc)) (nth j (G x) (nzero sc))) = true) ->
     (b = true <-> forall j, (j < n)%nat -> Rabs (toR (nsub sc (nth j N (nzero sc)) (nth j (G x) (nzero sc)))) < toR eps)).
Proof.
  intros P Hn HG Fe Ne Fc FG n h.
  set (ok := fun a : IEEE => is_fmt sc a = true /\ is_fin a = true).
  assert (Lt : forall a b : IEEE, ok a -> ok b -> nltb a b = Rlt_bool (toR a) (toR b)) by (intros a b (A1 & A2) (B1 & B2); now apply (ltb_R sc)).
  assert (Cv : forall a : IEEE, ok a -> nltb (ncvt F64 a) eps = Rlt_bool (toR a) (toR eps)).
  { intros a (A1 & A2). destruct (cvt_wide sc a A1 A2) as (E1 & E2). cbn [nltb IEEE]. rewrite (ltb_R F64); [now rewrite E1|apply fmt_cvt|assumption..]. }
  destruct (@check_ok IEEE ok toR eps Lt Cv sc t c G method x P log Hn HG) as (log' & ps & qs & N & b & E & LN & Hq & Hb).
  exists log', ps, qs, N, b. split; [exact E|]. split; [exact LN|]. split; [exact Hq|].
  intros Hf.
  assert (Abs : forall a : IEEE, toR (nabs a) = Rabs (toR a)).
  { intros [s|s| |s m e]; cbn; try (now rewrite Rabs_R0). destruct s; cbn [cond_Zopp]; unfold F2R; cbn [Fnum Fexp].
    - rewrite Rabs_mult, (Rabs_left (IZR _)), (Rabs_right (bpow _ _)); [now rewrite <- opp_IZR|apply Rle_ge, bpow_ge_0|now apply IZR_lt].
    - rewrite Rabs_right; [reflexivity|]. apply Rle_ge, Rmult_le_pos; [now apply IZR_le|apply bpow_ge_0]. }
  assert (Fm : forall j, (j < n)%nat -> is_fmt sc (nsub sc (nth j N (nzero sc)) (nth j (G x) (nzero sc))) = true).
  { intros j Hj. apply fmt_sub.
    - destruct (Hq j Hj) as (p & q & _ & _ & _ & _ & ->). unfold quotient.
      destruct method; (apply fmt_div; [apply fmt_sub; apply Fc|]); try apply fmt_mul; try apply fmt_lit; apply fmt_cvt.
    - rewrite Forall_forall in FG. apply FG. apply nth_In. rewrite HG. exact Hj. }
  rewrite Hb.
  - split; intros K j Hj; specialize (K j Hj); rewrite Abs in *; exact K.
  - intros j Hj. split; [now apply fmt_abs, Fm|]. specialize (Hf j Hj). destruct (nsub sc _ _); now cbn in *.
Qed.
