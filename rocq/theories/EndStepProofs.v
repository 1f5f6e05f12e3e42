(** Steps with automatic differentiation. *)
From Coq Require Import ZArith List Bool Lia Reals Lra.
From Coquelicot Require Import Coquelicot.
From Verif Require Import BaseModel NumModel RealModel CostModel StopModel OptionsModel SolverModel OptimizerModel RunModel RunSpec TraitsModel TraitsSpec TraitsProofs
  JetSpec JetProofs DiffSpec DiffProofs AutoModel AutoSpec AutoProofs NumFuncProofs CostProofs SumSpec SumProofs LossSpec LmSpec StepSpec StepProofs StepLastProofs
  StoreSpec EndSpec.
Import ListNotations.
Open Scope R_scope.

Lemma sum_squares_at f y : sum_squares (residuals_at f y) = sum_sq f y.
Proof.
  unfold sum_squares, sum_sq, residuals_at. rewrite map_length, seq_length. apply sum_ext. intros i Hi. rewrite nth_map_seq by exact Hi. ring.
Qed.
Lemma jacobian_unique r m x J J' i k : jacobian_of r m x J -> jacobian_of r m x J' -> (i < m)%nat -> (k < List.length x)%nat -> entry J i k = entry J' i k.
Proof.
  intros (_ & H) (_ & H') Hi Hk. destruct (H i Hi) as (_ & D), (H' i Hi) as (_ & D').
  pose proof (derivative_partial _ _ _ k D Hk) as E. pose proof (derivative_partial _ _ _ k D' Hk) as E'. unfold is_partial in *.
  exact (eq_trans (eq_sym (is_derive_unique _ _ _ E)) (is_derive_unique _ _ _ E')).
Qed.
Lemma system_of f X g H D J : gauss_newton f X g H D -> jacobian_of (residuals_at f) (num_res f) X J ->
  gn_system true (residuals_at f) (num_res f) X J g H.
Proof.
  intros (G1 & G2 & G3 & _ & G5 & G6) HJ. set (n := List.length X) in *. set (m := num_res f) in *.
  assert (E : forall i k, (i < m)%nat -> (k < n)%nat -> D i k = entry J i k).
  { intros i k Hi Hk. destruct HJ as (_ & HJ). destruct (HJ i Hi) as (_ & D').
    pose proof (derivative_partial _ _ _ k (G1 i Hi) Hk) as E. pose proof (derivative_partial _ _ _ k D' Hk) as E'. unfold is_partial in *.
    rewrite nth_map_seq in E by exact Hk.
    apply (is_derive_ext _ (fun t => residual f i (set_nth X k t))) in E'.
    - exact (eq_trans (eq_sym (is_derive_unique _ _ _ E)) (is_derive_unique _ _ _ E')).
    - intros t. unfold residuals_at. now rewrite nth_map_seq. }
  split; [intros y _; unfold residuals_at; now rewrite map_length, seq_length|]. split; [exact HJ|]. split; [exact G2|]. split; [exact G3|]. split.
  - intros k Hk. rewrite (G5 k Hk). apply sum_ext. intros i Hi. unfold residuals_at. rewrite nth_map_seq by exact Hi. now rewrite E.
  - intros k l Hk Hl _. refine (eq_trans (G6 k l Hk Hl) _). apply sum_ext. intros i Hi. now rewrite !E.
Qed.
Lemma jacobian_exists f X g H D : gauss_newton f X g H D -> exists J, jacobian_of (residuals_at f) (num_res f) X J.
Proof.
  intros (G1 & _). exists (map (fun i => map (D i) (seq 0 (List.length X))) (seq 0 (num_res f))). split; [now rewrite map_length, seq_length|].
  intros i Hi. rewrite nth_map_seq by exact Hi. split; [now rewrite map_length, seq_length|]. intros c t0 d C.
  apply (is_derive_ext (fun t => residual f i (c t))); [|exact (G1 i Hi c t0 d C)].
  intros t. unfold residuals_at. now rewrite nth_map_seq.
Qed.

Lemma rebuild_at {U X} (P : Problem REAL U X) mir u x s u' y c ok c1 g H : grad_clipping (p_options P) = (0 : REAL) ->
  (forall g0 H0, exists u', acc_full (p_acc P) u x g0 H0 = (u', c1, g, H)) ->
  rebuild_system (p_scalar P) (p_dims P) (p_options P) (p_x_dims P) (p_acc P) mir u x s = (u', y, c, ok) -> ok = true ->
  y = Sys (if mir then mirror (p_scalar P) H else H) g.
Proof.
  intros Hc Ha. unfold rebuild_system. unfold clear. cbn [accumulate].
  destruct (acc_full _ _ _ _ _) as (((u1, c2), g1), H1) eqn:EA. destruct (Ha (zeros (p_scalar P) (sys_dims (build_resize (p_dims P) (p_x_dims P) x s)))
    (zeros_mat (p_scalar P) (sys_dims (build_resize (p_dims P) (p_x_dims P) x s)))) as (u2 & E2).
  assert (E3 := eq_trans (eq_sym EA) E2). injection E3 as -> -> -> ->.
  destruct (negb (isValid (NormalizeCost (p_options P) c1))); [intros E; injection E; intros; subst; discriminate|].
  destruct (_ && _); [intros E; injection E; intros; subst; discriminate|].
  intros E _. injection E as _ <- _ _. f_equal. exact (zero_clip P g Hc).
Qed.

Section Step.
Context {U : Type}.
Variables (t : ty) (f : user_fun) (x0 x : val R) (P : Problem REAL U (val R)).
Hypothesis HG : good_params t x0.
Hypothesis HA : autodiff_problem t f x0 P.
Hypothesis HT : has_type t x.
Hypothesis HS : same_shape x0 x.
Hypothesis HD : forall e, In e (residual_exprs f) -> smooth e (flatten x) /\ safe_for t e (flatten x) /\ connected t e (flatten x).
Notation X := (flatten x).

Lemma auto_system : exists c g H J,
  (forall u g0 H0, exists u', acc_full (p_acc P) u x g0 H0 = (u', c, g, H)) /\ (forall u, exists u', acc_eval (p_acc P) u x = (u', c)) /\
  num_resisuals c = Z.of_nat (num_res f) /\ cost c = sum_squares (residuals_at f X) /\
  gn_system true (residuals_at f) (num_res f) X J g H.
Proof.
  destruct (auto_nlls t f x0 x HG HT HS HD) as (k & c & g & H & D & E1 & E2 & E3 & E4 & E5 & E6).
  destruct HA as (_ & _ & _ & _ & Nr & k' & E1' & K). rewrite E1 in E1'. injection E1' as <-.
  destruct (jacobian_exists _ _ _ _ _ E6) as (J & HJ).
  exists c, g, H, J. split; [intros u; exact (proj1 (K u x) c g H E2)|]. split; [intros u; exact (proj2 (K u x) c E3)|].
  split; [exact (E4 Nr)|]. split; [now rewrite sum_squares_at|]. exact (system_of _ _ _ _ _ _ E6 HJ).
Qed.

Lemma auto_gn_step u s u' s' dx J : grad_clipping (p_options P) = (0 : REAL) ->
  sv_build (solver_of P GaussNewton) u s x = Ret (u', s', true) -> sv_solve (solver_of P GaussNewton) s' = Ret (Some dx) ->
  jacobian_of (residuals_at f) (num_res f) X J -> independent (num_res f) (List.length X) J ->
  exact_solver (p_backend P) (List.length X) (damped_gram (num_res f) J 0) ->
  not_tiny P (sum (num_res f) (fun i => entry J i 0 * entry J i 0)) -> (0 < List.length X)%nat ->
  let g := fun k => sum (num_res f) (fun i => entry J i k * residual f i X) in
  List.length dx = List.length X /\
  (forall k, (k < List.length X)%nat -> sum (List.length X) (fun l => sum (num_res f) (fun i => entry J i k * entry J i l) * nth l dx 0) = - g k) /\
  ((exists k, (k < List.length X)%nat /\ g k <> 0) -> downhill (sum_sq f) X dx).
Proof.
  intros Hc HB Hsv HJ HI Ex NT HX g.
  destruct (auto_nlls t f x0 x HG HT HS HD) as (k & c & g1 & H1 & D & E1 & E2 & E3 & E4 & E5 & E6).
  destruct HA as (_ & _ & _ & _ & Nr & k' & E1' & K). rewrite E1 in E1'. injection E1' as <-.
  cbn [solver_of SolverGN sv_build] in HB. unfold gn_build in HB.
  destruct (rebuild_system _ _ _ _ _ _ _ _ _) as (((u1, y), c1), ok) eqn:ER. apply ret_inj in HB. injection HB; intros; subst ok s' u1.
  assert (Sy := rebuild_at P _ _ _ _ _ _ _ _ c g1 H1 Hc (proj1 (K u x) c g1 H1 E2) ER eq_refl).
  pose proof (system_of _ _ _ _ _ _ E6 HJ) as GN.
  assert (GN' : gn_system (reads_all P) (residuals_at f) (num_res f) X J g1 H1).
  { destruct GN as (A1 & A2 & A3 & A4 & A5 & A6). split; [exact A1|]. split; [exact A2|]. split; [exact A3|]. split; [exact A4|]. split; [exact A5|].
    intros k1 l1 Hk Hl _. apply A6; auto. }
  assert (Eg : forall k, (k < List.length X)%nat -> nth k g1 0 = g k).
  { intros k1 Hk. destruct GN as (_ & _ & _ & _ & A5 & _). rewrite (A5 k1 Hk). unfold g. apply sum_ext. intros i Hi. unfold residuals_at. now rewrite nth_map_seq. }
  assert (NT' : not_tiny P (entry H1 0 0)).
  { intros T1 T2. destruct GN as (_ & _ & _ & _ & _ & A6). rewrite (A6 0%nat 0%nat HX HX (or_introl eq_refl)). exact (NT T1 T2). }
  destruct (gn_step_at P (mkGN y c1) dx g1 H1 (residuals_at f) (num_res f) X J Sy Hsv GN' HI Ex NT') as (R1 & R2 & _ & R4).
  split; [exact R1|]. split; [intros k1 Hk; rewrite <- (Eg k1 Hk); exact (R2 k1 Hk)|].
  intros (k1 & Hk & Hg). destruct R4 as ((sl & S1 & S2) & t0 & T1 & T2). { exists k1. split; [exact Hk|]. now rewrite Eg. }
  split.
  - exists sl. split; [exact S1|]. apply (is_derive_ext (fun s => sum_squares (residuals_at f (along X dx s)))); [intros; apply sum_squares_at|exact S2].
  - exists t0. split; [exact T1|]. intros r Hr. rewrite <- !sum_squares_at. now apply T2.
Qed.
End Step.
