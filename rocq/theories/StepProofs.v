(** Steps of the solvers in exact arithmetic. *)
From Coq Require Import ZArith List Bool Lia ZifyBool Reals Lra Psatz.
From Flocq Require Import Core.Zaux Core.Raux.
From Coquelicot Require Import Coquelicot.
From Verif Require Import BaseModel NumModel RealModel CostModel OptionsModel SolverModel RunModel RunSpec LmSpec SumSpec SumProofs
  JetSpec AutoProofs LossSpec LossProofs NormProofs LmProofs CostProofs StepSpec.
Import ListNotations.
Open Scope R_scope.

(** *** Positive definite matrices *)
Section Gram.
Variables (m n : nat) (J : list (list R)) (lam : R).
Hypothesis Hl : 0 <= lam.
Hypothesis HJ : independent m n J \/ (0 < lam /\ nonzero_columns m n J).
Notation a := (damped_gram m J lam).

Lemma gram_sym k l : a k l = a l k.
Proof. unfold damped_gram. rewrite Nat.eqb_sym. f_equal. apply sum_ext. intros. ring. Qed.
Lemma gram_quad (y : nat -> R) : sum n (fun k => y k * sum n (fun l => a k l * y l)) =
  sum m (fun i => sum n (fun k => entry J i k * y k) ^ 2) + lam * sum n (fun k => sum m (fun i => entry J i k ^ 2) * y k ^ 2).
Proof.
  transitivity (sum n (fun k => y k * sum n (fun l => sum m (fun i => entry J i k * entry J i l) * y l)) + lam * sum n (fun k => sum m (fun i => entry J i k ^ 2) * y k ^ 2)).
  - rewrite <- sum_scal, <- sum_plus. apply sum_ext. intros k Hk.
    transitivity (y k * (sum n (fun l => sum m (fun i => entry J i k * entry J i l) * y l) + lam * sum m (fun i => entry J i k ^ 2) * y k)); [|ring]. f_equal.
    transitivity (sum n (fun l => sum m (fun i => entry J i k * entry J i l) * y l + (if (k =? l)%nat then lam * sum m (fun i => entry J i k * entry J i l) * y l else 0))).
    + apply sum_ext. intros l _. unfold damped_gram. destruct (k =? l)%nat; ring.
    + rewrite sum_plus. f_equal. rewrite (sum_one n k); [|exact Hk|intros l _ N; destruct (Nat.eqb_spec k l); [now subst|reflexivity]].
      rewrite Nat.eqb_refl. f_equal. f_equal. apply sum_ext. intros. ring.
  - f_equal. transitivity (sum n (fun k => sum m (fun i => entry J i k * y k * sum n (fun l => entry J i l * y l)))).
    + apply sum_ext. intros k _. rewrite <- sum_scal.
      transitivity (sum n (fun l => sum m (fun i => entry J i k * y k * (entry J i l * y l)))).
      * apply sum_ext. intros l _. rewrite <- sum_scal_r, <- sum_scal. apply sum_ext. intros. ring.
      * rewrite sum_exchange. apply sum_ext. intros i _. now rewrite sum_scal.
    + rewrite sum_exchange. apply sum_ext. intros i _. rewrite sum_scal_r. ring.
Qed.
Lemma gram_definite (y : nat -> R) : sum n (fun k => y k * sum n (fun l => a k l * y l)) <= 0 -> forall k, (k < n)%nat -> y k = 0.
Proof.
  rewrite gram_quad. intros H.
  assert (P1 : 0 <= sum m (fun i => sum n (fun k => entry J i k * y k) ^ 2)) by (apply sum_nonneg; intros; apply pow2_ge_0).
  assert (Q : forall k, (k < n)%nat -> 0 <= sum m (fun i => entry J i k ^ 2) * y k ^ 2).
  { intros k _. apply Rmult_le_pos; [apply sum_nonneg; intros|]; apply pow2_ge_0. }
  assert (P2 : 0 <= sum n (fun k => sum m (fun i => entry J i k ^ 2) * y k ^ 2)) by (apply sum_nonneg; exact Q).
  assert (P3 : 0 <= lam * sum n (fun k => sum m (fun i => entry J i k ^ 2) * y k ^ 2)) by (apply Rmult_le_pos; assumption).
  destruct HJ as [HI|(L & HC)].
  - apply HI. intros i Hi. assert (Z : sum m (fun i => sum n (fun k => entry J i k * y k) ^ 2) = 0) by lra.
    pose proof (sum_nonneg_0 m _ (fun i _ => pow2_ge_0 _) Z i Hi) as E. cbn beta in E.
    destruct (Req_dec (sum n (fun k => entry J i k * y k)) 0) as [|N]; [assumption|]. apply (pow_nonzero _ 2) in N. congruence.
  - intros k Hk. assert (Z : sum n (fun k => sum m (fun i => entry J i k ^ 2) * y k ^ 2) = 0).
    { apply (Rmult_eq_reg_l lam); [|lra]. lra. }
    pose proof (sum_nonneg_0 n _ Q Z k Hk) as E. cbn beta in E. destruct (Rmult_integral _ _ E) as [E1|E1].
    + exfalso. destruct (HC k Hk) as (i & Hi & N). pose proof (sum_nonneg_0 m _ (fun i _ => pow2_ge_0 _) E1 i Hi) as E2. cbn beta in E2.
      apply (pow_nonzero _ 2) in N. congruence.
    + destruct (Req_dec (y k) 0) as [|N]; [assumption|]. apply (pow_nonzero _ 2) in N. congruence.
Qed.
Lemma gram_descent (g dx : list R) : (forall k, (k < n)%nat -> sum n (fun l => a k l * nth l dx 0) = - nth k g 0) ->
  let s := sum n (fun k => nth k g 0 * nth k dx 0) in
  s <= 0 /\ (s = 0 -> forall k, (k < n)%nat -> nth k g 0 = 0 /\ nth k dx 0 = 0) /\
  ((forall k, (k < n)%nat -> nth k g 0 = 0) <-> (forall k, (k < n)%nat -> nth k dx 0 = 0)).
Proof.
  intros S s.
  assert (E : s = - sum n (fun k => nth k dx 0 * sum n (fun l => a k l * nth l dx 0))).
  { unfold s. rewrite <- (Rmult_1_l (sum n (fun k => nth k dx 0 * _))), Ropp_mult_distr_l, <- sum_scal. apply sum_ext. intros k Hk. rewrite (S k Hk). ring. }
  assert (P : 0 <= sum n (fun k => nth k dx 0 * sum n (fun l => a k l * nth l dx 0))).
  { rewrite gram_quad. apply Rplus_le_le_0_compat; [apply sum_nonneg; intros; apply pow2_ge_0|].
    apply Rmult_le_pos; [exact Hl|]. apply sum_nonneg. intros. apply Rmult_le_pos; [apply sum_nonneg; intros|]; apply pow2_ge_0. }
  assert (Z : (forall k, (k < n)%nat -> nth k dx 0 = 0) -> forall k, (k < n)%nat -> nth k g 0 = 0).
  { intros Z k Hk. pose proof (S k Hk) as E1. rewrite sum_0 in E1; [lra|]. intros l Hl'. rewrite Z by exact Hl'. ring. }
  split; [lra|]. split.
  - intros E0. assert (Z0 : forall k, (k < n)%nat -> nth k dx 0 = 0) by (apply gram_definite; lra). auto.
  - split; [|exact Z]. intros Zg. apply gram_definite. rewrite sum_0; [lra|]. intros k Hk. rewrite (S k Hk), (Zg k Hk). ring.
Qed.
End Gram.

(** *** The derivative along a step *)
Lemma along_len x d t : List.length (along x d t) = List.length x.
Proof. unfold along. now rewrite map_length, seq_length. Qed.
Lemma along_nth x d t k : (k < List.length x)%nat -> nth k (along x d t) 0 = nth k x 0 + t * nth k d 0.
Proof. intros H. unfold along. now rewrite nth_map_seq. Qed.
Lemma along_0 x d : along x d 0 = x.
Proof. apply (nth_ext _ _ 0 0); [apply along_len|]. rewrite along_len. intros k Hk. rewrite along_nth by exact Hk. ring. Qed.
Lemma along_curve x d : curve_through x d (along x d) 0.
Proof.
  split; [apply along_0|]. split; [intros; apply along_len|]. intros k Hk.
  apply (is_derive_ext (fun t => nth k x 0 + t * nth k d 0)); [intros t; now rewrite along_nth|]. auto_derive; [exact I|ring].
Qed.
Lemma descent_slope full r m x J g H d : gn_system full r m x J g H ->
  is_derive (fun t => sum_squares (r (along x d t))) 0 (2 * sum (List.length x) (fun k => nth k g 0 * nth k d 0)).
Proof.
  intros (Lr & (LJ & DJ) & _ & _ & G & _).
  assert (C : curve_through (r x) (map (fun i => sum (List.length x) (fun k => entry J i k * nth k d 0)) (seq 0 m)) (fun t => r (along x d t)) 0).
  { split; [now rewrite along_0|]. split; [intros t; rewrite !Lr; [reflexivity|reflexivity|apply along_len]|]. rewrite (Lr x eq_refl). intros i Hi.
    rewrite nth_map_seq by exact Hi. exact (proj2 (DJ i Hi) _ _ _ (along_curve x d)). }
  destruct (half_gradient (r x)) as (_ & HG). pose proof (HG _ _ _ C) as D. rewrite (Lr x eq_refl) in D.
  assert (E : sum m (fun i => nth i (r x) 0 * nth i (map (fun i => sum (List.length x) (fun k => entry J i k * nth k d 0)) (seq 0 m)) 0)
              = sum (List.length x) (fun k => nth k g 0 * nth k d 0)).
  { transitivity (sum m (fun i => sum (List.length x) (fun k => nth i (r x) 0 * (entry J i k * nth k d 0)))).
    - apply sum_ext. intros i Hi. rewrite nth_map_seq by exact Hi. now rewrite sum_scal.
    - rewrite sum_exchange. apply sum_ext. intros k Hk. rewrite (G k Hk), <- sum_scal_r. apply sum_ext. intros. ring. }
  rewrite E in D. apply (is_derive_ext (fun t => 2 * (sum_squares (r (along x d t)) / 2))); [intros t; change (2 * (sum_squares (r (along x d t)) / 2) = sum_squares (r (along x d t))); field|].
  apply is_derive_scal. exact D.
Qed.
Lemma slope_decrease (f : R -> R) s : is_derive f 0 s -> s < 0 -> exists t0, 0 < t0 /\ forall t, 0 < t <= t0 -> f t < f 0.
Proof.
  intros D S. apply is_derive_Reals in D. destruct (D (- s / 2) ltac:(lra)) as (de & Hd). pose proof (cond_pos de) as Pd.
  exists (de / 2). split; [lra|]. intros t Ht. specialize (Hd t ltac:(lra)). rewrite Rabs_right in Hd by lra. specialize (Hd ltac:(lra)).
  rewrite Rplus_0_l in Hd. apply Rabs_def2 in Hd. destruct Hd as (Hd & _).
  assert (E : (f t - f 0) / t < s / 2) by lra. apply (Rmult_lt_compat_r t) in E; [|lra]. unfold Rdiv in E. rewrite Rmult_assoc, Rinv_l, Rmult_1_r in E by lra.
  assert (0 < - s * / 2 * t) by (repeat apply Rmult_lt_0_compat; lra). lra.
Qed.
Lemma system_downhill full r m x J g H lam dx : gn_system full r m x J g H -> 0 <= lam ->
  independent m (List.length x) J \/ (0 < lam /\ nonzero_columns m (List.length x) J) ->
  (forall k, (k < List.length x)%nat -> sum (List.length x) (fun l => damped_gram m J lam k l * nth l dx 0) = - nth k g 0) ->
  ((forall k, (k < List.length x)%nat -> nth k g 0 = 0) <-> (forall k, (k < List.length x)%nat -> nth k dx 0 = 0)) /\
  ((exists k, (k < List.length x)%nat /\ nth k g 0 <> 0) -> downhill (fun y => sum_squares (r y)) x dx).
Proof.
  intros GN Hl HJ S. destruct (gram_descent m _ J lam Hl HJ g dx S) as (N & Z & I). split; [exact I|].
  intros (k & Hk & Nk). pose proof (descent_slope _ _ _ _ _ _ _ dx GN) as D.
  assert (S0 : 2 * sum (List.length x) (fun k => nth k g 0 * nth k dx 0) < 0).
  { destruct (Req_dec (sum (List.length x) (fun k => nth k g 0 * nth k dx 0)) 0) as [E|E]; [|lra]. destruct (Z E k Hk). congruence. }
  split; [eexists; split; [exact S0|exact D]|]. destruct (slope_decrease _ _ D S0) as (t0 & T & HT). exists t0. split; [exact T|].
  intros t Ht. specialize (HT t Ht). now rewrite along_0 in HT.
Qed.

(** *** What the solvers solve *)
Section Solve.
Context {U X : Type}.
Variable P : Problem REAL U X.
Notation opts := (p_options P).
Notation solve := (sys_solve (p_scalar P) (p_dims P) (p_sparse P) opts (p_backend P)).

Lemma solve_exact (D : mat REAL) (g dx : list R) c n a :
  exact_solver (p_backend P) n a -> (forall k l, a k l = a l k) -> List.length D = n -> List.length g = n ->
  (forall k l, (k <= l)%nat -> (l < n)%nat -> entry D k l = a k l) ->
  (use_ldlt opts || p_sparse P = false -> forall k l, (k < n)%nat -> (l < n)%nat -> entry D k l = a k l) ->
  not_tiny P (entry D 0 0) ->
  solve (Sys D g) c = Ret (Some dx) ->
  List.length dx = n /\ forall k, (k < n)%nat -> sum n (fun l => a k l * nth l dx 0) = - nth k g 0.
Proof.
  intros Ex Sy LD Lg Up Fu NT. unfold sys_solve. destruct (isValid c); cbn [negb]; [|discriminate].
  destruct (use_ldlt opts || p_sparse P) eqn:EL.
  - intros E. apply ret_inj in E.
    destruct (Ex (mirror (p_scalar P) D)) as (Ex1 & _); [now rewrite mirror_length| |].
    { intros k l Hk Hl'. rewrite <- (entry_mget (p_scalar P)). rewrite mirror_get by (rewrite LD; assumption). rewrite !entry_mget.
      destruct (Nat.leb_spec k l); [now apply Up|]. rewrite Sy. apply Up; lia. }
    destruct (Ex1 (map Ropp g) ltac:(now rewrite map_length)) as (dx' & E' & L' & S').
    assert (E2 : Some dx' = Some dx) by (rewrite <- E', <- E; reflexivity). injection E2 as <-. split; [exact L'|].
    intros k Hk. rewrite (S' k Hk). rewrite (nth_indep _ 0 (- 0)) by (rewrite map_length; lia). apply map_nth.
  - destruct (Ex D LD (Fu eq_refl)) as (_ & Ex2). specialize (Ex2 g Lg). cbv zeta in Ex2.
    assert (Main : Ret (Some (be_neg_inv_mul (p_backend P) D g)) = Ret (Some dx) -> List.length dx = n /\ forall k, (k < n)%nat -> sum n (fun l => a k l * nth l dx 0) = - nth k g 0).
    { intros E. apply ret_inj in E. injection E as <-. exact Ex2. }
    unfold not_tiny in NT.
    destruct (p_dims P) as [[|[p|p|]|p]|] eqn:EP; try exact Main.
    rewrite (entry_mget (p_scalar P) D 0 0).
    replace (@nltb REAL (FloatEpsilon (p_scalar P)) (entry D 0 0)) with true; [exact Main|].
    symmetry. apply Rlt_bool_true. apply NT; [reflexivity|exact EL].
Qed.
End Solve.
