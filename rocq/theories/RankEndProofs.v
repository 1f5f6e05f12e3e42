(** Levenberg-Marquardt on least squares of any rank: runs and complete optimizations. *)
From Coq Require Import ZArith List Bool Lia Reals Lra Classical.
From Verif Require Import BaseModel NumModel RealModel CostModel StopModel OptionsModel SolverModel OptimizerModel RunModel RunSpec TraitsModel TraitsSpec TraitsProofs
  DiffModel DiffSpec DiffRealSpec JetSpec AutoModel AutoSpec AutoProofs SumSpec SumProofs LossSpec LmSpec StepSpec StepProofs StepLastProofs AffineProofs AffineRunProofs LmAffineSpec LinearProofs RankSpec RankProofs
  LmAffineProofs LmConvProofs DispatchModel DispatchSpec StoreSpec StoreRunProofs EndSpec EndProofs EndRunProofs NumEndSpec NumEndProofs.
Import ListNotations.
Open Scope R_scope.

(** *** When the systems can be solved *)
Lemma kernel_unsolvable be n a y k : (forall i j, a i j = a j i) -> (forall i, (i < n)%nat -> sum n (fun j => a i j * y j) = 0) -> (k < n)%nat -> y k <> 0 -> ~ exact_solver be n a.
Proof.
  intros Sy K Hk Nk Ex. set (M := map (fun i => map (fun j => a i j) (seq 0 n)) (seq 0 n) : list (list R)).
  assert (LM : List.length M = n) by (unfold M; now rewrite map_length, seq_length).
  destruct (Ex M LM) as (E & _).
  { intros i j Hi Hj. unfold M, entry. now rewrite nth_map_seq, nth_map_seq by assumption. }
  destruct (E (map (fun j => if (j =? k)%nat then 1 else 0) (seq 0 n))) as (dx & _ & _ & S); [now rewrite map_length, seq_length|].
  apply Nk. transitivity (sum n (fun i => y i * sum n (fun j => a i j * nth j dx 0))).
  - rewrite (sum_one n k); [|exact Hk|].
    + rewrite (S k Hk), nth_map_seq, Nat.eqb_refl by exact Hk. ring.
    + intros i Hi N. rewrite (S i Hi), nth_map_seq by exact Hi. apply Nat.eqb_neq in N. rewrite N. ring.
  - transitivity (sum n (fun i => sum n (fun j => y i * (a i j * nth j dx 0)))); [apply sum_ext; intros; now rewrite sum_scal|].
    rewrite sum_exchange. apply sum_0. intros j Hj. transitivity (nth j dx 0 * sum n (fun i => a j i * y i)); [|rewrite (K j Hj); ring].
    rewrite <- sum_scal. apply sum_ext. intros i _. rewrite (Sy i j). ring.
Qed.
Lemma solver_iff m n J lam : 0 <= lam -> ((exists be, exact_solver be n (damped_gram m J lam)) <-> independent m n J \/ (0 < lam /\ nonzero_columns m n J)).
Proof.
  intros Hl. split; [|intros H; exists elimination_backend; now apply gram_backend]. intros (be & Ex). apply NNPP. intros N.
  assert (Sg : forall i j, damped_gram m J lam i j = damped_gram m J lam j i) by (intros; apply gram_sym).
  assert (NI : ~ independent m n J) by tauto.
  destruct (Rle_lt_or_eq_dec 0 lam Hl) as [L|L].
  - assert (NC : ~ nonzero_columns m n J) by tauto. unfold nonzero_columns in NC. apply not_all_ex_not in NC. destruct NC as (k & NC). apply imply_to_and in NC. destruct NC as (Hk & NC).
    assert (Z : forall i, (i < m)%nat -> entry J i k = 0) by (intros i Hi; apply NNPP; intros Ne; apply NC; now exists i).
    apply (kernel_unsolvable be n (damped_gram m J lam) (fun j => if (j =? k)%nat then 1 else 0) k); [exact Sg| |exact Hk|rewrite Nat.eqb_refl; lra|exact Ex].
    intros i Hi. rewrite (sum_one n k); [|exact Hk|intros j _ Nj; apply Nat.eqb_neq in Nj; rewrite Nj; ring]. unfold damped_gram.
    rewrite (sum_0 m (fun i0 => entry J i0 i * entry J i0 k)) by (intros j Hj; rewrite (Z j Hj); ring). destruct (i =? k)%nat; ring.
  - subst lam. unfold independent in NI. apply not_all_ex_not in NI. destruct NI as (y & NI). apply imply_to_and in NI. destruct NI as (Ky & NI).
    apply not_all_ex_not in NI. destruct NI as (k & NI). apply imply_to_and in NI. destruct NI as (Hk & Nk).
    apply (kernel_unsolvable be n (damped_gram m J 0) y k); [exact Sg| |exact Hk|exact Nk|exact Ex].
    intros i Hi. transitivity (sum n (fun j => sum m (fun l => entry J l i * (entry J l j * y j)))).
    + apply sum_ext. intros j _. rewrite gram_0, <- sum_scal_r. apply sum_ext. intros. ring.
    + rewrite sum_exchange. apply sum_0. intros l Hl'. rewrite sum_scal, (Ky l Hl'). ring.
Qed.

(** *** Runs *)
Lemma any_minimiser A b n : exists z, minimiser n (fun y => sum_squares (affine_res A b y)) z.
Proof. destruct (least_exists A b n) as (z & N). exists z. split; [apply N|]. intros y L. exact (normal_least A b n z y N L). Qed.
Section Run.
Context {U : Type}.
Variable P : Problem REAL U (list R).
Variables (phi : R -> R) (A : list (list R)) (b : list R) (n : nat).
Notation F := (fun y => sum_squares (affine_res A b y)).
Hypothesis Hphi : cost_scale phi.
Hypothesis HP : affine_problem_as phi P A b n.
Hypothesis HE : affine_eval_as phi P A b n.
Hypothesis HC : nonzero_columns (List.length A) n A.
Hypothesis HS : damped_settings P A n.
Lemma settings_fit : fits False (damping_init (p_options P)) /\ forall l, fits False l -> exact_solver (p_backend P) n (damped_gram (List.length A) A l).
Proof. destruct HS as (Ex & _ & _ & _ & _ & _ & HD & H0). split; [split; [apply HD|now right]|]. intros l (_ & [[]|Hl]). now apply Ex. Qed.
Lemma any_run fuel u x max_iters mu z : List.length x = n -> F x < @nmax REAL F64 -> (0 < allowed_iters (p_options P) max_iters <= 65535)%Z ->
  range_bound A n mu -> minimiser n F z ->
  exists u' s' x' out, run P LevenbergMarquardt (S fuel) u (fresh P LevenbergMarquardt) x max_iters = Ret (u', s', x', out) /\
    List.length x' = n /\ (0 < num_iters out <= allowed_iters (p_options P) max_iters)%Z /\
    F x' - F z <= rate mu (Rmax (damping_init (p_options P)) (damping_hi (p_options P))) ^ Z.to_nat (num_iters out) * (F x - F z) /\
    (num_failures out = 0%Z \/ minimiser n F x').
Proof.
  intros Lx Fx HA Hmu (Lz & Mz). destruct settings_fit as (HI & Ex). destruct HS as (_ & _ & B3 & B4 & B5 & B6 & HD & _).
  destruct (lm_any_const P phi A b n Hphi HP HE HC False (False_ind _) HI Ex B3 B4 B5 B6 HD fuel u x max_iters mu z Lx Fx HA Hmu Lz Mz) as (u' & s' & x' & out & E & L & I & G & N).
  exists u', s', x', out. split; [exact E|]. split; [exact L|]. split; [exact I|]. split; [exact G|]. destruct N as [N|N]; [now left|right]. split; [exact L|]. intros y Ly. exact (normal_least A b n x' y N Ly).
Qed.
Lemma any_good fuel u x max_iters mu z : List.length x = n -> F x < @nmax REAL F64 -> (0 < allowed_iters (p_options P) max_iters <= 65535)%Z ->
  use_step_quality_approx (p_options P) = false -> 0 <= good_factor (p_options P) -> range_bound A n mu -> minimiser n F z ->
  exists u' s' x' out, run P LevenbergMarquardt (S fuel) u (fresh P LevenbergMarquardt) x max_iters = Ret (u', s', x', out) /\
    F x' - F z <= product (Z.to_nat (num_iters out)) (fun i => rate mu (good_dampings (p_options P) i)) * (F x - F z).
Proof.
  intros Lx Fx HA Hq Hg Hmu (Lz & Mz). destruct settings_fit as (HI & Ex). destruct HS as (_ & _ & B3 & B4 & B5 & B6 & HD & _).
  exact (lm_any_good P phi A b n Hphi HP HE HC False (False_ind _) HI Ex B3 B4 B5 B6 HD fuel u x max_iters mu z Lx Fx HA Hq Hg Hmu Lz Mz).
Qed.
End Run.
Lemma any_converges phi A b n x L eps : cost_scale phi -> nonzero_columns (List.length A) n A -> List.length x = n ->
  sum_squares (affine_res A b x) < @nmax REAL F64 -> 0 < eps ->
  exists K, forall U (P : Problem REAL U (list R)), affine_problem_as phi P A b n -> affine_eval_as phi P A b n -> damped_settings P A n ->
  damping_init (p_options P) <= L -> damping_hi (p_options P) <= L ->
  forall fuel u max_iters, (0 < allowed_iters (p_options P) max_iters <= 65535)%Z ->
  exists u' s' x' out, run P LevenbergMarquardt (S fuel) u (fresh P LevenbergMarquardt) x max_iters = Ret (u', s', x', out) /\
    ((K <= num_iters out)%Z -> exists z, minimiser n (fun y => sum_squares (affine_res A b y)) z /\ forall k, (k < n)%nat -> Rabs (nth k x' 0 - nth k z 0) <= eps).
Proof.
  intros Hphi HC Lx Fx He. destruct (lm_any_converges_as phi A b n x L eps Hphi HC Lx Fx He) as (K & HK). exists K.
  intros U P HP HE (Ex & _ & B3 & B4 & B5 & B6 & HD & H0) L1 L2 fuel u mi HA.
  destruct (HK U P HP HE Ex B3 B4 B5 B6 HD (conj H0 L1) L2 fuel u mi HA) as (u' & s' & x' & out & E & C). exists u', s', x', out. split; [exact E|].
  intros H. destruct (C H) as (z & Lz & Mz & D). exists z. split; [now split|exact D].
Qed.

(** *** Automatic differentiation *)
Lemma minimiser_ext n F G z : (forall y, List.length y = n -> F y = G y) -> minimiser n F z -> minimiser n G z.
Proof. intros E (L & M). split; [exact L|]. intros y Ly. rewrite <- !E by assumption. now apply M. Qed.
Section Auto.
Variables (t : ty) (f : user_fun) (x0 : val R) (A : list (list R)) (b : list R).
Notation n := (List.length (flatten x0)).
Hypothesis HG : good_params t x0.
Hypothesis HD : differentiable t f n.
Hypothesis HF : affine_fun f A b n.
Hypothesis Hn : (0 < n)%nat.
Hypothesis HC : nonzero_columns (List.length A) n A.
Lemma auto_any {U} (P : Problem REAL U (val R)) fuel u max_iters mu z : autodiff_problem t f x0 P -> damped_settings P A n ->
  sum_sq f (flatten x0) < @nmax REAL F64 -> (0 < allowed_iters (p_options P) max_iters <= 65535)%Z -> range_bound A n mu -> minimiser n (sum_sq f) z ->
  exists u' s' x' out, run P LevenbergMarquardt (S fuel) u (fresh P LevenbergMarquardt) x0 max_iters = Ret (u', s', x', out) /\
    has_type t x' /\ same_shape x0 x' /\
    sum_sq f (flatten x') - sum_sq f z <= rate mu (Rmax (damping_init (p_options P)) (damping_hi (p_options P))) ^ Z.to_nat (num_iters out) * (sum_sq f (flatten x0) - sum_sq f z).
Proof.
  intros HA HS H1 H2 Hmu Mz. pose proof (minimiser_ext n _ (fun y => sum_squares (affine_res A b y)) z (fun y Ly => sum_sq_affine f x0 A b HF y Ly) Mz) as Mz'. pose proof (proj1 Mz) as Lz.
  rewrite (sum_sq_affine f x0 A b HF _ eq_refl) in *. rewrite (sum_sq_affine f x0 A b HF z Lz) in *.
  destruct (any_run (Q x0 P) (fun v => v) A b n scale_id (Q_affine t f x0 P HG HA HD A b HF Hn) (Q_eval t f x0 P HG HA HD A b HF) HC HS fuel u (flatten x0) max_iters mu z eq_refl H1 H2 Hmu Mz') as (u' & s' & X' & out & E & L & _ & G & _).
  pose proof HS as (_ & B2 & _).
  pose proof (same_run P (Q x0 P) LevenbergMarquardt (stored t x0) (same_Q x0 P) (same_par t f x0 P HG HA HD LevenbergMarquardt ltac:(discriminate)) B2 (S fuel) u x0 (flatten x0) max_iters (start t x0 HG)) as K.
  rewrite E in K. destruct (run P LevenbergMarquardt (S fuel) u (fresh P LevenbergMarquardt) x0 max_iters) as [(((u1 & s1) & x1) & o1)| |]; [|contradiction|contradiction].
  destruct K as (_ & (K1 & K2 & K3) & ->). exists u1, s1, x1, out. rewrite K3, (sum_sq_affine f x0 A b HF X' L). split; [reflexivity|]. split; [exact K1|]. split; [exact K2|]. exact G.
Qed.
Lemma auto_any_converges L eps : sum_sq f (flatten x0) < @nmax REAL F64 -> 0 < eps ->
  exists K, forall U (P : Problem REAL U (val R)), autodiff_problem t f x0 P -> damped_settings P A n ->
  damping_init (p_options P) <= L -> damping_hi (p_options P) <= L ->
  forall fuel u max_iters, (0 < allowed_iters (p_options P) max_iters <= 65535)%Z ->
  exists u' s' x' out, run P LevenbergMarquardt (S fuel) u (fresh P LevenbergMarquardt) x0 max_iters = Ret (u', s', x', out) /\
    has_type t x' /\ same_shape x0 x' /\
    ((K <= num_iters out)%Z -> exists z, minimiser n (sum_sq f) z /\ forall k, (k < n)%nat -> Rabs (nth k (flatten x') 0 - nth k z 0) <= eps).
Proof.
  intros H1 He. rewrite (sum_sq_affine f x0 A b HF _ eq_refl) in H1.
  destruct (any_converges (fun v => v) A b n (flatten x0) L eps scale_id HC eq_refl H1 He) as (K & HK).
  exists K. intros U P HA HS L1 L2 fuel u mi Hmi.
  destruct (HK U (Q x0 P) (Q_affine t f x0 P HG HA HD A b HF Hn) (Q_eval t f x0 P HG HA HD A b HF) HS L1 L2 fuel u mi Hmi) as (u' & s' & X' & out & E & C).
  pose proof HS as (_ & B2 & _).
  pose proof (same_run P (Q x0 P) LevenbergMarquardt (stored t x0) (same_Q x0 P) (same_par t f x0 P HG HA HD LevenbergMarquardt ltac:(discriminate)) B2 (S fuel) u x0 (flatten x0) mi (start t x0 HG)) as Ks.
  rewrite E in Ks. destruct (run P LevenbergMarquardt (S fuel) u (fresh P LevenbergMarquardt) x0 mi) as [(((u1 & s1) & x1) & o1)| |]; [|contradiction|contradiction].
  destruct Ks as (_ & (K1 & K2 & K3) & ->). exists u1, s1, x1, out. rewrite K3. split; [reflexivity|]. split; [exact K1|]. split; [exact K2|].
  intros H. destruct (C H) as (z & Mz & D). exists z. split; [|exact D]. revert Mz. apply minimiser_ext. intros y Ly. symmetry. now apply sum_sq_affine with (x0 := x0).
Qed.
End Auto.
Lemma optimize_auto_any {U} t f x0 (problem : bool -> Source -> Problem REAL U (val R)) fn A b fuel u mu z :
  let P := problem false (AutoDiff true) in let n := List.length (flatten x0) in
  on_x fn <> None -> on_jets fn = true -> on_g fn = false ->
  good_params t x0 -> autodiff_problem t f x0 P -> differentiable t f n -> affine_fun f A b n -> (0 < n)%nat ->
  nonzero_columns (List.length A) n A -> damped_settings P A n -> sum_sq f (flatten x0) < @nmax REAL F64 ->
  (0 < allowed_iters (p_options P) (-1) <= 65535)%Z -> range_bound A n mu -> minimiser n (sum_sq f) z ->
  exists u' x' out, Optimize problem (Some LevenbergMarquardt) fn (S fuel) u x0 = Ret (Done (u', x', out)) /\
    has_type t x' /\ same_shape x0 x' /\
    sum_sq f (flatten x') - sum_sq f z <= rate mu (Rmax (damping_init (p_options P)) (damping_hi (p_options P))) ^ Z.to_nat (num_iters out) * (sum_sq f (flatten x0) - sum_sq f z).
Proof.
  intros P n F1 F2 F3 H1 H2 H3 H4 H5 H6 H7 H8 H9 H10 H11.
  destruct (auto_any t f x0 A b H1 H3 H4 H5 H6 P fuel u (-1) mu z H2 H7 H8 H9 H10 H11) as (u' & s' & x' & out & E & K).
  exists u', x', out. split; [|exact K]. rewrite optimize_auto by (congruence || assumption). unfold solves. fold P. now rewrite E.
Qed.

(** *** Numerical differentiation *)
Section Num.
Variables (t : ty) (f : val R -> residuals R) (method : Method) (h : R) (x0 : val R) (r : list R -> list R) (m : nat) (A : list (list R)) (b : list R).
Notation n := (List.length (flatten x0)).
Notation F := (fun y => sum_squares (r y)).
Hypothesis HG : good_params t x0.
Hypothesis HR : residual_column x0 f r m.
Hypothesis Hh : h <> 0.
Hypothesis HF : affine_values r A b n.
Hypothesis HA : List.length A = m.
Hypothesis Hn : (0 < n)%nat.
Hypothesis HC : nonzero_columns m n A.
Lemma values_sq y : List.length y = n -> F y = sum_squares (affine_res A b y).
Proof. intros L. cbv beta. now rewrite (HF y L). Qed.
Lemma num_any {U} (P : Problem REAL U (val R)) fuel u max_iters mu z : numdiff_problem t f method h P -> damped_settings P A n ->
  F (flatten x0) < @nmax REAL F64 -> (0 < allowed_iters (p_options P) max_iters <= 65535)%Z -> range_bound A n mu -> minimiser n F z ->
  exists u' s' x' out, run P LevenbergMarquardt (S fuel) u (fresh P LevenbergMarquardt) x0 max_iters = Ret (u', s', x', out) /\
    has_type t x' /\ same_shape x0 x' /\
    F (flatten x') - F z <= rate mu (Rmax (damping_init (p_options P)) (damping_hi (p_options P))) ^ Z.to_nat (num_iters out) * (F (flatten x0) - F z).
Proof.
  cbv beta. intros HN HS H1 H2 Hmu Mz. pose proof (minimiser_ext n _ (fun y => sum_squares (affine_res A b y)) z values_sq Mz) as Mz'. pose proof (proj1 Mz) as Lz.
  rewrite (HF _ eq_refl) in *. rewrite (HF z Lz) in *. pose proof HC as HC'. rewrite <- HA in HC'.
  destruct (any_run (V x0 P) sqrt A b n scale_sqrt (V_affine t f method h x0 P r m HG HN HR A b Hh HF HA Hn) (V_eval t f method h x0 P r m HG HN HR A b HF HA) HC' HS fuel u (flatten x0) max_iters mu z eq_refl H1 H2 Hmu Mz') as (u' & s' & X' & out & E & L & _ & G & _).
  pose proof HS as (_ & B2 & _).
  pose proof (same_run P (V x0 P) LevenbergMarquardt (kept_as t x0) (same_V x0 P) (same_num t f method h x0 P r m HG HN HR LevenbergMarquardt ltac:(discriminate)) B2 (S fuel) u x0 (flatten x0) max_iters (keep_start t x0 HG)) as K.
  rewrite E in K. destruct (run P LevenbergMarquardt (S fuel) u (fresh P LevenbergMarquardt) x0 max_iters) as [(((u1 & s1) & x1) & o1)| |]; [|contradiction|contradiction].
  destruct K as (_ & (K1 & K2 & K3) & ->). exists u1, s1, x1, out. rewrite K3, (HF X' L). split; [reflexivity|]. split; [exact K1|]. split; [exact K2|]. exact G.
Qed.
Lemma num_any_converges L eps : F (flatten x0) < @nmax REAL F64 -> 0 < eps ->
  exists K, forall U (P : Problem REAL U (val R)), numdiff_problem t f method h P -> damped_settings P A n ->
  damping_init (p_options P) <= L -> damping_hi (p_options P) <= L ->
  forall fuel u max_iters, (0 < allowed_iters (p_options P) max_iters <= 65535)%Z ->
  exists u' s' x' out, run P LevenbergMarquardt (S fuel) u (fresh P LevenbergMarquardt) x0 max_iters = Ret (u', s', x', out) /\
    has_type t x' /\ same_shape x0 x' /\
    ((K <= num_iters out)%Z -> exists z, minimiser n F z /\ forall k, (k < n)%nat -> Rabs (nth k (flatten x') 0 - nth k z 0) <= eps).
Proof.
  cbv beta. intros H1 He. rewrite (HF _ eq_refl) in H1. pose proof HC as HC'. rewrite <- HA in HC'.
  destruct (any_converges sqrt A b n (flatten x0) L eps scale_sqrt HC' eq_refl H1 He) as (K & HK).
  exists K. intros U P HN HS L1 L2 fuel u mi Hmi.
  destruct (HK U (V x0 P) (V_affine t f method h x0 P r m HG HN HR A b Hh HF HA Hn) (V_eval t f method h x0 P r m HG HN HR A b HF HA) HS L1 L2 fuel u mi Hmi) as (u' & s' & X' & out & E & C).
  pose proof HS as (_ & B2 & _).
  pose proof (same_run P (V x0 P) LevenbergMarquardt (kept_as t x0) (same_V x0 P) (same_num t f method h x0 P r m HG HN HR LevenbergMarquardt ltac:(discriminate)) B2 (S fuel) u x0 (flatten x0) mi (keep_start t x0 HG)) as Ks.
  rewrite E in Ks. destruct (run P LevenbergMarquardt (S fuel) u (fresh P LevenbergMarquardt) x0 mi) as [(((u1 & s1) & x1) & o1)| |]; [|contradiction|contradiction].
  destruct Ks as (_ & (K1 & K2 & K3) & ->). exists u1, s1, x1, out. rewrite K3. split; [reflexivity|]. split; [exact K1|]. split; [exact K2|].
  intros H. destruct (C H) as (z & Mz & D). exists z. split; [|exact D]. revert Mz. apply minimiser_ext. intros y Ly. symmetry. now apply values_sq.
Qed.
End Num.
Lemma optimize_num_any {U} t f method h x0 (problem : bool -> Source -> Problem REAL U (val R)) fn r m A b fuel u mu z :
  let P := problem false NumDiff2 in let n := List.length (flatten x0) in
  on_x fn <> None -> on_jets fn = false -> on_g fn = false ->
  good_params t x0 -> numdiff_problem t f method h P -> residual_column x0 f r m -> h <> 0 -> affine_values r A b n -> List.length A = m -> (0 < n)%nat ->
  nonzero_columns m n A -> damped_settings P A n -> sum_squares (r (flatten x0)) < @nmax REAL F64 ->
  (0 < allowed_iters (p_options P) (-1) <= 65535)%Z -> range_bound A n mu -> minimiser n (fun y => sum_squares (r y)) z ->
  exists u' x' out, Optimize problem (Some LevenbergMarquardt) fn (S fuel) u x0 = Ret (Done (u', x', out)) /\
    has_type t x' /\ same_shape x0 x' /\
    sum_squares (r (flatten x')) - sum_squares (r z) <=
      rate mu (Rmax (damping_init (p_options P)) (damping_hi (p_options P))) ^ Z.to_nat (num_iters out) * (sum_squares (r (flatten x0)) - sum_squares (r z)).
Proof.
  intros P n F1 F2 F3 H1 H2 H3 H4 H5 H6 H7 H8 H9 H10 H11 H12 H13.
  destruct (num_any t f method h x0 r m A b H1 H3 H4 H5 H6 H7 H8 P fuel u (-1) mu z H2 H9 H10 H11 H12 H13) as (u' & s' & x' & out & E & K).
  exists u', x', out. split; [|exact K]. rewrite optimize_num by (congruence || assumption). unfold solves. fold P. now rewrite E.
Qed.
