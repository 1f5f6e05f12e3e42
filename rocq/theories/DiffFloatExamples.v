(** Examples for numerical differentiation in floating point. *)
From Coq Require Import ZArith List Bool Reals Floats.SpecFloat Lia Lra.
From Flocq Require Import Core.
From Coquelicot Require Import Coquelicot.
From Verif Require Import BaseModel NumModel NumSpec CostModel StopModel OptionsModel SolverModel OptimizerModel RunModel IeeeProofs RoundProofs
  TraitsModel TraitsSpec JetSpec JetProofs RollSpec DiffModel DiffSpec DiffProofs DiffRealSpec DiffFloatSpec DiffFloatProofs DiffFloatErrorProofs DiffFloatRunProofs.
Import ListNotations.
Open Scope R_scope.

(** Two floats in a fixed-size vector. *)
Definition fl_ty : ty := TMat (Some 2%nat) (Some 1%nat).
Definition fl_vec (a b : IEEE) : val IEEE := VMat 2 1 [a; b].
Definition fl_h : IEEE := FloatEpsilon F32.
Lemma fl_good a b : good_params fl_ty (fl_vec a b).
Proof. repeat split; try reflexivity; vm_compute; intuition congruence. Qed.
Lemma fl_h_number : number_of F32 fl_h.
Proof. split; reflexivity. Qed.
Lemma fl_h_value : toR fl_h = 13743895 / 137438953472.
Proof. unfold fl_h. replace (FloatEpsilon F32 : IEEE) with (S754_finite false 13743895 (-37)) by reflexivity. unfold toR, F2R. cbn. lra. Qed.

(** *** Small parameters: the two scalars are exchanged. *)
Definition fl_x : val IEEE := fl_vec (nofZ F32 1) (nofZ F32 2).
Definition fl_swap (y : val IEEE) : residuals IEEE := match y with VMat 2 1 [a; b] => RMat 2 1 [b; a] | _ => RMat 2 1 [nzero F32; nzero F32] end.
Definition fl_Swap (y : list R) : list R := [nth 1 y 0; nth 0 y 0].
Lemma fl_swap_returns method : returns method fl_swap 2.
Proof.
  intros y. unfold fl_swap. split.
  - destruct y as [a|[|[|[|r]]] [|[|c]] [|a [|b [|d l]]]|l|v w]; reflexivity.
  - intros _. destruct y as [a|[|[|[|r]]] [|[|c]] [|a [|b [|d l]]]|l|v w]; reflexivity.
Qed.
Lemma fl_swap_within method h : computes_within F32 method h fl_x fl_swap fl_Swap 2 0.
Proof.
  intros y (Hs & Hn & _) i Hi. destruct y as [a|r c l|l|v w]; cbn in Hs; try contradiction. destruct Hs as (<- & <- & Hl). destruct l as [|a [|b [|d l]]]; cbn in Hl; try discriminate Hl.
  cbn [flatten] in Hn. inversion Hn as [|? ? Na Hn']. inversion Hn' as [|? ? Nb _]. subst. destruct i as [|[|i]]; [| |lia]; cbn; (split; [assumption|]); rewrite Rminus_diag_eq, Rabs_R0 by reflexivity; lra.
Qed.
Lemma fl_numbers : List.Forall (number_of F32) (flatten fl_x).
Proof. repeat constructor. Qed.
Lemma fl_values : map toR (flatten fl_x) = [1; 2].
Proof. unfold fl_x, fl_vec. cbn [flatten map]. f_equal; [|f_equal]; vm_compute; lra. Qed.
Lemma fl_range : Rabs 2 + 2 * toR fl_h <= powerRZ 2 (emax_of F32 - 2).
Proof.
  rewrite fl_h_value, Rabs_pos_eq by lra. apply Rle_trans with (2 ^ 2); [lra|]. change (emax_of F32 - 2)%Z with (Z.of_nat 126). rewrite <- pow_powerRZ.
  apply Rle_pow; [lra|lia].
Qed.
(** Residual 0 is the second parameter. *)
Lemma fl_smooth method c h s : smooth_along method c h s (along fl_Swap 0 [1; 2] 1) (fun _ => 1) 1 0.
Proof.
  assert (D : forall lo hi, derivative_on lo hi (along fl_Swap 0 [1; 2] 1) (fun _ => 1)).
  { intros lo hi y _. unfold along, fl_Swap. cbn. apply (is_derive_id (K := R_AbsRing)). }
  assert (D0 : forall lo hi, derivative_on lo hi (fun _ => 1) (fun _ => 0)) by (intros lo hi y _; apply (is_derive_const (K := R_AbsRing) (V := R_NormedModule))).
  assert (D1 : forall lo hi, derivative_on lo hi (fun _ => 0) (fun _ => 0)) by (intros lo hi y _; apply (is_derive_const (K := R_AbsRing) (V := R_NormedModule))).
  split; [apply D|]. split; [intros; rewrite Rabs_R1; lra|]. destruct method.
  - exists (fun _ => 0). split; [apply D0|]. intros; rewrite Rabs_R0; lra.
  - exists (fun _ => 0), (fun _ => 0). split; [apply D0|]. split; [apply D1|]. intros; rewrite Rabs_R0; lra.
  - exists (fun _ => 0), (fun _ => 0). split; [apply D0|]. split; [apply D1|]. intros; rewrite Rabs_R0; lra.
Qed.

(** *** Large parameters: the residuals are x - (3, 4). *)
Definition fb_x : val IEEE := fl_vec (nofZ F32 9000) (nofZ F32 (-8192)).
Definition fb_f (y : val IEEE) : residuals IEEE :=
  match y with VMat 2 1 [a; b] => RMat 2 1 [nsub F32 a (nofZ F32 3); nsub F32 b (nofZ F32 4)] | _ => RMat 2 1 [nzero F32; nzero F32] end.
Lemma fb_returns method : returns method fb_f 2.
Proof.
  intros y. unfold fb_f. split.
  - destruct y as [a|[|[|[|r]]] [|[|c]] [|a [|b [|d l]]]|l|v w]; reflexivity.
  - intros _. destruct y as [a|[|[|[|r]]] [|[|c]] [|a [|b [|d l]]]|l|v w]; reflexivity.
Qed.
Lemma fb_numbers : List.Forall (fun c => number_of F32 c /\ c <> S754_zero true) (flatten fb_x).
Proof. repeat constructor; discriminate. Qed.
Lemma fb_finite : List.Forall (number_of F32) (coefs_of (fb_f fb_x)).
Proof. repeat constructor. Qed.
Lemma fb_absorbed method : List.Forall (fun c => absorbed F32 (toR c) (largest_step method (toR fl_h))) (flatten fb_x).
Proof.
  assert (B : forall x : R, 8192 <= Rabs x -> absorbed F32 x (largest_step method (toR fl_h))).
  { intros x Hx. exists 13%Z. rewrite fl_h_value. change (powerRZ 2 13) with (2 ^ 13). change (Z.to_nat (prec_of F32 + 1)) with 25%nat.
    replace (2 ^ 13) with 8192 by ring. replace (2 ^ 25) with 33554432 by ring. split; [|exact Hx]. destruct method; cbn [largest_step]; rewrite Rabs_pos_eq; lra. }
  assert (V1 : toR (@nofZ IEEE F32 9000) = 9000) by (vm_compute; lra). assert (V2 : toR (@nofZ IEEE F32 (-8192)) = -8192) by (vm_compute; lra).
  unfold fb_x, fl_vec. cbn [flatten]. constructor; [|constructor; [|constructor]]; apply B.
  - rewrite V1, Rabs_pos_eq; lra.
  - rewrite V2, Rabs_left; lra.
Qed.

Definition fb_dot (u v : list IEEE) : IEEE := fold_right (fun p s => nadd F32 (nmul F32 (fst p) (snd p)) s) (nzero F32) (combine u v).
Definition fb_norm (v : list IEEE) : IEEE := nsqrt F32 (fb_dot v v).
(** A solver of zero systems. *)
Definition fb_zero (z : IEEE) : bool := neqb z (nzero F32).
Definition fb_backend : Backend IEEE := {|
  be_ldlt := fun M b => if forallb (forallb fb_zero) M && forallb fb_zero b then Some (map (fun _ => nzero F32) b) else None;
  be_neg_inv_mul := fun _ g => g; be_sqnorm := fun v => fb_dot v v; be_pow3 := fun y => nmul F32 y (nmul F32 y y) |}.
Definition fb_problem (method : Method) : Problem IEEE (list (val IEEE)) (val IEEE) := {|
  p_scalar := F32; p_dims := Some 2%Z; p_sparse := false; p_options := default_options; p_backend := fb_backend;
  p_x_dims := fun _ => 2%Z; p_oom := fun _ _ => false;
  p_acc := {| acc_full := fun u x g H => match NumDiffFunc2 F32 fl_ty fb_dot fb_norm (logged fb_f) method fl_h x u with Ret r => r | _ => (u, Cost_default, g, H) end;
              acc_eval := fun u x => NumDiffEval fb_norm (logged fb_f) x u |};
  p_acc1 := fun u x g => match NumDiffFunc1 F32 fl_ty fb_dot fb_norm (logged fb_f) method fl_h x u with Ret r => r | _ => (u, Cost_default, g) end;
  p_plus := fun x d => match PlusEq (nadd F32) fl_ty x d with Ret x' => x' | _ => x end;
  p_toc := fun u => (u, nzero F64) |}.
Lemma fb_numerical method : numerical (fb_problem method) fl_ty fb_dot fb_norm fb_f method fl_h.
Proof.
  split; [|split].
  - intros u x g u' c g' E. cbn [fb_problem p_acc1 p_scalar] in *. rewrite E. reflexivity.
  - intros u x g H u' c g' H' E. cbn [fb_problem p_acc acc_full p_scalar] in *. rewrite E. reflexivity.
  - intros x d x' E. cbn [fb_problem p_plus p_scalar] in *. rewrite E. reflexivity.
Qed.
Lemma add_null T (a b : IEEE) : is_null a -> is_null b -> is_null (nadd T a b).
Proof. intros (s & ->) (s' & ->). destruct s, s'; eexists; reflexivity. Qed.
Lemma fb_dot_null (u v : list IEEE) : all_null u -> List.Forall (fun c => is_fin c = true) v -> is_null (fb_dot u v).
Proof.
  unfold fb_dot. revert v. induction u as [|a u IH]; intros [|b v] Hu Hv; try (now exists false). cbn [combine fold_right fst snd].
  inversion Hu as [|? ? Ha Hu']. inversion Hv as [|? ? Hb Hv']. subst. apply add_null; [exact (proj1 (null_mul F32 a b Ha Hb))|apply (IH v Hu' Hv')].
Qed.
Lemma fb_zeros (v : list IEEE) : all_null v -> forallb fb_zero v = true.
Proof. intros H. apply forallb_forall. unfold all_null in H. rewrite Forall_forall in H. intros z Hz. destruct (H z Hz) as (s & ->). reflexivity. Qed.
Lemma fb_sums n : null_sums F32 n fb_backend fb_dot.
Proof.
  split; [|split].
  - intros M b (LM & HM) (Lb & Hb). cbn [be_ldlt fb_backend]. rewrite (fb_zeros b Hb), andb_true_r.
    replace (forallb (forallb fb_zero) M) with true.
    + eexists. split; [reflexivity|]. split; [now rewrite map_length|]. apply Forall_forall. intros z Hz. apply in_map_iff in Hz. destruct Hz as (? & <- & _). now exists false.
    + symmetry. apply forallb_forall. intros r Hr. rewrite Forall_forall in HM. apply fb_zeros, HM, Hr.
  - intros v Hv. apply fb_dot_null; [exact Hv|]. unfold all_null in Hv. rewrite Forall_forall in *. intros z Hz. now apply null_fin, Hv.
  - intros u v Hu Hv. apply fb_dot_null; [exact Hu|]. rewrite Forall_forall in *. intros z Hz. apply Hv, Hz.
Qed.
Lemma fb_plain : @plain_options (list (val IEEE)) F32 default_options.
Proof. repeat split. Qed.
Lemma fb_usable : @usable_cost (list (val IEEE)) default_options fb_norm (fb_f fb_x).
Proof. split; vm_compute; reflexivity. Qed.
Lemma fb_dimensioned method : dimensioned (fb_problem method) fb_x (List.length (flatten fb_x)).
Proof. split; [cbn; lia|]. split; [reflexivity|]. split; [now right|]. reflexivity. Qed.
Lemma fl_positive : 0 < toR fl_h.
Proof. rewrite fl_h_value. lra. Qed.

(** The default options, any of the three solvers and methods: the optimization of |x - (3, 4)|
    from (9000, -8192) is said to have converged there. *)
Lemma fb_run method k fuel log max_iters : (0 < fuel)%nat -> (0 <= max_iters <= 2147483644)%Z ->
  exists log' s' out, run (fb_problem method) k fuel log (fresh (fb_problem method) k) fb_x max_iters = Ret (log', s', fb_x, out) /\
    Converged out = true /\ num_iters out = 1%Z.
Proof.
  intros Hf HM. destruct (run_lost (fb_problem method) fl_ty fb_dot fb_norm fb_f method fl_h fb_x 2 (fl_good _ _) (fb_returns kForward) (fb_dimensioned method)
    (fb_numerical method) (fb_sums _) fb_plain ltac:(repeat constructor) fb_finite fb_usable fl_h_number fl_positive (fb_absorbed method) k fuel log max_iters Hf HM)
    as (log' & s' & out & E & _ & Ec & Ei & _). exists log', s', out. split; [exact E|]. split; [exact Ec|exact Ei].
Qed.
