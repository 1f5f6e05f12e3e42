(** Jets compute values and derivatives. *)
From Coq Require Import ZArith List Bool Reals Lra Lia.
From Flocq Require Import Core.Raux.
From Coquelicot Require Import Coquelicot.
From Verif Require Import BaseModel FunModel JetModel SumSpec SumProofs JetSpec DerivProofs.
Import ListNotations.
Open Scope R_scope.

(** *** Vectors *)
Lemma scl_len s w : List.length (scl s w) = List.length w.
Proof. apply map_length. Qed.
Lemma scl_nth s w k : nth k (scl s w) 0 = s * nth k w 0.
Proof.
  unfold scl. destruct (Nat.lt_ge_cases k (List.length w)) as [H|H].
  - rewrite (nth_indep _ 0 (s * 0)) by now rewrite map_length. apply (map_nth (fun x => s * x)).
  - rewrite !nth_overflow; [ring|assumption|now rewrite map_length].
Qed.
Lemma neg_len w : List.length (neg w) = List.length w.
Proof. apply map_length. Qed.
Lemma neg_nth w k : nth k (neg w) 0 = - nth k w 0.
Proof.
  unfold neg. destruct (Nat.lt_ge_cases k (List.length w)) as [H|H].
  - rewrite (nth_indep _ 0 (- 0)) by now rewrite map_length. apply (map_nth Ropp).
  - rewrite !nth_overflow; [ring|assumption|now rewrite map_length].
Qed.
Lemma zip_len f u w : List.length u = List.length w -> List.length (zip f u w) = List.length u.
Proof. revert w; induction u as [|x u IH]; intros [|y w] H; cbn in *; try discriminate; [reflexivity|]. now rewrite IH by lia. Qed.
Lemma zip_nth f u w k : f 0 0 = 0 -> List.length u = List.length w ->
  nth k (zip f u w) 0 = f (nth k u 0) (nth k w 0).
Proof.
  intros F. revert w k; induction u as [|x u IH]; intros [|y w] k H; cbn in *; try discriminate.
  - now destruct k.
  - destruct k; [reflexivity|]. apply IH. lia.
Qed.
Lemma vop_ok f u w : List.length u = List.length w -> vop f u w = Ret (zip f u w).
Proof. intros H. unfold vop. now rewrite H, Nat.eqb_refl. Qed.
Lemma zeros_nth (n k : nat) : nth k (repeat 0 n) 0 = 0.
Proof. revert k; induction n; intros [|k]; cbn; auto. Qed.

(** *** Coordinates *)
Lemma set_nth_len x k t : List.length (set_nth x k t) = List.length x.
Proof. revert k; induction x as [|y x IH]; intros [|k]; cbn; auto. Qed.
Lemma set_nth_id x k : set_nth x k (nth k x 0) = x.
Proof. revert k; induction x as [|y x IH]; intros [|k]; cbn; auto. now rewrite IH. Qed.
Lemma set_nth_same x k t : (k < List.length x)%nat -> nth k (set_nth x k t) 0 = t.
Proof. revert k; induction x as [|y x IH]; intros [|k] H; cbn in *; try lia; auto. apply IH. lia. Qed.
Lemma set_nth_other x k i t : i <> k -> nth i (set_nth x k t) 0 = nth i x 0.
Proof. revert k i; induction x as [|y x IH]; intros [|k] [|i] H; cbn; auto; try congruence. Qed.

Lemma unit_nth n i k : (k < n)%nat -> nth k (unit_vec n i) 0 = if (k =? i)%nat then 1 else 0.
Proof.
  intros H. unfold unit_vec. rewrite (nth_indep _ 0 (if (0 =? i)%nat then 1 else 0)) by now rewrite map_length, seq_length.
  rewrite (map_nth (fun j => if (j =? i)%nat then 1 else 0)). now rewrite seq_nth.
Qed.
Lemma unit_len n i : List.length (unit_vec n i) = n.
Proof. unfold unit_vec. now rewrite map_length, seq_length. Qed.
Lemma seeds_nth x i : (i < List.length x)%nat ->
  nth_error (seeds x) i = Some (mkJet (nth i x 0) (unit_vec (List.length x) i)).
Proof.
  intros H. unfold seeds. set (n := List.length x) at 1.
  assert (G : forall y s i, (i < List.length y)%nat ->
    nth_error (map (fun p => mkJet (fst p) (unit_vec n (snd p))) (combine y (seq s (List.length y)))) i
    = Some (mkJet (nth i y 0) (unit_vec n (s + i)))).
  { induction y as [|z y IH]; intros s [|j] Hj; cbn in *; try lia.
    - now rewrite Nat.add_0_r.
    - rewrite IH by lia. now rewrite <- plus_n_Sm. }
  rewrite G by assumption. reflexivity.
Qed.
Lemma seeds_len x : List.length (seeds x) = List.length x.
Proof. unfold seeds. rewrite map_length, combine_length, seq_length. lia. Qed.

(** *** Derivatives and partial derivatives *)
(** A coordinate line is a curve. *)
Lemma line_curve x k : (k < List.length x)%nat -> curve_through x (unit_vec (List.length x) k) (set_nth x k) (nth k x 0).
Proof.
  intros Hk. split; [apply set_nth_id|]. split; [intros; apply set_nth_len|]. intros i Hi. rewrite unit_nth by exact Hi.
  destruct (Nat.eqb_spec i k) as [->|E].
  - apply (is_derive_ext (fun t => t)); [intros t; symmetry; now apply set_nth_same|]. apply (is_derive_id (K := R_AbsRing)).
  - apply (is_derive_ext (fun _ => nth i x 0)); [intros t; symmetry; now apply set_nth_other|].
    apply (is_derive_const (K := R_AbsRing) (V := R_NormedModule)).
Qed.
Lemma derivative_partial F x J k : derivative_of F x J -> (k < List.length x)%nat -> is_partial F x k (nth k J 0).
Proof.
  intros H Hk. unfold is_partial. evar_last; [apply H; now apply line_curve|].
  rewrite (sum_one (List.length x) k); [|exact Hk|].
  - rewrite unit_nth, Nat.eqb_refl by exact Hk. ring.
  - intros i Hi E. rewrite unit_nth by exact Hi. destruct (Nat.eqb_spec i k); [congruence|ring].
Qed.
Lemma derivative_entries F x J J' : derivative_of F x J -> (forall k, (k < List.length x)%nat -> nth k J' 0 = nth k J 0) -> derivative_of F x J'.
Proof.
  intros H E c t0 d C. evar_last; [exact (H c t0 d C)|]. apply sum_ext. intros k Hk. now rewrite E.
Qed.

Section Point.
Variable x : list R.
Let n := List.length x.

(** [j] is the value and the gradient of [f] at [x]. *)
Definition good (f : list R -> R) (j : Jet) : Prop :=
  a j = f x /\ List.length (v j) = n /\ derivative_of f x (v j).

Lemma good_const c : good (fun _ => c) (Jet_const (Some n) c).
Proof.
  split; [reflexivity|]. split; [apply repeat_length|]. intros cv t0 d _. evar_last; [apply @is_derive_const|].
  symmetry. apply sum_0. intros i _. cbn. rewrite zeros_nth. ring.
Qed.
Lemma good_var i : (i < n)%nat -> good (fun y => nth i y 0) (mkJet (nth i x 0) (unit_vec n i)).
Proof.
  intros Hi. split; [reflexivity|]. split; [apply unit_len|]. intros c t0 d (_ & _ & C). evar_last; [exact (C i Hi)|].
  cbn [v]. rewrite (sum_one (List.length x) i).
  - rewrite unit_nth, Nat.eqb_refl by exact Hi. symmetry. apply Rmult_1_l.
  - exact Hi.
  - intros k Hk E. rewrite unit_nth by exact Hk. destruct (Nat.eqb_spec k i); [congruence|ring].
Qed.

Section One.
Variables (f : list R -> R) (j : Jet).
Hypothesis G : good f j.
Lemma good_chain (phi : R -> R) d w : is_derive phi (f x) d -> List.length w = n ->
  (forall k, nth k w 0 = d * nth k (v j) 0) -> good (fun y => phi (f y)) (mkJet (phi (a j)) w).
Proof.
  intros Hd Hl Hw. destruct G as (Ga & Gl & Gv). split; [cbn; now rewrite Ga|]. split; [exact Hl|].
  intros c t0 dv C. pose proof (Gv c t0 dv C) as H. destruct C as (C & _).
  evar_last; [apply (chain (fun t => f (c t))); [exact H|]; cbv beta; rewrite C; exact Hd|].
  cbn [v]. rewrite <- sum_scal. apply sum_ext. intros k _. rewrite Hw. ring.
Qed.
Lemma good_scl (phi : R -> R) d : is_derive phi (f x) d ->
  good (fun y => phi (f y)) (mkJet (phi (a j)) (scl d (v j))).
Proof.
  intros Hd. apply good_chain with d; [exact Hd| |intros k; apply scl_nth]. rewrite scl_len. apply G.
Qed.
Lemma good_ext g h : (forall y, g y = h y) -> good g j -> good h j.
Proof.
  intros E (A & B & C). split; [now rewrite <- E|]. split; [exact B|]. intros c t0 d Hc.
  eapply is_derive_ext; [|exact (C c t0 d Hc)]. intros t. apply E.
Qed.
End One.

Lemma good_eq f j j' : good f j -> j = j' -> good f j'. Proof. now intros ? <-. Qed.

Ltac der := first [apply d_neg|apply d_abs|apply d_ln|apply d_log10|apply d_log1p|apply d_exp|apply d_expm1|apply d_sqrt
  |apply d_cos|apply d_acos|apply d_sin|apply d_asin|apply d_tan|apply d_atan|apply d_sinh|apply d_cosh|apply d_tanh
  |apply d_cbrt|apply d_exp2|apply d_log2|apply d_norm|apply d_pow_s].

Lemma good_un u f j : good f j -> un_smooth u (f x) ->
  exists j', un_jet (Some n) u j = Ret j' /\ good (fun y => un_val u (f y)) j'.
Proof.
  intros G S. pose proof G as (Ga & Gl & _).
  assert (L : forall (phi : R -> R) (d : R) w, is_derive phi (f x) d -> List.length w = n ->
    (forall k, nth k w 0 = d * nth k (v j) 0) -> forall aj : R, aj = phi (f x) :> R -> good (fun y => phi (f y)) (mkJet aj w)).
  { intros phi d w H1 H2 H3 aj ->. rewrite <- Ga. eapply good_chain; eassumption. }
  destruct u; cbn [un_jet un_val]; try (eexists; split; [reflexivity|]); cbn [un_smooth] in S.
  - apply (L Ropp (-1)); [apply d_neg|now rewrite neg_len| |now rewrite Ga]. intros k. rewrite neg_nth. ring.
  - unfold jet_abs. apply (L Rabs (sign1 (f x))); [now apply d_abs|now rewrite scl_len| |now rewrite Ga]. intros k. now rewrite scl_nth, Ga.
  - apply (L ln (1 / f x)); [now apply d_ln|now cbn; rewrite scl_len| |now rewrite Ga]. intros k. now rewrite scl_nth, Ga.
  - apply (L std_log10 (1 / (f x * ln 10))); [now apply d_log10|now cbn; rewrite scl_len| |now rewrite Ga]. intros k. now rewrite scl_nth, Ga.
  - apply (L std_log1p (1 / (1 + f x))); [now apply d_log1p|now cbn; rewrite scl_len| |now rewrite Ga]. intros k. now rewrite scl_nth, Ga.
  - apply (L exp (exp (f x))); [now apply d_exp|now cbn; rewrite scl_len| |now rewrite Ga]. intros k. now rewrite scl_nth, Ga.
  - apply (L std_expm1 (std_expm1 (f x) + 1)); [now apply d_expm1|now cbn; rewrite scl_len| |now rewrite Ga]. intros k. now rewrite scl_nth, Ga.
  - apply (L sqrt (1 / (2 * sqrt (f x)))); [now apply d_sqrt|now cbn; rewrite scl_len| |now rewrite Ga]. intros k. now rewrite scl_nth, Ga.
  - apply (L cos (- sin (f x))); [now apply d_cos|now cbn; rewrite scl_len| |now rewrite Ga]. intros k. now rewrite scl_nth, Ga.
  - apply (L acos (- (1) / sqrt (1 - f x * f x))); [now apply d_acos|now cbn; rewrite scl_len| |now rewrite Ga]. intros k. now rewrite scl_nth, Ga.
  - apply (L sin (cos (f x))); [now apply d_sin|now cbn; rewrite scl_len| |now rewrite Ga]. intros k. now rewrite scl_nth, Ga.
  - apply (L asin (1 / sqrt (1 - f x * f x))); [now apply d_asin|now cbn; rewrite scl_len| |now rewrite Ga]. intros k. now rewrite scl_nth, Ga.
  - apply (L tan (1 + tan (f x) * tan (f x))); [now apply d_tan|now cbn; rewrite scl_len| |now rewrite Ga]. intros k. now rewrite scl_nth, Ga.
  - apply (L atan (1 / (1 + f x * f x))); [now apply d_atan|now cbn; rewrite scl_len| |now rewrite Ga]. intros k. now rewrite scl_nth, Ga.
  - apply (L sinh (cosh (f x))); [now apply d_sinh|now cbn; rewrite scl_len| |now rewrite Ga]. intros k. now rewrite scl_nth, Ga.
  - apply (L cosh (sinh (f x))); [now apply d_cosh|now cbn; rewrite scl_len| |now rewrite Ga]. intros k. now rewrite scl_nth, Ga.
  - apply (L tanh (1 - tanh (f x) * tanh (f x))); [now apply d_tanh|now cbn; rewrite scl_len| |now rewrite Ga]. intros k. now rewrite scl_nth, Ga.
  - apply (L std_floor 0); [now apply d_floor|now cbn; rewrite repeat_length| |now rewrite Ga]. intros k. cbn. rewrite zeros_nth. ring.
  - apply (L std_ceil 0); [now apply d_ceil|now cbn; rewrite repeat_length| |now rewrite Ga]. intros k. cbn. rewrite zeros_nth. ring.
  - apply (L std_cbrt (1 / (3 * std_cbrt (f x * f x)))); [now apply d_cbrt|now cbn; rewrite scl_len| |now rewrite Ga]. intros k. now rewrite scl_nth, Ga.
  - apply (L std_exp2 (std_exp2 (f x) * ln 2)); [now apply d_exp2|now cbn; rewrite scl_len| |now rewrite Ga]. intros k. now rewrite scl_nth, Ga.
  - apply (L std_log2 (1 / (f x * ln 2))); [now apply d_log2|now cbn; rewrite scl_len| |now rewrite Ga]. intros k. now rewrite scl_nth, Ga.
  - apply (L std_erf (1 / sqrt (atan 1) * exp (- f x * f x))); [now apply d_erf|now cbn; rewrite !scl_len| |now rewrite Ga]. intros k. rewrite !scl_nth, Ga. ring.
  - apply (L std_erfc (- (1 / sqrt (atan 1) * exp (- f x * f x)))); [now apply d_erfc|now cbn; rewrite !scl_len, neg_len| |now rewrite Ga]. intros k. rewrite !scl_nth, neg_nth, Ga. ring.
  - apply (L (fun y => y * y) (2 * f x)); [now apply d_norm|now cbn; rewrite scl_len| |now rewrite Ga]. intros k. now rewrite scl_nth, Ga.
  - apply (L (fun y => y + s) 1); [auto_derive; [trivial|ring]|assumption|intros k; ring|now rewrite Ga].
  - apply (L (fun y => s + y) 1); [auto_derive; [trivial|ring]|assumption|intros k; ring|cbv beta; rewrite Ga; ring].
  - apply (L (fun y => y - s) 1); [auto_derive; [trivial|ring]|assumption|intros k; ring|now rewrite Ga].
  - apply (L (fun y => s - y) (-1)); [auto_derive; [trivial|ring]|now rewrite neg_len|intros k; rewrite neg_nth; ring|now rewrite Ga].
  - apply (L (fun y => y * s) s); [auto_derive; [trivial|ring]|now rewrite scl_len|intros k; now rewrite scl_nth|now rewrite Ga].
  - apply (L (fun y => s * y) s); [auto_derive; [trivial|ring]|now rewrite scl_len|intros k; now rewrite scl_nth|cbv beta; rewrite Ga; ring].
  - apply (L (fun y => s / y) (- s / (f x * f x))); [auto_derive; [assumption|now field]|now cbn; rewrite scl_len|intros k; now rewrite scl_nth, Ga|now rewrite Ga].
  - apply (L (fun y => y / s) (1 / s)); [auto_derive; [trivial|now field]|now cbn; rewrite scl_len|intros k; now rewrite scl_nth|cbv beta; rewrite Ga; now field].
  - apply (L (fun y => std_pow y p) (p * std_pow (f x) (p - 1))); [now apply d_pow_s|now cbn; rewrite scl_len|intros k; now rewrite scl_nth, Ga|now rewrite Ga].
  - destruct S as [S|(-> & S)]; unfold jet_s_pow.
    + rewrite Req_bool_false by lra. rewrite (Rlt_bool_false s 0) by lra. cbn [andb]. eexists; split; [reflexivity|].
      apply (L (fun y => std_pow s y) (ln s * std_pow s (f x))); [now apply d_s_pow|now cbn; rewrite scl_len|intros k; now rewrite scl_nth, Ga|now rewrite Ga].
    + rewrite Req_bool_true, Ga, Rlt_bool_true by trivial. cbn [andb]. eexists; split; [reflexivity|].
      apply (L (fun y => std_pow 0 y) 0); [now apply d_0_pow|now cbn; rewrite repeat_length|intros k; cbn; rewrite zeros_nth; ring|].
      unfold std_pow. rewrite Rlt_bool_false, Req_bool_true, Req_bool_false; lra.
Qed.

Ltac lin := cbv beta; first [ring|lra|unfold Rminus; field|match goal with |- context [if ?b then _ else _] => destruct b end; ring|unfold Rminus, Rdiv; ring|unfold Rdiv; ring].
Section Two.
Variables (f g : list R -> R) (j l : Jet).
Hypotheses (Gf : good f j) (Gg : good g l).
(** A two-argument function whose derivative along curves is [D], which is linear. *)
Lemma sum_lin2 (D : R -> R -> R) m u w d : (forall s p q p' q', D (p' + p * s) (q' + q * s) = D p' q' + D p q * s) ->
  D (sum m (fun i => u i * d i)) (sum m (fun i => w i * d i)) = sum m (fun i => D (u i) (w i) * d i).
Proof.
  intros L. assert (Z : D 0 0 = 0). { pose proof (L 1 0 0 0 0) as H. rewrite !Rmult_0_l, !Rplus_0_l, Rmult_1_r in H. lra. }
  induction m as [|m IH]; cbn [sum]; [exact Z|]. now rewrite L, IH.
Qed.
Lemma good_two (phi : R -> R -> R) (D : R -> R -> R) aj w :
  (forall F G t df dg, is_derive F t df -> is_derive G t dg -> F t = f x -> G t = g x ->
     is_derive (fun u => phi (F u) (G u)) t (D df dg)) ->
  (forall s p q p' q', D (p' + p * s) (q' + q * s) = D p' q' + D p q * s) ->
  aj = phi (f x) (g x) -> List.length w = n ->
  (forall k, nth k w 0 = D (nth k (v j) 0) (nth k (v l) 0)) ->
  good (fun y => phi (f y) (g y)) (mkJet aj w).
Proof.
  intros HD LD -> Hl Hw. destruct Gf as (_ & _ & Gv), Gg as (_ & _ & Gv2). split; [reflexivity|]. split; [exact Hl|].
  intros c t0 d C. pose proof (Gv c t0 d C) as H1. pose proof (Gv2 c t0 d C) as H2. destruct C as (C & _).
  evar_last; [apply (HD (fun t => f (c t)) (fun t => g (c t)) t0 _ _ H1 H2); now rewrite C|].
  rewrite (sum_lin2 D) by exact LD. apply sum_ext. intros k _. cbn [v]. now rewrite Hw.
Qed.

Lemma good_bin b : bin_smooth b (f x) (g x) ->
  exists j', bin_jet (Some n) b j l = Ret j' /\ good (fun y => bin_val b (f y) (g y)) j'.
Proof.
  intros S. pose proof Gf as (Ga & Gl & _). pose proof Gg as (Ha & Hl & _).
  destruct b; cbn [bin_jet bin_val]; cbn [bin_smooth] in S.
  - unfold jet_add, vadd, padded. rewrite vop_ok by congruence. cbn [bind]. eexists; split; [reflexivity|].
    apply (good_two Rplus Rplus); [intros; now apply d_add|intros; lin|congruence|rewrite zip_len; congruence|].
    intros k. rewrite zip_nth; [reflexivity|ring|congruence].
  - unfold jet_sub, vsub, padded. rewrite vop_ok by congruence. cbn [bind]. eexists; split; [reflexivity|].
    apply (good_two Rminus Rminus); [intros; now apply d_sub|intros; lin|congruence|rewrite zip_len; congruence|].
    intros k. rewrite zip_nth; [reflexivity|ring|congruence].
  - unfold jet_mul, vadd, padded. rewrite vop_ok by (rewrite !scl_len; congruence). cbn [bind]. eexists; split; [reflexivity|].
    apply (good_two Rmult (fun df dg => f x * dg + g x * df)).
    + intros F G t df dg HF HG EF EG. rewrite <- EF, <- EG. now apply d_mul.
    + intros; lin.
    + congruence.
    + rewrite zip_len; rewrite !scl_len; congruence.
    + intros k. rewrite zip_nth; [|ring|rewrite !scl_len; congruence]. now rewrite !scl_nth, Ga, Ha.
  - unfold jet_div, vsub, padded. rewrite vop_ok by (rewrite !scl_len; congruence). cbn [bind]. eexists; split; [reflexivity|].
    apply (good_two Rdiv (fun df dg => 1 / g x * (df - f x * (1 / g x) * dg))).
    + intros F G t df dg HF HG EF EG. rewrite <- EF, <- EG. apply d_div; try assumption. congruence.
    + intros; lin.
    + rewrite Ga, Ha. now field.
    + rewrite scl_len, zip_len; rewrite ?scl_len; congruence.
    + intros k. rewrite scl_nth, zip_nth; [|ring|rewrite !scl_len; congruence]. now rewrite !scl_nth, Ga, Ha.
  - destruct S as (S1 & S2). unfold jet_copysign, vadd, padded. rewrite vop_ok by (rewrite !scl_len; congruence).
    cbn [bind]. eexists; split; [reflexivity|].
    apply (good_two std_copysign (fun df _ => sign1 (f x) * sign1 (g x) * df)).
    + intros F G t df dg HF HG EF EG. rewrite <- EF, <- EG. apply (d_copysign F G t df dg); try assumption; congruence.
    + intros; lin.
    + congruence.
    + rewrite zip_len; rewrite !scl_len; congruence.
    + intros k. rewrite zip_nth; [|ring|rewrite !scl_len; congruence]. rewrite !scl_nth, Ga, Ha.
      rewrite Req_bool_false by assumption. ring.
  - unfold jet_hypot, vadd. rewrite vop_ok by (rewrite !scl_len; congruence). cbn [bind]. eexists; split; [reflexivity|].
    apply (good_two std_hypot (fun df dg => f x / std_hypot (f x) (g x) * df + g x / std_hypot (f x) (g x) * dg)).
    + intros F G t df dg HF HG EF EG. rewrite <- EF, <- EG. apply d_hypot; try assumption. now rewrite EF, EG.
    + intros; lin.
    + congruence.
    + rewrite zip_len; rewrite !scl_len; congruence.
    + intros k. rewrite zip_nth; [|ring|rewrite !scl_len; congruence]. now rewrite !scl_nth, Ga, Ha.
  - unfold jet_fmax, jet_lt, jet_gt. rewrite Ga, Ha.
    assert (E : Rlt_bool (f x) (g x) || Rlt_bool (g x) (f x) = true).
    { destruct (Rlt_bool_spec (f x) (g x)); [reflexivity|]. rewrite (Rlt_bool_true (g x)) by lra. reflexivity. }
    rewrite E. eexists; split; [reflexivity|].
    apply good_eq with (mkJet (a (if Rlt_bool (f x) (g x) then l else j)) (v (if Rlt_bool (f x) (g x) then l else j)));
      [|now destruct (if Rlt_bool _ _ then _ else _)].
    apply (good_two Rmax (fun df dg => if Rlt_bool (f x) (g x) then dg else df)).
    + intros F G t df dg HF HG EF EG. rewrite <- EF, <- EG. apply d_max; try assumption. congruence.
    + intros; lin.
    + destruct (Rlt_bool_spec (f x) (g x)); [rewrite Rmax_right|rewrite Rmax_left]; auto; lra.
    + destruct (Rlt_bool (f x) (g x)); assumption.
    + intros k. now destruct (Rlt_bool (f x) (g x)).
  - unfold jet_fmin, jet_lt, jet_gt. rewrite Ga, Ha.
    assert (E : Rlt_bool (f x) (g x) || Rlt_bool (g x) (f x) = true).
    { destruct (Rlt_bool_spec (f x) (g x)); [reflexivity|]. rewrite (Rlt_bool_true (g x)) by lra. reflexivity. }
    rewrite E. eexists; split; [reflexivity|].
    apply good_eq with (mkJet (a (if Rlt_bool (g x) (f x) then l else j)) (v (if Rlt_bool (g x) (f x) then l else j)));
      [|now destruct (if Rlt_bool _ _ then _ else _)].
    apply (good_two Rmin (fun df dg => if Rlt_bool (g x) (f x) then dg else df)).
    + intros F G t df dg HF HG EF EG. rewrite <- EF, <- EG. apply d_min; try assumption. congruence.
    + intros; lin.
    + destruct (Rlt_bool_spec (g x) (f x)); [rewrite Rmin_right|rewrite Rmin_left]; auto; lra.
    + destruct (Rlt_bool (g x) (f x)); assumption.
    + intros k. now destruct (Rlt_bool (g x) (f x)).
  - unfold jet_fdim, jet_gt. rewrite Ga, Ha. destruct (Rlt_bool_spec (g x) (f x)) as [H|H].
    + unfold jet_sub, vsub, padded. rewrite vop_ok by congruence. cbn [bind]. eexists; split; [reflexivity|].
      apply (good_two (fun p q => Rmax (p - q) 0) Rminus); [|intros; lin|rewrite Rmax_left by lra; congruence|rewrite zip_len; congruence|].
      * intros F G t df dg HF HG EF EG.
        apply (derive_near _ (fun u => F u - G u)); [now apply d_sub|].
        eapply filter_imp; [|apply (near_lt G F t dg df HG HF); lra]. intros u Hu. apply Rmax_left. lra.
      * intros k. rewrite zip_nth; [reflexivity|ring|congruence].
    + eexists; split; [reflexivity|].
      apply (good_two (fun p q => Rmax (p - q) 0) (fun _ _ => 0)); [|intros; lin|cbn; rewrite Rmax_right by lra; reflexivity|apply repeat_length|].
      * intros F G t df dg HF HG EF EG. apply (d_const_near _ t 0).
        eapply filter_imp; [|apply (near_lt F G t df dg HF HG); lra]. intros u Hu. apply Rmax_right. lra.
      * intros k. apply zeros_nth.
  - unfold jet_midpoint. cbn [zeros]. rewrite repeat_length, Gl, Hl, Nat.leb_refl. cbn [andb].
    eexists; split; [reflexivity|].
    rewrite skipn_all2 by (rewrite repeat_length; lia). rewrite app_nil_r.
    apply (good_two (fun p q => (p + q) / 2) (fun df dg => (df + dg) / 2)); [intros; now apply d_midpoint|intros; lin|unfold std_midpoint; congruence|rewrite zip_len; congruence|].
    intros k. rewrite zip_nth; [reflexivity|unfold std_midpoint; field|congruence].
  - unfold jet_atan2, vadd, padded. rewrite vop_ok by (rewrite !scl_len; congruence). cbn [bind]. eexists; split; [reflexivity|].
    apply (good_two std_atan2 (fun df dg => 1 / (g x * g x + f x * f x) * (- f x * dg + g x * df))).
    + intros F G t df dg HF HG EF EG. rewrite <- EF, <- EG. apply d_atan2; try assumption. now rewrite EF, EG.
    + intros; lin.
    + congruence.
    + rewrite scl_len, zip_len; rewrite ?scl_len; congruence.
    + intros k. rewrite scl_nth, zip_nth; [|ring|rewrite !scl_len; congruence]. now rewrite !scl_nth, Ga, Ha.
  - unfold jet_pow. rewrite Ga, Ha, Req_bool_false, (Rlt_bool_false (f x) 0) by lra. cbn [andb].
    unfold vadd, padded. rewrite vop_ok by (rewrite !scl_len; congruence). cbn [bind]. eexists; split; [reflexivity|].
    apply (good_two std_pow (fun df dg => g x * std_pow (f x) (g x - 1) * df + std_pow (f x) (g x) * ln (f x) * dg)).
    + intros F G t df dg HF HG EF EG. rewrite <- EF, <- EG. apply d_pow; try assumption. now rewrite EF.
    + intros; lin.
    + reflexivity.
    + rewrite zip_len; rewrite !scl_len; congruence.
    + intros k. rewrite zip_nth; [|ring|rewrite !scl_len; congruence]. now rewrite !scl_nth.
Qed.

End Two.

(** pow(Jet, Jet) with an integer constant as exponent. *)
Lemma mark_nan_zeros m w : List.length w = m -> mark_nan m (repeat 0 m) w = Ret w.
Proof.
  intros H. unfold mark_nan. rewrite repeat_length, Nat.ltb_irrefl.
  rewrite (skipn_all2 (firstn m (repeat 0 m))) by (rewrite firstn_length, repeat_length; lia). cbn [existsb orb].
  rewrite (skipn_all2 w) by lia. rewrite app_nil_r, firstn_all2 by (rewrite repeat_length; lia). f_equal.
  revert m H. induction w as [|y w IH]; intros [|m] H; cbn in *; try discriminate; [reflexivity|].
  rewrite Req_bool_true by reflexivity. rewrite IH by lia. reflexivity.
Qed.
Lemma good_int_pow f j m : good f j -> (f x <> 0 \/ (1 <= m)%Z) ->
  exists j', jet_pow (Some n) j (Jet_const (Some n) (IZR m)) = Ret j' /\ good (fun y => std_pow (f y) (IZR m)) j'.
Proof.
  intros Gf S. pose proof Gf as (Ga & Gl & _).
  assert (D : is_derive (fun u => std_pow u (IZR m)) (f x) (IZR m * std_pow (f x) (IZR m - 1))) by (apply d_pow_s; eauto).
  assert (P : forall w, List.length w = n ->
    (forall k, nth k w 0 = IZR m * std_pow (f x) (IZR m - 1) * nth k (v j) 0) ->
    good (fun y => std_pow (f y) (IZR m)) (mkJet (std_pow (f x) (IZR m)) w)).
  { intros w Hw Hk. rewrite <- Ga. exact (good_chain f j Gf (fun u => std_pow u (IZR m)) _ w D Hw Hk). }
  unfold jet_pow. cbn [a v Jet_const]. rewrite Ga.
  destruct (Req_bool_spec (f x) 0) as [E|E]; [destruct (Rle_bool_spec 1 (IZR m)) as [M|M]|]; cbn [andb].
  - destruct (Rlt_bool_spec 1 (IZR m)) as [M1|M1]; eexists; (split; [reflexivity|]).
    + apply lt_IZR in M1. assert (M2 : (1 <= m - 1)%Z) by lia.
      apply good_eq with (mkJet (std_pow (f x) (IZR m)) (repeat 0 n)).
      * apply P; [apply repeat_length|]. intros k. rewrite zeros_nth, E, <- minus_IZR.
        rewrite pow_int_pos by assumption. destruct (m - 1)%Z as [|p|p] eqn:Ep; try lia. cbn. rewrite pow_ne_zero by lia. ring.
      * unfold Jet_const. cbn [zeros]. f_equal. rewrite E. rewrite pow_int_pos by lia.
        destruct m as [|p|p]; try lia. cbn. rewrite pow_ne_zero by lia. reflexivity.
    + assert (m = 1%Z) by (apply eq_IZR; lra). subst m.
      apply good_ext with f; [|exact Gf]. intros y. rewrite pow_int_pos by lia. symmetry. apply powerRZ_1.
  - destruct S as [S|S]; [contradiction|]. apply IZR_le in S. lra.
  - cbn [padded zeros]. rewrite is_int_IZR, Bool.andb_true_r. destruct (Rlt_bool_spec (f x) 0) as [M|M].
    + rewrite mark_nan_zeros by (now rewrite scl_len). cbn [bind]. eexists; split; [reflexivity|].
      apply P; [now rewrite scl_len|]. intros k. now rewrite scl_nth.
    + unfold vadd. rewrite vop_ok by (rewrite !scl_len, repeat_length; assumption). cbn [bind]. eexists; split; [reflexivity|].
      apply P; [rewrite zip_len; rewrite !scl_len, ?repeat_length; assumption|].
      intros k. rewrite zip_nth; [|ring|rewrite !scl_len, repeat_length; assumption]. rewrite !scl_nth, zeros_nth. ring.
Qed.

Section Three.
Variables (f g h : list R -> R) (j l q : Jet).
Hypotheses (Gf : good f j) (Gg : good g l) (Gh : good h q).
Lemma sum_lin3 (D : R -> R -> R -> R) m u w z d :
  (forall s p q r p' q' r', D (p' + p * s) (q' + q * s) (r' + r * s) = D p' q' r' + D p q r * s) ->
  D (sum m (fun i => u i * d i)) (sum m (fun i => w i * d i)) (sum m (fun i => z i * d i)) = sum m (fun i => D (u i) (w i) (z i) * d i).
Proof.
  intros L. assert (Z : D 0 0 0 = 0). { pose proof (L 1 0 0 0 0 0 0) as H. rewrite !Rmult_0_l, !Rplus_0_l, Rmult_1_r in H. lra. }
  induction m as [|m IH]; cbn [sum]; [exact Z|]. now rewrite L, IH.
Qed.
Lemma good_three (phi : R -> R -> R -> R) (D : R -> R -> R -> R) aj w :
  (forall F G H t df dg dh, is_derive F t df -> is_derive G t dg -> is_derive H t dh -> F t = f x -> G t = g x -> H t = h x ->
     is_derive (fun u => phi (F u) (G u) (H u)) t (D df dg dh)) ->
  (forall s p q r p' q' r', D (p' + p * s) (q' + q * s) (r' + r * s) = D p' q' r' + D p q r * s) ->
  aj = phi (f x) (g x) (h x) -> List.length w = n ->
  (forall k, nth k w 0 = D (nth k (v j) 0) (nth k (v l) 0) (nth k (v q) 0)) ->
  good (fun y => phi (f y) (g y) (h y)) (mkJet aj w).
Proof.
  intros HD LD -> Hl Hw. destruct Gf as (_ & _ & Gv), Gg as (_ & _ & Gv2), Gh as (_ & _ & Gv3). split; [reflexivity|]. split; [exact Hl|].
  intros c t0 d C. pose proof (Gv c t0 d C) as H1. pose proof (Gv2 c t0 d C) as H2. pose proof (Gv3 c t0 d C) as H3. destruct C as (C & _).
  evar_last; [apply (HD (fun t => f (c t)) (fun t => g (c t)) (fun t => h (c t)) t0 _ _ _ H1 H2 H3); now rewrite C|].
  rewrite (sum_lin3 D) by exact LD. apply sum_ext. intros k _. cbn [v]. now rewrite Hw.
Qed.

Lemma good_tern t : tern_smooth t (f x) (g x) (h x) ->
  exists j', tern_jet t j l q = Ret j' /\ good (fun y => tern_val t (f y) (g y) (h y)) j'.
Proof.
  intros S. pose proof Gf as (Ga & Gl & _). pose proof Gg as (Ha & Hl & _). pose proof Gh as (Ia & Il & _).
  destruct t; cbn [tern_jet tern_val]; cbn [tern_smooth] in S.
  - unfold jet_hypot3, vadd. rewrite vop_ok by (rewrite !scl_len; congruence). cbn [bind].
    rewrite vop_ok by (rewrite zip_len, !scl_len; [|rewrite !scl_len]; congruence). cbn [bind]. eexists; split; [reflexivity|].
    apply (good_three std_hypot3 (fun df dg dh => f x / std_hypot3 (f x) (g x) (h x) * df + g x / std_hypot3 (f x) (g x) (h x) * dg + h x / std_hypot3 (f x) (g x) (h x) * dh)).
    + intros F G H t df dg dh HF HG HH EF EG EH. rewrite <- EF, <- EG, <- EH. apply d_hypot3; try assumption. now rewrite EF, EG, EH.
    + intros; lin.
    + congruence.
    + rewrite !zip_len, !scl_len; try congruence; rewrite ?zip_len, !scl_len; rewrite ?scl_len; congruence.
    + intros k. rewrite !zip_nth, !scl_nth, Ga, Ha, Ia; rewrite ?zip_len, ?scl_len; rewrite ?scl_len; try ring; congruence.
  - unfold jet_fma, vadd. rewrite vop_ok by (rewrite !scl_len; congruence). cbn [bind].
    rewrite vop_ok by (rewrite zip_len, !scl_len; [|rewrite !scl_len]; congruence). cbn [bind]. eexists; split; [reflexivity|].
    apply (good_three (fun p q r => p * q + r) (fun df dg dh => g x * df + f x * dg + dh)).
    + intros F G H t df dg dh HF HG HH EF EG EH. rewrite <- EF, <- EG. now apply d_fma.
    + intros; lin.
    + congruence.
    + rewrite !zip_len, !scl_len; try congruence; rewrite ?zip_len, !scl_len; rewrite ?scl_len; congruence.
    + intros k. rewrite !zip_nth, !scl_nth, Ga, Ha; rewrite ?zip_len, ?scl_len; rewrite ?scl_len; try ring; congruence.
  - unfold jet_lerp, vadd. rewrite vop_ok by (rewrite !scl_len; congruence). cbn [bind].
    rewrite vop_ok by (rewrite zip_len, !scl_len; [|rewrite !scl_len]; congruence). cbn [bind]. eexists; split; [reflexivity|].
    apply (good_three (fun p q t => p + t * (q - p)) (fun df dg dh => (1 - h x) * df + h x * dg + (g x - f x) * dh)).
    + intros F G H t df dg dh HF HG HH EF EG EH. rewrite <- EF, <- EG, <- EH. now apply d_lerp.
    + intros; lin.
    + unfold std_lerp. congruence.
    + rewrite !zip_len, !scl_len; try congruence; rewrite ?zip_len, !scl_len; rewrite ?scl_len; congruence.
    + intros k. rewrite !zip_nth, !scl_nth, Ga, Ha, Ia; rewrite ?zip_len, ?scl_len; rewrite ?scl_len; try ring; congruence.
Qed.
End Three.

Lemma cmp_jet_val c j l : cmp_jet c j l = cmp_val c (a j) (a l).
Proof. now destruct c. Qed.

(** Near a point where the arguments differ, comparisons do not change. *)
Lemma cmp_near c (F G : R -> R) t df dg : is_derive F t df -> is_derive G t dg -> F t <> G t ->
  locally t (fun u => cmp_val c (F u) (G u) = cmp_val c (F t) (G t)).
Proof.
  intros HF HG Hn. destruct (Rtotal_order (F t) (G t)) as [H|[H|H]]; [|contradiction|].
  - eapply filter_imp; [|apply (near_lt F G t df dg HF HG H)]. intros u Hu. cbv beta in Hu.
    destruct c; cbn; repeat first [rewrite Rlt_bool_true by lra|rewrite Rlt_bool_false by lra|rewrite Rle_bool_true by lra
      |rewrite Rle_bool_false by lra|rewrite Req_bool_false by lra]; reflexivity.
  - eapply filter_imp; [|apply (near_lt G F t dg df HG HF H)]. intros u Hu. cbv beta in Hu.
    destruct c; cbn; repeat first [rewrite Rlt_bool_true by lra|rewrite Rlt_bool_false by lra|rewrite Rle_bool_true by lra
      |rewrite Rle_bool_false by lra|rewrite Req_bool_false by lra]; reflexivity.
Qed.

Lemma good_expr e : smooth e x -> exists j, eval_jet (Some n) e (seeds x) = Ret j /\ good (eval e) j.
Proof.
  induction e as [i|c|u e IH|b e1 IH1 e2 IH2|t e1 IH1 e2 IH2 e3 IH3|c e1 IH1 e2 IH2 e3 IH3 e4 IH4]; cbn [smooth eval eval_jet]; intros S.
  - rewrite seeds_nth by assumption. eexists; split; [reflexivity|]. now apply good_var.
  - eexists; split; [reflexivity|]. apply good_const.
  - destruct S as (S1 & S2). destruct (IH S1) as (j & -> & G). cbn [bind]. now apply (good_un u (eval e) j).
  - destruct S as (S1 & S2 & S3). destruct (IH1 S1) as (j & Ej & Gj), (IH2 S2) as (l & El & Gl). rewrite Ej, El. cbn [bind].
    destruct S3 as [S3|(-> & m & -> & S3)].
    + now apply (good_bin (eval e1) (eval e2) j l).
    + cbn [eval_jet] in El. injection El as <-. cbn [bin_jet bin_val eval]. now apply good_int_pow.
  - destruct S as (S1 & S2 & S3 & S4). destruct (IH1 S1) as (j & -> & Gj), (IH2 S2) as (l & -> & Gl), (IH3 S3) as (q & -> & Gq).
    cbn [bind]. now apply (good_tern (eval e1) (eval e2) (eval e3) j l q).
  - destruct S as (S1 & S2 & Hn & S3). destruct (IH1 S1) as (j & -> & Gj), (IH2 S2) as (l & -> & Gl). cbn [bind].
    rewrite cmp_jet_val. pose proof Gj as (Ea & _ & Vj). pose proof Gl as (Eb & _ & Vl). rewrite Ea, Eb.
    assert (K : forall e q, good (eval e) q ->
      (forall y, cmp_val c (eval e1 y) (eval e2 y) = cmp_val c (eval e1 x) (eval e2 x) ->
        (if cmp_val c (eval e1 y) (eval e2 y) then eval e3 y else eval e4 y) = eval e y) ->
      good (fun y => if cmp_val c (eval e1 y) (eval e2 y) then eval e3 y else eval e4 y) q).
    { intros e q (Q1 & Q2 & Q3) He. split; [now rewrite He|]. split; [exact Q2|]. intros cv t0 d Hc.
      apply (derive_near _ _ _ _ (Q3 cv t0 d Hc)).
      pose proof (cmp_near c _ _ _ _ _ (Vj cv t0 d Hc) (Vl cv t0 d Hc)) as L. cbv beta in L. destruct Hc as (Hc & _). rewrite Hc in L.
      eapply filter_imp; [|exact (L Hn)]. intros u Hu. now apply He. }
    destruct (cmp_val c (eval e1 x) (eval e2 x)).
    + destruct (IH3 S3) as (q & -> & Gq). exists q. split; [reflexivity|]. apply (K e3); [exact Gq|]. now intros y ->.
    + destruct (IH4 S3) as (q & -> & Gq). exists q. split; [reflexivity|]. apply (K e4); [exact Gq|]. now intros y ->.
Qed.
End Point.
