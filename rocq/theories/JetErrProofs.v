(** Rounding errors of derivatives computed with jets. *)
From Coq Require Import ZArith List Bool Reals Lia Lra SpecFloat.
From Coquelicot Require Import Coquelicot.
From Flocq Require Import Core.
From Verif Require Import BaseModel NumModel NumSpec IeeeProofs RoundProofs RollSpec RollProofs RealModel DiffFloatSpec DiffFloatProofs DiffFloatErrorProofs
  LmProofs AccurLmStepProofs LossFloatRobustProofs JetFloatModel JetFloatSpec JetFloatProofs JetRealSpec JetRealProofs JetErrSpec.
Import ListNotations.
Open Scope R_scope.

Lemma nth_zip {A : Arith} (f : A -> A -> A) (d : A) : forall (u w : list A) k, (k < List.length u)%nat -> List.length u = List.length w ->
  nth k (fzip f u w) d = f (nth k u d) (nth k w d).
Proof.
  induction u as [|a u IH]; intros [|b w] k H L; cbn in H, L; try lia; try discriminate L. destruct k; [reflexivity|]. cbn [fzip nth]. apply IH; lia.
Qed.
Lemma nth_map {A : Type} (f : A -> A) (d : A) (u : list A) k : (k < List.length u)%nat -> nth k (map f u) d = f (nth k u d).
Proof. intros H. rewrite (nth_indep _ _ (f d)) by (rewrite map_length; exact H). apply map_nth. Qed.
Lemma u_pos T : 0 < unit_roundoff T.
Proof. unfold unit_roundoff. apply Rinv_0_lt_compat, pow_lt. lra. Qed.
Lemma eta_pos T : 0 < underflow T.
Proof. unfold underflow. apply Rmult_lt_0_compat; [lra|]. apply powerRZ_lt. lra. Qed.
Lemma one_R T : toR (@none_ IEEE T) = 1.
Proof. destruct T; cbn; unfold F2R; cbn; lra. Qed.

Section Balls.
Variable T : fmt.
Notation u := (unit_roundoff T).
Notation In_ x b := (within_ball T x b).

Lemma rad_pos x b : In_ x b -> 0 <= rad b.
Proof. intros (_ & H). pose proof (Rabs_pos (toR x - mid b)). lra. Qed.
Lemma in_exactly x : number_of T x -> In_ x (exactly (toR x)).
Proof. intros H. split; [exact H|]. cbn. rewrite Rminus_eq_0, Rabs_R0. lra. Qed.
Lemma in_neg x a : In_ x a -> In_ (nopp x) (b_neg a).
Proof.
  intros ((F & K) & H). split; [split; [now apply fmt_opp|now destruct x]|]. cbn [b_neg mid rad]. rewrite toR_opp.
  replace (- toR x - - mid a) with (- (toR x - mid a)) by ring. now rewrite Rabs_Ropp.
Qed.
Lemma before_rounding v e w : Rabs (w - v) <= e -> fits T (rounded T v e) -> Rabs (rnd T w) < bpow radix2 (emax_of T).
Proof.
  unfold fits, rounded. cbn [mid rad]. intros H B. apply small_rnd. pose proof (Rabs_triang_inv w v). pose proof (Rabs_pos (w - v)). pose proof (Rabs_pos v). pose proof (u_pos T). pose proof (eta_pos T).
  assert (0 <= u * (Rabs v + e)) by (apply Rmult_le_pos; lra). lra.
Qed.
Lemma after_rounding v e w : Rabs (w - v) <= e -> Rabs (rnd T w - v) <= rad (rounded T v e).
Proof.
  intros H. cbn [rounded rad]. pose proof (rnd_error T w) as E. pose proof (Rabs_triang_inv w v). pose proof (u_pos T).
  replace (rnd T w - v) with ((rnd T w - w) + (w - v)) by ring. apply Rle_trans with (1 := Rabs_triang _ _).
  assert (u * Rabs w <= u * (Rabs v + e)) by (apply Rmult_le_compat_l; lra). lra.
Qed.
Lemma in_add x y a b : In_ x a -> In_ y b -> fits T (b_add T a b) -> In_ (nadd T x y) (b_add T a b).
Proof.
  intros (Nx & Hx) (Ny & Hy) F. assert (D : Rabs (toR x + toR y - (mid a + mid b)) <= rad a + rad b).
  { replace (toR x + toR y - (mid a + mid b)) with ((toR x - mid a) + (toR y - mid b)) by ring. apply Rle_trans with (1 := Rabs_triang _ _). lra. }
  assert (K : is_fin (nadd T x y) = true) by (apply DiffFloatProofs.add_fin; [exact Nx|exact Ny|exact (before_rounding _ _ _ D F)]).
  split; [split; [apply fmt_add; [apply Nx|apply Ny]|exact K]|]. rewrite (sum_value T x y) by (repeat split; try apply Nx; try apply Ny; exact K). now apply after_rounding.
Qed.
Lemma in_sub x y a b : In_ x a -> In_ y b -> fits T (b_sub T a b) -> In_ (nsub T x y) (b_sub T a b).
Proof.
  intros (Nx & Hx) (Ny & Hy) F. assert (D : Rabs (toR x - toR y - (mid a - mid b)) <= rad a + rad b).
  { replace (toR x - toR y - (mid a - mid b)) with ((toR x - mid a) + - (toR y - mid b)) by ring. apply Rle_trans with (1 := Rabs_triang _ _). rewrite Rabs_Ropp. lra. }
  assert (K : is_fin (nsub T x y) = true) by (apply sub_fin; [exact Nx|exact Ny|exact (before_rounding _ _ _ D F)]).
  split; [split; [apply fmt_sub; [apply Nx|apply Ny]|exact K]|]. rewrite (sub_value T x y Nx Ny K). now apply after_rounding.
Qed.
Lemma in_mul x y a b : In_ x a -> In_ y b -> fits T (b_mul T a b) -> In_ (nmul T x y) (b_mul T a b).
Proof.
  intros (Nx & Hx) (Ny & Hy) F. assert (D : Rabs (toR x * toR y - mid a * mid b) <= Rabs (mid a) * rad b + Rabs (mid b) * rad a + rad a * rad b).
  { replace (toR x * toR y - mid a * mid b) with ((mid a * (toR y - mid b) + mid b * (toR x - mid a)) + (toR x - mid a) * (toR y - mid b)) by ring.
    apply Rle_trans with (1 := Rabs_triang _ _). apply Rplus_le_compat; [apply Rle_trans with (1 := Rabs_triang _ _)|]; rewrite ?Rabs_mult.
    - apply Rplus_le_compat; apply Rmult_le_compat_l; try apply Rabs_pos; assumption.
    - apply Rmult_le_compat; try apply Rabs_pos; assumption. }
  destruct (DiffFloatProofs.mul_fin T x y Nx Ny (before_rounding _ _ _ D F)) as (K & V).
  split; [split; [apply fmt_mul; [apply Nx|apply Ny]|exact K]|]. rewrite V. now apply after_rounding.
Qed.
Lemma quotient_fin (x y : IEEE) : number_of T x -> number_of T y -> toR y <> 0 -> Rabs (rnd T (toR x / toR y)) < bpow radix2 (emax_of T) -> is_fin (ndiv T x y) = true.
Proof.
  intros (Hx & Fx) (Hy & Fy) Ny B. cbn [ndiv IEEE]. rewrite <- (toB_SF T x Hx), <- (toB_SF T y Hy), SFdiv_equiv, is_fin_B2SF.
  pose proof (BinarySingleNaN.Bdiv_correct (prec_of T) (emax_of T) _ _ BinarySingleNaN.mode_NE (toB T x Hx) (toB T y Hy)) as H. rewrite !toB_R in H. specialize (H Ny).
  cbn [BinarySingleNaN.round_mode] in H. rewrite Rlt_bool_true in H by exact B. rewrite (toB_fin T x Hx), Fx in H. exact (proj1 (proj2 H)).
Qed.
Lemma in_div x y a b : In_ x a -> In_ y b -> divides b -> fits T (b_div T a b) -> In_ (ndiv T x y) (b_div T a b).
Proof.
  intros (Nx & Hx) (Ny & Hy) V F. unfold divides in V. set (A := mid a) in *. set (B := mid b) in *.
  assert (B0 : B <> 0). { intros E. rewrite E, Rabs_R0 in V. pose proof (Rabs_pos (toR y - B)). lra. }
  assert (Y : Rabs B - rad b <= Rabs (toR y)). { pose proof (Rabs_triang_inv B (toR y)). rewrite (Rabs_minus_sym B) in H. lra. }
  assert (Y0 : toR y <> 0). { intros E. rewrite E, Rabs_R0 in Y. lra. }
  assert (D : Rabs (toR x / toR y - A / B) <= (rad a + Rabs (A / B) * rad b) / (Rabs B - rad b)).
  { replace (toR x / toR y - A / B) with (((toR x - A) + - (A / B * (toR y - B))) / toR y) by (field; auto). unfold Rdiv at 1. rewrite Rabs_mult, Rabs_inv.
    apply Rmult_le_compat; [apply Rabs_pos|left; apply Rinv_0_lt_compat; lra| |apply Rinv_le_contravar; lra].
    apply Rle_trans with (1 := Rabs_triang _ _). rewrite Rabs_Ropp, Rabs_mult. apply Rplus_le_compat; [exact Hx|]. apply Rmult_le_compat_l; [apply Rabs_pos|exact Hy]. }
  assert (K : is_fin (ndiv T x y) = true) by (apply quotient_fin; [exact Nx|exact Ny|exact Y0|exact (before_rounding _ _ _ D F)]).
  split; [split; [apply fmt_div; [apply Nx|apply Ny]|exact K]|]. rewrite (div_value T x y Nx Ny Y0 K). now apply after_rounding.
Qed.
Lemma in_one : In_ (none_ T) (exactly 1).
Proof. rewrite <- (one_R T). apply in_exactly, one_number. Qed.
(** Comparisons of numbers that differ by more than their errors. *)
Lemma in_cmp c x y a b : In_ x a -> In_ y b -> rad a + rad b < Rabs (mid a - mid b) -> @cmp IEEE c x y = @cmp REAL c (mid a) (mid b).
Proof.
  intros (Nx & Hx) (Ny & Hy) D. set (A := mid a) in *. set (B := mid b) in *.
  assert (C : (toR x < toR y /\ A < B) \/ (toR y < toR x /\ B < A)).
  { apply Rabs_le_inv in Hx, Hy. revert D. unfold Rabs. destruct (Rcase_abs (A - B)); intros; [left|right]; lra. }
  destruct Nx as (Fx & Kx), Ny as (Fy & Ky).
  assert (L1 : SFltb x y = Rlt_bool (toR x) (toR y)) by (now apply (ltb_R T)). assert (L2 : SFltb y x = Rlt_bool (toR y) (toR x)) by (now apply (ltb_R T)).
  assert (L3 : SFleb x y = Rle_bool (toR x) (toR y)) by (now apply (leb_R T)). assert (L4 : SFleb y x = Rle_bool (toR y) (toR x)) by (now apply (leb_R T)).
  assert (L5 : SFeqb x y = Req_bool (toR x) (toR y)) by (now apply (eqb_R T)).
  assert (Q : @cmp IEEE c x y = @cmp REAL c (toR x) (toR y)).
  { apply eq_true_iff_eq. rewrite cmp_holds. destruct c; cbn [cmp IEEE nltb nleb neqb holds]; rewrite ?L1, ?L2, ?L3, ?L4, ?L5.
    - destruct (Rlt_bool_spec (toR x) (toR y)); split; intros; try discriminate; try reflexivity; lra.
    - destruct (Rle_bool_spec (toR x) (toR y)); split; intros; try discriminate; try reflexivity; lra.
    - destruct (Rlt_bool_spec (toR y) (toR x)); split; intros; try discriminate; try reflexivity; lra.
    - destruct (Rle_bool_spec (toR y) (toR x)); split; intros; try discriminate; try reflexivity; lra.
    - destruct (Req_bool_spec (toR x) (toR y)); split; intros; try discriminate; try reflexivity; lra.
    - destruct (Req_bool_spec (toR x) (toR y)); cbn; split; intros; try discriminate; try reflexivity; lra. }
  rewrite Q. apply eq_true_iff_eq. rewrite !cmp_holds. destruct c; cbn [holds]; split; intros; lra.
Qed.
End Balls.

Section Program.
Variables (T : fmt) (n : nat) (x : list (FJet IEEE)) (k : nat).
Hypothesis X : jets_of T n x.
Hypothesis Hk : (k < n)%nat.
Notation J p := (on_jets T n (as_run p) x).
Notation E p := (@on_jets REAL T n (as_meant p) (map exact_jet x)).
Notation V p := (value_ball T x p).
Notation D p := (slope_ball T x k p).

Lemma jlen p : List.length (inf (J p)) = n.
Proof. apply jets_size. intros j H. now apply X. Qed.
Lemma elen p : List.length (inf (E p)) = n.
Proof. apply jets_size. intros j H. apply in_map_iff in H. destruct H as (i & <- & H). cbn [exact_jet inf]. rewrite map_length. now apply X. Qed.
Lemma klt m : m = n -> (k < m)%nat. Proof. now intros ->. Qed.
Lemma map_n {A B} (f : A -> B) u : List.length u = n -> List.length (map f u) = n. Proof. now rewrite map_length. Qed.
Lemma zip_n {A : Arith} f (u w : list A) : List.length u = n -> List.length w = n -> List.length (fzip f u w) = n.
Proof. intros H K. rewrite fzip_len by congruence. exact H. Qed.
Ltac ln := first [apply jlen | apply elen | (apply map_n; ln) | (apply zip_n; ln) | (apply (@zip_n REAL); ln)].
Ltac lens := first [apply klt; ln | (transitivity n; [ln|symmetry; ln])].
Ltac fold_runs := repeat match goal with |- context [subst (fun c => c) f_lib ?p] => change (subst (fun c => c) f_lib p) with (as_run p) end.
Ltac fold_means := repeat match goal with |- context [subst toR f_exact ?p] => change (subst toR f_exact p) with (as_meant p) end.
Lemma zero_number : number_of T (nzero T).
Proof. split; [apply fmt_zero|apply fin_zero]. Qed.

Lemma errors p : guarded T x k p -> within_ball T (re (J p)) (V p) /\ within_ball T (nth k (inf (J p)) (nzero T)) (D p).
Proof.
  induction p as [i|c|p IH|p IHp q IHq|p IHp q IHq|p IHp q IHq|p IHp q IHq|p IH s|s p IH|p IH s|s p IH|p IH s|s p IH|p IH s|s p IH|f p IH|c p IHp q IHq y IHy z IHz]; cbn [guarded].
  - intros _. cbn [as_run subst on_jets value_ball slope_ball]. destruct (Nat.lt_ge_cases i (List.length x)) as [L|L].
    + rewrite (nth_indep x _ (mkFJet (nzero T) [])) by exact L. destruct (X _ (nth_In x (mkFJet (nzero T) []) L)) as (N & Ln & F). split; [now apply in_exactly|]. apply in_exactly.
      rewrite Forall_forall in F. apply F, nth_In. lia.
    + rewrite !nth_overflow by exact L. cbn [re inf]. rewrite nth_repeat. rewrite (nth_overflow []) by (cbn; lia). split; apply in_exactly, zero_number.
  - intros N. cbn [as_run subst on_jets value_ball slope_ball re inf]. rewrite nth_repeat. split; [now apply in_exactly|]. rewrite <- (toR_zero T). apply in_exactly, zero_number.
  - intros G. destruct (IH G) as (A & B). cbn [as_run subst on_jets value_ball slope_ball fj_neg re inf]. fold (as_run p). split; [now apply in_neg|]. rewrite nth_map by lens. now apply in_neg.
  - intros (Gp & Gq & F & F'). destruct (IHp Gp) as (A & B), (IHq Gq) as (A' & B'). cbn [as_run subst on_jets value_ball slope_ball fj_add re inf]; fold_runs. split; [now apply in_add|]. rewrite nth_zip by lens. now apply in_add.
  - intros (Gp & Gq & F & F'). destruct (IHp Gp) as (A & B), (IHq Gq) as (A' & B'). cbn [as_run subst on_jets value_ball slope_ball fj_sub re inf]; fold_runs. split; [now apply in_sub|]. rewrite nth_zip by lens. now apply in_sub.
  - intros (Gp & Gq & (F & F') & F1 & F2). destruct (IHp Gp) as (A & B), (IHq Gq) as (A' & B'). cbn [as_run subst on_jets value_ball slope_ball fj_mul re inf]; fold_runs. split; [now apply in_mul|]. rewrite nth_zip by lens. unfold fscl. rewrite !nth_map by lens. apply in_add; [now apply in_mul|now apply in_mul|exact F'].
  - intros (Gp & Gq & (F & F') & N & Fi & Fc & Fs). destruct (IHp Gp) as (A & B), (IHq Gq) as (A' & B'). cbn [as_run subst on_jets value_ball slope_ball fj_div re inf]; fold_runs. pose proof (in_div T _ _ _ _ (in_one T) A' N Fi) as Q. pose proof (in_mul T _ _ _ _ A Q F) as Q'. split; [exact Q'|]. unfold fscl. rewrite nth_map by lens. rewrite nth_zip by lens. rewrite nth_map by lens. apply in_mul; [|exact Q|exact F']. apply in_sub; [exact B| |exact Fs]. now apply in_mul.
  - intros (G & N & F). destruct (IH G) as (A & B). cbn [as_run subst on_jets value_ball slope_ball fj_add_s re inf]; fold_runs. split; [|exact B]. apply in_add; [exact A|now apply in_exactly|exact F].
  - intros (G & N & F). destruct (IH G) as (A & B). cbn [as_run subst on_jets value_ball slope_ball fj_s_add re inf]; fold_runs. split; [|exact B]. apply in_add; [exact A|now apply in_exactly|exact F].
  - intros (G & N & F). destruct (IH G) as (A & B). cbn [as_run subst on_jets value_ball slope_ball fj_sub_s re inf]; fold_runs. split; [|exact B]. apply in_sub; [exact A|now apply in_exactly|exact F].
  - intros (G & N & F). destruct (IH G) as (A & B). cbn [as_run subst on_jets value_ball slope_ball fj_s_sub re inf]; fold_runs. split; [apply in_sub; [now apply in_exactly|exact A|exact F]|]. rewrite nth_map by lens. now apply in_neg.
  - intros (G & N & F & F'). destruct (IH G) as (A & B). cbn [as_run subst on_jets value_ball slope_ball fj_mul_s re inf]; fold_runs. split; [apply in_mul; [exact A|now apply in_exactly|exact F]|]. unfold fscl. rewrite nth_map by lens. apply in_mul; [exact B|now apply in_exactly|exact F'].
  - intros (G & N & F & F'). destruct (IH G) as (A & B). cbn [as_run subst on_jets value_ball slope_ball fj_s_mul re inf]; fold_runs. split; [apply in_mul; [exact A|now apply in_exactly|exact F]|]. unfold fscl. rewrite nth_map by lens. apply in_mul; [exact B|now apply in_exactly|exact F'].
  - intros (G & N & (F & F') & Dv & Fi). destruct (IH G) as (A & B). cbn [as_run subst on_jets value_ball slope_ball fj_div_s re inf]; fold_runs. pose proof (in_div T _ _ _ _ (in_one T) (in_exactly T s N) Dv Fi) as Q. split; [now apply in_mul|]. unfold fscl. rewrite nth_map by lens. now apply in_mul.
  - intros (G & N & (F & F') & Dv & Fw & Dw & Fi). destruct (IH G) as (A & B). cbn [as_run subst on_jets value_ball slope_ball fj_s_div re inf]; fold_runs. split; [apply in_div; [now apply in_exactly|exact A|exact Dv|exact F]|]. unfold fscl. rewrite nth_map by lens. apply in_mul; [exact B| |exact F']. apply in_div; [apply in_neg; now apply in_exactly|now apply in_mul|exact Dw|exact Fi].
  - intros (G & (_ & Af) & F'). destruct (IH G) as (A & B). destruct (Af _ A) as (A1 & A2). cbn [as_run subst on_jets value_ball slope_ball fj_unary re inf]; fold_runs. split; [exact A1|]. rewrite nth_map by lens. now apply in_mul.
  - intros (Gp & Gq & N & G). destruct (IHp Gp) as (A & _), (IHq Gq) as (A' & _). cbn [as_run subst on_jets value_ball slope_ball]; fold_runs. unfold fj_cmp. rewrite (in_cmp T c _ _ _ _ A A' N). destruct (@cmp REAL c (mid (V p)) (mid (V q))); [now apply IHy|now apply IHz].
Qed.

Lemma real_nzero : @nzero REAL T = 0. Proof. apply real_zero. Qed.
(** The exact program has the values and derivatives in the middle of the balls. *)
Lemma middles p : re (E p) = mid (V p) /\ nth k (inf (E p)) 0 = mid (D p).
Proof.
  induction p as [i|c|p IH|p IHp q IHq|p IHp q IHq|p IHp q IHq|p IHp q IHq|p IH s|s p IH|p IH s|s p IH|p IH s|s p IH|p IH s|s p IH|f p IH|c p IHp q IHq y IHy z IHz].
  - cbn [as_meant subst on_jets value_ball slope_ball exactly mid]. destruct (Nat.lt_ge_cases i (List.length x)) as [L|L].
    + rewrite (nth_indep (map exact_jet x) _ (exact_jet (mkFJet (nzero T) []))) by (rewrite map_length; exact L). rewrite map_nth. cbn [exact_jet re inf]. split; [reflexivity|].
      destruct (X _ (nth_In x (mkFJet (nzero T) []) L)) as (_ & Ln & _). rewrite (nth_indep _ _ (toR (@nzero IEEE T))) by (rewrite map_length; exact (eq_rect_r (fun m => (k < m)%nat) Hk Ln)). exact (map_nth toR (inf (nth i x (mkFJet (nzero T) []))) (@nzero IEEE T) k).
    + rewrite !nth_overflow by (rewrite ?map_length; exact L). cbn [re inf]. rewrite (nth_overflow []) by (cbn; lia). rewrite toR_zero, real_nzero. split; [reflexivity|]. exact (nth_repeat 0 n k).
  - cbn [as_meant subst on_jets value_ball slope_ball exactly mid re inf]. split; [reflexivity|]. rewrite real_nzero. exact (nth_repeat 0 n k).
  - destruct IH as (A & B). cbn [as_meant subst on_jets value_ball slope_ball fj_neg re inf]; fold_means. split; [cbn [b_neg b_add b_sub b_mul b_div rounded exactly mid f_ball f_slope_ball]; rewrite <- ?A, ?real_one; reflexivity|]. rewrite (nth_map (A := R)) by lens. cbn [b_neg b_add b_sub b_mul b_div rounded exactly mid f_ball f_slope_ball]; rewrite <- ?A, <- ?B, ?real_one. reflexivity.
  - destruct IHp as (A & B), IHq as (A' & B'). cbn [as_meant subst on_jets value_ball slope_ball fj_add re inf]; fold_means. split; [cbn [b_neg b_add b_sub b_mul b_div rounded exactly mid f_ball f_slope_ball]; rewrite <- ?A, <- ?A', ?real_one; reflexivity|]. rewrite (nth_zip (A := REAL)) by lens. cbn [b_neg b_add b_sub b_mul b_div rounded exactly mid f_ball f_slope_ball]; rewrite <- ?A, <- ?A', <- ?B, <- ?B', ?real_one. reflexivity.
  - destruct IHp as (A & B), IHq as (A' & B'). cbn [as_meant subst on_jets value_ball slope_ball fj_sub re inf]; fold_means. split; [cbn [b_neg b_add b_sub b_mul b_div rounded exactly mid f_ball f_slope_ball]; rewrite <- ?A, <- ?A', ?real_one; reflexivity|]. rewrite (nth_zip (A := REAL)) by lens. cbn [b_neg b_add b_sub b_mul b_div rounded exactly mid f_ball f_slope_ball]; rewrite <- ?A, <- ?A', <- ?B, <- ?B', ?real_one. reflexivity.
  - destruct IHp as (A & B), IHq as (A' & B'). cbn [as_meant subst on_jets value_ball slope_ball fj_mul re inf]; fold_means. split; [cbn [b_neg b_add b_sub b_mul b_div rounded exactly mid f_ball f_slope_ball]; rewrite <- ?A, <- ?A', ?real_one; reflexivity|]. rewrite (nth_zip (A := REAL)) by lens. unfold fscl. rewrite !(nth_map (A := R)) by lens. cbn [b_neg b_add b_sub b_mul b_div rounded exactly mid f_ball f_slope_ball]; rewrite <- ?A, <- ?A', <- ?B, <- ?B', ?real_one. reflexivity.
  - destruct IHp as (A & B), IHq as (A' & B'). cbn [as_meant subst on_jets value_ball slope_ball fj_div re inf]; fold_means. split; [cbn [b_neg b_add b_sub b_mul b_div rounded exactly mid f_ball f_slope_ball]; rewrite <- ?A, <- ?A', ?real_one; reflexivity|]. unfold fscl. rewrite (nth_map (A := R)) by lens. rewrite (nth_zip (A := REAL)) by lens. rewrite (nth_map (A := R)) by lens. cbn [b_neg b_add b_sub b_mul b_div rounded exactly mid f_ball f_slope_ball]; rewrite <- ?A, <- ?A', <- ?B, <- ?B', ?real_one. reflexivity.
  - destruct IH as (A & B). cbn [as_meant subst on_jets value_ball slope_ball fj_add_s re inf]; fold_means. split; [cbn [b_neg b_add b_sub b_mul b_div rounded exactly mid f_ball f_slope_ball]; rewrite <- ?A, ?real_one; reflexivity|].  cbn [b_neg b_add b_sub b_mul b_div rounded exactly mid f_ball f_slope_ball]; rewrite <- ?A, <- ?B, ?real_one. reflexivity.
  - destruct IH as (A & B). cbn [as_meant subst on_jets value_ball slope_ball fj_s_add re inf]; fold_means. split; [cbn [b_neg b_add b_sub b_mul b_div rounded exactly mid f_ball f_slope_ball]; rewrite <- ?A, ?real_one; reflexivity|].  cbn [b_neg b_add b_sub b_mul b_div rounded exactly mid f_ball f_slope_ball]; rewrite <- ?A, <- ?B, ?real_one. reflexivity.
  - destruct IH as (A & B). cbn [as_meant subst on_jets value_ball slope_ball fj_sub_s re inf]; fold_means. split; [cbn [b_neg b_add b_sub b_mul b_div rounded exactly mid f_ball f_slope_ball]; rewrite <- ?A, ?real_one; reflexivity|].  cbn [b_neg b_add b_sub b_mul b_div rounded exactly mid f_ball f_slope_ball]; rewrite <- ?A, <- ?B, ?real_one. reflexivity.
  - destruct IH as (A & B). cbn [as_meant subst on_jets value_ball slope_ball fj_s_sub re inf]; fold_means. split; [cbn [b_neg b_add b_sub b_mul b_div rounded exactly mid f_ball f_slope_ball]; rewrite <- ?A, ?real_one; reflexivity|]. rewrite (nth_map (A := R)) by lens. cbn [b_neg b_add b_sub b_mul b_div rounded exactly mid f_ball f_slope_ball]; rewrite <- ?A, <- ?B, ?real_one. reflexivity.
  - destruct IH as (A & B). cbn [as_meant subst on_jets value_ball slope_ball fj_mul_s re inf]; fold_means. split; [cbn [b_neg b_add b_sub b_mul b_div rounded exactly mid f_ball f_slope_ball]; rewrite <- ?A, ?real_one; reflexivity|]. unfold fscl. rewrite (nth_map (A := R)) by lens. cbn [b_neg b_add b_sub b_mul b_div rounded exactly mid f_ball f_slope_ball]; rewrite <- ?A, <- ?B, ?real_one. reflexivity.
  - destruct IH as (A & B). cbn [as_meant subst on_jets value_ball slope_ball fj_s_mul re inf]; fold_means. split; [cbn [b_neg b_add b_sub b_mul b_div rounded exactly mid f_ball f_slope_ball]; rewrite <- ?A, ?real_one; reflexivity|]. unfold fscl. rewrite (nth_map (A := R)) by lens. cbn [b_neg b_add b_sub b_mul b_div rounded exactly mid f_ball f_slope_ball]; rewrite <- ?A, <- ?B, ?real_one. reflexivity.
  - destruct IH as (A & B). cbn [as_meant subst on_jets value_ball slope_ball fj_div_s re inf]; fold_means. split; [cbn [b_neg b_add b_sub b_mul b_div rounded exactly mid f_ball f_slope_ball]; rewrite <- ?A, ?real_one; reflexivity|]. unfold fscl. rewrite (nth_map (A := R)) by lens. cbn [b_neg b_add b_sub b_mul b_div rounded exactly mid f_ball f_slope_ball]; rewrite <- ?A, <- ?B, ?real_one. reflexivity.
  - destruct IH as (A & B). cbn [as_meant subst on_jets value_ball slope_ball fj_s_div re inf]; fold_means. split; [cbn [b_neg b_add b_sub b_mul b_div rounded exactly mid f_ball f_slope_ball]; rewrite <- ?A, ?real_one; reflexivity|]. unfold fscl. rewrite (nth_map (A := R)) by lens. cbn [b_neg b_add b_sub b_mul b_div rounded exactly mid f_ball f_slope_ball]; rewrite <- ?A, <- ?B, ?real_one. reflexivity.
  - destruct IH as (A & B). cbn [as_meant subst on_jets value_ball slope_ball fj_unary re inf]; fold_means. split; [cbn [b_neg b_add b_sub b_mul b_div rounded exactly mid f_ball f_slope_ball]; rewrite <- ?A, ?real_one; reflexivity|]. rewrite (nth_map (A := R)) by lens. cbn [b_neg b_add b_sub b_mul b_div rounded exactly mid f_ball f_slope_ball]; rewrite <- ?A, <- ?B, ?real_one. reflexivity.
  - destruct IHp as (A & _), IHq as (A' & _). cbn [as_meant subst on_jets value_ball slope_ball]; fold_means. unfold fj_cmp. rewrite A, A'. destruct (@cmp REAL c (mid (V p)) (mid (V q))); [exact IHy|exact IHz].
Qed.

Notation x0 := (map re (map exact_jet x)).
Lemma exact_len j : In j (map exact_jet x) -> List.length (inf j) = n.
Proof. intros H. apply in_map_iff in H. destruct H as (i & <- & H). cbn [exact_jet inf]. rewrite map_length. now apply X. Qed.
Lemma meaning p v : smooth (as_meant p) x0 -> evaluates (as_meant p) x0 v -> v = mid (V p).
Proof. intros S H. destruct (derivatives_ok T n (map exact_jet x) (as_meant p) k exact_len Hk S) as (K & _). apply K in H. now rewrite H, (proj1 (middles p)). Qed.
Lemma mid_not_0 b : 0 <= rad b -> divides b -> mid b <> 0.
Proof. unfold divides. intros H K E0. rewrite E0, Rabs_R0 in K. lra. Qed.
Lemma value_rad p : guarded T x k p -> 0 <= rad (V p).
Proof. intros G. exact (rad_pos T _ _ (proj1 (errors p G))). Qed.
Lemma guarded_smooth p : guarded T x k p -> smooth (as_meant p) x0.
Proof.
  induction p as [i|c|p IH|p IHp q IHq|p IHp q IHq|p IHp q IHq|p IHp q IHq|p IH s|s p IH|p IH s|s p IH|p IH s|s p IH|p IH s|s p IH|f p IH|c p IHp q IHq y IHy z IHz]; cbn [guarded as_meant subst smooth]; fold_means.
  1,2: trivial.
  - exact IH.
  - intros (Gp & Gq & _). auto.
  - intros (Gp & Gq & _). auto.
  - intros (Gp & Gq & _). auto.
  - intros (Gp & Gq & _ & N & _). split; [auto|]. split; [auto|]. intros H. apply meaning in H; [|auto]. exact (mid_not_0 _ (value_rad q Gq) N (eq_sym H)).
  - intros (G & _). auto.
  - intros (G & _). auto.
  - intros (G & _). auto.
  - intros (G & _). auto.
  - intros (G & _). auto.
  - intros (G & _). auto.
  - intros (G & _ & _ & N & _). split; [auto|]. exact (mid_not_0 (exactly (toR s)) (Rle_refl 0) N).
  - intros (G & _ & _ & N & _). split; [auto|]. intros H. apply meaning in H; [|auto]. exact (mid_not_0 _ (value_rad p G) N (eq_sym H)).
  - intros (G & (Df & _) & _). split; [auto|]. intros a H. apply meaning in H; [|auto]. rewrite H. exact Df.
  - intros (Gp & Gq & N & G). split; [auto|]. split; [auto|]. intros u w Hu Hw. apply meaning in Hu; [|auto]. apply meaning in Hw; [|auto]. rewrite Hu, Hw.
    pose proof (value_rad p Gp). pose proof (value_rad q Gq). pose proof (cmp_holds c (mid (V p)) (mid (V q))) as C.
    split; [intros Q; rewrite Q, Rminus_eq_0, Rabs_R0 in N; lra|]. destruct (@cmp REAL c (mid (V p)) (mid (V q))).
    + split; [intros _; auto|]. intros Z. exfalso. apply Z. now apply C.
    + split; [|intros _; auto]. intros Z. apply C in Z. discriminate Z.
Qed.
Lemma all_errors p : guarded T x k p ->
  within_ball T (re (J p)) (V p) /\ within_ball T (nth k (inf (J p)) (nzero T)) (D p) /\
  (forall v, evaluates (as_meant p) x0 v <-> v = mid (V p)) /\
  exists W : R -> R, locally 0 (fun t => evaluates (as_meant p) (moved (map exact_jet x) k t) (W t)) /\ is_derive W 0 (mid (D p)).
Proof.
  intros G. destruct (errors p G) as (A & B). split; [exact A|]. split; [exact B|].
  destruct (derivatives_ok T n (map exact_jet x) (as_meant p) k exact_len Hk (guarded_smooth p G)) as (K & W & L & H). destruct (middles p) as (M & M'). split.
  - intros v. rewrite K, M. reflexivity.
  - exists W. split; [exact L|]. rewrite <- M'. exact H.
Qed.

(** Polynomials. *)
Notation u := (unit_roundoff T).
Definition under (m : nat) (b : ball) (M : R) : Prop := 0 <= rad b /\ Rabs (mid b) <= M /\ rad b <= ((1 + u) ^ m - 1) * M.
Lemma pow_mono a b : (a <= b)%nat -> 1 <= (1 + u) ^ a <= (1 + u) ^ b.
Proof.
  intros H. pose proof (u_pos T). split; [apply pow_R1_Rle; lra|]. apply Rle_pow; [lra|exact H].
Qed.
Lemma under_more a b c M : (a <= b)%nat -> under a c M -> under b c M.
Proof.
  intros H (A & B & C). split; [exact A|]. split; [exact B|]. pose proof (pow_mono a b H). pose proof (Rabs_pos (mid c)).
  apply Rle_trans with (1 := C). apply Rmult_le_compat_r; lra.
Qed.
Lemma under_rounded m v e M : 0 <= e -> Rabs v <= M -> e <= ((1 + u) ^ m - 1) * M -> under (S m) (rounded T v e) (M + tiny T).
Proof.
  intros He Hv H. pose proof (u_pos T) as U. pose proof (eta_pos T) as N. pose proof (Rabs_pos v). assert (Z : 0 < tiny T) by (apply Rdiv_lt_0_compat; assumption).
  assert (Q : underflow T = u * tiny T) by (unfold tiny; field; lra). unfold under. cbn [rounded mid rad]. split; [assert (0 <= u * (Rabs v + e)) by (apply Rmult_le_pos; lra); lra|]. split; [lra|].
  rewrite Q. pose proof (pow_mono 0 m (Nat.le_0_l m)) as (_ & P). cbn [pow] in P |- *. set (w := (1 + u) ^ m) in *.
  assert (A1 : u * (Rabs v + e) <= u * (w * M)) by (apply Rmult_le_compat_l; lra).
  assert (A2 : u * tiny T <= ((1 + u) * w - 1) * tiny T) by (apply Rmult_le_compat_r; [lra|]; nra). lra.
Qed.
Lemma under_exact m v : under m (exactly v) (Rabs v).
Proof.
  split; [cbn; lra|]. split; [cbn; lra|]. cbn [exactly rad]. pose proof (pow_mono 0 m (Nat.le_0_l m)) as (_ & P). cbn [pow] in P. apply Rmult_le_pos; [lra|apply Rabs_pos].
Qed.
Lemma under_neg m b M : under m b M -> under m (b_neg b) M.
Proof. intros (A & B & C). split; [exact A|]. split; [|exact C]. cbn [b_neg mid]. now rewrite Rabs_Ropp. Qed.
Lemma under_add m a b M N : under m a M -> under m b N -> under (S m) (b_add T a b) (M + N + tiny T).
Proof.
  intros (A & B & C) (A' & B' & C'). apply under_rounded; [lra| |lra]. apply Rle_trans with (1 := Rabs_triang _ _). lra.
Qed.
Lemma under_sub m a b M N : under m a M -> under m b N -> under (S m) (b_sub T a b) (M + N + tiny T).
Proof.
  intros (A & B & C) (A' & B' & C'). apply under_rounded; [lra| |lra]. unfold Rminus. apply Rle_trans with (1 := Rabs_triang _ _). rewrite Rabs_Ropp. lra.
Qed.
Lemma under_mul m l a b M N : under m a M -> under l b N -> under (S (m + l)) (b_mul T a b) (M * N + tiny T).
Proof.
  intros (A & B & C) (A' & B' & C'). pose proof (Rabs_pos (mid a)). pose proof (Rabs_pos (mid b)). apply under_rounded.
  - repeat apply Rplus_le_le_0_compat; apply Rmult_le_pos; assumption.
  - rewrite Rabs_mult. apply Rmult_le_compat; assumption.
  - rewrite pow_add. set (v := (1 + u) ^ m) in *. set (w := (1 + u) ^ l) in *.
    assert (E1 : Rabs (mid a) * rad b <= M * ((w - 1) * N)) by (apply Rmult_le_compat; assumption).
    assert (E2 : Rabs (mid b) * rad a <= N * ((v - 1) * M)) by (apply Rmult_le_compat; assumption).
    assert (E3 : rad a * rad b <= ((v - 1) * M) * ((w - 1) * N)) by (apply Rmult_le_compat; assumption). lra.
Qed.
Lemma polynomial_errors p : polynomial p -> under (2 * operations p) (V p) (size T x p) /\ under (2 * operations p) (D p) (slope_size T x k p).
Proof.
  induction p as [i|c|p IH|p IHp q IHq|p IHp q IHq|p IHp q IHq|p IHp q IHq|p IH s|s p IH|p IH s|s p IH|p IH s|s p IH|p IH s|s p IH|f p IH|c p IHp q IHq y IHy z IHz]; cbn [polynomial operations value_ball slope_ball size slope_size]; try contradiction.
  - intros _. split; apply under_exact.
  - intros _. split; [apply under_exact|]. pose proof (under_exact (2 * 0) 0) as H. rewrite Rabs_R0 in H. exact H.
  - intros P. destruct (IH P). split; now apply under_neg.
  - intros (P & Q). destruct (IHp P) as (A & B), (IHq Q) as (A' & B'). set (a := operations p) in *. set (b := operations q) in *. split; apply (under_more (S (2 * a + 2 * b))); try lia; apply under_add.
    + apply (under_more (2 * a)); [lia|exact A].
    + apply (under_more (2 * b)); [lia|exact A'].
    + apply (under_more (2 * a)); [lia|exact B].
    + apply (under_more (2 * b)); [lia|exact B'].
  - intros (P & Q). destruct (IHp P) as (A & B), (IHq Q) as (A' & B'). set (a := operations p) in *. set (b := operations q) in *. split; apply (under_more (S (2 * a + 2 * b))); try lia; apply under_sub.
    + apply (under_more (2 * a)); [lia|exact A].
    + apply (under_more (2 * b)); [lia|exact A'].
    + apply (under_more (2 * a)); [lia|exact B].
    + apply (under_more (2 * b)); [lia|exact B'].
  - intros (P & Q). destruct (IHp P) as (A & B), (IHq Q) as (A' & B'). set (a := operations p) in *. set (b := operations q) in *. split.
    + apply (under_more (S (2 * a + 2 * b))); [lia|]. now apply under_mul.
    + apply (under_more (S (S (2 * a + 2 * b)))); [lia|]. apply under_add; now apply under_mul.
  - intros P. destruct (IH P) as (A & B). set (a := operations p) in *. split; [|apply (under_more (2 * a)); [lia|exact B]]. apply (under_more (S (2 * a))); [lia|]. apply under_add; [exact A|apply under_exact].
  - intros P. destruct (IH P) as (A & B). set (a := operations p) in *. split; [|apply (under_more (2 * a)); [lia|exact B]]. apply (under_more (S (2 * a))); [lia|]. apply under_add; [exact A|apply under_exact].
  - intros P. destruct (IH P) as (A & B). set (a := operations p) in *. split; [|apply (under_more (2 * a)); [lia|exact B]]. apply (under_more (S (2 * a))); [lia|]. apply under_sub; [exact A|apply under_exact].
  - intros P. destruct (IH P) as (A & B). set (a := operations p) in *. split; [|apply under_neg, (under_more (2 * a)); [lia|exact B]]. apply (under_more (S (2 * a))); [lia|]. rewrite (Rplus_comm (size T x p)). apply under_sub; [apply under_exact|exact A].
  - intros P. destruct (IH P) as (A & B). set (a := operations p) in *. split; (apply (under_more (S (2 * a + 0))); [lia|]); apply under_mul; try assumption; apply under_exact.
  - intros P. destruct (IH P) as (A & B). set (a := operations p) in *. split; (apply (under_more (S (2 * a + 0))); [lia|]); apply under_mul; try assumption; apply under_exact.
Qed.
End Program.
Lemma polynomial_ok T n (x : list (FJet IEEE)) k p : jets_of T n x -> (k < n)%nat -> polynomial p -> guarded T x k p ->
  exists v d, evaluates (as_meant p) (map re (map exact_jet x)) v /\
  (exists W : R -> R, locally 0 (fun t => evaluates (as_meant p) (moved (map exact_jet x) k t) (W t)) /\ is_derive W 0 d) /\
  let j := on_jets T n (as_run p) x in let w := (1 + unit_roundoff T) ^ (2 * operations p) - 1 in
  Rabs (toR (re j) - v) <= w * size T x p /\ Rabs (toR (nth k (inf j) (nzero T)) - d) <= w * slope_size T x k p.
Proof.
  intros X Hk P G. destruct (all_errors T n x k X Hk p G) as ((_ & A) & (_ & B) & M & W). destruct (polynomial_errors T n x k Hk p P) as ((_ & _ & C) & (_ & _ & C')).
  exists (mid (value_ball T x p)), (mid (slope_ball T x k p)). split; [now apply M|]. split; [exact W|]. split; [exact (Rle_trans _ _ _ A C)|exact (Rle_trans _ _ _ B C')].
Qed.

Lemma root_close a y e : 0 < a -> 0 <= y -> Rabs (y - a) <= e -> Rabs (sqrt y - sqrt a) <= e / sqrt a.
Proof.
  intros A Y H. pose proof (sqrt_lt_R0 a A) as S. pose proof (sqrt_pos y) as S'.
  replace (sqrt y - sqrt a) with ((y - a) / (sqrt y + sqrt a)).
  - unfold Rdiv. rewrite Rabs_mult, (Rabs_pos_eq (/ _)) by (left; apply Rinv_0_lt_compat; lra). apply Rmult_le_compat; [apply Rabs_pos|left; apply Rinv_0_lt_compat; lra|exact H|apply Rinv_le_contravar; lra].
  - rewrite <- (sqrt_sqrt y Y) at 1. rewrite <- (sqrt_sqrt a) at 1 by lra. field. lra.
Qed.
Lemma in_sqrt T y a : within_ball T y a -> rad a < mid a -> within_ball T (nsqrt T y) (b_sqrt T a).
Proof.
  intros (N & H) P. pose proof (Rabs_pos (toR y - mid a)). assert (Y : 0 <= toR y) by (apply Rabs_le_inv in H; lra).
  destruct (sqrt_value T y N Y) as (K & V). split; [exact K|]. rewrite V. apply after_rounding. apply root_close; [lra|exact Y|exact H].
Qed.
Lemma two_R T : toR (@nlit IEEE T 2 0) = 2.
Proof. destruct T; cbn; unfold F2R; cbn; lra. Qed.
Lemma two_number T : number_of T (nlit T 2 0).
Proof. destruct T; split; reflexivity. Qed.
Lemma square_root_ok T a : rad a < mid a -> 0 <= rad a ->
  let w := b_mul T (exactly 2) (b_sqrt T a) in fits T w -> divides w -> fits T (b_div T (exactly 1) w) -> accurate T (square_root T) a.
Proof.
  intros P R w Fw Dw Fd. split.
  - cbn [square_root f_exact f_slope_ball u_val u_der mid]. apply (is_derive_sqrt (fun t => t) (mid a) 1); [apply @is_derive_id|lra].
  - intros y H. pose proof (in_sqrt T y a H P) as Q. split; [exact Q|]. assert (B2 : within_ball T (nlit T 2 0) (exactly 2)) by (rewrite <- (two_R T); apply in_exactly, two_number).
    exact (in_div T _ _ _ _ (in_one T) (in_mul T _ _ _ _ B2 Q Fw) Dw Fd).
Qed.
Lemma toR_abs (y : IEEE) : toR (nabs y) = Rabs (toR y).
Proof. destruct y as [s|s| |s m e]; cbn; rewrite ?Rabs_R0; try reflexivity. rewrite <- F2R_Zabs. now destruct s. Qed.
Lemma absolute_ok T a : divides a -> 0 <= rad a -> accurate T (absolute T) a.
Proof.
  intros P R. assert (N : mid a <> 0) by (exact (mid_not_0 a R P)). unfold divides in P. split.
  - cbn [absolute f_exact f_slope_ball u_val u_der mid]. evar_last; [apply (is_derive_Rabs (fun t => t) (mid a) 1); [apply @is_derive_id|exact N]|]. apply Rmult_1_r.
  - intros y ((F & K) & H). assert (L : @nltb IEEE y (nzero T) = Rlt_bool (toR y) (toR (@nzero IEEE T))) by (apply (ltb_R T); [exact F|apply fmt_zero|exact K|apply fin_zero]). rewrite toR_zero in L. split.
    + split; [split; [now apply fmt_abs|now destruct y]|]. cbn [absolute f_ball f_exact f_lib u_val f_error mid rad]. rewrite toR_abs. apply Rle_trans with (2 := H). apply Rabs_triang_inv2.
    + unfold f_slope_ball. cbn [absolute f_exact f_lib u_val u_der f_slope_error]. rewrite L. apply Rabs_le_inv in H. revert P. unfold Rabs. destruct (Rcase_abs (mid a)) as [Z|Z]; intros P.
      * rewrite Rlt_bool_true by lra. rewrite sign_eq_m1 by exact Z. split; [split; [apply fmt_opp, one_number|destruct T; reflexivity]|]. rewrite toR_opp, one_R. cbn [mid rad]. rewrite Rminus_eq_0, Rabs_R0. lra.
      * rewrite Rlt_bool_false by lra. rewrite sign_eq_1 by lra. split; [apply one_number|]. rewrite one_R. cbn [mid rad]. rewrite Rminus_eq_0, Rabs_R0. lra.
Qed.
