(** The infinitesimal parts of jets of exact numbers depend linearly on those of the parameters. *)
From Coq Require Import ZArith List Bool Reals Lia Lra.
From Coquelicot Require Import Coquelicot.
From Verif Require Import BaseModel NumModel RealModel JetSpec SumSpec SumProofs JetFloatModel JetFloatSpec JetFloatProofs JetRealSpec JetRealProofs LmProofs.
From Verif Require AutoProofs.
Import ListNotations.
Open Scope R_scope.

Section Rules.
Variables (T : fmt) (n : nat) (x : list (FJet REAL)) (k : nat).
Hypothesis Hx : forall j, In j x -> List.length (inf j) = n.
Hypothesis Hk : (k < n)%nat.
Notation J p := (@on_jets REAL T n p x).
Notation D p := (nth k (inf (J p)) 0).
Definition inv_ (b : R) : R := @ndiv REAL T (none_ T) b.
Definition rule (p : prog REAL (Unary REAL)) : R :=
  match p with
  | PVar i => nth i (map (fun j : FJet REAL => nth k (inf j) 0) x) 0
  | PConst _ => 0
  | PNeg p => - D p
  | PAdd p q => D p + D q | PSub p q => D p - D q
  | PMul p q => re (J p) * D q + D p * re (J q)
  | PDiv p q => (D p - re (J p) * inv_ (re (J q)) * D q) * inv_ (re (J q))
  | PAddS p _ | PSAdd _ p | PSubS p _ => D p
  | PSSub _ p => - D p
  | PMulS p s | PSMul s p => D p * s
  | PDivS p s => D p * inv_ s
  | PSDiv s p => D p * (- s / (re (J p) * re (J p)))
  | PFun f p => u_der f (re (J p)) (u_val f (re (J p))) * D p
  | PIf c p q a b => if @cmp REAL c (re (J p)) (re (J q)) then D a else D b
  end.
Lemma rules p : D p = rule p.
Proof.
  pose proof (len T n x Hx) as L.
  destruct p; cbn [on_jets rule fj_neg fj_add fj_sub fj_mul fj_div fj_add_s fj_s_add fj_sub_s fj_s_sub fj_mul_s fj_s_mul fj_div_s fj_s_div fj_unary inf].
  - destruct (Nat.lt_ge_cases i (List.length x)) as [H|H]; [symmetry; exact (nth_in (fun j : FJet REAL => nth k (inf j) 0) x i _ H)|].
    rewrite (nth_overflow x) by exact H. cbn [inf]. rewrite zeros. symmetry. apply (nth_overflow (A := R)). rewrite map_length. exact H.
  - apply zeros.
  - exact (nth_mp n k Hk Ropp _ (L _)).
  - exact (nth_fz n k Hk Rplus _ _ (L _) (L _)).
  - exact (nth_fz n k Hk Rminus _ _ (L _) (L _)).
  - transitivity (nth k (map (@nmul REAL T (re (J p1))) (inf (J p2))) 0 + nth k (@fscl REAL T (inf (J p1)) (re (J p2))) 0).
    + apply (nth_fz n k Hk Rplus); unfold fscl; rewrite map_length; apply L.
    + f_equal; [exact (nth_times T n k Hk _ _ (L _))|exact (nth_scl T n k Hk _ _ (L _))].
  - set (i := @ndiv REAL T (none_ T) (re (J p2))). set (a := @nmul REAL T (re (J p1)) i).
    assert (L2 : List.length (map (@nmul REAL T a) (inf (J p2))) = n) by (rewrite map_length; apply L).
    transitivity (nth k (@fzip REAL (@nsub REAL T) (inf (J p1)) (map (@nmul REAL T a) (inf (J p2)))) 0 * i); [exact (nth_scl T n k Hk _ i (fzip_n n _ _ _ (L _) L2))|]. apply (f_equal (fun v => v * i)).
    transitivity (nth k (inf (J p1)) 0 - nth k (map (@nmul REAL T a) (inf (J p2))) 0); [exact (nth_fz n k Hk Rminus _ _ (L _) L2)|]. f_equal. exact (nth_times T n k Hk _ _ (L _)).
  - reflexivity.
  - reflexivity.
  - reflexivity.
  - exact (nth_mp n k Hk Ropp _ (L _)).
  - exact (nth_scl T n k Hk _ _ (L _)).
  - exact (nth_scl T n k Hk _ _ (L _)).
  - exact (nth_scl T n k Hk _ _ (L _)).
  - exact (nth_scl T n k Hk _ _ (L _)).
  - exact (nth_times T n k Hk _ _ (L _)).
  - unfold fj_cmp. now destruct (@cmp REAL c _ _).
Qed.
End Rules.

Section Linear.
Variables (T : fmt) (n : nat) (x : list (FJet REAL)) (d : list R).
Hypothesis Hx : forall j, In j x -> List.length (inf j) = n.
(** The same parameters with one derivative, in the direction d. *)
Definition directed : list (FJet REAL) := map (fun j : FJet REAL => mkFJet (re j) [sum n (fun k => nth k (inf j) 0 * nth k d 0) : REAL]) x.
Notation J p := (@on_jets REAL T n p x).
Notation J1 p := (@on_jets REAL T 1 p directed).
Lemma directed_len j : In j directed -> List.length (inf j) = 1%nat.
Proof. intros H. apply in_map_iff in H. destruct H as (i & <- & _). reflexivity. Qed.
Lemma same_value p : re (J1 p) = re (J p).
Proof.
  induction p; cbn [on_jets fj_neg fj_add fj_sub fj_mul fj_div fj_add_s fj_s_add fj_sub_s fj_s_sub fj_mul_s fj_s_mul fj_div_s fj_s_div fj_unary re]; try congruence.
  - destruct (Nat.lt_ge_cases i (List.length x)) as [H|H].
    + pose proof (nth_in (re : FJet REAL -> R) directed i (mkFJet (nzero T) (repeat (nzero T) 1)) ltac:(unfold directed; rewrite map_length; exact H)) as A.
      pose proof (nth_in (re : FJet REAL -> R) x i (mkFJet (nzero T) (repeat (nzero T) n)) H) as B. unfold directed in A. rewrite map_map in A. cbn [re] in A. exact (eq_trans (eq_sym A) B).
    + rewrite !nth_overflow by (unfold directed; rewrite ?map_length; exact H). reflexivity.
  - unfold fj_cmp. rewrite IHp1, IHp2. now destruct (@cmp REAL c _ _).
Qed.
Lemma linear p : nth 0 (inf (J1 p)) 0 = sum n (fun k => nth k (inf (J p)) 0 * nth k d 0).
Proof.
  assert (R1 : forall p, nth 0 (inf (J1 p)) 0 = rule T 1 directed 0 p) by (intros; apply rules; [exact directed_len|lia]).
  assert (Rn : forall p, sum n (fun k => nth k (inf (J p)) 0 * nth k d 0) = sum n (fun k => rule T n x k p * nth k d 0)) by (intros q; apply sum_ext; intros k Hk; f_equal; now apply rules).
  induction p; rewrite R1, Rn; cbn [rule]; rewrite ?same_value, ?IHp, ?IHp1, ?IHp2; match goal with |- @eq _ ?a ?b => change (@eq R a b) end.
  - unfold directed. rewrite map_map. cbn [inf nth]. destruct (Nat.lt_ge_cases i (List.length x)) as [H|H].
    + set (j0 := mkFJet (nzero T) (repeat (nzero T) n) : FJet REAL). transitivity (sum n (fun k => nth k (inf (nth i x j0)) 0 * nth k d 0)); [exact (nth_in (fun j : FJet REAL => sum n (fun k => nth k (inf j) 0 * nth k d 0)) x i j0 H)|].
      apply sum_ext. intros k _. f_equal. symmetry. exact (nth_in (fun j : FJet REAL => nth k (inf j) 0) x i j0 H).
    + rewrite (nth_overflow (A := R)) by (rewrite map_length; exact H). symmetry. apply sum_0. intros k _. rewrite (nth_overflow (A := R)) by (rewrite map_length; exact H). ring.
  - symmetry. apply sum_0. intros. ring.
  - rewrite (sum_ext n (fun k => - nth k (inf (J p)) 0 * nth k d 0) (fun k => - (1) * (nth k (inf (J p)) 0 * nth k d 0))) by (intros; ring). rewrite sum_scal. ring.
  - rewrite <- sum_plus. apply sum_ext. intros. ring.
  - rewrite <- sum_minus. apply sum_ext. intros. ring.
  - rewrite <- sum_scal, <- sum_scal_r, <- sum_plus. apply sum_ext. intros. ring.
  - rewrite <- sum_scal, <- sum_minus, <- sum_scal_r. apply sum_ext. intros. ring.
  - reflexivity.
  - reflexivity.
  - reflexivity.
  - rewrite (sum_ext n (fun k => - nth k (inf (J p)) 0 * nth k d 0) (fun k => - (1) * (nth k (inf (J p)) 0 * nth k d 0))) by (intros; ring). rewrite sum_scal. ring.
  - rewrite <- sum_scal_r. apply sum_ext. intros. ring.
  - rewrite <- sum_scal_r. apply sum_ext. intros. ring.
  - rewrite <- sum_scal_r. apply sum_ext. intros. ring.
  - rewrite <- sum_scal_r. apply sum_ext. intros. ring.
  - rewrite <- sum_scal. apply sum_ext. intros. ring.
  - rewrite IHp3, IHp4. now destruct (@cmp REAL c _ _).
Qed.
End Linear.

Lemma unit_len x j : In j (unit_jets x) -> List.length (inf j) = List.length x.
Proof. intros H. apply in_map_iff in H. destruct H as (i & <- & _). cbn [inf]. unfold unit_vec. now rewrite map_length, seq_length. Qed.
Lemma unit_nth x i d : (i < List.length x)%nat -> nth i (unit_jets x) d = mkFJet (nth i x 0 : REAL) (unit_vec (List.length x) i : list REAL).
Proof. intros H. unfold unit_jets. apply (AutoProofs.nth_map_seq (fun i => mkFJet (nth i x 0 : REAL) (unit_vec (List.length x) i : list REAL))). exact H. Qed.
Lemma unit_re x : map re (unit_jets x) = x.
Proof.
  unfold unit_jets. rewrite map_map. cbn [re]. apply (nth_ext _ _ 0 0); [now rewrite map_length, seq_length|]. intros i Hi. rewrite map_length, seq_length in Hi. now apply (AutoProofs.nth_map_seq (fun i => nth i x 0)).
Qed.
Lemma unit_dot n (d : list R) i : (i < n)%nat -> sum n (fun k => nth k (unit_vec n i) 0 * nth k d 0) = nth i d 0.
Proof.
  intros H. assert (E : forall k, (k < n)%nat -> nth k (unit_vec n i) 0 = if (k =? i)%nat then 1 else 0) by (intros k Hk; now apply (AutoProofs.nth_map_seq (fun k => if (k =? i)%nat then 1 else 0))).
  rewrite (sum_one n i); [rewrite E, Nat.eqb_refl by exact H; ring|exact H|]. intros k Hk N. rewrite E by exact Hk. destruct (Nat.eqb_spec k i); [contradiction|ring].
Qed.
Lemma total_derivative T F p x : smooth p x -> function_of p F -> derivative_of F x (inf (on_jets T (List.length x) p (unit_jets x))).
Proof.
  intros S HF c t0 d (C0 & CL & CD). set (n := List.length x) in *.
  set (y := directed n (unit_jets x) d). assert (Yre : map re y = x) by (unfold y, directed; rewrite map_map; cbn [re]; exact (unit_re x)).
  assert (Ylen : List.length y = n) by (unfold y, directed, unit_jets; now rewrite !map_length, seq_length).
  assert (Cy : curve_through (map re y) (map (fun j : FJet REAL => nth 0 (inf j) 0) y) c t0).
  { rewrite Yre. split; [exact C0|]. split; [exact CL|]. intros i Hi. evar_last; [apply CD; exact Hi|].
    assert (E : nth i y (mkFJet (0 : REAL) []) = mkFJet (nth i x 0 : REAL) [nth i d 0 : REAL]).
    { unfold y, directed. rewrite (nth_indep _ _ ((fun j : FJet REAL => mkFJet (re j) [sum n (fun k => nth k (inf j) 0 * nth k d 0) : REAL]) (mkFJet (0 : REAL) []))) by (rewrite map_length; unfold unit_jets; now rewrite map_length, seq_length).
      rewrite (map_nth (fun j : FJet REAL => mkFJet (re j) [sum n (fun k => nth k (inf j) 0 * nth k d 0) : REAL])). rewrite unit_nth by exact Hi. cbn [re inf]. f_equal. f_equal. exact (unit_dot n d i Hi). }
    symmetry. pose proof (nth_in (fun j : FJet REAL => nth 0 (inf j) 0) y i (mkFJet (0 : REAL) []) ltac:(rewrite Ylen; exact Hi)) as Q. rewrite E in Q. exact Q. }
  destruct (curves_ok T 1 y p 0 c t0 (directed_len n (unit_jets x) d) Nat.lt_0_1 ltac:(rewrite Yre; exact S) Cy) as (V & _ & L & H).
  pose proof (linear T n (unit_jets x) d (unit_len x) p) as E. fold y in E. rewrite E in H.
  apply (is_derive_ext_loc V); [|exact H]. revert L. apply filter_imp. intros t Ht. symmetry. now apply HF.
Qed.
