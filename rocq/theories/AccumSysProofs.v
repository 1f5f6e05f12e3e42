(** The system computed from jets or difference quotients. *)
From Coq Require Import ZArith List Bool Reals Floats.SpecFloat Permutation Lia Lra.
From Flocq Require Import Core BinarySingleNaN.
From Verif Require Import BaseModel NumModel NumSpec IeeeProofs RoundProofs RollSpec RollProofs CostModel OptionsModel TraitsModel TraitsSpec TraitsProofs DiffModel DiffSpec DiffProofs DiffAccProofs
  DiffFloatSpec DiffFloatProofs DiffFloatErrorProofs LossFloatSpec LossFloatProofs JetFloatModel AccumModel AccumSpec AccumProofs.
Import ListNotations.
Open Scope R_scope.

Lemma good_combine T u w : of_type T u -> of_type T w -> good_pairs T (combine u w).
Proof.
  intros Hu Hw. apply Forall_forall. intros (x, y) Hp. pose proof (in_combine_l _ _ _ _ Hp) as Hx. pose proof (in_combine_r _ _ _ _ Hp) as Hy.
  unfold of_type in *. rewrite Forall_forall in Hu, Hw. cbn. auto.
Qed.
Lemma same_pairs (u : list IEEE) p : In p (combine u u) -> fst p = snd p.
Proof. induction u as [|x u IH]; [contradiction|]. cbn. intros [<- |H]; [reflexivity|auto]. Qed.
Lemma abs_squares u : abs_dot (combine u u) = exact_dot (combine u u).
Proof.
  unfold abs_dot, exact_dot. induction u as [|x u IH]; [reflexivity|]. cbn [combine map total fold_right]. unfold total in IH. rewrite IH. f_equal.
  unfold product_of. cbn. rewrite Rabs_pos_eq; [reflexivity|]. apply Rle_0_sqr.
Qed.

Section System.
Variable T : fmt.
Variable dot : list IEEE -> list IEEE -> IEEE.
Hypothesis HD : dots T dot.

Lemma one_dot u w : of_type T u -> of_type T w -> List.length u = List.length w -> is_fmt T (dot u w) = true /\
  (is_fin (dot u w) = true -> Rabs (toR (dot u w) - exact_dot (combine u w)) <= dot_error T (List.length w) (abs_dot (combine u w))).
Proof.
  intros Hu Hw L. destruct (dotted_error T _ _ (HD u w L) (good_combine T u w Hu Hw)) as (M & E). split; [exact M|]. intros F.
  destruct (E F) as (_ & B). now rewrite combine_length, L, Nat.min_id in B.
Qed.

Lemma system_ok J r : List.Forall (of_type T) J -> of_type T r -> sized_columns J r -> system_within T J r (map (fun c => dot c r) J) (map (fun c => map (dot c) J) J).
Proof.
  intros HJ Hr HS. unfold system_within. rewrite !map_length. split; [reflexivity|]. split; [reflexivity|]. split; [apply Forall_map, Forall_forall; intros; now rewrite map_length|].
  assert (C : forall k, (k < List.length J)%nat -> of_type T (column_of J k) /\ List.length (column_of J k) = List.length r).
  { intros k Hk. unfold sized_columns in HS. rewrite Forall_forall in HJ, HS. split; [apply HJ|apply HS]; apply nth_In, Hk. }
  split.
  - intros k Hk. destruct (C k Hk) as (Ck & Lk). cbv zeta. rewrite (nth_indep _ S754_nan (dot [] r)) by now rewrite map_length. rewrite (map_nth (fun c => dot c r)). apply (one_dot _ _ Ck Hr Lk).
  - intros k l Hk Hl. destruct (C k Hk) as (Ck & Lk). destruct (C l Hl) as (Cl & Ll). cbv zeta.
    rewrite (nth_indep _ [] (map (dot []) J)) by now rewrite map_length. rewrite (map_nth (fun c => map (dot c) J)).
    rewrite (nth_indep _ S754_nan (dot (nth k J []) [])) by now rewrite map_length. rewrite (map_nth (dot (nth k J []))).
    fold (column_of J k) (column_of J l). destruct (one_dot _ _ Ck Cl ltac:(congruence)) as (M & E). split; [exact M|]. intros F. rewrite Ll in E. split; [exact (E F)|]. intros <-.
    apply (dotted_nonneg T _ _ (HD (column_of J k) (column_of J k) eq_refl)); [now apply good_combine|apply same_pairs|exact F].
Qed.
End System.

Lemma cvt_fin T (v : IEEE) : is_fmt T v = true -> is_fin (ncvt F64 v) = true -> is_fin v = true /\ toR (ncvt F64 v) = toR v.
Proof.
  intros M F. assert (Fv : is_fin v = true) by (destruct v as [s|s| |s m e]; try reflexivity; discriminate F). split; [exact Fv|]. exact (proj1 (cvt_wide T v M Fv)).
Qed.
Lemma squares_ok T sq r : sums_squares T sq -> of_type T r -> is_fmt T (sq r) = true /\ squares_within T r (sq r) /\ squares_within T r (ncvt F64 (sq r)).
Proof.
  intros HS Hr. destruct (dotted_error T _ _ (HS r) (good_combine T r r Hr Hr)) as (M & E). split; [exact M|].
  assert (Q : squares_within T r (sq r)).
  { intros F. split; [apply (dotted_nonneg T _ _ (HS r)); [now apply good_combine|apply same_pairs|exact F]|].
    destruct (E F) as (_ & B). now rewrite combine_length, Nat.min_id, abs_squares in B. }
  split; [exact Q|]. intros F. destruct (cvt_fin T _ M F) as (Fv & ->). exact (Q Fv).
Qed.

(** Automatic differentiation. *)
Lemma columns_ok T n js : List.Forall (jet_of_type T) js -> List.Forall (of_type T) (jet_columns T n js) /\ sized_columns (jet_columns T n js) (map re js) /\ List.length (jet_columns T n js) = n.
Proof.
  intros H. unfold jet_columns. split; [|split].
  - apply Forall_map, Forall_forall. intros k _. apply Forall_map, Forall_forall. intros j Hj. rewrite Forall_forall in H. destruct (H j Hj) as (_ & V).
    destruct (Nat.lt_ge_cases k (List.length (inf j))) as [L|L]; [unfold of_type in V; rewrite Forall_forall in V; apply V, nth_In, L|rewrite nth_overflow by exact L; apply fmt_zero].
  - apply Forall_map, Forall_forall. intros k _. now rewrite !map_length.
  - now rewrite map_length, seq_length.
Qed.
Lemma auto_within T dot sq nlls fx n js c g H : dots T dot -> sums_squares T sq -> List.Forall (jet_of_type T) js ->
  auto_sums T dot sq nlls fx n (JetVector js) = Ret (c, g, H) ->
  system_within T (jet_columns T n js) (map re js) g H /\ List.length g = n /\ squares_within T (map re js) (cost c) /\
  ((Z.of_nat (List.length js) <= INT_MAX)%Z -> num_resisuals c = Z.of_nat (List.length js)).
Proof.
  intros HD HS HJ E. cbn [auto_sums] in E. destruct (forallb _ js); [|discriminate E]. cbv zeta in E. injection E as <- <- <-.
  destruct (columns_ok T n js HJ) as (CJ & CS & CL).
  assert (Hr : of_type T (map re js)) by (apply Forall_map; apply Forall_impl with (2 := HJ); intros j (K & _); exact K).
  split; [now apply system_ok|]. split; [now rewrite map_length|]. split; [apply (squares_ok T sq _ HS Hr)|].
  intros L. cbn. apply wrap_id. unfold INT_MIN, INT_MAX in *. lia.
Qed.
Lemma one_within T dot sq fx n j c g H : jet_of_type T j -> auto_sums T dot sq true fx n (OneJet j) = Ret (c, g, H) ->
  (fx = false \/ List.length (inf j) = 1%nat) ->
  system_within T (map (fun d => [d]) (inf j)) [re j] g H /\ squares_within T [re j] (cost c) /\ num_resisuals c = 1%Z.
Proof.
  intros (Ma & Mv) E FX.
  assert (K : g = map (fun d => nmul T d (re j)) (inf j) /\ H = map (fun d => map (nmul T d) (inf j)) (inf j) /\ c = Cost_scalar (ncvt F64 (nmul T (re j) (re j)))).
  { cbn [auto_sums] in E. destruct fx; cbn [bind] in E.
    - destruct FX as [FX|FX]; [discriminate FX|]. destruct (inf j) as [|d [|? ?]]; try discriminate FX. cbn in E. injection E as <- <- <-. repeat split.
    - injection E as <- <- <-. repeat split. }
  destruct K as (-> & -> & ->).
  pose (dt := fun u w : list IEEE => match u, w with x :: _, y :: _ => nmul T x y | _, _ => nzero T end : IEEE).
  assert (D1 : forall x y : IEEE, dotted T (combine [x] [y]) (dt [x] [y])) by (intros; apply dotted_one).
  set (J := map (fun d => [d]) (inf j)).
  assert (B : forall x y : IEEE, is_fmt T x = true -> is_fmt T y = true -> is_fmt T (nmul T x y) = true /\
    (is_fin (nmul T x y) = true -> Rabs (toR (nmul T x y) - exact_dot (combine [x] [y])) <= dot_error T 1 (abs_dot (combine [x] [y])))).
  { intros x y Hx Hy. destruct (dotted_error T _ _ (D1 x y)) as (M & Q); [now repeat constructor|]. split; [exact M|]. intros F. exact (proj2 (Q F)). }
  split; [|split].
  - assert (LJ : List.length J = List.length (inf j)) by (unfold J; now rewrite map_length). unfold system_within. rewrite LJ, !map_length. split; [reflexivity|]. split; [reflexivity|]. split; [apply Forall_map, Forall_forall; intros; now rewrite map_length|].
    assert (C : forall k, (k < List.length (inf j))%nat -> column_of J k = [nth k (inf j) S754_nan] /\ is_fmt T (nth k (inf j) S754_nan) = true).
    { intros k Hk. split; [|unfold of_type in Mv; rewrite Forall_forall in Mv; apply Mv, nth_In, Hk]. unfold column_of, J. rewrite (nth_indep _ [] ((fun d : IEEE => [d]) S754_nan)) by now rewrite map_length.
      now rewrite (map_nth (fun d : IEEE => [d])). }
    split.
    + intros k Hk. destruct (C k Hk) as (-> & Mk). cbv zeta. rewrite (nth_indep _ S754_nan (nmul T (S754_nan : IEEE) (re j))) by now rewrite map_length. rewrite (map_nth (fun d => nmul T d (re j))). apply B; assumption.
    + intros k l Hk Hl. destruct (C k Hk) as (-> & Mk). destruct (C l Hl) as (-> & Ml). cbv zeta.
      rewrite (nth_indep _ [] (map (nmul T (S754_nan : IEEE)) (inf j))) by now rewrite map_length. rewrite (map_nth (fun d => map (nmul T d) (inf j))).
      rewrite (nth_indep _ S754_nan (nmul T (nth k (inf j) S754_nan) (S754_nan : IEEE))) by now rewrite map_length. rewrite (map_nth (nmul T (nth k (inf j) S754_nan))).
      destruct (B _ _ Mk Ml) as (M & Q). split; [exact M|]. intros F. split; [exact (Q F)|]. intros <-. apply (dotted_nonneg T _ _ (D1 _ _)); [now repeat constructor|apply same_pairs|exact F].
  - cbn [cost Cost_scalar]. intros F. destruct (B _ _ Ma Ma) as (M & Q). destruct (cvt_fin T (nmul T (re j) (re j)) M F) as (Fv & Ev). change (ncvt F64 (if true then nmul T (re j) (re j) else re j)) with (ncvt F64 (nmul T (re j) (re j))) in *. rewrite Ev. split; [apply (dotted_nonneg T _ _ (D1 (re j) (re j))); [now repeat constructor|apply same_pairs|exact Fv]|].
    specialize (Q Fv). rewrite abs_squares in Q. exact Q.
  - reflexivity.
Qed.

(** Numerical differentiation. *)
Lemma quotients_type T p q d : of_type T p -> of_type T q -> is_fmt T d = true -> of_type T (quotients T p q d).
Proof.
  revert q. induction p as [|x p IH]; intros [|y q] Hp Hq Hd; try constructor.
  - apply fmt_div; [apply fmt_sub; [apply (Forall_inv Hp)|apply (Forall_inv Hq)]|exact Hd].
  - apply IH; [apply (Forall_inv_tail Hp)|apply (Forall_inv_tail Hq)|exact Hd].
Qed.
Lemma quotients_length T (p q : list IEEE) d n : List.length p = n -> List.length q = n -> List.length (quotients T p q d) = n.
Proof. revert q n. induction p as [|x p IH]; intros [|y q] n Hp Hq; cbn in *; try congruence. destruct n; [discriminate|]. f_equal. apply IH; congruence. Qed.

Section Num.
Variables (T : fmt) (t : ty) (f : val IEEE -> residuals IEEE) (method : Method) (h : IEEE) (x : val IEEE).
Hypothesis Hf : forall y, of_type T (coefs_of (f y)).
Hypothesis Hh : is_fmt T h = true.

Lemma as_column_type (r : residuals IEEE) c : of_type T (coefs_of r) -> as_column r = Ret c -> of_type T c.
Proof. destruct r as [r|a b l]; cbn; intros H E; [injection E as <-; exact H|]. destruct (b =? 1)%nat; [injection E as <-; exact H|discriminate]. Qed.
Lemma num_column_type u res dx r u' dx' c : of_type T (coefs_of res) -> num_column T t (logged f) method h x u res dx r = Ret (u', dx', c) ->
  of_type T c /\ List.length c = List.length (coefs_of res).
Proof.
  intros Hr E. unfold num_column, logged in E.
  assert (Two : is_fmt T (nmul T (nofZ T 2) h) = true) by (apply fmt_mul; [apply two_value|exact Hh]).
  assert (K : forall p q d, of_type T p -> of_type T q -> is_fmt T d = true -> forall c0, column T (List.length (coefs_of res)) p q d = Ret c0 -> of_type T c0 /\ List.length c0 = List.length (coefs_of res)).
  { intros p q d Hp Hq Hd c0 Ec. unfold column in Ec. destruct (_ && _) eqn:L; [|discriminate Ec]. injection Ec as <-. apply andb_true_iff in L. destruct L as (L1 & L2). apply Nat.eqb_eq in L1, L2.
    split; [now apply quotients_type|now apply quotients_length]. }
  destruct (PlusEq (nadd T) t x _) as [y| |]; try discriminate E. cbn [bind] in E. destruct method.
  - destruct (as_column res) as [q| |] eqn:Eq; try discriminate E. cbn [bind] in E. destruct (column _ _ _ _ _) as [c0| |] eqn:Ec; try discriminate E. cbn [bind] in E. injection E as _ _ <-.
    apply (K _ _ _ (Hf y) (as_column_type _ _ Hr Eq) Hh _ Ec).
  - destruct (PlusEq (nadd T) t x _) as [y2| |]; try discriminate E. cbn [bind] in E. destruct (column _ _ _ _ _) as [c0| |] eqn:Ec; try discriminate E. cbn [bind] in E. injection E as _ _ <-.
    apply (K _ _ _ (Hf y) (Hf y2) Two _ Ec).
  - destruct (PlusEq (nadd T) t y _) as [y2| |]; try discriminate E. cbn [bind] in E. destruct (column _ _ _ _ _) as [c0| |] eqn:Ec; try discriminate E. cbn [bind] in E. injection E as _ _ <-.
    apply (K _ _ _ (Hf y) (Hf y2) Two _ Ec).
Qed.
Lemma num_columns_type res k : of_type T (coefs_of res) -> forall u dx r u' J, num_columns T t (logged f) method h x u res dx r k = Ret (u', J) ->
  List.Forall (of_type T) J /\ sized_columns J (coefs_of res).
Proof.
  intros Hr. induction k as [|k IH]; intros u dx r u' J E; cbn [num_columns] in E; [injection E as _ <-; split; constructor|].
  destruct (num_column _ _ _ _ _ _ _ _ _ _) as [((u1, dx1), c)| |] eqn:E1; try discriminate E. cbn [bind] in E.
  destruct (num_columns _ _ _ _ _ _ _ _ _ _ _) as [(u2, J2)| |] eqn:E2; try discriminate E. cbn [bind] in E. injection E as _ <-.
  destruct (num_column_type _ _ _ _ _ _ _ Hr E1) as (A & B). destruct (IH _ _ _ _ _ E2) as (C & D). split; constructor; assumption.
Qed.
Lemma numerical_within dot norm sq log log' c g H : dots T dot -> sums_squares T sq -> (forall r, norm r = nsqrt T (sq r)) ->
  NumDiffFunc2 T t dot norm (logged f) method h x log = Ret (log', c, g, H) ->
  exists J, NumEval T t (logged f) method h x (log ++ [x]) = Ret (log', f x, J) /\ system_within T J (coefs_of (f x)) g H /\
  match f x with
  | RScalar r => cost c = ncvt F64 (nabs r)
  | RMat _ _ r => exists s, cost c = ncvt F64 (nsqrt T s) /\ squares_within T r s
  end.
Proof.
  intros HD HS HN E. unfold NumDiffFunc2 in E. cbn [logged] in E.
  destruct (EstimateNumJac _ _ _ _ _ _ _) as [(u1, J)| |] eqn:EJ; try discriminate E. cbn [bind] in E.
  destruct (grad_of dot J (f x)) as [g0| |] eqn:EG; try discriminate E. cbn [bind] in E. injection E as <- <- <- <-.
  unfold EstimateNumJac in EJ. destruct (NumEval _ _ _ _ _ _ _) as [((u2, r2), J2)| |] eqn:EN; try discriminate EJ. cbn [bind] in EJ. injection EJ as <- <-.
  assert (R2 : r2 = f x /\ List.Forall (of_type T) J2 /\ sized_columns J2 (coefs_of (f x))).
  { unfold NumEval in EN. destruct (DynDims t x) as [dims| |]; try discriminate EN. cbn [bind logged] in EN.
    destruct (num_columns _ _ _ _ _ _ _ _ _ _ _) as [(u3, J3)| |] eqn:E3; try discriminate EN. cbn [bind] in EN. injection EN as _ <- <-.
    split; [reflexivity|]. apply (num_columns_type _ _ (Hf x) _ _ _ _ _ E3). }
  destruct R2 as (-> & TJ & SJ). exists J2. split; [reflexivity|].
  unfold grad_of in EG. destruct (as_column (f x)) as [r| |] eqn:Er; try discriminate EG. cbn [bind] in EG. injection EG as <-.
  assert (r = coefs_of (f x)). { destruct (f x) as [r0|a b l]; cbn in Er; [now injection Er as <-|]. destruct (b =? 1)%nat; [now injection Er as <-|discriminate Er]. } subst r.
  split; [exact (system_ok T dot HD J2 _ TJ (Hf x) SJ)|]. pose proof (Hf x) as Hx. unfold num_cost. destruct (f x) as [r|a b r]; [reflexivity|]. exists (sq r). split; [cbn; now rewrite HN|].
  apply (squares_ok T sq r HS Hx).
Qed.
End Num.
