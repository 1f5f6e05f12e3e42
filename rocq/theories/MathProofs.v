From Coq Require Import ZArith List Bool Lia Reals Lra.
From Flocq Require Import Core.Raux.
From Verif Require Import BaseModel NumModel RealModel CostModel OptionsModel MathModel MathSpec
  NumSpec IeeeProofs RoundProofs.
Import ListNotations.
Open Scope Z_scope.

(** *** SQRT *)
Lemma int_ok z : INT_MIN <= z <= INT_MAX -> int_chk z = Ret z.
Proof.
  intros H. unfold int_chk, in_int. replace (_ && _) with true; [reflexivity|].
  symmetry. apply andb_true_intro; split; apply Z.leb_le; lia.
Qed.

Lemma div_ok a b : 0 <= a <= INT_MAX -> 1 <= b -> int_div a b = Ret (a / b).
Proof.
  intros Ha Hb. unfold int_div. destruct (Z.eqb_spec b 0); [lia|].
  rewrite Z.quot_div_nonneg by lia. apply int_ok. unfold INT_MIN, INT_MAX in *.
  split; [pose proof (Z.div_pos a b); lia|]. apply Z.div_le_upper_bound; [lia|].
  transitivity (1 * 2147483647); [lia|]. apply Z.mul_le_mono_nonneg_r; lia.
Qed.

Lemma mid_le N mid : 1 <= mid -> (mid <=? N / mid) = (mid * mid <=? N).
Proof.
  intros Hm. destruct (Z.leb_spec (mid * mid) N) as [H|H].
  - apply Z.leb_le. apply Z.div_le_lower_bound; lia.
  - apply Z.leb_gt. apply Z.div_lt_upper_bound; lia.
Qed.

(** Invariant: the root is in [lo - 1, hi], result = lo - 1 or nothing found yet. *)
Lemma sqrt_loop_ok fuel : forall N lo hi res,
  2 <= N <= INT_MAX -> 1 <= lo -> lo - 1 <= hi <= N / 2 -> hi - lo + 1 < 2 ^ Z.of_nat fuel ->
  res = lo - 1 -> res * res <= N -> N < (hi + 1) * (hi + 1) ->
  exists r, sqrt_loop (S fuel) N lo hi res = Ret r /\ 0 <= r /\ r * r <= N < (r + 1) * (r + 1).
Proof.
  induction fuel as [|fuel IH]; intros N lo hi res HN Hlo Hhi Hf Er Hr Hh.
  { change (2 ^ Z.of_nat 0) with 1 in Hf. cbn. destruct (Z.leb_spec lo hi) as [Hle|Hgt]; [lia|].
    exists res. split; [reflexivity|]. subst res. replace (hi + 1) with lo in Hh by lia.
    replace (lo - 1 + 1) with lo by lia. lia. }
  assert (HN2 : N / 2 <= INT_MAX) by (apply Z.div_le_upper_bound; lia).
  remember (S fuel) as f1 eqn:Ef1. cbn [sqrt_loop]. subst f1. destruct (Z.leb_spec lo hi) as [Hle|Hgt].
  2:{ exists res. split; [reflexivity|]. subst res. replace (hi + 1) with lo in Hh by lia.
      replace (lo - 1 + 1) with lo by lia. lia. }
  assert (Hd : 0 <= (hi - lo) / 2 /\ 2 * ((hi - lo) / 2) <= hi - lo < 2 * ((hi - lo) / 2) + 2)
    by (split; [apply Z.div_pos; lia|]; pose proof (Z.div_mod (hi - lo) 2);
        pose proof (Z.mod_pos_bound (hi - lo) 2); lia).
  assert (INT_MIN <= 0) by (unfold INT_MIN; lia).
  rewrite (int_ok (hi - lo)) by lia. cbn [bind]. rewrite div_ok by lia. cbn [bind].
  rewrite (int_ok (lo + _)) by lia. cbn [bind]. set (mid := lo + (hi - lo) / 2) in *.
  rewrite div_ok by lia. cbn [bind]. rewrite mid_le by lia.
  rewrite Nat2Z.inj_succ, Z.pow_succ_r in Hf by lia.
  assert (Hmid : mid <= N / 2) by lia.
  destruct (Z.leb_spec (mid * mid) N) as [Hm|Hm].
  - assert (Hmax : mid + 1 <= INT_MAX).
    { assert (N / 2 < INT_MAX); [|lia]. apply Z.div_lt_upper_bound; unfold INT_MAX in *; lia. }
    rewrite int_ok by lia. cbn [bind]. apply IH; auto; try lia.
  - rewrite int_ok by lia. cbn [bind]. apply IH; auto; try lia.
Qed.

Lemma SQRT_ok fuel N : 0 <= N <= INT_MAX -> (31 <= fuel)%nat ->
  exists r, SQRT fuel N = Ret r /\ 0 <= r /\ r * r <= N < (r + 1) * (r + 1).
Proof.
  intros HN Hf. unfold SQRT. destruct (Z.leb_spec N 1) as [H|H].
  - exists N. split; [reflexivity|]. assert (N = 0 \/ N = 1) as [->| ->] by lia; lia.
  - destruct fuel as [|fuel]; [lia|]. rewrite div_ok by lia. cbn [bind].
    pose proof (Z.div_mod N 2). pose proof (Z.mod_pos_bound N 2).
    apply sqrt_loop_ok; try lia.
    + apply Z.lt_le_trans with (2 ^ 30); [change (2 ^ 30) with 1073741824; unfold INT_MAX in *; lia|].
      apply Z.pow_le_mono_r; lia.
    + nia.
Qed.

Lemma SQRT_neg fuel N : N <= 0 -> SQRT fuel N = Ret N.
Proof. intros H. unfold SQRT. destruct (Z.leb_spec N 1); [reflexivity|lia]. Qed.

(** *** MaxAbsDiff *)
Section Diff.
Context {A : Arith}.
Variable f : fmt.
Notation col := (list (Z * A)).

(** The differences looked at, in order. *)
Definition diffs1 (c1 c2 : col) : list A :=
  map (fun e => nabs (nsub f (snd e) (match find_row (fst e) c2 with Some v => v | None => nzero f end))) c1.
Definition diffs2 (c1 c2 : col) : list A :=
  flat_map (fun e => match find_row (fst e) c1 with
                     | Some _ => []
                     | None => [nabs (nsub f (nzero f) (snd e))]
                     end) c2.
Definition columns (d : col -> col -> list A) (m1 m2 : list col) : list A :=
  flat_map (fun cc => d (fst cc) (snd cc)) (combine m1 m2).

Lemma diff_first_fold c1 c2 : forall m, diff_first f c1 c2 m = fold_left std_max (diffs1 c1 c2) m.
Proof. induction c1 as [|(r, v) c1 IH]; intros m; cbn; [reflexivity|]. now rewrite IH. Qed.
Lemma diff_second_fold c1 c2 : forall m, diff_second f c1 c2 m = fold_left std_max (diffs2 c1 c2) m.
Proof.
  induction c2 as [|(r, v) c2 IH]; intros m; cbn; [reflexivity|]. rewrite IH.
  destruct (find_row r c1); reflexivity.
Qed.
Lemma each_fold step d : (forall c1 c2 m, step c1 c2 m = fold_left std_max (d c1 c2) m) ->
  forall m1 m2 m, each_column step m1 m2 m = fold_left std_max (columns d m1 m2) m.
Proof.
  intros H. induction m1 as [|c1 m1 IH]; intros [|c2 m2] m; cbn; try reflexivity.
  rewrite IH, H. unfold columns. cbn. now rewrite fold_left_app.
Qed.

Lemma MaxAbsDiff_fold (m1 m2 : sparse_mat A) d : MaxAbsDiff f m1 m2 = Some d ->
  sp_rows m1 = sp_rows m2 /\ List.length (sp_cols m1) = List.length (sp_cols m2) /\
  d = fold_left std_max (columns diffs1 (sp_cols m1) (sp_cols m2) ++ columns diffs2 (sp_cols m1) (sp_cols m2)) (nzero f).
Proof.
  unfold MaxAbsDiff. destruct (Z.eqb_spec (sp_rows m1) (sp_rows m2)); [|discriminate].
  destruct (Nat.eqb_spec (List.length (sp_cols m1)) (List.length (sp_cols m2))); [|discriminate].
  cbn [negb orb]. intros H. injection H as <-. repeat split; auto.
  rewrite (each_fold _ _ diff_second_fold), (each_fold _ _ diff_first_fold). now rewrite fold_left_app.
Qed.

Lemma MaxAbsDiff_shape (m1 m2 : sparse_mat A) :
  MaxAbsDiff f m1 m2 = None <->
  (sp_rows m1 <> sp_rows m2 \/ List.length (sp_cols m1) <> List.length (sp_cols m2)).
Proof.
  unfold MaxAbsDiff. destruct (Z.eqb_spec (sp_rows m1) (sp_rows m2)); cbn [negb orb].
  - destruct (Nat.eqb_spec (List.length (sp_cols m1)) (List.length (sp_cols m2))); cbn; split;
      intros H; try discriminate; auto. destruct H; contradiction.
  - split; auto.
Qed.

(** Search. *)
Lemma find_row_some r (c : col) v : find_row r c = Some v -> In (r, v) c.
Proof.
  induction c as [|(r', v') c IH]; cbn; [discriminate|]. destruct (Z.eqb_spec r' r).
  - intros H. injection H as ->. subst. now left.
  - auto.
Qed.
Lemma find_row_none r (c : col) : find_row r c = None -> forall v, ~ In (r, v) c.
Proof.
  induction c as [|(r', v') c IH]; cbn; [auto|]. destruct (Z.eqb_spec r' r); [discriminate|].
  intros H v [E|E]; [congruence|]. now apply (IH H v).
Qed.
Lemma find_row_in r (c : col) v : NoDup (map fst c) -> In (r, v) c -> find_row r c = Some v.
Proof.
  induction c as [|(r', v') c IH]; cbn; [contradiction|]. intros Hn [E|E].
  - injection E as -> ->. now rewrite Z.eqb_refl.
  - inversion Hn; subst. destruct (Z.eqb_spec r' r); [|now apply IH]. subst.
    exfalso. apply H1. now apply (in_map fst) in E.
Qed.

Lemma coef_find (m : sparse_mat A) i j v : well_formed m -> coefficient f m i j v ->
  v = match find_row i (nth j (sp_cols m) []) with Some w => w | None => nzero f end.
Proof.
  intros W (_ & Hj & [H|(-> & H)]).
  - rewrite (find_row_in _ _ v); auto. apply W, nth_In, Hj.
  - destruct (find_row i _) eqn:E; [|reflexivity]. apply find_row_some in E. now apply H in E.
Qed.
Lemma coef_exists (m : sparse_mat A) i j : 0 <= i < sp_rows m -> (j < List.length (sp_cols m))%nat ->
  coefficient f m i j (match find_row i (nth j (sp_cols m) []) with Some w => w | None => nzero f end).
Proof.
  intros Hi Hj. repeat split; try lia. destruct (find_row i _) eqn:E.
  - left. now apply find_row_some.
  - right. split; [reflexivity|]. now apply find_row_none.
Qed.

Lemma in_columns d (m1 m2 : list col) v : List.length m1 = List.length m2 ->
  (In v (columns d m1 m2) <-> exists j, (j < List.length m1)%nat /\ In v (d (nth j m1 []) (nth j m2 []))).
Proof.
  intros El. unfold columns. rewrite in_flat_map. split.
  - intros (cc & H1 & H2). apply (In_nth _ _ ([], [])) in H1 as (j & Hj & E).
    rewrite combine_length, <- El, Nat.min_id in Hj. rewrite combine_nth in E by assumption.
    subst cc. eauto.
  - intros (j & Hj & H). exists (nth j m1 [], nth j m2 []). split; [|exact H].
    rewrite <- (combine_nth m1 m2 j [] []) by assumption. apply nth_In.
    rewrite combine_length, <- El, Nat.min_id. exact Hj.
Qed.

(** Every listed difference is the difference of two coefficients... *)
Lemma diffs_are_coefs (m1 m2 : sparse_mat A) v : well_formed m1 -> well_formed m2 ->
  sp_rows m1 = sp_rows m2 -> List.length (sp_cols m1) = List.length (sp_cols m2) ->
  In v (columns diffs1 (sp_cols m1) (sp_cols m2) ++ columns diffs2 (sp_cols m1) (sp_cols m2)) ->
  exists i j a b, coefficient f m1 i j a /\ coefficient f m2 i j b /\ v = nabs (nsub f a b).
Proof.
  intros W1 W2 Er El H. apply in_app_iff in H as [H|H]; apply in_columns in H as (j & Hj & H); auto.
  - apply in_map_iff in H as ((i & a) & <- & H). cbn [fst snd].
    assert (Hi : 0 <= i < sp_rows m1).
    { destruct (W1 (nth j (sp_cols m1) [])) as (_ & B); [now apply nth_In|]. apply (B (i, a) H). }
    eexists i, j, a, _. split; [repeat split; try lia; now left|]. split; [|reflexivity].
    apply coef_exists; [|congruence]. lia.
  - apply in_flat_map in H as ((i & b) & H & Hv). cbn [fst snd] in Hv.
    destruct (find_row i _) eqn:E; [destruct Hv|]. destruct Hv as [<-|[]].
    assert (Hi : 0 <= i < sp_rows m2).
    { destruct (W2 (nth j (sp_cols m2) [])) as (_ & B); [apply nth_In; congruence|]. apply (B (i, b) H). }
    exists i, j, (nzero f), b. split; [|split; [|reflexivity]].
    + repeat split; try lia. right. split; [reflexivity|]. now apply find_row_none.
    + repeat split; try lia. now left.
Qed.

(** ... and every pair of coefficients of which one is stored is listed. *)
Lemma coefs_are_diffs (m1 m2 : sparse_mat A) i j a b : well_formed m1 -> well_formed m2 ->
  List.length (sp_cols m1) = List.length (sp_cols m2) ->
  coefficient f m1 i j a -> coefficient f m2 i j b ->
  (a = nzero f /\ b = nzero f) \/
  In (nabs (nsub f a b)) (columns diffs1 (sp_cols m1) (sp_cols m2) ++ columns diffs2 (sp_cols m1) (sp_cols m2)).
Proof.
  intros W1 W2 El C1 C2. pose proof (coef_find _ _ _ _ W1 C1) as E1. pose proof (coef_find _ _ _ _ W2 C2) as E2.
  assert (Hj : (j < List.length (sp_cols m1))%nat) by apply C1.
  destruct (find_row i (nth j (sp_cols m1) [])) eqn:F1.
  - right. apply in_or_app. left. apply in_columns; auto. exists j. split; [assumption|].
    apply in_map_iff. exists (i, a). cbn [fst snd]. split; [now rewrite E2|]. subst a. now apply find_row_some.
  - destruct (find_row i (nth j (sp_cols m2) [])) eqn:F2; [|left; auto].
    right. apply in_or_app. right. apply in_columns; auto. exists j. split; [assumption|].
    apply in_flat_map. exists (i, b). cbn [fst snd]. split; [subst b; now apply find_row_some|].
    rewrite F1, E1. now left.
Qed.

(** Maximum in a set of totally ordered numbers. *)
Variable good : A -> Prop.
Hypothesis refl_ : forall a, good a -> nleb a a = true.
Hypothesis trans_ : forall a b c, good a -> good b -> good c -> nleb a b = true -> nleb b c = true -> nleb a c = true.
Hypothesis total_ : forall a b, good a -> good b -> nltb a b = false -> nleb b a = true.
Hypothesis weak_ : forall a b, good a -> good b -> nltb a b = true -> nleb a b = true.

Lemma max_list l : forall m, good m -> (forall v, In v l -> good v) ->
  good (fold_left std_max l m) /\ (fold_left std_max l m = m \/ In (fold_left std_max l m) l) /\
  nleb m (fold_left std_max l m) = true /\
  forall v, In v l -> nleb v (fold_left std_max l m) = true.
Proof.
  induction l as [|w l IH]; intros m Hm Hl; cbn [fold_left].
  - repeat split; auto.
  - assert (Hw : good w) by (apply Hl; now left).
    assert (Hs : good (std_max m w) /\ nleb m (std_max m w) = true /\ nleb w (std_max m w) = true /\ (std_max m w = m \/ std_max m w = w)).
    { unfold std_max. destruct (nltb m w) eqn:E; repeat split; auto. }
    destruct Hs as (S1 & S2 & S3 & S4).
    destruct (IH (std_max m w) S1) as (G & E & L & B); [intros; apply Hl; now right|].
    repeat split; auto.
    + destruct E as [E|E]; [|now right; right]. rewrite E. destruct S4 as [S4|S4]; [now left|right; left; congruence].
    + eapply trans_; [| |exact G|exact S2|exact L]; auto.
    + intros v [<-|Hv]; [|auto]. eapply trans_; [| |exact G|exact S3|exact L]; auto.
Qed.
End Diff.

Lemma rle x y : @nleb REAL x y = true <-> (x <= y)%R.
Proof. cbn. destruct (Rle_bool_spec x y); split; intros; auto; try discriminate. lra. Qed.
Lemma rlt x y : @nltb REAL x y = true <-> (x < y)%R.
Proof. cbn. destruct (Rlt_bool_spec x y); split; intros; auto; try discriminate. lra. Qed.
Lemma rlt_f x y : @nltb REAL x y = false <-> (y <= x)%R.
Proof. cbn. destruct (Rlt_bool_spec x y); split; intros; auto; try discriminate. lra. Qed.
Lemma rzero f : @nzero REAL f = 0%R.
Proof. unfold nzero. cbn. ring. Qed.

Lemma max_real l m : let d := fold_left (@std_max REAL) l m in
  (d = m \/ In d l) /\ (m <= d)%R /\ forall v, In v l -> (v <= d)%R.
Proof.
  cbn zeta. destruct (@max_list REAL (fun _ => True)) with (l := l) (m := m) as (_ & E & L & B); auto.
  - intros a _. apply rle. lra.
  - intros a b c _ _ _ H1 H2. apply rle in H1, H2. apply rle. lra.
  - intros a b _ _ H. apply rlt_f in H. now apply rle.
  - intros a b _ _ H. apply rlt in H. apply rle. lra.
  - split; [exact E|]. split; [now apply rle|]. intros v Hv. apply rle. auto.
Qed.

Lemma MaxAbsDiff_real f (m1 m2 : sparse_mat REAL) d : well_formed m1 -> well_formed m2 ->
  MaxAbsDiff f m1 m2 = Some d ->
  (forall i j a b, coefficient f m1 i j a -> coefficient f m2 i j b -> (Rabs (a - b) <= d)%R) /\
  (d = 0%R \/ exists i j a b, coefficient f m1 i j a /\ coefficient f m2 i j b /\ d = Rabs (a - b)).
Proof.
  intros W1 W2 H. apply MaxAbsDiff_fold in H as (Er & El & Ed).
  set (l := _ ++ _) in Ed. destruct (max_real l (nzero f)) as (E & L & B). rewrite <- Ed, rzero in *.
  split.
  - intros i j a b C1 C2. destruct (coefs_are_diffs f m1 m2 i j a b W1 W2 El C1 C2) as [(-> & ->)|Hin].
    + rewrite rzero. replace (0 - 0)%R with 0%R by ring. rewrite Rabs_R0. exact L.
    + apply B. exact Hin.
  - destruct E as [E|E]; [now left|right]. exact (diffs_are_coefs f m1 m2 d W1 W2 Er El E).
Qed.

(** Symmetric; zero exactly for equal matrices. *)
Lemma coef_exists' f (m : sparse_mat REAL) i j : (0 <= i < sp_rows m) -> (j < List.length (sp_cols m))%nat ->
  exists a, coefficient f m i j a.
Proof. intros. eexists. apply coef_exists; assumption. Qed.

Lemma MaxAbsDiff_sym f (m1 m2 : sparse_mat REAL) : well_formed m1 -> well_formed m2 ->
  MaxAbsDiff f m1 m2 = MaxAbsDiff f m2 m1.
Proof.
  intros W1 W2. destruct (MaxAbsDiff f m1 m2) as [d|] eqn:E1.
  - destruct (MaxAbsDiff f m2 m1) as [e|] eqn:E2.
    + f_equal. destruct (MaxAbsDiff_real _ _ _ _ W1 W2 E1) as (U1 & A1).
      destruct (MaxAbsDiff_real _ _ _ _ W2 W1 E2) as (U2 & A2).
      apply MaxAbsDiff_fold in E1 as (_ & _ & D1). apply MaxAbsDiff_fold in E2 as (_ & _ & D2).
      assert (P1 : (0 <= d)%R) by (rewrite <- (rzero f), D1; exact (proj1 (proj2 (max_real _ _)))).
      assert (P2 : (0 <= e)%R) by (rewrite <- (rzero f), D2; exact (proj1 (proj2 (max_real _ _)))).
      apply Rle_antisym.
      * destruct A1 as [->|(i & j & a & b & C1 & C2 & ->)]; [exact P2|].
        rewrite Rabs_minus_sym. now apply (U2 i j).
      * destruct A2 as [->|(i & j & a & b & C1 & C2 & ->)]; [exact P1|].
        rewrite Rabs_minus_sym. now apply (U1 i j).
    + apply MaxAbsDiff_fold in E1 as (Er & El & _). apply MaxAbsDiff_shape in E2. destruct E2; congruence.
  - apply MaxAbsDiff_shape in E1. symmetry. apply MaxAbsDiff_shape. destruct E1; [left|right]; congruence.
Qed.

Lemma MaxAbsDiff_zero f (m1 m2 : sparse_mat REAL) d : well_formed m1 -> well_formed m2 ->
  MaxAbsDiff f m1 m2 = Some d ->
  (d = 0%R <-> forall i j a b, coefficient f m1 i j a -> coefficient f m2 i j b -> a = b).
Proof.
  intros W1 W2 E. destruct (MaxAbsDiff_real _ _ _ _ W1 W2 E) as (U & At). split.
  - intros -> i j a b C1 C2. specialize (U i j a b C1 C2). pose proof (Rabs_pos (a - b)).
    assert (H0 : Rabs (a - b) = 0%R) by lra. destruct (Req_dec (a - b) 0) as [E0|E0]; [cbn in *; lra|].
    apply Rabs_no_R0 in E0. contradiction.
  - intros H. destruct At as [E0|(i & j & a & b & C1 & C2 & ->)]; [exact E0|].
    rewrite (H i j a b C1 C2). replace (b - b)%R with 0%R by ring. apply Rabs_R0.
Qed.

(** Floating point: the largest of the rounded differences, if none is NaN. *)
Lemma abs_ge0 f (x : IEEE) : is_fmt f x = true -> ieee_isnan x = false -> nleb (nzero f) (nabs x) = true.
Proof. destruct f, x as [[]|[]| |[]]; cbn; try discriminate; reflexivity. Qed.

Lemma MaxAbsDiff_ieee f (m1 m2 : sparse_mat IEEE) d : well_formed m1 -> well_formed m2 ->
  (forall i j a, coefficient f m1 i j a \/ coefficient f m2 i j a -> is_fmt f a = true) ->
  (forall i j a b, coefficient f m1 i j a -> coefficient f m2 i j b -> nisnan (nsub f a b) = false) ->
  MaxAbsDiff f m1 m2 = Some d ->
  (forall i j a b, coefficient f m1 i j a -> coefficient f m2 i j b -> nleb (nabs (nsub f a b)) d = true) /\
  (d = nzero f \/ exists i j a b, coefficient f m1 i j a /\ coefficient f m2 i j b /\ d = nabs (nsub f a b)).
Proof.
  intros W1 W2 Hf Hn H. apply MaxAbsDiff_fold in H as (Er & El & Ed).
  set (l := _ ++ _) in Ed.
  set (good := fun x : IEEE => is_fmt f x = true /\ ieee_isnan x = false).
  assert (Hgood : forall v, In v l -> good v).
  { intros v Hv. destruct (diffs_are_coefs f m1 m2 v W1 W2 Er El Hv) as (i & j & a & b & C1 & C2 & ->).
    split.
    - apply fmt_abs, fmt_sub; eapply Hf; eauto.
    - specialize (Hn i j a b C1 C2). change (ieee_isnan (@nsub IEEE f a b) = false) in Hn. change (ieee_isnan (SpecFloat.SFabs (@nsub IEEE f a b)) = false). now destruct (@nsub IEEE f a b). }
  destruct (@max_list IEEE good) with (l := l) (m := @nzero IEEE f) as (_ & E & L & B); auto.
  - intros a (F & N). destruct a as [[]|[]| |[] p e]; cbn in *; try discriminate; auto;
      rewrite Z.compare_refl, Pos.compare_cont_refl; reflexivity.
  - intros a b c (Fa & Na) (Fb & Nb) (Fc & Nc) H1 H2.
    destruct (is_fin a) eqn:Ga, (is_fin b) eqn:Gb, (is_fin c) eqn:Gc;
      try (destruct a as [[]|[]| |[]], b as [[]|[]| |[]], c as [[]|[]| |[]]; cbn in *; discriminate || reflexivity).
    apply (le_fin f) in H1, H2; auto. apply (le_fin f); auto. lra.
  - intros a b (Fa & Na) (Fb & Nb). now apply (ieee_total f).
  - intros a b (Fa & Na) (Fb & Nb) H. destruct (is_fin a) eqn:Ga, (is_fin b) eqn:Gb;
      try (destruct a as [[]|[]| |[]], b as [[]|[]| |[]]; cbn in *; discriminate || reflexivity).
    apply (lt_fin f) in H; auto. apply (le_fin f); auto. lra.
  - split; [apply fmt_zero|destruct f; reflexivity].
  - rewrite <- Ed in *. split.
    + intros i j a b C1 C2. destruct (coefs_are_diffs f m1 m2 i j a b W1 W2 El C1 C2) as [(-> & ->)|Hin].
      * destruct f; exact L.
      * apply B, Hin.
    + destruct E as [E|E]; [now left|right]. exact (diffs_are_coefs f m1 m2 d W1 W2 Er El E).
Qed.
