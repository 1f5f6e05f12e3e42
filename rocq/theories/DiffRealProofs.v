(** Accuracy of numerical differentiation in exact arithmetic; gradient check. *)
From Coq Require Import ZArith List Bool Reals Lra Lia.
From Flocq Require Import Core.Zaux Core.Raux.
From Coquelicot Require Import Coquelicot.
From Verif Require Import BaseModel NumModel RealModel NumSpec IeeeProofs TraitsModel TraitsSpec TraitsProofs DiffModel DiffSpec DiffProofs JetSpec JetProofs.
Import ListNotations.
Open Scope R_scope.

(** *** Calculus on an interval *)
Lemma nonneg_from (f f1 : R -> R) h : 0 <= h -> (forall u, 0 <= u <= h -> is_derive f u (f1 u)) ->
  (forall u, 0 <= u <= h -> 0 <= f1 u) -> f 0 <= f h.
Proof.
  intros Hh D P. destruct (MVT_gen f 0 h f1) as (c & Hc & E).
  - intros u Hu. rewrite Rmin_left, Rmax_right in Hu by assumption. apply D. lra.
  - intros u Hu. rewrite Rmin_left, Rmax_right in Hu by assumption. apply derivable_continuous_pt.
    exists (f1 u). apply is_derive_Reals. now apply D.
  - rewrite Rmin_left, Rmax_right in Hc by assumption. specialize (P c Hc). nra.
Qed.
Lemma abs_from (f f1 G G1 : R -> R) h : 0 <= h -> f 0 = 0 -> G 0 = 0 ->
  (forall u, 0 <= u <= h -> is_derive f u (f1 u)) -> (forall u, 0 <= u <= h -> is_derive G u (G1 u)) ->
  (forall u, 0 <= u <= h -> Rabs (f1 u) <= G1 u) -> forall u, 0 <= u <= h -> Rabs (f u) <= G u.
Proof.
  intros Hh F0 G0 Df DG B u Hu.
  assert (I : forall w, 0 <= w <= u -> 0 <= w <= h) by (intros; lra).
  assert (A1 : G 0 - f 0 <= G u - f u).
  { apply (nonneg_from (fun u => G u - f u) (fun u => G1 u - f1 u)); [lra| |].
    - intros w Hw. apply (is_derive_minus G f); auto.
    - intros w Hw. specialize (B w (I w Hw)). apply Rabs_le_between in B. lra. }
  assert (A2 : G 0 + f 0 <= G u + f u).
  { apply (nonneg_from (fun u => G u + f u) (fun u => G1 u + f1 u)); [lra| |].
    - intros w Hw. apply (is_derive_plus G f); auto.
    - intros w Hw. specialize (B w (I w Hw)). apply Rabs_le_between in B. lra. }
  apply Rabs_le. lra.
Qed.

Section Taylor.
Variables (phi phi1 phi2 phi3 : R -> R) (c h M : R).
Hypothesis Hh : 0 < h.
Lemma der_shift (f : R -> R) u d : is_derive f (c + u) d -> is_derive (fun u => f (c + u)) u d.
Proof. intros H. evar_last. { apply (is_derive_comp f (fun u => c + u)); [exact H|]. auto_derive; [trivial|reflexivity]. } cbn. unfold scal, mult; cbn. unfold mult; cbn. ring. Qed.
Lemma der_back (f : R -> R) u d : is_derive f (c - u) d -> is_derive (fun u => f (c - u)) u (- d).
Proof. intros H. evar_last. { apply (is_derive_comp f (fun u => c - u)); [exact H|]. auto_derive; [trivial|reflexivity]. } cbn. unfold scal, mult; cbn. unfold mult; cbn. ring. Qed.

Lemma forward_error :
  (forall s, c <= s <= c + h -> is_derive phi s (phi1 s)) -> (forall s, c <= s <= c + h -> is_derive phi1 s (phi2 s)) ->
  (forall s, c <= s <= c + h -> Rabs (phi2 s) <= M) ->
  Rabs ((phi (c + h) - phi c) / h - phi1 c) <= h * M / 2.
Proof.
  intros D1 D2 B.
  assert (S1 : forall u, 0 <= u <= h -> Rabs (phi1 (c + u) - phi1 c) <= M * u).
  { apply (abs_from (fun u => phi1 (c + u) - phi1 c) (fun u => phi2 (c + u)) (fun u => M * u) (fun _ => M)); try lra.
    - rewrite Rplus_0_r. ring.
    - intros u Hu. evar_last. { apply (is_derive_minus (fun u => phi1 (c + u)) (fun _ => phi1 c)); [apply der_shift, D2; lra|apply @is_derive_const]. } cbn. unfold minus, plus, opp; cbn. unfold zero; cbn. ring.
    - intros u Hu. auto_derive; [trivial|ring].
    - intros u Hu. apply B. lra. }
  assert (S2 : forall u, 0 <= u <= h -> Rabs (phi (c + u) - phi c - u * phi1 c) <= M * (u * u) / 2).
  { apply (abs_from (fun u => phi (c + u) - phi c - u * phi1 c) (fun u => phi1 (c + u) - phi1 c) (fun u => M * (u * u) / 2) (fun u => M * u)); try lra.
    - rewrite Rplus_0_r. ring.
    - intros u Hu. apply (is_derive_minus (fun u => phi (c + u) - phi c) (fun u => u * phi1 c)); [|auto_derive; [trivial|ring]].
      evar_last. { apply (is_derive_minus (fun u => phi (c + u)) (fun _ => phi c)); [apply der_shift, D1; lra|apply @is_derive_const]. } cbn. unfold minus, plus, opp; cbn. unfold zero; cbn. ring.
    - intros u Hu. auto_derive; [trivial|field].
    - intros u Hu. now apply S1. }
  specialize (S2 h ltac:(lra)).
  replace ((phi (c + h) - phi c) / h - phi1 c) with ((phi (c + h) - phi c - h * phi1 c) / h) by (field; lra).
  unfold Rdiv at 1. rewrite Rabs_mult, (Rabs_right (/ h)) by (apply Rle_ge, Rlt_le, Rinv_0_lt_compat; lra).
  apply Rmult_le_reg_r with h; [lra|]. rewrite Rmult_assoc, Rinv_l by lra. lra.
Qed.

Lemma central_error :
  (forall s, c - h <= s <= c + h -> is_derive phi s (phi1 s)) -> (forall s, c - h <= s <= c + h -> is_derive phi1 s (phi2 s)) ->
  (forall s, c - h <= s <= c + h -> is_derive phi2 s (phi3 s)) -> (forall s, c - h <= s <= c + h -> Rabs (phi3 s) <= M) ->
  Rabs ((phi (c + h) - phi (c - h)) / (2 * h) - phi1 c) <= h * h * M / 6.
Proof.
  intros D1 D2 D3 B.
  assert (S2 : forall u, 0 <= u <= h -> Rabs (phi2 (c + u) - phi2 (c - u)) <= 2 * M * u).
  { apply (abs_from (fun u => phi2 (c + u) - phi2 (c - u)) (fun u => phi3 (c + u) + phi3 (c - u)) (fun u => 2 * M * u) (fun _ => 2 * M)); try lra.
    - rewrite Rplus_0_r, Rminus_0_r. ring.
    - intros u Hu. evar_last. { apply (is_derive_minus (fun u => phi2 (c + u)) (fun u => phi2 (c - u))); [apply der_shift, D3; lra|apply der_back, D3; lra]. } cbn. unfold minus, plus, opp; cbn. ring.
    - intros u Hu. auto_derive; [trivial|ring].
    - intros u Hu. eapply Rle_trans; [apply Rabs_triang|]. assert (B1 := B (c + u) ltac:(lra)). assert (B2 := B (c - u) ltac:(lra)). lra. }
  assert (S1 : forall u, 0 <= u <= h -> Rabs (phi1 (c + u) + phi1 (c - u) - 2 * phi1 c) <= M * (u * u)).
  { apply (abs_from (fun u => phi1 (c + u) + phi1 (c - u) - 2 * phi1 c) (fun u => phi2 (c + u) - phi2 (c - u)) (fun u => M * (u * u)) (fun u => 2 * M * u)); try lra.
    - rewrite Rplus_0_r, Rminus_0_r. ring.
    - intros u Hu. evar_last.
      { apply (is_derive_minus (fun u => phi1 (c + u) + phi1 (c - u)) (fun _ => 2 * phi1 c)); [|apply @is_derive_const].
        apply (is_derive_plus (fun u => phi1 (c + u)) (fun u => phi1 (c - u))); [apply der_shift, D2; lra|apply der_back, D2; lra]. }
      cbn. unfold minus, plus, opp; cbn. unfold zero; cbn. ring.
    - intros u Hu. auto_derive; [trivial|ring].
    - intros u Hu. now apply S2. }
  assert (S0 : forall u, 0 <= u <= h -> Rabs (phi (c + u) - phi (c - u) - 2 * u * phi1 c) <= M * (u * u * u) / 3).
  { apply (abs_from (fun u => phi (c + u) - phi (c - u) - 2 * u * phi1 c) (fun u => phi1 (c + u) + phi1 (c - u) - 2 * phi1 c) (fun u => M * (u * u * u) / 3) (fun u => M * (u * u))); try lra.
    - rewrite Rplus_0_r, Rminus_0_r. ring.
    - intros u Hu. apply (is_derive_minus (fun u => phi (c + u) - phi (c - u)) (fun u => 2 * u * phi1 c)); [|auto_derive; [trivial|ring]].
      evar_last. { apply (is_derive_minus (fun u => phi (c + u)) (fun u => phi (c - u))); [apply der_shift, D1; lra|apply der_back, D1; lra]. } cbn. unfold minus, plus, opp; cbn. ring.
    - intros u Hu. auto_derive; [trivial|field].
    - intros u Hu. now apply S1. }
  specialize (S0 h ltac:(lra)).
  replace ((phi (c + h) - phi (c - h)) / (2 * h) - phi1 c) with ((phi (c + h) - phi (c - h) - 2 * h * phi1 c) / (2 * h)) by (field; lra).
  unfold Rdiv at 1. rewrite Rabs_mult, (Rabs_right (/ (2 * h))) by (apply Rle_ge, Rlt_le, Rinv_0_lt_compat; lra).
  apply Rmult_le_reg_r with (2 * h); [lra|]. rewrite Rmult_assoc, Rinv_l by lra. lra.
Qed.
End Taylor.

(** *** The perturbed points *)
Lemma step_shift sc (l : list R) j y : (j < List.length l)%nat ->
  map (fun p => @nadd REAL sc (fst p) (snd p)) (combine l (@step_vec REAL sc (List.length l) j y)) = set_nth l j (nth j l 0 + y).
Proof.
  unfold step_vec. cbn [nzero nlit REAL nadd].
  assert (G : forall l s j, (j < List.length l)%nat ->
    map (fun p => fst p + snd p) (combine l (map (fun i => if (i =? s + j)%nat then y else IZR 0 * bpow radix2 0) (seq s (List.length l))))
    = set_nth l j (nth j l 0 + y)).
  { clear. induction l as [|a l IH]; intros s [|j] H; cbn in *; try lia.
    - rewrite Nat.add_0_r, Nat.eqb_refl. f_equal.
      assert (E : forall l s', (s < s')%nat ->
        map (fun p => fst p + snd p) (combine l (map (fun i => if (i =? s)%nat then y else 0 * 1) (seq s' (List.length l)))) = l).
      { clear. induction l as [|b l IH]; intros s' H; cbn; [reflexivity|]. rewrite IH by lia. destruct (Nat.eqb_spec s' s); [lia|]. f_equal. ring. }
      apply E. lia.
    - destruct (Nat.eqb_spec s (s + S j)); [lia|]. f_equal; [ring|]. rewrite <- (IH (S s) j) by lia.
      f_equal. f_equal. apply map_ext. intros i. now rewrite Nat.add_succ_r. }
  intros H. exact (G l O j H).
Qed.
Lemma set_set x k s u : set_nth (set_nth x k s) k u = set_nth x k u.
Proof. revert k; induction x as [|a x IH]; intros [|k]; cbn; auto. now rewrite IH. Qed.

Section Real.
Variables (sc : fmt) (t : ty) (f : val R -> residuals R) (F : list R -> list R) (method : Method) (h : R) (x : val R) (m : nat).
Hypothesis P : good_params t x.
Hypothesis Rm : @returns REAL method f m.
Hypothesis HF : forall y, same_shape x y -> coefs_of (f y) = F (flatten y).
Let n := List.length (flatten x).
Let X := flatten x.

Lemma num_jac (log : list (val R)) : exists (log' : list (val R)) (J : list (list R)), @NumEval REAL _ sc t (@logged REAL f) method h x log = Ret (log', f x, J) /\ List.length J = n /\
  forall i j, (i < m)%nat -> (j < n)%nat ->
    nth i (nth j J []) 0 =
    match method with
    | kForward => (nth i (F (set_nth X j (nth j X 0 + h))) 0 - nth i (F X) 0) / h
    | _ => (nth i (F (set_nth X j (nth j X 0 + h))) 0 - nth i (F (set_nth X j (nth j X 0 - h))) 0) / (2 * h)
    end.
Proof.
  destruct (@NumEval_ok REAL sc t f method h x m P Rm log) as (ps & qs & J & E & L1 & L2 & L3 & H).
  eexists; exists J. split; [exact E|]. split; [exact L3|]. intros i j Hi Hj.
  destruct (H j Hj) as (p & q & c & _ & _ & Ec & (Sp & Sq & Lc & Hc)).
  assert (EJ : nth j (J : list (list R)) [] = (c : list R)) by exact (nth_error_nth J j [] Ec).
  rewrite EJ. specialize (Hc i Hi). change (num REAL) with R in *.
  assert (Z : @nzero REAL sc = 0) by (unfold nzero; cbn; ring). rewrite Z in Hc.
  assert (T : @nofZ REAL sc 2 = 2) by (unfold nofZ; cbn; ring).
  assert (T' : @nofZ REAL sc (-2) = -2) by (unfold nofZ; cbn; ring).
  assert (SH : forall (y y' : val R) (d : R), same_shape x y -> @shifted REAL sc y (@step_vec REAL sc n j d) y' ->
    coefs_of (f y') = F (set_nth (flatten y) j (nth j (flatten y) 0 + d)) /\ flatten y' = set_nth (flatten y) j (nth j (flatten y) 0 + d) /\ same_shape x y').
  { intros y y' d Hy (S1 & S2).
    assert (S3 : same_shape x y') by now apply (shape_trans _ y).
    assert (Fl : flatten y' = set_nth (flatten y) j (nth j (flatten y) 0 + d)).
    { refine (eq_trans S2 _). unfold n. rewrite (@shape_len R _ _ Hy). apply step_shift. rewrite <- (shape_len _ _ Hy). exact Hj. }
    split; [exact (eq_trans (HF y' S3) (f_equal F Fl))|now split]. }
  destruct (SH x p h (shape_refl x) Sp) as (Fp & Flp & Sxp). rewrite Fp in Hc. rewrite (HF x (shape_refl x)) in Hc. fold X in Hc, Flp.
  unfold quotient in Hc. rewrite T in Hc. destruct method.
  - exact Hc.
  - destruct (SH x q (- h) (shape_refl x) Sq) as (Fq & _). rewrite Fq in Hc. exact Hc.
  - rewrite T' in Sq. destruct (SH p q (-2 * h) Sxp Sq) as (Fq & _). rewrite Fq, Flp, set_nth_same, set_set in Hc by exact Hj.
    replace (nth j X 0 + h + -2 * h) with (nth j X 0 - h) in Hc by ring. exact Hc.
Qed.
End Real.

(** *** Gradient check *)
Section Check.
Context {A : Arith}.
Variables (ok : A -> Prop) (r : A -> R).
Hypothesis Lt : forall a b, ok a -> ok b -> nltb a b = Rlt_bool (r a) (r b).
Lemma max_from_lt e l : forall m, ok m -> List.Forall ok l ->
  (r (max_from m l) < e <-> r m < e /\ List.Forall (fun y => r y < e) l) /\ ok (max_from m l).
Proof.
  induction l as [|y l IH]; intros m Hm Hl; cbn [max_from].
  - split; [|exact Hm]. split; [intros H; split; [exact H|constructor]|tauto].
  - apply List.Forall_cons_iff in Hl as (Hy & Hl).
    destruct (IH (if nltb m y then y else m)) as (IH1 & IH2); [now destruct (nltb m y)|exact Hl|].
    split; [|exact IH2]. rewrite IH1. clear IH1 IH2.
    rewrite (Lt m y) by assumption. rewrite List.Forall_cons_iff. destruct (Rlt_bool_spec (r m) (r y)) as [H'|H'].
    + split; [intros (K1 & K2); repeat split; try assumption; lra|tauto].
    + split; [intros (K1 & K2); repeat split; try assumption; lra|tauto].
Qed.
End Check.

Lemma abs_diffs_nth {A : Arith} sc (p q : list A) j : (j < List.length p)%nat -> List.length p = List.length q ->
  nth_error (abs_diffs sc p q) j = Some (nabs (nsub sc (nth j p (nzero sc)) (nth j q (nzero sc)))).
Proof. revert q j; induction p as [|a p IH]; intros [|b q] [|j] H E; cbn in *; try lia; auto. apply IH; lia. Qed.
Lemma abs_diffs_len {A : Arith} sc (p q : list A) : List.length p = List.length q -> List.length (abs_diffs sc p q) = List.length p.
Proof. revert q; induction p as [|a p IH]; intros [|b q] E; cbn in *; try lia. now rewrite IH by lia. Qed.

Lemma concat_ones {A} (J : list (list A)) : List.Forall (fun c => List.length c = 1%nat) J ->
  List.length (List.concat J) = List.length J /\ forall j d, nth j (List.concat J) d = nth 0 (nth j J []) d.
Proof.
  induction 1 as [|[|a [|b c']] J H _ (IH1 & IH2)]; try discriminate H.
  - split; [reflexivity|]. intros j d. now destruct j.
  - split; [cbn; now rewrite IH1|]. intros [|j] d; cbn; [reflexivity|]. apply IH2.
Qed.

Section CheckGradient.
Context {A : Arith}.
Variables (ok : A -> Prop) (r : A -> R) (eps : A).
Hypothesis Lt : forall a b, ok a -> ok b -> nltb a b = Rlt_bool (r a) (r b).
Hypothesis Cv : forall a, ok a -> nltb (ncvt F64 a) eps = Rlt_bool (r a) (r eps).
Variables (sc : fmt) (t : ty) (c : val A -> A) (G : val A -> list A) (method : Method) (x : val A).
Hypothesis P : good_params t x.
Let n := List.length (flatten x).
Let h : A := ncvt sc (ndiv F64 eps (nofZ F64 10)).

Lemma check_ok (log : list (val A)) : (0 < n)%nat -> List.length (G x) = n ->
  exists log' ps qs N b, CheckGradient sc t (pure c G) eps method x log = Ret (log', b) /\ List.length N = n /\
    (forall j, (j < n)%nat -> exists p q, nth_error ps j = Some p /\ nth_error qs j = Some q /\
       shifted sc x (step_vec sc n j h) p /\
       match method with
       | kForward => True
       | kCentral => shifted sc x (step_vec sc n j (nopp h)) q
       | kFastCentral => shifted sc p (step_vec sc n j (nmul sc (nofZ sc (-2)) h)) q
       end /\
       nth j N (nzero sc) = quotient sc method h (c p) (c q) (c x)) /\
    ((forall j, (j < n)%nat -> ok (nabs (nsub sc (nth j N (nzero sc)) (nth j (G x) (nzero sc))))) ->
     (b = true <-> forall j, (j < n)%nat -> r (nabs (nsub sc (nth j N (nzero sc)) (nth j (G x) (nzero sc)))) < r eps)).
Proof.
  intros Hn HG. destruct P as (Pr & Pc & Pt & Pi & Ps). unfold CheckGradient. rewrite (DynDims_size t x Pt Pi Ps). cbn [bind ck_full pure].
  fold h. unfold EstimateNumJac.
  assert (R1 : returns method (fun y => RScalar (c y)) 1) by (intros y; split; [reflexivity|trivial]).
  destruct (NumEval_ok sc t (fun y => RScalar (c y)) method h x 1 P R1 (log ++ [x])) as (ps & qs & J & E & L1 & L2 & L3 & H).
  unfold logged in E.
  match goal with |- context [@NumEval _ _ sc t ?g method h x (log ++ [x])] =>
    change g with (fun (log : list (val A)) (y : val A) => (log ++ [y], RScalar (c y))) end.
  rewrite E. cbn [bind].
  assert (H1 : List.Forall (fun c => List.length c = 1%nat) J).
  { apply Forall_nth. intros j d Hj. rewrite L3 in Hj. destruct (H j Hj) as (p & q & cc & _ & _ & Ej & (_ & _ & Lc & _)).
    now rewrite (nth_error_nth J j d Ej). }
  destruct (concat_ones J H1) as (LJ & NJ). unfold max_dist. rewrite LJ, L3, HG, Nat.eqb_refl.
  assert (LJn : List.length (List.concat J) = n) by exact (eq_trans LJ L3).
  assert (La : List.length (abs_diffs sc (List.concat J) (G x)) = n).
  { rewrite abs_diffs_len; [exact LJn|]. now rewrite HG. }
  destruct (abs_diffs sc (List.concat J) (G x)) as [|d ds] eqn:Ed; [cbn in La; lia|]. cbn [maxCoeff bind].
  eexists; exists ps, qs, (List.concat J); eexists. split; [reflexivity|]. split; [exact LJn|]. split.
  - intros j Hj. destruct (H j Hj) as (p & q & cc & Ep & Eq & Ej & (S1 & S2 & Lc & Hc)). exists p, q.
    repeat split; try assumption; try apply S1. rewrite NJ, (nth_error_nth J j [] Ej). apply (Hc O). lia.
  - intros Hok.
    assert (AD : forall j, (j < n)%nat -> nth_error (d :: ds) j = Some (nabs (nsub sc (nth j (List.concat J) (nzero sc)) (nth j (G x) (nzero sc))))).
    { intros j Hj. rewrite <- Ed. apply abs_diffs_nth; [now rewrite LJn|now rewrite HG]. }
    assert (OK : List.Forall ok (d :: ds)).
    { apply Forall_forall. intros y Hy. apply In_nth_error in Hy as (j & Hj).
      assert (Hl : (j < n)%nat) by (rewrite <- La; apply nth_error_Some; congruence).
      rewrite (AD j Hl) in Hj. injection Hj as <-. now apply Hok. }
    apply List.Forall_cons_iff in OK as (OK1 & OK2).
    destruct (max_from_lt ok r Lt (r eps) ds d OK1 OK2) as (M1 & M2).
    rewrite (Cv _ M2).
    transitivity (r (max_from d ds) < r eps).
    { destruct (Rlt_bool_spec (r (max_from d ds)) (r eps)); split; intros; auto; try discriminate; lra. }
    rewrite M1. transitivity (List.Forall (fun y => r y < r eps) (d :: ds)); [now rewrite List.Forall_cons_iff|]. split.
    + intros F j Hj. rewrite Forall_forall in F. apply F. apply nth_error_In with j. now apply AD.
    + intros M. apply Forall_forall. intros y Hy. apply In_nth_error in Hy as (j & Hj).
      assert (Hl : (j < n)%nat) by (rewrite <- La; apply nth_error_Some; congruence).
      rewrite (AD j Hl) in Hj. injection Hj as <-. now apply M.
Qed.
End CheckGradient.
