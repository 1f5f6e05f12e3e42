(** The steps of Gauss-Newton, Levenberg-Marquardt and gradient descent lead downhill. *)
From Coq Require Import ZArith List Bool Lia ZifyBool Reals Lra Psatz.
From Flocq Require Import Core.Zaux Core.Raux.
From Coquelicot Require Import Coquelicot.
From Verif Require Import BaseModel NumModel RealModel CostModel StopModel OptionsModel SolverModel OptimizerModel RunModel RunSpec LmSpec SumSpec SumProofs
  JetSpec AutoProofs LossSpec LossProofs NormProofs LmProofs CostProofs StepSpec StepProofs.
Import ListNotations.
Open Scope R_scope.

Section Last.
Context {U X : Type}.
Variable P : Problem REAL U X.
Notation opts := (p_options P).
Notation sc := (p_scalar P).
Variable log : U -> list (list REAL * mat REAL).
Hypothesis HL : logs_systems P log.

Lemma zero_clip (g : list REAL) : grad_clipping opts = (0 : REAL) -> Clamp sc g (ncvt sc (grad_clipping opts)) = g.
Proof.
  intros E. unfold Clamp. rewrite E. replace (@neqb REAL (ncvt sc (0 : REAL)) (nzero sc)) with true; [reflexivity|].
  symmetry. unfold nzero. cbn. apply Req_bool_true. ring.
Qed.
Lemma app_last {T} (a b : list T) x y : a ++ [x] = b ++ [y] -> x = y.
Proof. intros E. now apply app_inj_tail in E. Qed.
Lemma low_up (H : mat REAL) i j : (i < List.length H)%nat -> (j < List.length H)%nat -> entry (mirror sc H) i j = if (i <=? j)%nat then entry H i j else entry H j i.
Proof. intros H0 H1. rewrite <- !(entry_mget sc). exact (mirror_get (A:=REAL) sc H i j H0 H1). Qed.
Lemma acc_logged u x g0 H0 u' c g H : acc_full (p_acc P) u x g0 H0 = (u', c, g, H) -> log u' = log u ++ [(g, H)].
Proof. intros E. destruct HL as (A & _). specialize (A u x g0 H0). now rewrite E in A. Qed.

Lemma rebuild_last mir u x s u' y c ok : grad_clipping opts = (0 : REAL) ->
  rebuild_system sc (p_dims P) opts (p_x_dims P) (p_acc P) mir u x s = (u', y, c, ok) -> ok = true ->
  exists g H, log u' = log u ++ [(g, H)] /\ y = Sys (if mir then mirror sc H else H) g.
Proof.
  intros Hc. unfold rebuild_system. unfold clear. cbn [accumulate].
  destruct (acc_full _ _ _ _ _) as (((u1, c1), g1), H1) eqn:EA. destruct (negb (isValid (NormalizeCost opts c1))); [intros E; injection E; intros; subst; discriminate|].
  destruct (_ && _); [intros E; injection E; intros; subst; discriminate|].
  intros E _. injection E; intros; subst. exists g1, H1. split; [exact (acc_logged _ _ _ _ _ _ _ _ EA)|]. now rewrite zero_clip.
Qed.

Lemma gn_last u s x u' s' : grad_clipping opts = (0 : REAL) -> sv_build (solver_of P GaussNewton) u s x = Ret (u', s', true) ->
  exists g H, log u' = log u ++ [(g, H)] /\ gn_sys s' = Sys (if negb (H_is_full opts) && negb (use_ldlt opts) then mirror sc H else H) g.
Proof.
  intros Hc E. cbn [solver_of SolverGN sv_build] in E. unfold gn_build in E.
  destruct (rebuild_system _ _ _ _ _ _ _ _ _) as (((u1, y), c), ok) eqn:ER. apply ret_inj in E. injection E; intros; subst.
  destruct (rebuild_last _ _ _ _ _ _ _ _ Hc ER eq_refl) as (g & H & L & S). exists g, H. now split.
Qed.

Lemma gram_0 m J k l : damped_gram m J 0 k l = sum m (fun i => entry J i k * entry J i l).
Proof. unfold damped_gram. destruct (k =? l)%nat; ring. Qed.

Lemma gn_step_at s' dx g H r m x J : gn_sys s' = Sys (if negb (H_is_full opts) && negb (use_ldlt opts) then mirror sc H else H) g ->
  sv_solve (solver_of P GaussNewton) s' = Ret (Some dx) ->
  gn_system (reads_all P) r m x J g H -> independent m (List.length x) J ->
  exact_solver (p_backend P) (List.length x) (damped_gram m J 0) -> not_tiny P (entry H 0 0) ->
  List.length dx = List.length x /\
  (forall k, (k < List.length x)%nat -> sum (List.length x) (fun l => sum m (fun i => entry J i k * entry J i l) * nth l dx 0) = - nth k g 0) /\
  ((forall k, (k < List.length x)%nat -> nth k g 0 = 0) <-> (forall k, (k < List.length x)%nat -> nth k dx 0 = 0)) /\
  ((exists k, (k < List.length x)%nat /\ nth k g 0 <> 0) -> downhill (fun y => sum_squares (r y)) x dx).
Proof.
  intros S HS GN HI Ex NT.
  cbn [solver_of SolverGN sv_solve] in HS. unfold gn_solve in HS. rewrite S in HS.
  pose proof GN as (_ & _ & Lg & LH & _ & EH). assert (LH' : @List.length (list (num REAL)) H = List.length x) by exact LH.
  set (D := if negb (H_is_full opts) && negb (use_ldlt opts) then mirror sc H else H) in *.
  assert (LD : List.length D = List.length x) by (unfold D; destruct (_ && _); [rewrite mirror_length|]; exact LH).
  assert (UD : forall k l, (k <= l)%nat -> (l < List.length x)%nat -> entry D k l = entry H k l).
  { intros k l Hk Hl'. unfold D. destruct (_ && _); [|reflexivity]. rewrite low_up by lia. destruct (Nat.leb_spec k l); [reflexivity|lia]. }
  apply (solve_exact P D g dx (gn_cost s') (List.length x) (damped_gram m J 0)) in HS; [|exact Ex|intros; apply gram_sym|exact LD|exact Lg| | |].
  - destruct HS as (Ld & HS). split; [exact Ld|]. split.
    { intros k Hk. refine (eq_trans _ (HS k Hk)). apply sum_ext. intros l _. now rewrite gram_0. }
    exact (system_downhill _ _ _ _ _ _ _ 0 dx GN (Rle_refl 0) (or_introl HI) HS).
  - intros k l Hk Hl'. rewrite UD by assumption. rewrite gram_0. apply EH; [lia|exact Hl'|now right].
  - intros NL k l Hk Hl'. apply orb_false_iff in NL. destruct NL as (N1 & N2). unfold D. rewrite N1. cbn [negb]. rewrite andb_true_r.
    destruct (H_is_full opts) eqn:EF; cbn [negb].
    + rewrite gram_0. apply EH; [exact Hk|exact Hl'|left]. unfold reads_all. now rewrite N1, N2, EF.
    + rewrite low_up by lia. rewrite gram_0. destruct (Nat.leb_spec k l); [apply EH; [lia|lia|now right]|].
      rewrite EH by (lia || now right; lia). apply sum_ext. intros; ring.
  - intros Hd1 Hd2. specialize (NT Hd1 Hd2). destruct (Nat.lt_ge_cases 0 (List.length x)) as [L0|L0]; [now rewrite UD by lia|].
    exfalso. assert (HE : H = []) by (destruct H; [reflexivity|cbn in LH; lia]). rewrite HE in NT. unfold entry in NT. cbn in NT.
    unfold FloatEpsilon in NT. destruct sc; cbn in NT; lra.
Qed.
Lemma gn_step u s x0 u' s' dx pre g H r m x J : grad_clipping opts = (0 : REAL) ->
  sv_build (solver_of P GaussNewton) u s x0 = Ret (u', s', true) -> log u' = pre ++ [(g, H)] ->
  sv_solve (solver_of P GaussNewton) s' = Ret (Some dx) ->
  gn_system (reads_all P) r m x J g H -> independent m (List.length x) J ->
  exact_solver (p_backend P) (List.length x) (damped_gram m J 0) -> not_tiny P (entry H 0 0) ->
  List.length dx = List.length x /\
  (forall k, (k < List.length x)%nat -> sum (List.length x) (fun l => sum m (fun i => entry J i k * entry J i l) * nth l dx 0) = - nth k g 0) /\
  ((forall k, (k < List.length x)%nat -> nth k g 0 = 0) <-> (forall k, (k < List.length x)%nat -> nth k dx 0 = 0)) /\
  ((exists k, (k < List.length x)%nat /\ nth k g 0 <> 0) -> downhill (fun y => sum_squares (r y)) x dx).
Proof.
  intros Hc HB Hlog. destruct (gn_last _ _ _ _ _ Hc HB) as (g' & H' & L & S).
  rewrite Hlog in L. apply app_last in L. injection L as <- <-. exact (gn_step_at s' dx g H r m x J S).
Qed.

Lemma lm_step u s dx pre g H r m x J : grad_clipping opts = (0 : REAL) -> positive_damping P ->
  lm_life P u s PhBuilt -> log u = pre ++ [(g, H)] ->
  sv_solve (solver_of P LevenbergMarquardt) s = Ret (Some dx) ->
  gn_system (reads_all P) r m x J g H -> nonzero_columns m (List.length x) J -> 0 < lambda_ s ->
  exact_solver (p_backend P) (List.length x) (damped_gram m J (lambda_ s)) -> not_tiny P ((1 + lambda_ s) * entry H 0 0) ->
  List.length dx = List.length x /\
  (forall k, (k < List.length x)%nat -> sum (List.length x) (fun l => damped_gram m J (lambda_ s) k l * nth l dx 0) = - nth k g 0) /\
  ((forall k, (k < List.length x)%nat -> nth k g 0 = 0) <-> (forall k, (k < List.length x)%nat -> nth k dx 0 = 0)) /\
  ((exists k, (k < List.length x)%nat /\ nth k g 0 <> 0) -> downhill (fun y => sum_squares (r y)) x dx).
Proof.
  intros Hc HP Life Hlog HS GN HC Hlam Ex NT.
  destruct (life_last P log u s HP HL Life) as (pre' & g' & H' & D & g'' & L & S & Eg & _ & (LD & UD) & FD & SD).
  rewrite Hlog in L. apply app_last in L. injection L as <- <-. specialize (Eg Hc). subst g''.
  cbn [solver_of SolverLM sv_solve] in HS. unfold lm_solve in HS. rewrite S in HS.
  pose proof GN as (_ & _ & Lg & LH & _ & EH). assert (LH' : @List.length (list (num REAL)) H = List.length x) by exact LH.
  assert (LD' : List.length D = List.length x) by congruence.
  assert (UD' : forall k l, (k <= l)%nat -> (l < List.length x)%nat -> entry D k l = damped_gram m J (lambda_ s) k l).
  { intros k l Hk Hl'. rewrite UD by lia. unfold damped_gram. destruct (k =? l)%nat; rewrite EH by (lia || now right); ring. }
  apply (solve_exact P D g dx (lm_cost s) (List.length x) (damped_gram m J (lambda_ s))) in HS; [|exact Ex|intros; apply gram_sym|exact LD'|exact Lg|exact UD'| |].
  - destruct HS as (Ld & HS). split; [exact Ld|]. split; [exact HS|].
    exact (system_downhill _ _ _ _ _ _ _ (lambda_ s) dx GN (Rlt_le _ _ Hlam) (or_intror (conj Hlam HC)) HS).
  - intros NL k l Hk Hl'. apply orb_false_iff in NL. destruct NL as (N1 & N2).
    destruct (Nat.leb_spec k l); [now apply UD'|].
    destruct (uses_full P) eqn:EF.
    + destruct (FD eq_refl) as (_ & FD'). rewrite FD'. unfold uses_full in EF. rewrite N1, N2 in EF. cbn in EF. rewrite orb_false_r in EF.
      unfold damped_gram. destruct (k =? l)%nat; rewrite EH; try assumption; try ring; left; unfold reads_all; now rewrite N1, N2, EF.
    + rewrite (SD eq_refl) by lia. rewrite gram_sym. apply UD'; lia.
  - intros Hd1 Hd2. specialize (NT Hd1 Hd2). destruct (Nat.lt_ge_cases 0 (List.length x)) as [L0|L0]; [rewrite UD by lia; exact NT|].
    exfalso. assert (HE : H = []) by (destruct H; [reflexivity|cbn in LH; lia]). rewrite HE in NT. unfold entry in NT. cbn in NT.
    unfold FloatEpsilon in NT. destruct sc; cbn in NT; lra.
Qed.
End Last.

(** Gradient descent. *)
Lemma gd_step {U X} (P : Problem REAL U X) u s x0 u' s' dx F x g :
  grad_clipping (p_options P) = (0 : REAL) -> 0 < gd_lr (p_options P) ->
  sv_build (solver_of P GradientDescent) u s x0 = Ret (u', s', true) ->
  (forall g0, snd (p_acc1 P u x0 g0) = g) -> gradient_of F x g ->
  sv_solve (solver_of P GradientDescent) s' = Ret (Some dx) ->
  List.length dx = List.length x /\ (forall k, (k < List.length x)%nat -> nth k dx 0 = - gd_lr (p_options P) * nth k g 0) /\
  ((exists k, (k < List.length x)%nat /\ nth k g 0 <> 0) -> downhill F x dx).
Proof.
  intros Hc Hr HB Hg (Lg & G) HS. cbn [solver_of SolverGD sv_build sv_solve] in HB, HS. unfold gd_build, gd_solve in *.
  match type of HB with context [p_acc1 P u x0 ?z] => specialize (Hg z); destruct (p_acc1 P u x0 z) as ((u1, c), g1) eqn:EA end.
  cbn in Hg. subst g1. apply ret_inj in HB. injection HB; intros; subst. cbn [gn_sys gn_cost] in HS. replace (Clamp (p_scalar P) g (grad_clipping (p_options P))) with g in HS by (symmetry; exact (zero_clip P g Hc)).
  destruct (negb _); [discriminate|]. apply ret_inj in HS. injection HS as <-.
  set (dx := map (nmul (p_scalar P) (ncvt (p_scalar P) (nopp (gd_lr (p_options P))))) g). assert (Ld : List.length dx = List.length x) by (unfold dx; rewrite map_length; exact Lg).
  assert (E : forall k, (k < List.length x)%nat -> nth k dx 0 = - gd_lr (p_options P) * nth k g 0).
  { intros k Hk. unfold dx. rewrite (nth_indep _ 0 (@nmul REAL (p_scalar P) (ncvt (p_scalar P) (nopp (gd_lr (p_options P)))) 0)) by (rewrite map_length; exact (eq_ind_r (fun z => (k < z)%nat) Hk Lg)).
    rewrite map_nth. reflexivity. }
  split; [exact Ld|]. split; [exact E|]. intros (k & Hk & N).
  pose proof (G _ _ _ (along_curve x dx)) as D.
  assert (S0 : sum (List.length x) (fun i => nth i g 0 * nth i dx 0) < 0).
  { assert (E2 : sum (List.length x) (fun i => nth i g 0 * nth i dx 0) = - gd_lr (p_options P) * sum (List.length x) (fun i => nth i g 0 ^ 2)).
    { rewrite <- sum_scal. apply sum_ext. intros i Hi. rewrite E by exact Hi. ring. }
    rewrite E2. assert (0 <= sum (List.length x) (fun i => nth i g 0 ^ 2)) by (apply sum_nonneg; intros; apply pow2_ge_0).
    destruct (Req_dec (sum (List.length x) (fun i => nth i g 0 ^ 2)) 0) as [Z|Z]; [|nra].
    exfalso. pose proof (sum_nonneg_0 _ _ (fun i _ => pow2_ge_0 _) Z k Hk) as Z2. cbn beta in Z2. apply (pow_nonzero _ 2) in N. congruence. }
  split; [eexists; split; [exact S0|exact D]|]. destruct (slope_decrease _ _ D S0) as (t0 & T & HT). exists t0. split; [exact T|].
  intros t Ht. specialize (HT t Ht). now rewrite along_0 in HT.
Qed.
