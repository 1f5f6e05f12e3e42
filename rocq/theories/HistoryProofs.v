(** The recorded history in IEEE double arithmetic. *)
From Coq Require Import ZArith List Bool Reals Lia Lra ZifyBool Floats.SpecFloat.
From Flocq Require Import Core.
From Verif Require Import BaseModel NumModel CostModel StopModel OptionsModel SolverModel
  OptimizerModel RunModel OptimizerProofs HistorySpec LoopProofs TerminationProofs RunSpec RunProofs
  IeeeProofs.
Import ListNotations.
Open Scope Z_scope.

(** A finite double. *)
Definition fin64 (x : IEEE) : Prop := is_fmt F64 x = true /\ bad_number x = false.

Lemma fin64_fin x : fin64 x -> is_fmt F64 x = true /\ is_fin x = true.
Proof. intros (H1 & H2). split; [assumption|]. rewrite (fin_not_bad x). unfold bad_number in H2. now rewrite H2. Qed.

Lemma fin64_max : fin64 (nmax F64).
Proof. split; reflexivity. Qed.

Lemma lower_lt (e b : IEEE) : fin64 e -> fin64 b -> lower e b = nltb e b.
Proof.
  intros He Hb. apply fin64_fin in He, Hb. unfold lower. apply sub_sign; tauto.
Qed.

Lemma ltb_lt (e b : IEEE) : fin64 e -> fin64 b -> (nltb e b = true <-> (toR e < toR b)%R).
Proof.
  intros He Hb. apply fin64_fin in He, Hb. cbn [nltb IEEE]. rewrite (ltb_R F64) by tauto.
  destruct (Rlt_bool_spec (toR e) (toR b)); split; intros; (lra || congruence || auto).
Qed.
Lemma leb_le (e b : IEEE) : fin64 e -> fin64 b -> (nleb e b = true <-> (toR e <= toR b)%R).
Proof.
  intros He Hb. apply fin64_fin in He, Hb. cbn [nleb IEEE]. rewrite (leb_R F64) by tauto.
  destruct (Rle_bool_spec (toR e) (toR b)); split; intros; (lra || congruence || auto).
Qed.
Lemma ltb_ge (e b : IEEE) : fin64 e -> fin64 b -> (nltb e b = false <-> (toR b <= toR e)%R).
Proof.
  intros He Hb. pose proof (ltb_lt e b He Hb) as (H1 & H2). destruct (nltb e b); split; intros H; try congruence.
  - specialize (H1 eq_refl). lra.
  - destruct (Rle_or_lt (toR b) (toR e)) as [|Hlt]; auto. specialize (H2 Hlt). discriminate.
Qed.

Lemma best_from_in (es : list IEEE) : forall b, In (best_from b es) (b :: es).
Proof.
  induction es as [|e es IH]; intros b; cbn [best_from]; [left; reflexivity|].
  destruct (IH (if lower e b then e else b)) as [H|H].
  - destruct (lower e b); rewrite <- H; [right; left|left]; reflexivity.
  - right; right; assumption.
Qed.

Lemma best_from_le (es : list IEEE) : forall b, fin64 b -> Forall fin64 es ->
  fin64 (best_from b es) /\ (toR (best_from b es) <= toR b)%R /\
  (forall e, In e es -> (toR (best_from b es) <= toR e)%R).
Proof.
  induction es as [|e es IH]; intros b Hb HF; cbn [best_from].
  - split; [exact Hb|split; [lra|]]. intros e [].
  - inversion HF as [|? ? He HF']; subst.
    set (b' := if lower e b then e else b).
    assert (Hb' : fin64 b') by (unfold b'; destruct (lower e b); assumption).
    destruct (IH _ Hb' HF') as (H1 & H2 & H3).
    assert (Hle : (toR b' <= toR b)%R /\ (toR b' <= toR e)%R).
    { unfold b'. rewrite (lower_lt e b He Hb). destruct (nltb e b) eqn:E.
      - apply ltb_lt in E; [|assumption|assumption]; lra.
      - apply ltb_ge in E; [|assumption|assumption]; lra. }
    split; [exact H1|split; [lra|]]. intros e' [<-|Hin]; [lra|auto].
Qed.

Lemma best_min (es : list IEEE) : Forall fin64 es -> es <> [] ->
  In (best es) es /\ forall e, In e es -> nleb (best es) e = true.
Proof.
  destruct es as [|e0 es]; [congruence|]. intros HF _. inversion HF as [|? ? He HF']; subst.
  cbn [best]. split; [apply best_from_in|].
  destruct (best_from_le es e0 He HF') as (H1 & H2 & H3).
  intros e Hin. apply leb_le; auto.
  - rewrite Forall_forall in HF. auto.
  - destruct Hin as [->|Hin]; auto.
Qed.

(** flags.(i) = strict improvement over everything before. *)
Lemma flags_from_spec (es : list IEEE) : forall b (pre : list IEEE), fin64 b -> Forall fin64 es ->
  Forall fin64 pre -> (forall p, In p pre -> (toR b <= toR p)%R) -> In b pre ->
  forall i, (i < length es)%nat ->
  (nth i (flags_from b es) false = true <->
   forall j, (j < length pre + i)%nat ->
     nltb (nth i es S754_nan) (nth j (pre ++ es) S754_nan) = true).
Proof.
  induction es as [|e es IH]; intros b pre Hb HF Hpre Hmin Hin i Hi; [cbn in Hi; lia|].
  inversion HF as [|? ? He HF']; subst. cbn [flags_from].
  destruct i as [|i].
  - cbn [nth]. rewrite (lower_lt e b He Hb), (ltb_lt e b He Hb). split.
    + intros Hlt j Hj. rewrite app_nth1 by lia. 
      assert (Hjin : In (nth j pre S754_nan) pre) by (apply nth_In; lia).
      apply ltb_lt; auto. { rewrite Forall_forall in Hpre; auto. }
      specialize (Hmin _ Hjin). lra.
    + intros H. apply In_nth with (d := S754_nan) in Hin. destruct Hin as (j & Hj & Hn).
      specialize (H j ltac:(lia)). rewrite app_nth1, Hn in H by lia. now apply ltb_lt in H.
  - cbn [nth]. set (b' := if lower e b then e else b).
    assert (Hb' : fin64 b') by (unfold b'; destruct (lower e b); assumption).
    assert (Hle : (toR b' <= toR b)%R /\ (toR b' <= toR e)%R).
    { unfold b'. rewrite (lower_lt e b He Hb). destruct (nltb e b) eqn:E.
      - apply ltb_lt in E; [|assumption|assumption]; lra.
      - apply ltb_ge in E; [|assumption|assumption]; lra. }
    rewrite (IH b' (pre ++ [e]) Hb' HF').
    + rewrite app_length, <- app_assoc. cbn [length app].
      split; intros H j Hj; apply H; lia.
    + apply Forall_app; auto.
    + intros p Hp. apply in_app_or in Hp. destruct Hp as [Hp|[<-|[]]]; [|lra].
      specialize (Hmin p Hp). lra.
    + unfold b'. apply in_or_app. destruct (lower e b); [right; left; reflexivity|left; assumption].
    + apply Nat.succ_lt_mono. exact Hi.
Qed.

Lemma flags_spec (es : list IEEE) : Forall fin64 es ->
  (forall e0, nth_error es 0 = Some e0 -> nltb e0 (nmax F64) = true) ->
  length (flags es) = length es /\
  forall i, (i < length es)%nat ->
  (nth i (flags es) false = true <->
   forall j, (j < i)%nat -> nltb (nth i es S754_nan) (nth j es S754_nan) = true).
Proof.
  intros HF H0. destruct es as [|e0 es]; [cbn; split; [reflexivity|intros; lia]|].
  inversion HF as [|? ? He HF']; subst. specialize (H0 e0 eq_refl).
  assert (Hlen : forall b l, length (@flags_from IEEE b l) = length l).
  { intros b l. revert b. induction l as [|a l IH]; intros b; cbn; [reflexivity|now rewrite IH]. }
  split; [cbn; now rewrite Hlen|].
  intros i Hi. cbn [flags]. destruct i as [|i].
  - cbn [nth]. rewrite lower_lt by (assumption || apply fin64_max). rewrite H0.
    split; [intros _ j Hj; lia|reflexivity].
  - change (nth (S i) (lower e0 (nmax F64) :: flags_from e0 es) false)
      with (nth i (flags_from e0 es) false).
    rewrite (flags_from_spec es e0 [e0] He HF'); auto.
    + cbn [length app]. change (nth (S i) (e0 :: es) S754_nan) with (nth i es S754_nan).
      split; intros H j Hj; apply H; lia.
    + intros p [->|[]]. lra.
    + left; reflexivity.
    + apply Nat.succ_lt_mono. exact Hi.
Qed.

(** *** Runs *)
Section Runs.
Context {U X : Type}.
Variable P : Problem IEEE U X.
Notation opts := (p_options P).

Lemma normalize_fmt (c : Cost IEEE) : is_fmt F64 (cost c) = true ->
  is_fmt F64 (cost (NormalizeCost opts c)) = true.
Proof.
  intros H. unfold NormalizeCost. cbn [cost].
  set (v1 := if use_squared_norm opts then cost c else _).
  assert (H1 : is_fmt F64 v1 = true) by (subst v1; destruct (use_squared_norm opts); [|apply fmt_sqrt]; assumption).
  set (v2 := if downscale_by_2 opts then _ else v1).
  assert (H2 : is_fmt F64 v2 = true) by (subst v2; destruct (downscale_by_2 opts); [apply fmt_mul; [|apply fmt_lit]|]; assumption).
  destruct (_ && _); [|assumption]. apply fmt_div; [assumption|apply fmt_lit].
Qed.

Lemma build_fmt k u s x u' s' b : user_doubles P ->
  sv_build (solver_of P k) u s x = Ret (u', s', b) -> is_fmt F64 (cost (sv_cost _ s')) = true.
Proof.
  intros (H1 & H2 & H3) H. apply build_call in H.
  destruct H as [(g & HH & _ & ->)|[(_ & ->)|(g & _ & ->)]]; apply normalize_fmt; auto.
Qed.

(** Recorded errors are finite doubles, the first one below DBL_MAX. *)
Definition errs_ok (out : Output IEEE) : Prop :=
  Forall fin64 (errs out) /\ (forall e0, nth_error (errs out) 0 = Some e0 -> nltb e0 (nmax F64) = true).

Lemma valid_lt_max (c : Cost IEEE) : fin64 (cost c) -> isValid c = true ->
  nltb (cost c) (nmax F64) = true.
Proof.
  intros Hf Hv. unfold isValid in Hv. apply andb_true_iff in Hv. destruct Hv as (_ & Hv).
  apply negb_true_iff in Hv.
  apply ltb_lt; [assumption|apply fin64_max|].
  pose proof (fin64_fin _ Hf) as (F1 & F2). pose proof (fin64_fin _ fin64_max) as (F3 & F4).
  cbn [neqb IEEE] in Hv. rewrite (eqb_R F64) in Hv by assumption.
  destruct (Req_bool_spec (toR (cost c)) (toR (@nmax IEEE F64))); [discriminate|].
  assert (toR (cost c) <= toR (@nmax IEEE F64))%R; [|lra].
  (* every finite double is at most DBL_MAX *)
  clear Hv Hf. rewrite <- (toB_R F64 _ F1).
  replace (toR (@nmax IEEE F64)) with (bpow radix2 1024 - bpow radix2 (1024 - 53))%R.
  - apply Rle_trans with (Rabs (BinarySingleNaN.B2R (toB F64 (cost c) F1))); [apply Rle_abs|].
    apply BinarySingleNaN.abs_B2R_le_emax_minus_prec. exact (prec_gt_0_of F64).
  - change (toR (@nmax IEEE F64)) with (F2R (Float radix2 (Z.pos 9007199254740991) 971)).
    unfold F2R. cbn [Fnum Fexp]. change 1024%Z with (53 + 971)%Z at 1.
    rewrite bpow_plus. change (1024 - 53)%Z with 971%Z.
    replace (bpow radix2 53) with (IZR 9007199254740992) by (cbn; lra). 
    rewrite <- (Rmult_1_l (bpow radix2 971)) at 2. rewrite <- Rmult_minus_distr_r.
    f_equal. lra.
Qed.

Lemma run_errs_ok k fuel u s x mi u' s' x' out :
  user_doubles P -> run P k fuel u s x mi = Ret (u', s', x', out) -> errs_ok out.
Proof.
  intros HD H. pose proof (run_budget _ _ _ _ _ _ _ _ H) as HN.
  destruct (run_ind opts (solver_of P k) (p_plus P) (p_x_dims P) (be_sqnorm (p_backend P)) (p_toc P) fuel
     (fun _ l => errs_ok (l_out l)) u s x mi u' s' x' out
     (allowed_iters opts mi)) as (j & l & h & _ & Hok & _ & _ & _ & _ & _ & _ & ->);
    [| |exact H|exact HN|].
  - split; [constructor|]. intros e0; discriminate.
  - intros _ last l l' Hok Hs _ Hi. apply iteration_inv in Hi.
    destruct Hi as (s1 & out1 & st & d & eo & Hev & _ & _ & ->).
    assert (Hcase : errs out1 = errs (l_out l) \/
              exists u0 s0 u1 s1, sv_build (solver_of P k) u0 s0 (l_x l) = Ret (u1, s1, true) /\
              bad_number (cost (sv_cost _ s1)) = false /\
              errs out1 = errs (l_out l) ++ [cost (sv_cost _ s1)]).
    { inversion Hev; subst; [left; reflexivity| |];
        right; exists u0, s0, u1, s2; (split; [assumption|split; [assumption|]]);
        cbn; unfold judged_out; destruct (_ || _); reflexivity. }
    unfold errs_ok in *. cbn [errs set_num_iters set_stop set_duration].
    destruct Hcase as [->|(u0 & s0 & u1 & s2 & Hbl & Hbad & ->)]; [assumption|].
    assert (Hfe : fin64 (cost (sv_cost _ s2))) by (split; [eapply build_fmt; eauto|assumption]).
    destruct Hok as (HF & H0). split.
    + apply Forall_app; auto.
    + intros e0. destruct (errs (l_out l)) as [|a es]; [|exact (H0 e0)].
      cbn. intros E; injection E as <-. apply valid_lt_max; [assumption|].
      eapply build_valid; eauto.
  - exact Hok.
Qed.

End Runs.
