(** Optimizing poses: proofs and an example. *)
From Coq Require Import ZArith List Bool String Lia ZifyBool Reals Lra.
From Flocq Require Import Core.Zaux Core.Raux.
From Verif Require Import BaseModel NumModel RealModel CostModel StopModel OptionsModel SolverModel
  OptimizerModel RunModel RunSpec RealExampleModel SummaryProofs LmExamples.
From Verif Require Import TraitsModel UserModel UserSpec LieProofs.
Import ListNotations.

Lemma lie_run {U G} (P : Problem REAL U G) (k : SolverType) (f : G -> Cost REAL)
  (mul : G -> G -> G) (e : G) (exp : list R -> G) fuel u (s : solver_state P k) x mi u' s' x' out :
  (forall x y z, mul (mul x y) z = mul x (mul y z)) -> (forall x, mul x e = x) ->
  (forall d, mul (exp d) (exp (map Ropp d)) = e) -> p_plus P = lie_plus mul exp ->
  wf_options (p_options P) = true -> (allowed_iters (p_options P) mi <= 65535)%Z -> pure_cost P f ->
  run P k fuel u s x mi = Ret (u', s', x', out) ->
  (errs out = [] /\ x' = x) \/
  (errs out <> [] /\ exists xb, final_cost out = reported P f xb /\
     (x' = xb \/ exists d, x' = mul xb (exp d) /\ Succeeded out = true /\
        stop_reason out <> kMaxNoDecr /\ stop_reason out <> kMaxConsecNoDecr)).
Proof.
  intros A Un E Hp Hwf HN Hf H.
  pose proof (run_rollback P k f fuel u s x mi u' s' x' out Hwf HN Hf (lie_rollback P mul e exp A Un E Hp) H) as R.
  rewrite Hp in R. exact R.
Qed.

(** Moving a pose along its first axis so that the first coordinate vanishes. *)
Open Scope R_scope.
Definition pose_exp (d : list R) : rigid := match d with [y] => rexp [y; 0; 0; 0; 0; 0] | _ => rid end.
Definition pose_cost (x : rigid) : Cost REAL := mkCost (Rmin (t1 x * t1 x) 1000 : REAL) 1 (1 : REAL) EmptyString.
Definition pose_acc : AccFunc REAL unit rigid :=
  mkAcc REAL unit rigid (fun u x _ _ => (u, pose_cost x, [t1 x], [[1]])) (fun u x => (u, pose_cost x)).
Definition pose_opts : Options REAL unit := {|
  solver_type := GaussNewton; check_final_cost := false; use_step_quality_approx := false;
  grad_clipping := (0 : REAL); use_ldlt := true; H_is_full := true; check_min_H_diag := (0 : REAL);
  save_last := true; use_squared_norm := true; downscale_by_2 := false; normalize := false;
  opt_max_iters := 1; min_error := (0 : REAL); min_rerr_dec := (0 : REAL);
  min_step_norm2 := (0 : REAL); min_grad_norm2 := (0 : REAL);
  max_total_failures := 0; max_consec_failures := 3; max_duration_ms := (0 : REAL);
  stop_callback := None; stop_callback2 := None;
  damping_init := (1 : REAL); damping_lo := (1 / 4 : REAL); damping_hi := (4 : REAL);
  good_factor := (1 / 2 : REAL); bad_factor := (2 : REAL); gd_lr := (1 : REAL) |}.
Definition pose_problem : Problem REAL unit rigid :=
  mkProblem REAL unit rigid F64 (Some 1%Z) false pose_opts r_backend (fun _ => 1%Z)
    (fun _ _ => false) pose_acc (fun u x _ => (u, pose_cost x, [t1 x])) (lie_plus rmul pose_exp) (fun u => (u, 0)).
Definition pose0 : rigid := mkRigid 1 0 0 0 1 0 0 0 1 2 7 9.

Lemma pose_exp_opp d : rmul (pose_exp d) (pose_exp (map Ropp d)) = rid.
Proof.
  destruct d as [|y [|]]; try apply runit_r. cbn [map pose_exp].
  pose proof (rexp_opp [y; 0; 0; 0; 0; 0]) as H. cbn [map] in H. rewrite Ropp_0 in H. exact H.
Qed.
Opaque lie_plus.
Lemma pose_run : exists u' s' x' o,
  run pose_problem GaussNewton 5 tt (fresh pose_problem GaussNewton) pose0 0 = Ret (u', s', x', o) /\
  (exists y, x' = lie_plus rmul pose_exp pose0 [y] /\ y = - (2)) /\ errs o <> [].
Proof.
  assert (T : match run pose_problem GaussNewton 5 tt (fresh pose_problem GaussNewton) pose0 0 with
    | Ret (_, _, x, o) => (exists y, x = lie_plus rmul pose_exp pose0 [y] /\ y = - (2)) /\ errs o <> []
    | _ => False end).
  { pose proof (max_big F64) as Hm.
    unfold run, OptimizeAcc. change (budget _ _) with (Ret 1%Z). cbn [bind]. change (Z.to_nat 1) with 1%nat.
    cbn [opt_loop]. unfold fresh, solver_of. repeat progress (unf; unfold gn_build, gn_solve, rebuild_system; go1).
    split; [|discriminate]. eexists. split; [reflexivity|lra]. }
  destruct (run _ _ _ _ _ _ _) as [(((u & s) & x) & o)| |]; try contradiction T. eauto 10.
Qed.
Transparent lie_plus.
Lemma pose_ok : (forall d, rmul (pose_exp d) (pose_exp (map Ropp d)) = rid) /\
  p_plus pose_problem = lie_plus rmul pose_exp /\ wf_options (p_options pose_problem) = true /\
  (allowed_iters (p_options pose_problem) 0 <= 65535)%Z /\ pure_cost pose_problem pose_cost /\
  exists u' s' x' o, run pose_problem GaussNewton 5 tt (fresh pose_problem GaussNewton) pose0 0 = Ret (u', s', x', o) /\
    (exists y, x' = lie_plus rmul pose_exp pose0 [y] /\ y = - (2)) /\ errs o <> [].
Proof.
  split; [exact pose_exp_opp|]. split; [reflexivity|]. split; [reflexivity|]. split; [cbn; lia|].
  split; [split; [|split]; reflexivity|].
  apply pose_run.
Qed.
