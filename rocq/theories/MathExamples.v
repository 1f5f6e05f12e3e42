(** Concrete instances for the statements of MathProps.v. *)
From Coq Require Import ZArith List Bool String Lia Reals Lra Floats.SpecFloat.
From Verif Require Import BaseModel NumModel RealModel CostModel StopModel OptionsModel SolverModel
  OptimizerModel RunModel NumSpec ExampleModel MathModel MathSpec MathProofs OutputProofs RefuteProofs
  CostExamples.
Import ListNotations.
Open Scope Z_scope.

Lemma ex_C28 : SQRT 31 INT_MAX = Ret 46340 /\ SQRT 31 (-1) = Ret (-1).
Proof. split; vm_compute; reflexivity. Qed.

Definition sparse_a : sparse_mat REAL := mkSparse (A:=REAL) 3 [[(0, 1%R); (2, 5%R)]; []].
Definition sparse_b : sparse_mat REAL := mkSparse (A:=REAL) 3 [[(0, 2%R); (2, 1%R)]; [(1, (-3)%R)]].
Definition ieee_a : sparse_mat IEEE := mkSparse (A:=IEEE) 3 [[(0, d64 1 0); (2, d64 5 0)]; []].
Definition ieee_b : sparse_mat IEEE := mkSparse (A:=IEEE) 3 [[(0, d64 2 0); (2, d64 1 0)]; [(1, d64 (-3) 0)]].
Definition ieee_nan : sparse_mat IEEE := mkSparse (A:=IEEE) 3 [[(0, S754_nan)]; []].
Definition ieee_one : sparse_mat IEEE := mkSparse (A:=IEEE) 3 [[(0, d64 1 0)]; []].

Ltac wf := intros col Hc; cbn in Hc;
  repeat destruct Hc as [<-|Hc]; try (now destruct Hc);
  (split; [cbn; repeat constructor; cbn; intuition discriminate|]);
  intros e He; cbn in He; repeat destruct He as [<-|He]; try (now destruct He); cbn; lia.

Lemma coef_cases {A : Arith} f (m : sparse_mat A) i j a : coefficient f m i j a ->
  a = nzero f \/ exists col, In col (sp_cols m) /\ In (i, a) col.
Proof.
  intros (_ & Hj & [H|(H & _)]); [right|now left].
  exists (nth j (sp_cols m) []). split; [now apply nth_In|exact H].
Qed.

Definition values_a : list D := [nzero F64; d64 1 0; d64 5 0].
Definition values_b : list D := [nzero F64; d64 2 0; d64 1 0; d64 (-3) 0].
Lemma in_a i j a : coefficient F64 ieee_a i j a -> In a values_a.
Proof.
  intros H. apply coef_cases in H as [->|(col & H1 & H2)]; [now left|].
  cbn in H1. destruct H1 as [<-|[<-|[]]]; cbn in H2; [|destruct H2].
  destruct H2 as [E|[E|[]]]; injection E as _ <-; cbn; auto.
Qed.
Lemma in_b i j a : coefficient F64 ieee_b i j a -> In a values_b.
Proof.
  intros H. apply coef_cases in H as [->|(col & H1 & H2)]; [now left|].
  cbn in H1. destruct H1 as [<-|[<-|[]]]; cbn in H2.
  - destruct H2 as [E|[E|[]]]; injection E as _ <-; cbn; auto.
  - destruct H2 as [E|[]]; injection E as _ <-; cbn; auto.
Qed.

Lemma ex_C32 : well_formed (sparse_a) /\ well_formed (sparse_b) /\
  MaxAbsDiff F64 sparse_a sparse_b = Some 4%R /\
  well_formed ieee_a /\ well_formed ieee_b /\
  (forall i j a, coefficient F64 ieee_a i j a \/ coefficient F64 ieee_b i j a -> is_fmt F64 a = true) /\
  (forall i j a b, coefficient F64 ieee_a i j a -> coefficient F64 ieee_b i j b -> nisnan (nsub F64 a b) = false) /\
  MaxAbsDiff F64 ieee_a ieee_b = Some (d64 4 0).
Proof.
  split; [wf|]. split; [wf|]. split.
  { unfold MaxAbsDiff, sparse_a, sparse_b. cbn [sp_rows sp_cols List.length Z.eqb Nat.eqb negb orb].
    f_equal. cbn [each_column diff_first diff_second find_row Z.eqb Pos.eqb].
    unfold std_max.
    cbn. repeat match goal with |- context [Rabs ?a] =>
      first [rewrite (Rabs_pos_eq a) by lra | rewrite (Rabs_left1 a) by lra] end.
    f_equal. rewrite (Raux.Rlt_bool_true (0 * 1) (- (1 - 2))) by lra.
    rewrite (Raux.Rlt_bool_true (- (1 - 2))) by lra. rewrite Raux.Rlt_bool_false by lra. lra. }
  split; [wf|]. split; [wf|]. split; [|split].
  - intros i j a [H|H]; [apply in_a in H|apply in_b in H];
      revert H; [unfold values_a|unfold values_b]; intros H;
      repeat destruct H as [<-|H]; try reflexivity; destruct H.
  - intros i j a b Ha Hb. apply in_a in Ha. apply in_b in Hb.
    unfold values_a in Ha. unfold values_b in Hb.
    repeat destruct Ha as [<-|Ha]; try (now destruct Ha);
      repeat destruct Hb as [<-|Hb]; try (now destruct Hb); vm_compute; reflexivity.
  - vm_compute. reflexivity.
Qed.

Lemma ex_C32_nan : exists (m1 m2 : sparse_mat IEEE) i j a b, well_formed m1 /\ well_formed m2 /\
  coefficient F64 m1 i j a /\ coefficient F64 m2 i j b /\ nisnan a = true /\ nisnan b = false /\
  MaxAbsDiff F64 m1 m2 = Some (nzero F64).
Proof.
  exists ieee_nan, ieee_one, 0, 0%nat, S754_nan, (d64 1 0).
  split; [wf|]. split; [wf|]. split; [split; [cbn; lia|]; split; [cbn; lia|]; left; now left|].
  split; [split; [cbn; lia|]; split; [cbn; lia|]; left; now left|].
  repeat split; vm_compute; reflexivity.
Qed.

Lemma covariance_formula (inv : mat REAL -> option (mat REAL)) (out : Output REAL) H cov :
  final_hessian out = Some H -> inv H = Some cov ->
  Z.of_nat (List.length (hd [] H)) < num_residuals out ->
  Covariance inv true out =
    Some (map (map (fun v => (v * (cost (final_cost out) * cost (final_cost out) /
       IZR (num_residuals out - Z.of_nat (List.length (hd [] H)))))%R)) cov) /\
  Covariance inv false out = Some cov.
Proof.
  intros E1 E2 L. unfold Covariance. rewrite E1, E2. apply Z.ltb_lt in L. rewrite L.
  split; [|reflexivity]. cbn [andb]. do 2 f_equal. rewrite CostProofs.real_lit. reflexivity.
Qed.

Lemma covariance_none {A : Arith} inv b (out : Output A) :
  Covariance inv b out = None <->
  match final_hessian out with None => True | Some H => inv H = None end.
Proof.
  unfold Covariance. destruct (final_hessian out) as [H|]; [|tauto].
  destruct (inv H); [|tauto]. split; [destruct (_ && _)|]; discriminate.
Qed.

(** Three residuals x - 3, 1, 0 and one parameter. *)
Definition three : Problem IEEE World D :=
  mkProblem IEEE World D F64 (Some 1) false opts0 backend1 (fun _ => 1) (fun _ _ => false)
    (mkAcc IEEE World D
      (fun u x _ _ => (u, Cost_residuals sqnorm1 [r_lin x; d64 1 0; d64 0 0], [r_lin x], [[d64 1 0]]))
      (fun u x => (u, Cost_residuals sqnorm1 [r_lin x; d64 1 0; d64 0 0])))
    (fun u x _ => (u, Cost_residuals sqnorm1 [r_lin x; d64 1 0; d64 0 0], [r_lin x]))
    plus1 (fun u => (u, d64 0 0)).
Definition id_inv (H : mat IEEE) : option (mat IEEE) := Some H.

Lemma ex_C47 : exists (P : Problem IEEE World D) k fuel u x max_iters u' s' x' out inv cov,
  run P k fuel u (fresh P k) x max_iters = Ret (u', s', x', out) /\ Succeeded out = true /\
  num_resisuals (final_cost out) = 3 /\ neqb (cost (final_cost out)) (d64 1 0) = true /\
  final_hessian out = Some [[d64 1 0]] /\ inv [[d64 1 0]] = Some [[d64 1 0]] /\
  Covariance inv true out = Some cov /\ cov = [[d64 1 0]].
Proof.
  destruct (run_test (run three GaussNewton 9 w0 (fresh three GaussNewton) (d64 10 0) (-1))
    (fun _ _ _ o => Succeeded o && (num_resisuals (final_cost o) =? 3) &&
       neqb (cost (final_cost o)) (d64 1 0) &&
       match final_hessian o with Some H => all2 (all2 sf_eqb) H [[d64 1 0]] | None => false end))
    as (u & s & x & o & Hr & H); [vm_compute; reflexivity|].
  apply andb_true_iff in H as (H & H4). apply andb_true_iff in H as (H & H3).
  apply andb_true_iff in H as (H1 & H2). apply Z.eqb_eq in H2.
  destruct (final_hessian o) as [h|] eqn:E; [|discriminate H4].
  apply (all2_eq _ (all2_eq _ sf_eqb_eq)) in H4. subst h.
  exists three, GaussNewton, 9%nat, w0, (d64 10 0), (-1), u, s, x, o, id_inv, [[d64 1 0]].
  split; [exact Hr|]. split; [exact H1|]. split; [exact H2|]. split; [exact H3|]. split; [exact E|].
  split; [reflexivity|]. split; [|reflexivity].
  rewrite (run_never_rescaled _ _ _ _ _ _ _ _ _ _ _ id_inv Hr). unfold Covariance. rewrite E. reflexivity.
Qed.
