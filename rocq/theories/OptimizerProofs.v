(** Lemmas about optimizer.h for an arbitrary solver and scalar. *)
From Coq Require Import ZArith List Bool String Lia ZifyBool.
From Verif Require Import BaseModel NumModel CostModel StopModel OptionsModel SolverModel OptimizerModel.
Import ListNotations.
Open Scope Z_scope.

(** *** outcome *)
Lemma bind_Ret {A B} (m : outcome A) (f : A -> outcome B) b :
  bind m f = Ret b -> exists a, m = Ret a /\ f a = Ret b.
Proof. destruct m; simpl; intros; try discriminate. eauto. Qed.

Lemma bind_NoFuel {A B} (m : outcome A) (f : A -> outcome B) :
  bind m f = NoFuel -> m = NoFuel \/ exists a, m = Ret a /\ f a = NoFuel.
Proof. destruct m; simpl; intros; try discriminate; eauto. Qed.

Lemma bind_UB {A B} (m : outcome A) (f : A -> outcome B) k :
  bind m f = UB k -> m = UB k \/ exists a, m = Ret a /\ f a = UB k.
Proof. destruct m; simpl; intros H; try discriminate; eauto. injection H as ->. auto. Qed.

Ltac inv_bind H :=
  let a := fresh "a" in let H1 := fresh "Hb" in let H2 := fresh "Hk" in
  apply bind_Ret in H; destruct H as (a & H1 & H2).

Lemma stop_eqb_eq a b : stop_eqb a b = true <-> a = b.
Proof. unfold stop_eqb. rewrite Z.eqb_eq. split; [|intros ->; reflexivity].
  destruct a, b; simpl; intros; try reflexivity; discriminate. Qed.
Lemma stop_eqb_neq a b : stop_eqb a b = false <-> a <> b.
Proof. rewrite <- stop_eqb_eq. destruct (stop_eqb a b); split; congruence. Qed.

Lemma int_chk_Ret z r : int_chk z = Ret r -> r = z /\ in_int z = true.
Proof. unfold int_chk. destruct (in_int z); intros H; inversion H; auto. Qed.

Lemma u8_range z : 0 <= u8 z <= 255.
Proof. unfold u8. pose proof (Z.mod_pos_bound z 256). lia. Qed.
Lemma u8_small z : 0 <= z <= 255 -> u8 z = z.
Proof. intros. apply Z.mod_small. lia. Qed.
Lemma u16_small z : 0 <= z <= 65535 -> u16 z = z.
Proof. intros. apply Z.mod_small. lia. Qed.

Section Opt.
Context {A : Arith} {U X : Type}.
Variable opts : Options A U.
Variable sv : Solver A U X.
Variable plus : X -> list A -> X.
Variable dyn_dims : X -> Z.
Variable sqnorm : list A -> A.
Variable toc : U -> U * A.
Notation S := (sv_state sv).
Notation sc := (sv_scalar sv).
Notation Step := (Step opts sv dyn_dims sqnorm).
Notation solve_loop := (solve_loop opts sv).
Notation judge := (judge opts sv sqnorm).
Notation stop_tests := (stop_tests opts).
Notation iteration := (iteration opts sv plus dyn_dims sqnorm toc).
Notation opt_loop := (opt_loop opts sv plus dyn_dims sqnorm toc).
Notation OptimizeAcc := (OptimizeAcc opts sv plus dyn_dims sqnorm toc).
Notation finish_iter := (finish_iter opts toc).
Notation move := (move opts plus).

(** *** The solving loop *)
Lemma set_eta (o : Output A) :
  set_failures (num_failures o) (num_consec_failures o) (set_stop (stop_reason o) o) = o.
Proof. destruct o; reflexivity. Qed.

Lemma solve_loop_out fuel : forall u s out x u1 s1 out1 e,
  solve_loop fuel u s out x = Ret (u1, s1, out1, e) ->
  exists nf nc r, out1 = set_failures nf nc (set_stop r out) /\
  match e with
  | LSolved dx => r = stop_reason out /\
      exists u0 s0, sv_build sv u0 s0 x = Ret (u1, s1, true) /\ sv_solve sv s1 = Ret (Some dx)
  | LReturn => (exists u0 s0 b, sv_build sv u0 s0 x = Ret (u1, s1, b) /\
                  (b = true -> sv_solve sv s1 = Ret None)) /\
      ((r = kSkipped /\ num_resisuals (sv_cost sv s1) = 0) \/
       (r = kSystemHasNaNOrInf /\ bad_number (cost (sv_cost sv s1)) = true))
  | LFailed =>
      (0 < max_consec_failures opts /\ max_consec_failures opts <= nc) \/
      255 < num_consec_failures out
  end.
Proof.
  induction fuel as [|fuel IH]; intros u s out x u1 s1 out1 e H; [discriminate|].
  cbn [OptimizerModel.solve_loop] in H.
  destruct (max_tries opts <? num_consec_failures out) eqn:Ht.
  { injection H as <- <- <- <-. exists (num_failures out), (num_consec_failures out), (stop_reason out).
    rewrite set_eta. split; [reflexivity|]. unfold max_tries in Ht.
    destruct (0 <? max_consec_failures opts) eqn:Hm; lia. }
  inv_bind H. destruct a as ((ub & sb) & built).
  inv_bind Hk. rename a into mdx.
  destruct mdx as [dx|].
  - injection Hk0 as <- <- <- <-.
    exists (num_failures out), (num_consec_failures out), (stop_reason out).
    rewrite set_eta. split; [reflexivity|]. split; [reflexivity|].
    destruct built; [|discriminate]. eauto.
  - destruct (num_resisuals (sv_cost sv sb) =? 0) eqn:Hn.
    { injection Hk0 as <- <- <- <-. eexists _, _, kSkipped. split; [reflexivity|].
      split; [|left; split; [reflexivity|lia]].
      exists u, s, built. split; [assumption|]. intros ->. assumption. }
    destruct (bad_number (cost (sv_cost sv sb))) eqn:Hbad.
    { injection Hk0 as <- <- <- <-. eexists _, _, kSystemHasNaNOrInf. split; [reflexivity|].
      split; [|right; split; [reflexivity|assumption]].
      exists u, s, built. split; [assumption|]. intros ->. assumption. }
    destruct ((0 <? max_consec_failures opts) && _) eqn:Hmc.
    { apply andb_true_iff in Hmc. cbn [num_consec_failures set_failures] in Hmc.
      injection Hk0 as <- <- <- <-. destruct nltb.
      - exists (u8 (num_failures out + 1)), (u8 (num_consec_failures out + 1)), kMaxConsecNoDecr.
        split; [reflexivity|lia].
      - exists (u8 (num_failures out + 1)), (u8 (num_consec_failures out + 1)), (stop_reason out).
        split; [destruct out; reflexivity|lia]. }
    inv_bind Hk0. apply IH in Hk. destruct Hk as (nf & nc & r & -> & Hr).
    exists nf, nc, r. split; [reflexivity|].
    destruct e; [exact Hr|exact Hr|]. cbn [num_consec_failures set_failures] in Hr.
    pose proof (u8_range (num_consec_failures out + 1)) as Hu8. lia.
Qed.

(** *** Events of one call of Step *)
Definition fail_reason (r : StopReason) : Prop :=
  r = kSkipped \/ r = kOutOfMemory \/ r = kSystemHasNaNOrInf \/ r = kSolverFailed.
Definition limit_why (r : StopReason) (nf nc : Z) : Prop :=
  (r = kMaxConsecNoDecr /\ 0 < max_consec_failures opts <= nc) \/
  (r = kMaxNoDecr /\ 0 < max_total_failures opts <= nf).
(** Why Step ended without a step: [s'] is the solver state at that point. *)
Inductive fail_why (u : U) (s : S) (x : X) (out : Output A) (s' : S) (nc : Z) : StopReason -> Prop :=
| FwResize r : ResizeIfNeeded sv dyn_dims u s x = inl r -> s' = s ->
    fail_why u s x out s' nc r
| FwNoRes u0 s0 u1 b : sv_build sv u0 s0 x = Ret (u1, s', b) ->
    (b = true -> sv_solve sv s' = Ret None) ->
    num_resisuals (sv_cost sv s') = 0 -> fail_why u s x out s' nc kSkipped
| FwNaN u0 s0 u1 b : sv_build sv u0 s0 x = Ret (u1, s', b) ->
    bad_number (cost (sv_cost sv s')) = true -> fail_why u s x out s' nc kSystemHasNaNOrInf
| FwNaNStep u0 s0 u1 dx : sv_build sv u0 s0 x = Ret (u1, s', true) ->
    sv_solve sv s' = Ret (Some dx) -> bad_number (cost (sv_cost sv s')) = false ->
    bad_number (ncvt F64 (sqnorm dx)) = true ->
    fail_why u s x out s' nc kSystemHasNaNOrInf
| FwSolver : (0 < max_consec_failures opts <= nc) \/ 255 < num_consec_failures out ->
    fail_why u s x out s' nc kSolverFailed.

(** Output after a step with cost [c], squared norm [dx2] was judged. *)
Definition judged_out (out : Output A) (c : Cost A) (dx2 : A) : Output A :=
  let good := is_good_step (cost c) out in
  let o := push_history (cost c) dx2 good out in
  if good || (num_iters out =? 0) then set_final_cost c (rel_decrease sv (cost c) out) o else o.

Inductive step_ev (u : U) (s : S) (x : X) (out : Output A) : S -> Output A -> status -> Prop :=
| EvFail s' r nf nc :
    fail_reason r -> fail_why u s x out s' nc r ->
    step_ev u s x out s' (set_failures nf nc (set_stop r out)) (false, None)
| EvLimit u0 s0 u1 s1 dx s' nf nc r :
    sv_build sv u0 s0 x = Ret (u1, s1, true) -> sv_solve sv s1 = Ret (Some dx) ->
    sv_bad sv s1 = Ret s' ->
    bad_number (cost (sv_cost sv s1)) = false ->
    bad_number (ncvt F64 (sqnorm dx)) = false ->
    is_good_step (cost (sv_cost sv s1)) out = false -> num_iters out <> 0 ->
    limit_why r nf nc ->
    step_ev u s x out s'
      (set_failures nf nc (set_stop r (judged_out out (sv_cost sv s1) (ncvt F64 (sqnorm dx)))))
      (false, None)
| EvJudged u0 s0 u1 s1 dx g s' nf nc r u2 u3 :
    sv_build sv u0 s0 x = Ret (u1, s1, true) -> sv_solve sv s1 = Ret (Some dx) ->
    sv_grad sv s1 = Ret g ->
    (if is_good_step (cost (sv_cost sv s1)) out || (num_iters out =? 0)
     then if 0 <? num_iters out
          then sv_good sv s1 (if use_step_quality_approx opts
                              then ncvt sc (rel_decrease sv (cost (sv_cost sv s1)) out)
                              else nzero sc) = Ret s'
          else s' = s1
     else sv_bad sv s1 = Ret s') ->
    bad_number (cost (sv_cost sv s1)) = false ->
    bad_number (ncvt F64 (sqnorm dx)) = false ->
    stop_tests u2 (cost (sv_cost sv s1)) (rel_decrease sv (cost (sv_cost sv s1)) out)
       (ncvt F64 (sqnorm dx))
       (if has_grad_norm2 opts then ncvt F64 (sqnorm g) else nzero F64) dx g = (u3, r) ->
    (if is_good_step (cost (sv_cost sv s1)) out || (num_iters out =? 0) then nc = 0
     else (0 < max_consec_failures opts -> nc < max_consec_failures opts) /\
          (0 < max_total_failures opts -> nf < max_total_failures opts)) ->
    step_ev u s x out s'
      (set_failures nf nc
         (set_stop (match r with Some r => r | None => stop_reason out end)
            (judged_out out (sv_cost sv s1) (ncvt F64 (sqnorm dx)))))
      (is_good_step (cost (sv_cost sv s1)) out, Some dx).

Lemma is_good_failures err nf nc (out : Output A) :
  is_good_step err (set_failures nf nc out) = is_good_step err out.
Proof. reflexivity. Qed.

Lemma Step_ev fuel u s x out u' s' out' st :
  Step fuel u s x out = Ret (u', s', out', st) -> step_ev u s x out s' out' st.
Proof.
  unfold OptimizerModel.Step. intros H.
  destruct (ResizeIfNeeded sv dyn_dims u s x) as [r|s0] eqn:Hr.
  { injection H as <- <- <- <-.
    rewrite <- (set_eta (set_stop r out)) at 1. simpl.
    change (step_ev u s x out s (set_failures (num_failures out) (num_consec_failures out)
              (set_stop r out)) (false, None)).
    apply EvFail; [|apply FwResize; [exact Hr|reflexivity]]. unfold ResizeIfNeeded in Hr.
    destruct (match sv_dims sv with Some _ => false | None => _ end).
    { inversion Hr; subst. left; reflexivity. }
    destruct (dyn_dims x <? 0). { inversion Hr; subst. left; reflexivity. }
    destruct (sv_resize sv u s (dyn_dims x)); inversion Hr; subst; unfold fail_reason; auto. }
  inv_bind H. destruct a as (((u1 & s1) & out1) & e).
  apply solve_loop_out in Hb. destruct Hb as (nf & nc & r & -> & He).
  destruct e as [dx| |].
  - destruct He as (-> & u0 & s0' & Hbuild & Hsolve).
    unfold OptimizerModel.judge in Hk.
    set (c := sv_cost sv s1) in *.
    destruct (bad_number (cost c)) eqn:Hbc.
    { injection Hk as <- <- <- <-.
      apply (EvFail u s x out s1 kSystemHasNaNOrInf nf nc);
        [unfold fail_reason; auto|]. eapply FwNaN; eassumption. }
    inv_bind Hk. rename a into g. cbv zeta in Hk0.
    destruct (bad_number (ncvt F64 (sqnorm dx))) eqn:Hbd.
    { injection Hk0 as <- <- <- <-.
      apply (EvFail u s x out s1 kSystemHasNaNOrInf nf nc);
        [unfold fail_reason; auto|]. eapply FwNaNStep; eassumption. }
    change (is_good_step (cost c) (set_failures nf nc (set_stop (stop_reason out) out)))
      with (is_good_step (cost c) out) in Hk0.
    change (rel_decrease sv (cost c) (set_failures nf nc (set_stop (stop_reason out) out)))
      with (rel_decrease sv (cost c) out) in Hk0.
    change (num_iters (set_failures nf nc (set_stop (stop_reason out) out)))
      with (num_iters out) in Hk0.
    set (good := is_good_step (cost c) out) in *.
    set (rel := rel_decrease sv (cost c) out) in *.
    destruct (good || (num_iters out =? 0)) eqn:Hgood.
    + inv_bind Hk0. rename a into s2.
      set (g2 := if has_grad_norm2 opts then _ else _) in *.
      destruct (stop_tests u1 (cost c) rel (ncvt F64 (sqnorm dx)) g2 dx g) as (u3, r) eqn:Hst.
      injection Hk as <- <- <- <-.
      pose proof (fun P1 P2 => EvJudged u s x out u0 s0' u1 s1 dx g s2 nf 0 r u1 u3
                    Hbuild Hsolve Hb P1 Hbc Hbd Hst P2) as Hev.
      unfold judged_out in Hev. fold c good rel in Hev. rewrite Hgood in Hev.
      assert (Hs2 : if 0 <? num_iters out
          then sv_good sv s1 (if use_step_quality_approx opts then ncvt sc rel else nzero sc) = Ret s2
          else s2 = s1).
      { destruct (0 <? num_iters out); [assumption|injection Hb0 as ->; reflexivity]. }
      destruct r; exact (Hev Hs2 eq_refl).
    + inv_bind Hk0. rename a into s2.
      apply orb_false_iff in Hgood as Hg'. destruct Hg' as (Hg & Hi).
      cbn [num_failures num_consec_failures set_failures push_history set_stop] in Hk.
      destruct ((0 <? max_consec_failures opts) && _) eqn:Hl1.
      { injection Hk as <- <- <- <-.
        pose proof (fun P1 P2 => EvLimit u s x out u0 s0' u1 s1 dx s2 (u8 (nf + 1)) (u8 (nc + 1))
                      kMaxConsecNoDecr Hbuild Hsolve Hb0 Hbc Hbd Hg P1 P2) as Hev.
        unfold judged_out in Hev. fold c good rel in Hev. rewrite Hgood in Hev.
        apply Hev; [lia|]. left; split; [reflexivity|lia]. }
      destruct ((0 <? max_total_failures opts) && _) eqn:Hl2.
      { injection Hk as <- <- <- <-.
        pose proof (fun P1 P2 => EvLimit u s x out u0 s0' u1 s1 dx s2 (u8 (nf + 1)) (u8 (nc + 1))
                      kMaxNoDecr Hbuild Hsolve Hb0 Hbc Hbd Hg P1 P2) as Hev.
        unfold judged_out in Hev. fold c good rel in Hev. rewrite Hgood in Hev.
        apply Hev; [lia|]. right; split; [reflexivity|lia]. }
      set (g2 := if has_grad_norm2 opts then _ else _) in *.
      destruct (stop_tests u1 (cost c) rel (ncvt F64 (sqnorm dx)) g2 dx g) as (u3, r) eqn:Hst.
      injection Hk as <- <- <- <-.
      pose proof (fun P1 P2 => EvJudged u s x out u0 s0' u1 s1 dx g s2 (u8 (nf + 1)) (u8 (nc + 1))
                    r u1 u3 Hbuild Hsolve Hb P1 Hbc Hbd Hst P2) as Hev.
      unfold judged_out in Hev. fold c good rel in Hev. rewrite Hgood in Hev.
      assert (Hcnt : (0 < max_consec_failures opts -> u8 (nc + 1) < max_consec_failures opts) /\
          (0 < max_total_failures opts -> u8 (nf + 1) < max_total_failures opts)) by lia.
      destruct r; exact (Hev Hb0 Hcnt).
  - injection Hk as <- <- <- <-. destruct He as ((ub & sb & b & Hbd & Hsol) & Hr').
    destruct Hr' as [(-> & Hn)|(-> & Hn)]; (apply EvFail; [unfold fail_reason; auto|]).
    + eapply FwNoRes; eassumption.
    + eapply FwNaN; eassumption.
  - injection Hk as <- <- <- <-. 
    apply (EvFail u s x out s1 kSolverFailed nf nc); [unfold fail_reason; auto|].
    apply FwSolver. cbn in He. lia.
Qed.

End Opt.
