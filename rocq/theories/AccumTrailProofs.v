(** The points the optimizer evaluates, and the one it returns to. *)
From Coq Require Import ZArith List Bool String Lia ZifyBool.
From Verif Require Import RunSpec BaseModel NumModel CostModel StopModel OptionsModel SolverModel
  OptimizerModel OptimizerProofs HistorySpec LoopProofs.
Import ListNotations.
Open Scope Z_scope.

Section Opt.
Context {A : Arith} {U X : Type}.
Variable opts : Options A U.
Variable sv : Solver A U X.
Variable plus : X -> list A -> X.
Variable dyn_dims : X -> Z.
Variable sqnorm : list A -> A.
Variable toc : U -> U * A.
Notation iteration := (iteration opts sv plus dyn_dims sqnorm toc).
Notation OptimizeAcc := (OptimizeAcc opts sv plus dyn_dims sqnorm toc).
Notation lstate := (@lstate A U X sv).
Variable rep : X -> Cost A.
Hypothesis Hrep : forall u s x u' s', sv_build sv u s x = Ret (u', s', true) -> sv_cost sv s' = rep x.

(** xb is one of the evaluated points, its cost is the final one, and it was the last one accepted. *)
Definition kept (xs : list X) (xb : X) (out : Output A) : Prop :=
  exists b, nth_error xs b = Some xb /\ final_cost out = rep xb /\ (b = 0%nat \/ nth b (successes out) false = true) /\
    forall i, (b < i)%nat -> nth i (successes out) false = false.
Definition trail_of (x0 : X) (xs : list X) (out : Output A) : Prop :=
  errs out = map (fun y => cost (rep y)) xs /\ match xs with [] => True | y :: _ => y = x0 end.

(** A step the solver made at x. *)
Definition stepped (x : X) (dx : list A) : Prop :=
  exists u s u' s', sv_build sv u s x = Ret (u', s', true) /\ sv_solve sv s' = Ret (Some dx) /\ bad_number (ncvt F64 (sqnorm dx)) = false.
(** After an accepted point comes the point one step away. *)
Definition steps (xs : list X) (x : X) (out : Output A) : Prop :=
  forall i a, nth_error xs i = Some a -> nth i (successes out) false = true ->
  match nth_error xs (Datatypes.S i) with
  | Some b => exists dx, stepped a dx /\ b = plus a dx
  | None => stop_reason out = kNone -> exists dx, stepped a dx /\ x = plus a dx
  end.

Definition rest (x0 : X) (xs : list X) (x : X) (out : Output A) : Prop :=
  (errs out = [] /\ x = x0) \/ (errs out <> [] /\ exists xb m, kept xs xb out /\ there_and_back plus m xb x).
Definition trail_inv (x0 : X) (l : lstate) : Prop :=
  exists xs, trail_of x0 xs (l_out l) /\ steps xs (l_x l) (l_out l) /\
  ((rest x0 xs (l_x l) (l_out l) /\ (stop_reason (l_out l) = kNone -> l_last_dx l = None)) \/
   (exists xb y m d, kept xs xb (l_out l) /\ errs (l_out l) <> [] /\
     there_and_back plus m xb y /\ l_last_dx l = Some d /\ l_x l = plus y d /\ stepped y d /\
     (nth (Nat.pred (List.length xs)) (successes (l_out l)) false = true -> m = 0%nat) /\
     ~ fail_reason (stop_reason (l_out l)) /\
     stop_reason (l_out l) <> kMaxConsecNoDecr /\ stop_reason (l_out l) <> kMaxNoDecr)).

Lemma judged_costs out c d2 : errs (judged_out sv out c d2) = errs out ++ [cost c].
Proof. unfold judged_out. destruct (_ || _); reflexivity. Qed.
Lemma judged_flags out c d2 : successes (judged_out sv out c d2) = successes out ++ [is_good_step (cost c) out].
Proof. unfold judged_out. destruct (_ || _); reflexivity. Qed.

Lemma kept_same xs xb x (out out' : Output A) : List.length xs = List.length (successes out) -> kept xs xb out ->
  final_cost out' = final_cost out -> successes out' = successes out ++ [false] -> kept (xs ++ [x]) xb out'.
Proof.
  intros L (b & E & F & G & I) H S. exists b. assert (b < List.length xs)%nat by (apply nth_error_Some; congruence).
  rewrite nth_error_app1 by assumption. split; [exact E|]. split; [congruence|].
  split; [destruct G as [G|G]; [now left|right]; rewrite S, app_nth1 by lia; exact G|].
  intros i Hi. rewrite S. destruct (Nat.lt_trichotomy i (List.length (successes out))) as [Li|[-> |Li]].
  - rewrite app_nth1 by exact Li. now apply I.
  - now rewrite app_nth2, Nat.sub_diag by lia.
  - apply nth_overflow. rewrite app_length. cbn. lia.
Qed.
Lemma kept_last xs x (out out' : Output A) : List.length xs = List.length (successes out) ->
  final_cost out' = rep x -> (exists b, successes out' = successes out ++ [b] /\ (b = true \/ xs = [])) -> kept (xs ++ [x]) x out'.
Proof.
  intros L H (z & S & K). exists (List.length xs). rewrite nth_error_app2, Nat.sub_diag by lia. split; [reflexivity|]. split; [exact H|].
  split; [destruct K as [-> | ->]; [right|now left]; rewrite S, app_nth2, L, Nat.sub_diag by lia; reflexivity|].
  intros i Hi. apply nth_overflow. rewrite S, app_length. cbn. lia.
Qed.

Lemma steps_stopped xs x x' (out out' : Output A) : List.length xs = List.length (successes out) -> steps xs x out ->
  successes out' = successes out -> stop_reason out' <> kNone -> steps xs x' out'.
Proof.
  intros L H S N i a Ea Ei. rewrite S in Ei. specialize (H i a Ea Ei). destruct (nth_error xs (Datatypes.S i)); [exact H|]. intros C. contradiction.
Qed.
Lemma steps_snoc xs x x' b (out out' : Output A) : List.length xs = List.length (successes out) -> steps xs x out -> stop_reason out = kNone ->
  successes out' = successes out ++ [b] ->
  (b = true -> stop_reason out' = kNone -> exists dx, stepped x dx /\ x' = plus x dx) -> steps (xs ++ [x]) x' out'.
Proof.
  intros L H K S P i a Ea Ei. rewrite S in Ei. destruct (Nat.lt_trichotomy i (List.length xs)) as [Li|[Li|Li]].
  - rewrite nth_error_app1 in Ea by exact Li. rewrite app_nth1 in Ei by lia. specialize (H i a Ea Ei).
    destruct (Nat.eq_dec (Datatypes.S i) (List.length xs)) as [E|E].
    + rewrite nth_error_app2 by lia. replace (Datatypes.S i - List.length xs)%nat with 0%nat by lia. cbn [nth_error].
      replace (nth_error xs (Datatypes.S i)) with (@None X) in H by (symmetry; apply nth_error_None; lia). now apply H.
    + rewrite nth_error_app1 by lia. destruct (nth_error xs (Datatypes.S i)) as [c|] eqn:Ec; [exact H|]. apply nth_error_None in Ec. lia.
  - subst i. rewrite nth_error_app2, Nat.sub_diag in Ea by lia. cbn in Ea. injection Ea as <-. rewrite app_nth2, L, Nat.sub_diag in Ei by lia. cbn in Ei.
    replace (nth_error (xs ++ [x]) (Datatypes.S (List.length xs))) with (@None X) by (symmetry; apply nth_error_None; rewrite app_length; cbn; lia).
    now apply P.
  - assert (i < List.length (xs ++ [x]))%nat by (apply nth_error_Some; congruence). rewrite app_length in *. cbn in *. lia.
Qed.

Lemma trail_step x0 fuel k last l l' :
  hist_inv sv k l /\ trail_inv x0 l -> stop_reason (l_out l) = kNone ->
  (Z.of_nat k < 65535) ->
  iteration fuel last l = Ret l' -> trail_inv x0 l'.
Proof.
  intros (Hh & (xs & (Ht & H0) & Hst & Hb)) Hs Hk65 H.
  destruct Hh as (Hn & Hh). rewrite u16_small in Hn by lia. specialize (Hh ltac:(lia)).
  assert (Hg : good_hist k (l_out l)).
  { destruct Hh as [ (? & _) | [ (-> & ?) | (? & _) ] ]; auto; congruence. }
  assert (Hlen : Z.of_nat (List.length (errs (l_out l))) = Z.of_nat k) by (now rewrite (proj1 Hg)).
  assert (Lx : List.length xs = List.length (successes (l_out l))).
  { destruct Hg as (_ & _ & -> & _). rewrite Ht.
    assert (Hl : forall l b, List.length (@flags_from A b l) = List.length l).
    { induction l0 as [|a l0 IH]; intros b; cbn; [reflexivity|now rewrite IH]. }
    destruct xs as [|z zs]; cbn; [reflexivity|]. now rewrite Hl, map_length. }
  apply iteration_inv in H.
  destruct H as (s1 & out1 & st & d & eo & Hev & _ & Hmove & Hout).
  assert (Hpre : (l_last_dx l = None /\ rest x0 xs (l_x l) (l_out l)) \/
                 (exists xb y m dd, there_and_back plus m xb y /\ l_last_dx l = Some dd /\ l_x l = plus y dd /\
                    errs (l_out l) <> [] /\ kept xs xb (l_out l))).
  { destruct Hb as [(Hr & Hl)|(xb & y & m & dd & He & Hne & Hd & Hl & Hx & _ & _ & _)].
    - left. split; auto.
    - right. exists xb, y, m, dd. auto 10. }
  assert (Hfirst : errs (l_out l) = [] -> l_x l = x0).
  { intros E. destruct Hpre as [(_ & [(_ & ->)|(N & _)])|(? & ? & ? & ? & _ & _ & _ & N & _)]; [reflexivity|contradiction|contradiction]. }
  assert (Hsnoc : forall c d2 u0 s0 u1 s2, sv_build sv u0 s0 (l_x l) = Ret (u1, s2, true) -> c = sv_cost sv s2 ->
     errs (judged_out sv (l_out l) c d2) = map (fun y => cost (rep y)) (xs ++ [l_x l]) /\
     match xs ++ [l_x l] with [] => True | y :: _ => y = x0 end).
  { intros c d2 u0 s0 u1 s2 Hbd ->. rewrite judged_costs, map_app, Ht, (Hrep _ _ _ _ _ Hbd). split; [reflexivity|].
    destruct xs as [|z zs]; [|exact H0]. cbn. now apply Hfirst. }
  unfold trail_inv, trail_of. rewrite Hout.
  cbn [stop_reason set_num_iters set_stop final_cost errs set_duration successes].
  inversion Hev; subst; unfold OptimizerModel.move in Hmove.
  - (* Step failed *)
    exists xs. split; [split; assumption|]. split.
    { apply (steps_stopped xs (l_x l) _ (l_out l)); [exact Lx|exact Hst|reflexivity|]. cbn. destruct (timed_out _); [discriminate|].
      unfold fail_reason in *. intuition congruence. }
    left. split; [|].
    + destruct Hpre as [(Hl & Hr)|(xb & y & m & dd & Hd & Hl & Hx & Hne & He)]; rewrite Hl in Hmove;
        injection Hmove as Hx' _ _ _; unfold rest in *; cbn.
      * rewrite <- Hx'. destruct Hr as [Hr|(Hne & xb & m & He & Hd)]; [now left|].
        right. split; [assumption|]. exists xb, m. auto.
      * right. split; [assumption|]. exists xb, (Datatypes.S m). rewrite <- Hx', Hx.
        split; [assumption|]. now constructor.
    + cbn. destruct (timed_out _); [discriminate|].
      unfold fail_reason in *. intuition congruence.
  - (* failure limits *)
    set (o := judged_out sv (l_out l) (sv_cost sv s2) (ncvt F64 (sqnorm dx))) in *.
    assert (Hfc : final_cost o = final_cost (l_out l)).
    { subst o. unfold judged_out. rewrite H5. replace (num_iters (l_out l) =? 0) with false by lia. reflexivity. }
    assert (Hfl : successes o = successes (l_out l) ++ [false]) by (rewrite <- H5; apply judged_flags).
    exists (xs ++ [l_x l]). split; [eapply Hsnoc; eauto|]. split.
    { apply (steps_snoc xs (l_x l) _ false (l_out l)); [exact Lx|exact Hst|exact Hs|exact Hfl|].
      intros _. cbn. destruct (timed_out _); [discriminate|]. destruct H7 as [(-> & _)|(-> & _)]; discriminate. }
    assert (K : forall xb, kept xs xb (l_out l) -> kept (xs ++ [l_x l]) xb (set_num_iters (u16 (num_iters (set_failures nf nc (set_stop r o)) + 1))
        (set_stop (if timed_out opts (set_duration d (set_failures nf nc (set_stop r o))) then kTimedOut else stop_reason (set_failures nf nc (set_stop r o)))
           (set_duration d (set_failures nf nc (set_stop r o)))))).
    { intros xb He. eapply kept_same; [exact Lx|exact He|exact Hfc|exact Hfl]. }
    left. split.
    + right. cbn. split; [apply judged_errs|].
      destruct Hpre as [(Hl & Hr)|(xb & y & m & dd & Hd & Hl & Hx & Hne & He)]; rewrite Hl in Hmove;
        injection Hmove as Hx' _ _ _.
      * rewrite <- Hx'. destruct Hr as [(He & _)|(_ & xb & m & He & Hd)]; [|exists xb, m; split; [now apply K|assumption]].
        exfalso. rewrite He in Hlen. cbn in Hlen. lia.
      * exists xb, (Datatypes.S m). rewrite <- Hx', Hx.
        split; [rewrite <- Hx; now apply K|]. now constructor.
    + cbn. destruct (timed_out _); [discriminate|].
      destruct H7 as [(-> & _)|(-> & _)]; discriminate.
  - (* judged *)
    set (o := judged_out sv (l_out l) (sv_cost sv s2) (ncvt F64 (sqnorm dx))) in *.
    set (rr := if timed_out _ _ then kTimedOut else _).
    assert (Hrr : ~ fail_reason rr /\ rr <> kMaxConsecNoDecr /\ rr <> kMaxNoDecr).
    { subst rr. destruct (timed_out _).
      - unfold fail_reason. intuition discriminate.
      - cbn. destruct r as [r|].
        + apply stop_tests_reason in H6. unfold fail_reason. intuition congruence.
        + rewrite Hs. unfold fail_reason. intuition discriminate. }
    assert (Hfl : successes o = successes (l_out l) ++ [is_good_step (cost (sv_cost sv s2)) (l_out l)]) by apply judged_flags.
    exists (xs ++ [l_x l]). split; [eapply Hsnoc; eauto|].
    pose proof (Hrep _ _ _ _ _ H) as Hc.
    assert (Sd : stepped (l_x l) dx) by (do 4 eexists; split; [eassumption|]; split; eassumption).
    split.
    { apply (steps_snoc xs (l_x l) _ (is_good_step (cost (sv_cost sv s2)) (l_out l)) (l_out l)); [exact Lx|exact Hst|exact Hs|exact Hfl|].
      intros Eg _. rewrite Eg in Hmove. injection Hmove as Hx' _ _ _. exists dx. split; [exact Sd|now rewrite <- Hx']. }
    destruct (is_good_step (cost (sv_cost sv s2)) (l_out l)) eqn:Hgood.
    + injection Hmove as Hx' Hld' _ _. right. exists (l_x l), (l_x l), 0%nat, dx.
      split; [|split; [apply judged_errs|split; [constructor|split; [congruence|split; [congruence|split; [exact Sd|split; [reflexivity|exact Hrr]]]]]]].
      apply kept_last with (out := l_out l); [exact Lx| |exists true; split; [exact Hfl|now left]].
      cbn. subst o. unfold judged_out. rewrite Hgood. exact Hc.
    + destruct (num_iters (l_out l) =? 0) eqn:Hi0.
      * assert (k = 0%nat) by lia. subst k.
        assert (He0 : errs (l_out l) = []) by (destruct (errs (l_out l)); [reflexivity|discriminate]).
        assert (xs = []) as Exs by (destruct xs; [reflexivity|rewrite He0 in Ht; discriminate]).
        destruct Hpre as [(Hl & Hr)|(xb & y & m & dd & Hd & Hl & Hx & Hne & He)]; [|congruence].
        rewrite Hl in Hmove. injection Hmove as Hx' Hld' _ _. right. exists (l_x l), (l_x l), 0%nat, dx.
        split; [|split; [apply judged_errs|split; [constructor|split; [congruence|split; [congruence|split; [exact Sd|split; [reflexivity|exact Hrr]]]]]]].
        apply kept_last with (out := l_out l); [exact Lx| |exists false; split; [exact Hfl|now right]].
        cbn. subst o. unfold judged_out. rewrite Hgood, Hi0. exact Hc.
      * assert (Hfc : final_cost o = final_cost (l_out l)).
        { subst o. unfold judged_out. rewrite Hgood, Hi0. reflexivity. }
        destruct Hpre as [(Hl & Hr)|(xb & y & m & dd & Hd & Hl & Hx & Hne & He)]; rewrite Hl in Hmove;
          injection Hmove as Hx' Hld' _ _.
        -- destruct Hr as [(He & _)|(_ & xb & m & He & Hd)]; [exfalso; rewrite He in Hlen; cbn in Hlen; lia|].
           right. exists xb, (l_x l), m, dx.
           split; [|split; [apply judged_errs|split; [exact Hd|split; [congruence|split; [congruence|split; [exact Sd|split; [|exact Hrr]]]]]]].
           { eapply kept_same; [exact Lx|exact He|exact Hfc|exact Hfl]. }
           cbn [successes set_num_iters set_stop set_failures set_duration]. rewrite Hfl, app_length, Nat.add_1_r. cbn [Nat.pred]. rewrite app_nth2, Lx, Nat.sub_diag by lia. discriminate.
        -- left. split; [|congruence]. right. split; [apply judged_errs|].
           exists xb, (Datatypes.S m). split; [eapply kept_same; [exact Lx|exact He|exact Hfc|exact Hfl]|].
           rewrite <- Hx', Hx. now constructor.
Qed.

Lemma run_trail fuel u s x mi u' s' x' out N :
  OptimizeAcc fuel u s x mi = Ret (u', s', x', out) ->
  budget opts mi = Ret N -> 1 <= N <= 65535 ->
  exists xs, trail_of x xs out /\ (forall i a b, nth_error xs i = Some a -> nth_error xs (Datatypes.S i) = Some b -> nth i (successes out) false = true ->
    exists dx, stepped a dx /\ b = plus a dx) /\
  (rest x xs x' out \/
   (exists xb y m d, kept xs xb out /\ errs out <> [] /\
     there_and_back plus m xb y /\ x' = plus y d /\ stepped y d /\
     (nth (Nat.pred (List.length xs)) (successes out) false = true -> m = 0%nat) /\
     ~ fail_reason (stop_reason out) /\
     stop_reason out <> kMaxConsecNoDecr /\ stop_reason out <> kMaxNoDecr)).
Proof.
  intros H HN HNr.
  destruct (run_ind opts sv plus dyn_dims sqnorm toc fuel (fun k l => hist_inv sv k l /\ trail_inv x l) u s x mi u' s' x' out N)
    as (j & l & h & Hj & ((Hn & _) & (xs & Ht & Hst & Hb)) & Hend & Hpos & _ & _ & Hx & _ & Hout); auto.
  { split; [apply hist_inv_init|]. exists []. split; [split; [reflexivity|exact Logic.I]|]. split; [intros [|i] a E; discriminate E|]. left. split; [left; split; reflexivity|reflexivity]. }
  { intros k last l1 l2 Hk Hs Hkn Hi. split.
    - eapply hist_step; intuition eauto.
    - eapply trail_step; eauto. lia. }
  exists xs. subst x' out. split; [exact Ht|]. split.
  { intros i a b Ea Eb Ei. specialize (Hst i a Ea). rewrite Eb in Hst. apply Hst. exact Ei. }
  destruct Hb as [(Hr & _)|(xb & y & m & d & He & Hne & Hd & _ & Hx & Sd & M0 & Hf & Hc1 & Hc2)].
  - left. exact Hr.
  - right. exists xb, y, m, d. repeat (split; [assumption|]). cbn.
    destruct (_ && _); [unfold fail_reason; repeat split; intuition discriminate|auto].
Qed.
End Opt.
