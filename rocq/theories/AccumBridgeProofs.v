(** Sums of jets without errors form a system near the exact one. *)
From Coq Require Import ZArith List Bool Reals Lia Lra Floats.SpecFloat.
From Verif Require Import BaseModel NumModel NumSpec IeeeProofs CostModel OptionsModel LmSpec SumSpec SumProofs LossSpec LossFloatSpec StepSpec AccumSpec AccumProofs AccumStepSpec.
Import ListNotations.
Open Scope R_scope.

Lemma total_sum (f : nat -> R) : forall m a, total (map f (seq a m)) = sum m (fun i => f (a + i)%nat).
Proof.
  induction m as [|m IH]; intros a; [reflexivity|]. rewrite seq_S, map_app. unfold total in *. rewrite fold_right_app. cbn [map fold_right sum].
  rewrite <- IH. generalize (map f (seq a m)). intros l. induction l as [|y l IHl]; cbn; [lra|]. rewrite IHl. lra.
Qed.
Lemma exact_sum_dot (c r : list IEEE) m : List.length c = m -> List.length r = m -> exact_dot (combine c r) = sum m (fun i => real_at c i * real_at r i).
Proof.
  intros Lc Lr. unfold exact_dot. transitivity (total (map (fun i => real_at c i * real_at r i) (seq 0 m))); [f_equal|rewrite total_sum; reflexivity]. revert r m Lc Lr.
  induction c as [|y c IH]; intros [|z r] m Lc Lr; cbn in Lc, Lr; subst m; try discriminate Lr; [reflexivity|].
  cbn [combine map List.length seq]. f_equal. rewrite <- seq_shift, map_map. injection Lr as Lr. exact (IH r _ eq_refl Lr).
Qed.
Lemma exact_near T r m x J Jc rc g H eg eH :
  (forall y, List.length y = List.length x -> List.length (r y) = m) -> jacobian_of r m x J ->
  exact_jets T Jc rc J (r x) m (List.length x) -> system_within T Jc rc g H ->
  (forall k, (k < List.length x)%nat -> is_fin (nth k g S754_nan) = true /\ dot_error T m (abs_dot (combine (column_of Jc k) rc)) <= eg) ->
  (forall k l, (k < List.length x)%nat -> (l < List.length x)%nat -> is_fin (nth l (nth k H []) S754_nan) = true /\ dot_error T m (abs_dot (combine (column_of Jc k) (column_of Jc l))) <= eH) ->
  near_system T r m x J g H eg eH.
Proof.
  intros Lr Jr (LJ & Lrc & SZ & Er & EJ) SW Hg HH. unfold system_within in SW. cbv zeta in SW. rewrite LJ, Lrc in SW. destruct SW as (Lg & LH & RH & SG & SH).
  assert (LC : forall k, (k < List.length x)%nat -> List.length (column_of Jc k) = m).
  { intros k Hk. unfold sized_columns in SZ. rewrite Forall_forall in SZ. rewrite <- Lrc. apply SZ, nth_In. now rewrite LJ. }
  split; [exact Lr|]. split; [exact Jr|]. split; [exact Lg|]. split; [split; assumption|]. split; [|split].
  - intros k Hk. destruct (SG k Hk) as (M & B), (Hg k Hk) as (F & Le). split; [split; assumption|]. specialize (B F).
    rewrite (exact_sum_dot _ _ m (LC k Hk) Lrc) in B. unfold real_at at 1. rewrite (sum_ext m _ (fun i => real_at (column_of Jc k) i * real_at rc i)); [lra|].
    intros i Hi. now rewrite Er, EJ.
  - intros k l K1 K2. assert (Hk : (k < List.length x)%nat) by lia. destruct (SH k l Hk K2) as (M & B), (HH k l Hk K2) as (F & Le). split; [split; assumption|]. destruct (B F) as (B1 & _).
    rewrite (exact_sum_dot _ _ m (LC k Hk) (LC l K2)) in B1. unfold real_entry. rewrite (sum_ext m _ (fun i => real_at (column_of Jc k) i * real_at (column_of Jc l) i)); [lra|].
    intros i Hi. now rewrite !EJ.
  - intros k Hk. destruct (SH k k Hk Hk) as (_ & B), (HH k k Hk Hk) as (F & _). unfold real_entry. now apply B.
Qed.
