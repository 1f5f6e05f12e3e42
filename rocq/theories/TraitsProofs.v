(** Proofs about dimensions and updates of parameters. *)
From Coq Require Import ZArith List Bool Lia ZifyBool Reals Lra.
From Verif Require Import BaseModel NumModel RealModel TraitsModel TraitsSpec.
Import ListNotations.
Open Scope Z_scope.

Lemma shape_len {S} : forall v w : val S, same_shape v w -> List.length (flatten v) = List.length (flatten w).
Proof.
  fix IH 1. intros v w. destruct v as [a|r c l|vs|v1 v2], w as [b|r' c' l'|ws|w1 w2]; intros Hs; try contradiction Hs.
  - reflexivity.
  - cbn in Hs |- *. tauto.
  - cbn [flatten]. revert ws Hs. induction vs as [|v vs IHv]; intros [|w ws] Hs; cbn in Hs; try contradiction; [reflexivity|].
    destruct Hs as (Hv & Hvs). cbn. rewrite !app_length. f_equal; [now apply IH|now apply IHv].
  - cbn in Hs |- *. rewrite !app_length. destruct Hs. f_equal; now apply IH.
Qed.

Lemma app_eq_len {T} (a b a' b' : list T) : List.length a = List.length a' -> a ++ b = a' ++ b' -> a = a' /\ b = b'.
Proof.
  revert a'. induction a as [|x a IHa]; intros [|y a'] L E; try discriminate L; [now split|].
  cbn in E. injection E as -> E. injection L as L. destruct (IHa a' L E) as (-> & ->). now split.
Qed.

Section Any.
Context {S : Type}.
Implicit Types (v w : val S) (d : list S).

Lemma flatten_list (vs : list (val S)) : flatten (VList vs) = concat (map flatten vs).
Proof. reflexivity. Qed.

Lemma concat_len (vs : list (val S)) n : Forall (fun v => List.length (flatten v) = n) vs ->
  List.length (concat (map flatten vs)) = (List.length vs * n)%nat.
Proof. induction 1 as [|v vs H _ IH]; cbn; [reflexivity|]. rewrite app_length, H, IH. reflexivity. Qed.

Lemma static_size t : forall v n, Dims t = Some n -> has_type t v -> List.length (flatten v) = n.
Proof.
  induction t as [|r c|t IH|k t IH|t1 IH1 t2 IH2]; intros v n Hd Ht; destruct v as [a|r' c' l|vs|v1 v2];
    cbn in Ht; try contradiction.
  - now injection Hd as <-.
  - destruct r, c; cbn in Hd; try discriminate. injection Hd as <-. cbn in Ht |- *. destruct Ht as (-> & -> & ->).
    reflexivity.
  - discriminate.
  - cbn in Hd. destruct (Dims t) as [m|]; [|discriminate]. injection Hd as <-. destruct Ht as (<- & Ht).
    cbn. apply concat_len. eapply Forall_impl; [|exact Ht]. intros w Hw. now apply IH.
  - cbn in Hd. destruct (Dims t1) as [m1|], (Dims t2) as [m2|]; try discriminate. injection Hd as <-.
    cbn. rewrite app_length. destruct Ht. now rewrite (IH1 v1 m1), (IH2 v2 m2).
Qed.

Lemma size_in w (vs : list (val S)) : In w vs ->
  (List.length (flatten w) <= List.length (concat (map flatten vs)))%nat.
Proof.
  induction vs as [|u vs IHv]; intros Hw; [destruct Hw|]. cbn. rewrite app_length.
  destruct Hw as [->|Hw]; [lia|]. apply IHv in Hw. lia.
Qed.

Lemma wrap_id z : 0 <= z <= INT_MAX -> int_wrap z = z.
Proof. unfold int_wrap, INT_MAX. intros H. rewrite Z.mod_small; lia. Qed.

Lemma int_sized_list (vs : list (val S)) : int_sized (VList vs) ->
  Z.of_nat (List.length vs) <= INT_MAX /\ Forall int_sized vs.
Proof.
  cbn. intros (H & F). split; [exact H|]. clear H. induction vs; cbn in F; constructor; tauto.
Qed.

Lemma sum_dims_ok (f : val S -> outcome Z) vs : forall s, 0 <= s ->
  Forall (fun v => f v = Ret (size v)) vs ->
  s + Z.of_nat (List.length (concat (map flatten vs))) <= INT_MAX ->
  sum_dims f s vs = Ret (s + Z.of_nat (List.length (concat (map flatten vs)))).
Proof.
  induction vs as [|v vs IH]; cbn [sum_dims map concat]; intros s Hs Hf Hb.
  - f_equal. cbn. lia.
  - inversion Hf as [|? ? Hv Hvs]; subst. rewrite Hv. cbn [bind].
    rewrite app_length in *. unfold size. rewrite wrap_id by lia. rewrite IH; [f_equal; lia|lia|assumption|lia].
Qed.

Lemma one_cases (o : option nat) : is_one o = true -> o = Some 1%nat.
Proof. destruct o as [[|[|]]|]; cbn; intros; try discriminate; reflexivity. Qed.

Lemma dims_size t : forall v, has_type t v -> int_sized v -> size v <= INT_MAX -> dims t v = Ret (size v).
Proof.
  induction t as [|r c|t IH|k t IH|t1 IH1 t2 IH2]; intros v Ht Hi Hs; destruct v as [a|r' c' l|vs|v1 v2];
    cbn in Ht; try contradiction.
  - reflexivity.
  - reflexivity.
  - apply int_sized_list in Hi as (Hl & Hi). cbn [dims]. unfold size in Hs |- *. rewrite flatten_list in *.
    assert (St : forall m, Dims t = Some m ->
      List.length (concat (map flatten vs)) = (List.length vs * m)%nat).
    { intros m Em. apply concat_len. eapply Forall_impl; [|exact Ht]. intros w Hw. now apply (static_size t). }
    destruct (is_scalar t || is_one (Dims t)) eqn:E1.
    + assert (E : Dims t = Some 1%nat).
      { apply orb_true_iff in E1 as [E1|E1]; [destruct t; try discriminate; reflexivity|now apply one_cases]. }
      rewrite (St _ E) in *. rewrite wrap_id by lia. f_equal. lia.
    + destruct (Dims t) as [m|] eqn:E.
      * rewrite (St m) in * by reflexivity. rewrite wrap_id by lia. unfold int_chk, in_int, INT_MIN, INT_MAX in *.
        rewrite <- Nat2Z.inj_mul. destruct (_ && _) eqn:B; [reflexivity|lia].
      * rewrite sum_dims_ok; [reflexivity|lia| |lia].
        clear E1 St E. rewrite Forall_forall in *. intros w Hw. apply IH; auto.
        pose proof (size_in w vs Hw). unfold size. lia.
  - apply int_sized_list in Hi as (Hl & Hi). destruct Ht as (<- & Ht). cbn [dims]. unfold size in Hs |- *.
    rewrite flatten_list in *.
    assert (St : forall m, Dims t = Some m ->
      List.length (concat (map flatten vs)) = (List.length vs * m)%nat).
    { intros m Em. apply concat_len. eapply Forall_impl; [|exact Ht]. intros w Hw. now apply (static_size t). }
    destruct (is_scalar t || is_one (Dims t)) eqn:E1.
    + assert (E : Dims t = Some 1%nat).
      { apply orb_true_iff in E1 as [E1|E1]; [destruct t; try discriminate; reflexivity|now apply one_cases]. }
      rewrite (St _ E) in *. f_equal. lia.
    + destruct (Dims t) as [m|] eqn:E.
      * rewrite (St m) in * by reflexivity. f_equal. lia.
      * rewrite sum_dims_ok; [reflexivity|lia| |lia].
        clear E1 St E. rewrite Forall_forall in *. intros w Hw. apply IH; auto.
        pose proof (size_in w vs Hw). unfold size. lia.
  - cbn [dims]. cbn in Hi. unfold size in *. cbn [flatten] in *. rewrite app_length in *.
    destruct Ht, Hi. rewrite IH1, IH2 by (auto; lia). cbn [bind]. f_equal. lia.
Qed.

Lemma DynDims_size t v : has_type t v -> int_sized v -> size v <= INT_MAX -> DynDims t v = Ret (size v).
Proof.
  intros Ht Hi Hs. unfold DynDims. destruct (Dims t) as [n|] eqn:E; [|now apply dims_size].
  unfold size. now rewrite (static_size t v n).
Qed.

(** *** Segments *)
Lemma skip_skip (i j : nat) d : skipn i (skipn j d) = skipn (j + i) d.
Proof. revert d; induction j as [|j IH]; intros d; [reflexivity|]. destruct d; cbn; [now destruct i|apply IH]. Qed.
Lemma segment_ok d i n : (i + n <= List.length d)%nat ->
  segment d (Z.of_nat i) (Z.of_nat n) = Ret (firstn n (skipn i d)).
Proof.
  intros H. unfold segment. rewrite !Nat2Z.id. destruct (_ && _) eqn:E; [reflexivity|lia].
Qed.
Lemma at_ok d i : (i < List.length d)%nat -> exists x, at_ d i = Ret x /\ skipn i d = x :: skipn (i + 1) d.
Proof.
  revert i; induction d as [|y d IH]; intros i Hi; cbn in Hi; [lia|]. destruct i as [|i].
  - exists y. split; reflexivity.
  - destruct (IH i) as (x & E1 & E2); [lia|]. exists x. split; [exact E1|]. cbn. exact E2.
Qed.

Section Plus.
Variable add : S -> S -> S.
Notation sum l d := (map (fun p => add (fst p) (snd p)) (combine l d)).

Lemma map2_sum (l d : list S) : map2 add l d = sum l d.
Proof. revert d; induction l as [|a l IH]; intros [|b d]; cbn; try reflexivity. now rewrite IH. Qed.

Lemma sum_len (l d : list S) : List.length d = List.length l -> List.length (sum l d) = List.length l.
Proof. intros H. rewrite map_length, combine_length. lia. Qed.

Lemma sum_app (l1 l2 d1 d2 : list S) : List.length l1 = List.length d1 ->
  sum (l1 ++ l2) (d1 ++ d2) = sum l1 d1 ++ sum l2 d2.
Proof.
  revert d1; induction l1 as [|a l1 IH]; intros [|b d1] H; cbn in H; try discriminate; [reflexivity|].
  cbn. f_equal. apply IH. lia.
Qed.

Lemma shape_list (l l' : list (val S)) : same_shape (VList l) (VList l') <-> Forall2 same_shape l l'.
Proof.
  cbn. revert l'. induction l as [|v l IH]; intros [|w l']; cbn.
  - split; constructor.
  - split; [contradiction|intros H; inversion H].
  - split; [contradiction|intros H; inversion H].
  - rewrite IH. split; [intros (A & B); now constructor|intros H; inversion H; subst; auto].
Qed.

(** What an update should do. *)
Definition updated (t : ty) v d v' : Prop :=
  flatten v' = sum (flatten v) d /\ has_type t v' /\ same_shape v v'.

Lemma plus_static_list t n vs d : Dims t = Some n -> (is_scalar t || negb (is_one (Dims t))) = true ->
  (forall v d, has_type t v -> int_sized v -> size v <= INT_MAX -> List.length d = List.length (flatten v) ->
     exists v', PlusEq add t v d = Ret v' /\ updated t v d v') ->
  Forall (has_type t) vs -> Forall int_sized vs -> List.length d = List.length (concat (map flatten vs)) ->
  size (VList vs) <= INT_MAX ->
  exists vs', each (plus_elem add t (PlusEq add t) (dims t) d) 0 vs = Ret vs' /\
    List.length vs' = List.length vs /\
    concat (map flatten vs') = sum (concat (map flatten vs)) d /\
    Forall (has_type t) vs' /\ Forall2 same_shape vs vs'.
Proof.
  intros Hn Hc IH Ht Hi Hd Hs.
  assert (Hl : List.length (concat (map flatten vs)) = (List.length vs * n)%nat).
  { apply concat_len. eapply Forall_impl; [|exact Ht]. intros w Hw. now apply (static_size t). }
  set (good := fun w => has_type t w /\ int_sized w /\ size w <= INT_MAX).
  assert (G : Forall good vs).
  { rewrite Forall_forall in *; intros w Hw; repeat split; auto.
    pose proof (size_in w vs Hw). unfold size in *. cbn [flatten] in Hs. lia. }
  (* the same with elements that are also int_sized *)
  assert (M : forall ws i, Forall good ws -> List.length d = ((i + List.length ws) * n)%nat ->
    exists ws', each (plus_elem add t (PlusEq add t) (dims t) d) i ws = Ret ws' /\
      List.length ws' = List.length ws /\
      concat (map flatten ws') = sum (concat (map flatten ws)) (skipn (i * n) d) /\
      Forall (has_type t) ws' /\ Forall2 same_shape ws ws').
  { clear vs Ht Hi Hd Hl G Hs. induction ws as [|v ws IHw]; intros i G Hd; cbn [each].
    - exists []. repeat split; constructor.
    - inversion G as [|? ? (Hv & Hi & Hsv) Gs]; subst. cbn [List.length] in Hd.
      assert (Hlen : List.length (firstn n (skipn (i * n) d)) = List.length (flatten v)).
      { rewrite (static_size t v n Hn Hv), firstn_length, skipn_length. nia. }
      assert (St : exists v', plus_elem add t (PlusEq add t) (dims t) d i v = Ret v' /\
                 updated t v (firstn n (skipn (i * n) d)) v').
      { unfold plus_elem. destruct (is_scalar t) eqn:Es.
        - destruct t; try discriminate. destruct v as [a| | |]; cbn in Hv; try contradiction.
          injection Hn as <-. rewrite Nat.mul_1_r. cbn [orb].
          destruct (at_ok d i) as (y & E1 & E2); [lia|]. rewrite E1. cbn [bind]. rewrite E2.
          eexists. split; [reflexivity|]. repeat split; reflexivity.
        - cbn [orb] in *. apply negb_true_iff in Hc. rewrite Hc, Hn.
          replace (Z.of_nat i * Z.of_nat n) with (Z.of_nat (i * n)) by lia.
          rewrite segment_ok by nia. cbn [bind]. now apply IH. }
      destruct St as (v' & E & Ef & Et & Esh). rewrite E. cbn [bind].
      destruct (IHw (i + 1)%nat Gs) as (ws' & E' & El & Ef' & Et' & Es'); [nia|]. rewrite E'. cbn [bind].
      exists (v' :: ws'). split; [reflexivity|]. cbn [List.length map concat]. split; [now rewrite El|].
      split; [|split; constructor; auto].
      rewrite Ef, Ef'. rewrite <- (firstn_skipn n (skipn (i * n) d)) at 2.
      rewrite sum_app by (symmetry; exact Hlen).
      f_equal. f_equal. f_equal. rewrite skip_skip. f_equal. lia. }
  destruct (M vs 0%nat G) as (vs' & E & El & Ef & Et & Es); [cbn; lia|]. cbn in Ef. eauto 10.
Qed.

Lemma app_split_len (l1 l2 d : list S) : List.length d = List.length (l1 ++ l2) ->
  d = firstn (List.length l1) d ++ skipn (List.length l1) d /\
  List.length (firstn (List.length l1) d) = List.length l1 /\
  List.length (skipn (List.length l1) d) = List.length l2.
Proof.
  rewrite app_length. intros H. rewrite firstn_skipn, firstn_length, skipn_length. split; [reflexivity|lia].
Qed.

Lemma head_ok d n : (n <= List.length d)%nat -> head d (Z.of_nat n) = Ret (firstn n d).
Proof. intros H. exact (segment_ok d 0 n H). Qed.
Lemma tail_ok d n : (n <= List.length d)%nat -> tail d (Z.of_nat n) = Ret (skipn (List.length d - n) d).
Proof.
  intros H. unfold tail. replace (Z.of_nat (List.length d) - Z.of_nat n) with (Z.of_nat (List.length d - n)) by lia.
  rewrite segment_ok by lia. f_equal. apply firstn_all2. rewrite skipn_length. lia.
Qed.

Lemma plus_regular t : forall v d, regular t = true -> compiles t = true -> has_type t v -> int_sized v ->
  List.length d = List.length (flatten v) -> size v <= INT_MAX ->
  exists v', PlusEq add t v d = Ret v' /\ updated t v d v'.
Proof.
  induction t as [|r c|t IH|k t IH|t1 IH1 t2 IH2]; intros v d Hr Hc Ht Hi Hd Hs;
    destruct v as [a|r' c' l|vs|v1 v2]; cbn in Ht; try contradiction; cbn [PlusEq].
  - cbn in Hd. destruct d as [|y [|z d]]; cbn in Hd; try discriminate. eexists. split; [reflexivity|].
    repeat split; reflexivity.
  - cbn in Hd. rewrite Hd, Nat.eqb_refl. eexists. split; [reflexivity|].
    unfold updated. cbn. rewrite map2_sum. repeat split; try tauto; rewrite sum_len; auto. tauto.
  - apply int_sized_list in Hi as (_ & Hi). cbn in Hr, Hc. apply andb_true_iff in Hr as (Hr & Hn).
    apply andb_true_iff in Hc as (Hc & Ho). destruct (Dims t) as [n|] eqn:En; [|discriminate].
    destruct (plus_static_list t n vs d) as (vs' & E & El & Ef & Et & Es); auto.
    { rewrite En. exact Ho. }
    rewrite E. cbn [bind]. eexists. split; [reflexivity|]. split; [exact Ef|]. split; [exact Et|].
    now apply shape_list.
  - apply int_sized_list in Hi as (_ & Hi). cbn in Hr, Hc. apply andb_true_iff in Hr as (Hr & Hn).
    apply andb_true_iff in Hc as (Hc & Ho). destruct (Dims t) as [n|] eqn:En; [|discriminate].
    destruct Ht as (Hk & Ht).
    destruct (plus_static_list t n vs d) as (vs' & E & El & Ef & Et & Es); auto.
    { rewrite En. exact Ho. }
    rewrite E. cbn [bind]. eexists. split; [reflexivity|]. split; [exact Ef|]. split; [split; [congruence|exact Et]|].
    now apply shape_list.
  - cbn in Hr, Hc, Hi. apply andb_true_iff in Hr as (Hr & Hn). apply andb_true_iff in Hr as (Hr1 & Hr2).
    apply andb_true_iff in Hc as (Hc & _). apply andb_true_iff in Hc as (Hc1 & Hc2).
    destruct (Dims t2) as [n|] eqn:En; [discriminate|]. destruct Ht as (Ht1 & Ht2), Hi as (Hi1 & Hi2).
    cbn [flatten] in Hd. unfold size in Hs. cbn [flatten] in Hs. destruct (app_split_len _ _ _ Hd) as (Ed & L1 & L2).
    rewrite app_length in Hs, Hd.
    assert (E1 : match Dims t1 with None => do n <- dims t1 v1; head d n | Some n => head d (Z.of_nat n) end
                 = Ret (firstn (List.length (flatten v1)) d)).
    { destruct (Dims t1) as [n|] eqn:E.
      - rewrite <- (static_size t1 v1 n E Ht1). apply head_ok. lia.
      - rewrite dims_size by (auto; unfold size; lia). cbn [bind]. apply head_ok. lia. }
    rewrite E1. cbn [bind].
    destruct (IH1 v1 _ Hr1 Hc1 Ht1 Hi1 L1) as (v1' & Ev1 & F1 & T1 & S1); [unfold size; lia|].
    rewrite Ev1. cbn [bind]. rewrite dims_size by (auto; unfold size; lia). cbn [bind].
    unfold size. rewrite tail_ok by lia. cbn [bind].
    replace (List.length d - List.length (flatten v2))%nat with (List.length (flatten v1)) by lia.
    destruct (IH2 v2 _ Hr2 Hc2 Ht2 Hi2 L2) as (v2' & Ev2 & F2 & T2 & S2); [unfold size; lia|].
    rewrite Ev2. cbn [bind]. eexists. split; [reflexivity|]. split; [|split; split; assumption].
    cbn [flatten]. rewrite F1, F2. rewrite Ed at 3. rewrite sum_app by (symmetry; exact L1). reflexivity.
Qed.

(** *** Pairs *)
Lemma pair_second_kept t1 t2 n v1 v2 d v' : Dims t2 = Some n ->
  PlusEq add (TPair t1 t2) (VPair v1 v2) d = Ret v' -> exists w, v' = VPair w v2.
Proof.
  intros En. cbn [PlusEq]. rewrite En. intros H.
  repeat match type of H with (bind ?o _) = _ => destruct o; cbn [bind] in H; try discriminate H end.
  injection H as <-. eauto.
Qed.

Lemma pair_dynamic t1 t2 v1 v2 d1 d2 : regular (TPair t1 t2) = true -> compiles (TPair t1 t2) = true ->
  has_type t1 v1 -> has_type t2 v2 -> int_sized v1 -> int_sized v2 ->
  List.length d1 = List.length (flatten v1) -> List.length d2 = List.length (flatten v2) ->
  size v1 + size v2 <= INT_MAX ->
  exists w1 w2, PlusEq add (TPair t1 t2) (VPair v1 v2) (d1 ++ d2) = Ret (VPair w1 w2) /\
    flatten w1 = sum (flatten v1) d1 /\ flatten w2 = sum (flatten v2) d2.
Proof.
  intros Hr Hc T1 T2 I1 I2 L1 L2 Hs.
  destruct (plus_regular (TPair t1 t2) (VPair v1 v2) (d1 ++ d2)) as (v' & E & Ef & Et & Es); auto.
  - now split.
  - now split.
  - cbn. rewrite !app_length. lia.
  - unfold size in *. cbn. rewrite app_length. lia.
  - destruct v' as [|?|?|w1 w2]; try contradiction Et. exists w1, w2. split; [exact E|].
    cbn [flatten] in Ef. rewrite sum_app in Ef by congruence. destruct Es as (S1 & S2).
    apply app_eq_len in Ef; [exact Ef|]. rewrite sum_len by assumption. symmetry. now apply shape_len.
Qed.

(** *** Too short deltas *)
Lemma at_nil i : at_ (@nil S) i = UB UBOutOfBounds.
Proof. unfold at_. now destruct i. Qed.
Lemma segment_nil i n s : segment (@nil S) i n = Ret s -> i = 0 /\ n = 0 /\ s = [].
Proof.
  unfold segment. destruct (_ && _) eqn:E; [|discriminate]. cbn in E. intros H. injection H as <-.
  assert (i = 0 /\ n = 0) as (-> & ->) by lia. auto.
Qed.

Lemma plus_nil t : forall v v', has_type t v -> PlusEq add t v [] = Ret v' -> flatten v = [].
Proof.
  assert (L : forall u, (forall v v', has_type u v -> PlusEq add u v [] = Ret v' -> flatten v = []) ->
    forall vs vs', Forall (has_type u) vs ->
    each (plus_elem add u (PlusEq add u) (dims u) []) 0 vs = Ret vs' -> concat (map flatten vs) = []).
  { clear t. intros t IH.
    assert (M : forall vs i vs', Forall (has_type t) vs ->
      each (plus_elem add t (PlusEq add t) (dims t) []) i vs = Ret vs' -> concat (map flatten vs) = []).
    { induction vs as [|v vs IHv]; intros i vs' Ht H; [reflexivity|]. inversion Ht as [|? ? Hv Hvs]; subst.
      cbn [each] in H. destruct (plus_elem _ _ _ _ _ _ _) as [w| |] eqn:E; cbn [bind] in H; try discriminate H.
      destruct (each _ _ vs) as [ws| |] eqn:E2; cbn [bind] in H; try discriminate H.
      cbn. rewrite (IHv _ _ Hvs E2), app_nil_r.
      unfold plus_elem in E. destruct (_ || _); [rewrite at_nil in E; discriminate E|].
      destruct (Dims t) as [n|].
      - destruct (segment _ _ _) as [s| |] eqn:Es; cbn [bind] in E; try discriminate E.
        apply segment_nil in Es as (_ & _ & ->). eapply IH; eassumption.
      - destruct (dims t v) as [n| |]; cbn [bind] in E; try discriminate E.
        destruct (segment _ _ _) as [s| |] eqn:Es; cbn [bind] in E; try discriminate E.
        apply segment_nil in Es as (_ & _ & ->). eapply IH; eassumption. }
    intros vs vs'. apply M. }
  induction t as [|r c|t IH|k t IH|t1 IH1 t2 IH2]; intros v v' Ht H;
    destruct v as [a|r' c' l|vs|v1 v2]; cbn in Ht; try contradiction; cbn [PlusEq] in H.
  - rewrite at_nil in H. discriminate H.
  - destruct l; [reflexivity|discriminate H].
  - destruct (each _ _ vs) as [ws| |] eqn:E; cbn [bind] in H; try discriminate H. cbn. eapply L; eassumption.
  - destruct (each _ _ vs) as [ws| |] eqn:E; cbn [bind] in H; try discriminate H. cbn. destruct Ht.
    eapply L; eassumption.
  - destruct Ht as (Ht1 & Ht2).
    destruct (match Dims t1 with None => _ | Some _ => _ end) as [d1| |] eqn:E1; cbn [bind] in H; try discriminate H.
    assert (d1 = []) as ->.
    { destruct (Dims t1); [|destruct (dims t1 v1); try discriminate E1; cbn [bind] in E1];
        unfold head in E1; now apply segment_nil in E1 as (_ & _ & ->). }
    destruct (PlusEq add t1 v1 []) as [v1'| |] eqn:P1; cbn [bind] in H; try discriminate H.
    cbn [flatten]. rewrite (IH1 _ _ Ht1 P1). cbn [app].
    destruct (Dims t2) as [n|] eqn:En.
    + destruct (tail [] (Z.of_nat n)) as [d2| |] eqn:E2; cbn [bind] in H; try discriminate H.
      unfold tail in E2. apply segment_nil in E2 as (_ & E2 & _).
      assert (n = 0%nat) by lia. subst n. pose proof (static_size t2 v2 0 En Ht2) as L0. now destruct (flatten v2).
    + destruct (dims t2 v2) as [n| |]; cbn [bind] in H; try discriminate H.
      destruct (tail [] n) as [d2| |] eqn:E2; cbn [bind] in H; try discriminate H.
      unfold tail in E2. apply segment_nil in E2 as (_ & _ & ->).
      destruct (PlusEq add t2 v2 []) as [v2'| |] eqn:P2; cbn [bind] in H; try discriminate H. eauto.
Qed.

(** Vectors and arrays of dynamically sized elements: an update is never defined when the
    first element is not empty. *)
Lemma dynamic_elements (t T : ty) v0 vs d v' : (T = TVec t \/ exists n, T = TArr n t) ->
  Dims t = None -> has_type t v0 -> flatten v0 <> [] ->
  PlusEq add T (VList (v0 :: vs)) d <> Ret v'.
Proof.
  intros HT En Ht Hne H.
  assert (E : exists ws, each (plus_elem add t (PlusEq add t) (dims t) d) 0 (v0 :: vs) = Ret ws).
  { destruct HT as [->|(n & ->)]; cbn [PlusEq] in H; destruct (each _ _ _) as [ws| |]; try discriminate H; eauto. }
  destruct E as (ws & E). cbn [each] in E.
  destruct (plus_elem _ _ _ _ _ _ _) as [w| |] eqn:P; try discriminate E.
  unfold plus_elem in P. rewrite En in P.
  assert (is_scalar t = false) as Es by (destruct t; try reflexivity; discriminate En). rewrite Es in P. cbn [orb is_one] in P.
  destruct (dims t v0) as [n| |]; cbn [bind] in P; try discriminate P.
  change (Z.of_nat 0) with 0 in P. rewrite Z.mul_0_l in P.
  unfold segment in P. cbn [Z.leb] in P. destruct (_ && _); cbn [bind] in P; [|discriminate P].
  cbn in P. apply plus_nil in P; auto.
Qed.
End Plus.
End Any.

(** *** Undoing an update *)
Lemma shape_eq {S} : forall (v w : val S), same_shape v w -> flatten v = flatten w -> v = w.
Proof.
  fix IH 1. intros v w. destruct v as [a|r c l|vs|v1 v2], w as [b|r' c' l'|ws|w1 w2]; intros Hs; try contradiction Hs; intros E.
  - cbn in E. now injection E as ->.
  - cbn in Hs, E. destruct Hs as (-> & -> & _). now subst.
  - f_equal. cbn [flatten] in E. revert ws Hs E.
    induction vs as [|v vs IHv]; intros [|w ws] Hs E; cbn in Hs; try contradiction; [reflexivity|].
    destruct Hs as (Hv & Hvs). cbn in E. apply app_eq_len in E as (E1 & E2); [|now apply shape_len].
    f_equal; [now apply IH|now apply IHv].
  - cbn in Hs, E. destruct Hs as (H1 & H2). apply app_eq_len in E as (E1 & E2); [|now apply shape_len].
    f_equal; now apply IH.
Qed.

Lemma shape_sym {S} : forall v w : val S, same_shape v w -> same_shape w v.
Proof.
  fix IH 1. intros v w. destruct v as [a|r c l|vs|v1 v2], w as [b|r' c' l'|ws|w1 w2]; intros Hs; try contradiction Hs.
  - exact I.
  - cbn in Hs |- *. intuition.
  - cbn. revert ws Hs. induction vs as [|v vs IHv]; intros [|w ws] Hs; cbn in Hs |- *; try contradiction; [exact I|].
    destruct Hs as (Hv & Hvs). split; [now apply IH|now apply IHv].
  - cbn in Hs |- *. destruct Hs. split; now apply IH.
Qed.

Lemma shape_trans {S} : forall u v w : val S, same_shape u v -> same_shape v w -> same_shape u w.
Proof.
  fix IH 1. intros u v w. destruct u as [a|r c l|us|u1 u2], v as [b|r' c' l'|vs|v1 v2]; intros H1; try contradiction H1;
    destruct w as [a2|r2 c2 l2|ws|w1 w2]; intros H2; try contradiction H2.
  - exact I.
  - cbn in H1, H2 |- *. intuition congruence.
  - cbn. revert vs ws H1 H2. induction us as [|u us IHu]; intros [|v vs] [|w ws] H1 H2; cbn in H1, H2 |- *; try contradiction; [exact I|].
    destruct H1 as (Hv & Hvs), H2 as (Hw & Hws). split; [now apply (IH u v)|now apply (IHu vs)].
  - cbn in H1, H2 |- *. destruct H1, H2. split; [now apply (IH u1 v1)|now apply (IH u2 v2)].
Qed.

Lemma shape_int {S} : forall v w : val S, same_shape v w -> int_sized v -> int_sized w.
Proof.
  fix IH 1. intros v w. destruct v as [a|r c l|vs|v1 v2], w as [b|r' c' l'|ws|w1 w2]; intros Hs; try contradiction Hs.
  - trivial.
  - trivial.
  - cbn. intros (L & F). cut (List.length ws = List.length vs /\ fold_right (fun w P => int_sized w /\ P) True ws).
    { intros (-> & G). now split. }
    clear L. revert ws Hs F. induction vs as [|v vs IHv]; intros [|w ws] Hs F; cbn in Hs |- *; try contradiction; [now split|].
    destruct Hs as (Hv & Hvs), F as (F1 & F2). destruct (IHv ws Hvs F2) as (-> & G). repeat split; [|exact G]. now apply (IH v).
  - cbn in Hs |- *. destruct Hs. intros (I1 & I2). split; [apply (IH v1)|apply (IH v2)]; assumption.
Qed.

Lemma undo t (v : val R) d : regular t = true -> compiles t = true -> has_type t v -> int_sized v ->
  List.length d = List.length (flatten v) -> size v <= INT_MAX ->
  exists v', PlusEq Rplus t v d = Ret v' /\ PlusEq Rplus t v' (map Ropp d) = Ret v.
Proof.
  intros Hr Hc Ht Hi Hd Hs. destruct (plus_regular Rplus t v d) as (v' & E & Ef & Et & Es); auto.
  exists v'. split; [exact E|]. pose proof (shape_len _ _ Es) as L.
  destruct (plus_regular Rplus t v' (map Ropp d)) as (v2 & E2 & Ef2 & Et2 & Es2); auto.
  - now apply (shape_int v).
  - rewrite map_length. congruence.
  - unfold size in *. now rewrite <- L.
  - rewrite E2. f_equal. symmetry. apply shape_eq; [now apply (shape_trans _ v')|].
    rewrite Ef2, Ef. clear - Hd. revert d Hd. induction (flatten v) as [|x l IH]; intros [|y d] Hd; try discriminate Hd; [reflexivity|].
    cbn. f_equal; [lra|]. apply IH. now injection Hd.
Qed.

(** *** Casts *)
Lemma cast_flatten {S S2} (f : S -> S2) : forall v, flatten (cast f v) = map f (flatten v).
Proof.
  fix IH 1. intros [a|r c l|vs|v1 v2]; cbn.
  - reflexivity.
  - reflexivity.
  - induction vs as [|v vs IHv]; cbn; [reflexivity|]. rewrite map_app, IH. now f_equal.
  - now rewrite map_app, !IH.
Qed.
Lemma cast_type {S S2} (f : S -> S2) t : forall v, has_type t v -> has_type t (cast f v).
Proof.
  induction t as [|r c|t IH|k t IH|t1 IH1 t2 IH2]; intros [a|r' c' l|vs|v1 v2]; cbn; try tauto.
  - now rewrite map_length.
  - induction 1; cbn; constructor; auto.
  - rewrite map_length. intros (-> & F). split; [reflexivity|]. induction F; cbn; constructor; auto.
  - intuition.
Qed.
Lemma cast_back {S S2} (f : S -> S2) (g : S2 -> S) : (forall x, g (f x) = x) -> forall v, cast g (cast f v) = v.
Proof.
  intros H. fix IH 1. intros [a|r c l|vs|v1 v2]; cbn.
  - now rewrite H.
  - rewrite map_map. erewrite map_ext; [now rewrite map_id|exact H].
  - f_equal. induction vs as [|v vs IHv]; cbn; [reflexivity|]. now rewrite IH, IHv.
  - now rewrite !IH.
Qed.

(** Beyond INT_MAX. *)
Lemma int_wrap_mod z : INT_MIN <= int_wrap z <= INT_MAX /\ (int_wrap z - z) mod 2 ^ 32 = 0.
Proof.
  unfold int_wrap, INT_MIN, INT_MAX. change (2 ^ 32) with 4294967296.
  pose proof (Z.mod_pos_bound (z + 2147483648) 4294967296 ltac:(lia)) as B. split; [lia|].
  rewrite (Z.mod_eq (z + 2147483648)) by lia.
  replace (z + 2147483648 - 4294967296 * ((z + 2147483648) / 4294967296) - 2147483648 - z)
    with ((- ((z + 2147483648) / 4294967296)) * 4294967296) by ring.
  apply Z.mod_mul. lia.
Qed.
Lemma vec_wrap {S} (vs : list (val S)) : exists n, dims (TVec TScalar) (VList vs) = Ret n /\
  INT_MIN <= n <= INT_MAX /\ (n - Z.of_nat (List.length vs)) mod 2 ^ 32 = 0 /\
  (n = Z.of_nat (List.length vs) <-> Z.of_nat (List.length vs) <= INT_MAX) /\
  (2 ^ 31 <= Z.of_nat (List.length vs) < 2 ^ 32 -> n < 0).
Proof.
  exists (int_wrap (Z.of_nat (List.length vs))). split; [reflexivity|].
  destruct (int_wrap_mod (Z.of_nat (List.length vs))) as (B & M). split; [exact B|]. split; [exact M|].
  set (z := Z.of_nat (List.length vs)) in *. assert (0 <= z) by (unfold z; lia). clearbody z.
  pose proof (Z.div_mod (int_wrap z - z) (2 ^ 32) ltac:(lia)) as D. rewrite M in D.
  set (k := (int_wrap z - z) / 2 ^ 32) in D. clearbody k. change (2 ^ 32) with 4294967296 in *.
  change (2 ^ 31) with 2147483648 in *. unfold INT_MIN, INT_MAX in *. lia.
Qed.
Lemma sum_wrap {S} r : forall (vs : list (val S)) d, INT_MIN <= d <= INT_MAX ->
  List.Forall (has_type (TMat None r)) vs ->
  exists n, sum_dims (dims (TMat None r)) d vs = Ret n /\ INT_MIN <= n <= INT_MAX /\
    (n - (d + Z.of_nat (List.length (List.concat (map flatten vs))))) mod 2 ^ 32 = 0.
Proof.
  induction vs as [|v vs IH]; intros d B F.
  - exists d. split; [reflexivity|]. split; [exact B|]. cbn [map List.concat List.length Z.of_nat].
    now replace (d - (d + 0)) with 0 by ring.
  - inversion F as [|? ? Hv Hvs]; subst. destruct v as [|? ? l|?|]; try contradiction Hv.
    cbn [sum_dims dims bind map flatten List.concat]. destruct (int_wrap_mod (d + Z.of_nat (List.length l))) as (Bw & Mw).
    destruct (IH _ Bw Hvs) as (n & E & Bn & Mn). exists n. split; [exact E|]. split; [exact Bn|].
    rewrite app_length, Nat2Z.inj_add.
    pose proof (Z.div_mod _ _ (ltac:(lia) : 2 ^ 32 <> 0) : int_wrap (d + Z.of_nat (List.length l)) - (d + Z.of_nat (List.length l)) = _) as D1.
    rewrite Mw in D1.
    match type of Mn with ?X mod _ = 0 => pose proof (Z.div_mod X _ (ltac:(lia) : 2 ^ 32 <> 0)) as D2 end. rewrite Mn in D2.
    match type of D1 with _ = _ * ?A + 0 => match type of D2 with _ = _ * ?B + 0 =>
      match goal with |- ?X mod _ = 0 => replace X with ((A + B) * 2 ^ 32) by lia end end end.
    apply Z.mod_mul. lia.
Qed.
Lemma blocks_wrap {S} r (vs : list (val S)) : has_type (TVec (TMat None r)) (VList vs) ->
  exists n, dims (TVec (TMat None r)) (VList vs) = Ret n /\ INT_MIN <= n <= INT_MAX /\
    (n - size (VList vs)) mod 2 ^ 32 = 0.
Proof.
  intros F. destruct (sum_wrap r vs 0 ltac:(unfold INT_MIN, INT_MAX; lia) F) as (n & E & B & M).
  exists n. split; [destruct r as [[|[|r]]|]; exact E|]. split; [exact B|]. exact M.
Qed.
