(** Automatic differentiation: seeding, Jacobian, gradient and Gauss-Newton matrix. *)
From Coq Require Import ZArith List Bool Lia Reals Lra.
From Coquelicot Require Import Coquelicot.
From Verif Require Import BaseModel NumModel RealModel CostModel TraitsModel TraitsSpec TraitsProofs JetModel JetSpec
  JetProofs DynProofs DiffModel DiffSpec DiffProofs SumSpec SumProofs AutoModel AutoSpec.
Import ListNotations.
Open Scope R_scope.

Lemma sequence_ret {S} (l : list S) : sequence (map (fun x => Ret x) l) = Ret l.
Proof. induction l as [|x l IH]; cbn; [reflexivity|]. now rewrite IH. Qed.

(** *** Seeding *)
Definition ujets (n i : nat) (l : list R) : list Jet :=
  map (fun p => mkJet (fst p) (unit_vec n (snd p))) (combine l (seq i (List.length l))).
Lemma ujets_cons n i x l : ujets n i (x :: l) = mkJet x (unit_vec n i) :: ujets n (i + 1) l.
Proof. unfold ujets. cbn. now rewrite Nat.add_1_r. Qed.

Lemma put_unit n i : put (repeat 0 n) i 1 = unit_vec n i.
Proof.
  unfold unit_vec.
  assert (G : forall n s j, put (repeat 0 n) j 1 = map (fun i => if (i =? s + j)%nat then 1 else 0) (seq s n)).
  { clear. induction n as [|n IH]; intros s [|j]; cbn; try reflexivity.
    - rewrite Nat.add_0_r, Nat.eqb_refl. f_equal.
      assert (E : forall n s', (s < s')%nat -> map (fun i => if (i =? s)%nat then 1 else 0) (seq s' n) = repeat 0 n).
      { clear. induction n as [|n IH]; intros s' H; cbn; [reflexivity|]. rewrite IH by lia. destruct (Nat.eqb_spec s' s); [lia|reflexivity]. }
      now rewrite E by lia.
    - destruct (Nat.eqb_spec s (s + S j)); [lia|]. f_equal. rewrite (IH (S s)). apply map_ext. intros k. now rewrite Nat.add_succ_r. }
  apply (G n O i).
Qed.

Section Seeding.
Variables (t : ty) (n : nat).
Hypothesis HN : Dims t = Some n \/ Dims t = None.
Lemma seed_from_ok l : forall i, (i + List.length l <= n)%nat ->
  seed_from t n i (map (Jet_const (Dims t)) l) = Ret (ujets n i l).
Proof.
  induction l as [|x l IH]; intros i Hi; [reflexivity|]. rewrite ujets_cons. cbn [map seed_from List.length] in *.
  unfold seed_jet.
  assert (W : match Dims t with None => repeat 0 n | Some _ => v (Jet_const (Dims t) x) end = repeat 0 n).
  { destruct HN as [-> | ->]; reflexivity. }
  rewrite W, repeat_length. destruct (Nat.ltb_spec i n); [|lia]. cbn [bind]. rewrite IH by lia. cbn [bind a Jet_const].
  now rewrite put_unit.
Qed.
Lemma dx_jet_ok : dx_jet t n = Ret (ujets n 0 (repeat 0 n)).
Proof.
  unfold dx_jet.
  assert (E : repeat (Jet_default (Dims t)) n = map (Jet_const (Dims t)) (repeat 0 n)).
  { generalize n. intros k. induction k as [|k IH]; cbn; [reflexivity|]. now rewrite IH. }
  rewrite E. apply seed_from_ok. rewrite repeat_length. lia.
Qed.
Lemma zip_zero_l w : zip Rplus (repeat 0 (List.length w)) w = w.
Proof. induction w as [|x w IH]; cbn; [reflexivity|]. rewrite IH. f_equal. ring. Qed.
Lemma add_seed s i : jet_add (Dims t) (Jet_const (Dims t) s) (mkJet 0 (unit_vec n i)) = Ret (mkJet s (unit_vec n i)).
Proof.
  unfold jet_add, Jet_const. cbn [a v].
  assert (P1 : padded (Dims t) (zeros (Dims t)) (unit_vec n i) = repeat 0 n).
  { destruct HN as [-> | ->]; cbn; [reflexivity|]. now rewrite unit_len. }
  assert (P2 : padded (Dims t) (unit_vec n i) (zeros (Dims t)) = unit_vec n i).
  { destruct HN as [-> | ->]; cbn; [reflexivity|]. now destruct (unit_vec n i). }
  rewrite P1, P2. unfold vadd. rewrite vop_ok by (rewrite repeat_length, unit_len; reflexivity). cbn [bind].
  rewrite <- (unit_len n i) at 1. rewrite zip_zero_l. do 2 f_equal. ring.
Qed.
Lemma seeds_ujets l : seeds l = ujets (List.length l) 0 l.
Proof. reflexivity. Qed.
Lemma shifted_seq l : forall i,
  sequence (map (fun p => jet_pluseq t (fst p) (snd p))
    (combine (map (fun s => Ret (Jet_const (Dims t) s)) l) (map (fun j => Ret j) (ujets n i (repeat 0 (List.length l))))))
  = Ret (ujets n i l).
Proof.
  induction l as [|x l IH]; intros i; [reflexivity|]. cbn [List.length repeat]. rewrite !ujets_cons. cbn [map combine sequence fst snd].
  unfold jet_pluseq at 1. cbn [bind]. rewrite add_seed. cbn [bind]. now rewrite IH.
Qed.
End Seeding.

Lemma cast_int {S S2} (f : S -> S2) : forall v, int_sized v -> int_sized (cast f v).
Proof.
  fix IH 1. intros [a|r c l|l|v1 v2]; cbn; auto.
  - intros (H1 & H2). rewrite map_length. split; [exact H1|]. clear H1. induction l as [|w l IHl]; cbn in *; [exact I|].
    destruct H2 as (H2 & H3). split; [now apply IH|now apply IHl].
  - intros (H1 & H2). split; now apply IH.
Qed.

Section Jets.
Variables (t : ty) (x : val R).
Hypothesis P : good_params t x.
Let X := flatten x.
Let n := List.length X.

Lemma dims_cases : Dims t = Some n \/ Dims t = None.
Proof.
  destruct P as (_ & _ & Pt & _). destruct (Dims t) as [m|] eqn:E; [left|now right]. f_equal. symmetry. now apply (static_size t x).
Qed.
Lemma n_dims : DynDims t x = Ret (Z.of_nat n).
Proof. destruct P as (_ & _ & Pt & Pi & Ps). now apply DynDims_size. Qed.

Lemma shift_jets_ok : shift_jets t x (ujets n 0 (repeat 0 n)) = Ret (seeds X).
Proof.
  destruct P as (Pr & Pc & Pt & Pi & Ps). unfold shift_jets.
  assert (L : List.length (flatten (cast (fun s => Ret (Jet_const (Dims t) s)) x)) = n) by (rewrite cast_flatten, map_length; reflexivity).
  destruct (plus_regular (jet_pluseq t) t (cast (fun s => Ret (Jet_const (Dims t) s)) x) (map (fun j => Ret j) (ujets n 0 (repeat 0 n)))) as (y & E & Ef & _); auto.
  - now apply cast_type.
  - now apply cast_int.
  - rewrite map_length. rewrite L. unfold ujets. rewrite map_length, combine_length, seq_length, repeat_length. apply Nat.min_id.
  - unfold size. rewrite L. exact Ps.
  - rewrite E. cbn [bind]. rewrite Ef, cast_flatten. fold X.
    rewrite seeds_ujets. fold n. exact (shifted_seq t n dims_cases X 0).
Qed.

Lemma x_jets_ok : x_jets t x = Ret (seeds X).
Proof.
  unfold x_jets. rewrite n_dims. cbn [bind]. rewrite Nat2Z.id. destruct (is_eigen t).
  - rewrite seeds_ujets. apply seed_from_ok; [exact dims_cases|]. fold X n. lia.
  - rewrite dx_jet_ok by exact dims_cases. cbn [bind]. exact shift_jets_ok.
Qed.
End Jets.

Lemma update_a_ok n : forall l l' i, List.length l = List.length l' -> update_a (ujets n i l) l' = Ret (ujets n i l').
Proof.
  induction l as [|x l IH]; intros [|y l'] i E; try discriminate E; [reflexivity|]. rewrite !ujets_cons. cbn [update_a].
  injection E as E. rewrite IH by exact E. reflexivity.
Qed.

Lemma good_shape {S} t (x0 x : val S) : good_params t x0 -> has_type t x -> same_shape x0 x -> good_params t x.
Proof.
  intros (Pr & Pc & Pt & Pi & Ps) Ht Hs. repeat split; auto; [now apply (shape_int x0)|].
  unfold size in *. now rewrite <- (shape_len _ _ Hs).
Qed.

(** The jets used in every evaluation of the optimisation. *)
Lemma update_ok t x0 x : good_params t x0 -> has_type t x -> same_shape x0 x ->
  exists js, kept t x0 = Ret (List.length (flatten x), js) /\ update_x_jet t (List.length (flatten x), js) x = Ret (seeds (flatten x)).
Proof.
  intros P0 Ht Hs. pose proof (good_shape t x0 x P0 Ht Hs) as P1. pose proof (shape_len _ _ Hs) as L.
  unfold kept. rewrite (n_dims t x0 P0). cbn [bind]. rewrite Nat2Z.id, L.
  pose proof (dims_cases t x P1) as D. unfold update_x_jet. destruct (is_eigen t) eqn:Ei.
  - rewrite seed_from_ok by (try exact D; rewrite L; lia). cbn [bind]. eexists. split; [reflexivity|]. cbn [snd].
    rewrite update_a_ok by exact L. now rewrite seeds_ujets.
  - rewrite dx_jet_ok by exact D. cbn [bind]. eexists. split; [reflexivity|]. cbn [snd].
    now apply shift_jets_ok.
Qed.

(** *** Residuals *)
Definition jet_of (X : list R) (e : expr) (j : Jet) : Prop :=
  a j = eval e X /\ List.length (v j) = List.length X /\ derivative_of (eval e) X (v j).

Lemma eval_ok t x e : good_params t x -> smooth e (flatten x) -> safe_for t e (flatten x) ->
  exists j, eval_jet (Dims t) e (seeds (flatten x)) = Ret j /\ a j = eval e (flatten x) /\
    (List.length (v j) = List.length (flatten x) \/ (Dims t = None /\ v j = [])) /\
    derivative_of (eval e) (flatten x) (v j).
Proof.
  intros P Sm Sf. destruct (dims_cases t x P) as [D|D]; unfold safe_for in Sf; rewrite D in *.
  - destruct (good_expr (flatten x) e Sm) as (j & E & G1 & G2 & G3). exists j. split; [exact E|]. split; [exact G1|]. split; [now left|exact G3].
  - destruct (dyn_good e (flatten x) Sm Sf) as (j & E & G1 & G2 & G3). exists j. split; [exact E|]. split; [exact G1|]. split; [|exact G3]. destruct G2; auto.
Qed.

Lemma eval_all_ok t x es : good_params t x -> (forall e, In e es -> smooth e (flatten x) /\ safe_for t e (flatten x)) ->
  exists js, eval_all t es (seeds (flatten x)) = Ret js /\ Forall2 (fun e j => eval_jet (Dims t) e (seeds (flatten x)) = Ret j /\ a j = eval e (flatten x) /\
    (List.length (v j) = List.length (flatten x) \/ (Dims t = None /\ v j = [])) /\
    derivative_of (eval e) (flatten x) (v j)) es js.
Proof.
  intros P. induction es as [|e es IH]; intros H; [exists []; split; [reflexivity|constructor]|].
  destruct (eval_ok t x e P) as (j & E & Hj); [apply H; now left..|].
  destruct IH as (js & Es & Hs); [intros; apply H; now right|].
  exists (j :: js). unfold eval_all in *. cbn [map sequence]. rewrite E. cbn [bind]. rewrite Es. cbn [bind]. split; [reflexivity|].
  constructor; auto.
Qed.

Lemma Forall2_len {S T} (Q : S -> T -> Prop) l m : Forall2 Q l m -> List.length l = List.length m.
Proof. induction 1; cbn; congruence. Qed.
Lemma Forall2_nth {S T} (Q : S -> T -> Prop) l m ds dt i : Forall2 Q l m -> (i < List.length l)%nat -> Q (nth i l ds) (nth i m dt).
Proof. intros H. revert i. induction H as [|x y l m Hxy _ IH]; intros [|i] Hi; cbn in *; try lia; auto. apply IH. lia. Qed.

(** auto_diff.h: Eval *)
Lemma Eval_ok t f x check : good_params t x ->
  (forall e, In e (residual_exprs f) -> smooth e (flatten x) /\ safe_for t e (flatten x)) ->
  (check = true \/ forall e, In e (residual_exprs f) -> connected t e (flatten x)) ->
  exists r J, Eval t f check x = Ret (r, J) /\ List.length r = num_res f /\ List.length J = num_res f /\
    forall i, (i < num_res f)%nat -> nth i r 0 = residual f i (flatten x) /\
      (List.length (nth i J []) = List.length (flatten x) \/ (exists e, f = FScalar e /\ Dims t = None /\ nth i J [] = [])) /\
      derivative_of (residual f i) (flatten x) (nth i J []).
Proof.
  intros P H Hc. unfold Eval. rewrite (n_dims t x P). cbn [bind]. rewrite (x_jets_ok t x P). cbn [bind]. rewrite Nat2Z.id.
  destruct f as [e|rows cols es]; cbn [residual_exprs] in *.
  - destruct (eval_ok t x e P) as (j & E & E1 & E2 & E3); [apply H; now left..|]. rewrite E. cbn [bind].
    exists [a j], [v j]. split; [reflexivity|]. split; [reflexivity|]. split; [reflexivity|]. intros [|i] Hi; [|cbn in Hi; lia]. cbn [nth].
    split; [exact E1|]. split; [|exact E3]. destruct E2 as [E2|(E2 & E4)]; [now left|right]. exists e. auto.
  - destruct (eval_all_ok t x es P H) as (js & Es & Hs). rewrite Es. cbn [bind].
    set (n := List.length (flatten x)) in *.
    assert (R : exists J, sequence (map (row_of t n check) js) = Ret J /\ Forall2 (fun j r => List.length r = n /\ forall k, (k < n)%nat -> nth k r 0 = nth k (v j) 0) js J).
    { clear Es H. revert Hs Hc. intros Hs. induction Hs as [|e j es js (Ej & _ & Hv & _) Hs IH]; intros Hc; [exists []; split; [reflexivity|constructor]|].
      destruct IH as (J & EJ & HJ). { destruct Hc as [Hc|Hc]; [now left|right]. intros e' He'. apply Hc. now right. }
      assert (Rj : exists r, row_of t n check j = Ret r /\ List.length r = n /\ forall k, (k < n)%nat -> nth k r 0 = nth k (v j) 0).
      { unfold row_of. destruct Hv as [Hv|(Hd & Hv)].
        - rewrite Hv, Nat.eqb_refl, andb_false_r. eexists. repeat split; auto.
        - rewrite Hd. destruct check; cbn [andb].
          + destruct (Nat.eqb_spec (List.length (v j)) n) as [E|E]; cbn [negb]; [eexists; split; [reflexivity|auto]|].
            eexists. split; [reflexivity|]. split; [apply repeat_length|]. intros k _. rewrite Hv, zeros_nth. now destruct k.
          + destruct Hc as [Hc|Hc]; [discriminate|]. exfalso. specialize (Hc e (or_introl eq_refl)). unfold connected in Hc. rewrite Hd in *.
            exact (Hc j Ej Hv). }
      destruct Rj as (r & Er & Hr). exists (r :: J). cbn [map sequence]. rewrite Er. cbn [bind]. rewrite EJ. cbn [bind]. split; [reflexivity|].
      constructor; auto. }
    destruct R as (J & EJ & HJ). rewrite EJ. cbn [bind]. exists (map a js), J. split; [reflexivity|].
    pose proof (Forall2_len _ _ _ Hs) as L1. pose proof (Forall2_len _ _ _ HJ) as L2.
    split; [unfold num_res; cbn; now rewrite map_length|]. split; [unfold num_res; cbn; congruence|].
    intros i Hi. unfold num_res in Hi. cbn in Hi.
    pose proof (Forall2_nth _ es js (Const 0) (mkJet 0 []) i Hs Hi) as (_ & K1 & _ & K2).
    pose proof (Forall2_nth _ js J (mkJet 0 []) [] i HJ ltac:(congruence)) as (K3 & K4).
    split; [|split].
    + change 0 with (a (mkJet 0 [])). rewrite map_nth. exact K1.
    + left. exact K3.
    + now apply derivative_entries with (1 := K2).
Qed.

(** *** Gradient and Gauss-Newton matrix *)
Lemma dotp_sum u w : List.length u = List.length w -> dotp u w = sum (List.length u) (fun i => nth i u 0 * nth i w 0).
Proof.
  assert (S0 : forall n f, sum (S n) f = f O + sum n (fun i => f (S i))).
  { induction n as [|n IH]; intros f; [cbn; ring|]. change (sum (S (S n)) f) with (sum (S n) f + f (S n)). rewrite IH. cbn. ring. }
  revert w. induction u as [|x u IH]; intros [|y w] E; try discriminate E; [reflexivity|]. injection E as E.
  cbn [List.length]. rewrite S0. cbn [nth]. unfold dotp in *. cbn [zip fold_right]. now rewrite IH.
Qed.
Lemma nth_map_seq {S} (g : nat -> S) n k d : (k < n)%nat -> nth k (map g (seq 0 n)) d = g k.
Proof.
  intros Hk. rewrite (nth_indep _ d (g 0%nat)) by now rewrite map_length, seq_length.
  rewrite (map_nth g). now rewrite seq_nth.
Qed.
Lemma col_len J k : List.length (col J k) = List.length J.
Proof. apply map_length. Qed.
Lemma col_nth J k i : nth i (col J k) 0 = nth k (nth i J []) 0.
Proof.
  unfold col. destruct (Nat.lt_ge_cases i (List.length J)) as [H|H].
  - rewrite (nth_indep _ 0 (nth k [] 0)) by now rewrite map_length. now rewrite (map_nth (fun r => nth k r 0)).
  - rewrite nth_overflow by now rewrite map_length. rewrite (nth_overflow J) by exact H. now destruct k.
Qed.

Lemma scalar_gn e X r : jet_of X e r -> gauss_newton (FScalar e) X (scl (a r) (v r)) (map (fun d => scl d (v r)) (v r)) (fun _ k => nth k (v r) 0).
Proof.
  intros (E1 & E2 & E3). unfold gauss_newton. cbn [num_res residual_exprs List.length].
  split; [|split; [|split; [|split; [|split]]]].
  - intros [|i] Hi; [|lia]. apply derivative_entries with (1 := E3). intros k Hk. now rewrite nth_map_seq.
  - now rewrite scl_len.
  - now rewrite map_length.
  - intros k Hk. rewrite (nth_indep _ [] (scl 0 (v r))) by (rewrite map_length; lia). rewrite (map_nth (fun d => scl d (v r))). now rewrite scl_len.
  - intros k Hk. rewrite scl_nth. cbn. unfold residual. cbn. rewrite <- E1. ring.
  - intros k l Hk Hl. rewrite (nth_indep _ [] (scl 0 (v r))) by (rewrite map_length; lia). rewrite (map_nth (fun d => scl d (v r))), scl_nth. cbn. ring.
Qed.
Lemma mat_gn rows cols es X js : Forall2 (jet_of X) es js ->
  let n := List.length X in
  gauss_newton (FMat rows cols es) X (JtR n (map v js) (map a js)) (JtJ n (map v js)) (fun i k => nth k (v (nth i js (mkJet 0 []))) 0) /\
  dotp (map a js) (map a js) = sum_sq (FMat rows cols es) X.
Proof.
  intros F n. pose proof (Forall2_len _ _ _ F) as L.
  assert (A : forall i, (i < List.length es)%nat -> jet_of X (nth i es (Const 0)) (nth i js (mkJet 0 []))) by (intros; now apply Forall2_nth).
  assert (Av : forall i, nth i (map v js) [] = v (nth i js (mkJet 0 []))) by (intros i; change ([]:list R) with (v (mkJet 0 [])) at 1; apply map_nth).
  assert (Aa : forall i, (i < List.length es)%nat -> nth i (map a js) 0 = residual (FMat rows cols es) i X).
  { intros i Hi. change 0 with (a (mkJet 0 [])) at 1. rewrite map_nth. now apply A. }
  split.
  - unfold gauss_newton. fold n. unfold num_res. cbn [residual_exprs].
    split; [|split; [|split; [|split; [|split]]]].
    + intros i Hi. unfold residual. cbn [residual_exprs]. destruct (A i Hi) as (_ & _ & A3).
      apply derivative_entries with (1 := A3). intros k Hk. now rewrite nth_map_seq.
    + unfold JtR. now rewrite map_length, seq_length.
    + unfold JtJ. now rewrite map_length, seq_length.
    + intros k Hk. unfold JtJ. rewrite nth_map_seq by exact Hk. now rewrite map_length, seq_length.
    + intros k Hk. unfold JtR. rewrite nth_map_seq by exact Hk. rewrite dotp_sum by (rewrite col_len, !map_length; reflexivity).
      rewrite col_len, map_length, <- L. apply sum_ext. intros i Hi. rewrite col_nth, Av, Aa by exact Hi. reflexivity.
    + intros k l Hk Hl. unfold JtJ. rewrite nth_map_seq by exact Hk. rewrite nth_map_seq by exact Hl.
      rewrite dotp_sum by now rewrite !col_len. rewrite col_len, map_length, <- L. apply sum_ext. intros i Hi. now rewrite !col_nth, !Av.
  - rewrite dotp_sum by reflexivity. rewrite map_length, <- L. unfold sum_sq, num_res. cbn [residual_exprs]. apply sum_ext. intros i Hi. now rewrite Aa.
Qed.

(** Consequences. *)
Lemma derive_sq (F : R -> R) t d : is_derive F t d -> is_derive (fun s => F s * F s) t (2 * (F t * d)).
Proof.
  intros H. evar_last; [apply (is_derive_mult F F t d d H H); intros; apply Rmult_comm|].
  cbn. unfold plus, mult; cbn. ring.
Qed.
Lemma derive_sums m (F : nat -> R -> R) (d : nat -> R) t :
  (forall i, (i < m)%nat -> is_derive (F i) t (d i)) -> is_derive (fun s => sum m (fun i => F i s)) t (sum m d).
Proof.
  induction m as [|m IH]; intros H; cbn [sum].
  - apply (is_derive_const (K := R_AbsRing) (V := R_NormedModule) 0).
  - apply (is_derive_plus (fun s => sum m (fun i => F i s)) (F m)); [apply IH; intros; apply H; lia|apply H; lia].
Qed.
Lemma gn_gradient f X g H D : gauss_newton f X g H D -> List.length (scl 2 g) = List.length X /\ derivative_of (sum_sq f) X (scl 2 g).
Proof.
  intros (G1 & G2 & G3 & G4 & G5 & G6). split; [now rewrite scl_len|]. intros c t0 d C. unfold sum_sq. evar_last.
  - apply (derive_sums (num_res f) (fun i s => residual f i (c s) * residual f i (c s))). intros i Hi.
    apply derive_sq. exact (G1 i Hi c t0 d C).
  - cbv beta. destruct C as (C & _). rewrite C. set (n := List.length X) in *.
    transitivity (sum (num_res f) (fun i => sum n (fun k => 2 * (D i k * residual f i X) * nth k d 0))).
    + apply sum_ext. intros i Hi. rewrite <- sum_scal, <- sum_scal. apply sum_ext. intros k Hk. rewrite nth_map_seq by exact Hk. ring.
    + rewrite sum_exchange. apply sum_ext. intros k Hk. rewrite scl_nth, (G5 k Hk), <- sum_scal, <- sum_scal_r. apply sum_ext. intros. ring.
Qed.
Lemma gn_symmetric f X g H D : gauss_newton f X g H D -> forall k l, (k < List.length X)%nat -> (l < List.length X)%nat ->
  nth l (nth k H []) 0 = nth k (nth l H []) 0.
Proof. intros (G1 & G2 & G3 & G4 & G5 & G6) k l Hk Hl. rewrite !G6 by assumption. apply sum_ext. intros. ring. Qed.
Lemma gn_psd f X g H D : gauss_newton f X g H D -> forall w : nat -> R, let n := List.length X in
  sum n (fun k => sum n (fun l => w k * nth l (nth k H []) 0 * w l)) =
  sum (num_res f) (fun i => sum n (fun k => D i k * w k) * sum n (fun k => D i k * w k)).
Proof.
  intros (G1 & G2 & G3 & G4 & G5 & G6) w n.
  transitivity (sum n (fun k => sum (num_res f) (fun i => D i k * w k * sum n (fun l => D i l * w l)))).
  - apply sum_ext. intros k Hk.
    transitivity (sum n (fun l => sum (num_res f) (fun i => D i k * w k * (D i l * w l)))).
    + apply sum_ext. intros l Hl. rewrite (G6 k l Hk Hl). rewrite <- sum_scal, <- sum_scal_r. apply sum_ext. intros. ring.
    + rewrite sum_exchange. apply sum_ext. intros i Hi. now rewrite sum_scal.
  - rewrite sum_exchange. apply sum_ext. intros i Hi. now rewrite sum_scal_r.
Qed.

Section Acc.
Variables (t : ty) (f : user_fun) (x0 x : val R) (nlls : bool).
Hypothesis P0 : good_params t x0.
Hypothesis Ht : has_type t x.
Hypothesis Hs : same_shape x0 x.
Let X := flatten x.
Hypothesis Hf : forall e, In e (residual_exprs f) -> smooth e X /\ safe_for t e X /\ connected t e X.

Lemma auto_ok : exists k c g H D, kept t x0 = Ret k /\ auto_acc t nlls f k x = Ret (c, g, H) /\ auto_eval t nlls f k x = Ret c /\
  ((Z.of_nat (num_res f) <= INT_MAX)%Z -> num_resisuals c = Z.of_nat (num_res f)) /\
  cost c = match f with FScalar _ => if nlls then sum_sq f X else residual f 0 X | FMat _ _ _ => sum_sq f X end /\
  gauss_newton f X g H D.
Proof.
  pose proof (good_shape t x0 x P0 Ht Hs) as P1.
  destruct (update_ok t x0 x P0 Ht Hs) as (js & E1 & E2). fold X in E1, E2.
  assert (K : forall e, In e (residual_exprs f) -> exists j, eval_jet (Dims t) e (seeds X) = Ret j /\ jet_of X e j).
  { intros e He. destruct (Hf e He) as (S1 & S2 & S3). destruct (eval_ok t x e P1 S1 S2) as (j & Ej & J1 & J2 & J3). exists j. split; [exact Ej|].
    split; [exact J1|]. split; [|exact J3]. destruct J2 as [J2|(D & J2)]; [exact J2|]. unfold connected in S3. rewrite D in *. exfalso. now apply (S3 j). }
  unfold auto_acc, auto_eval.
  destruct f as [e|rows cols es]; cbn [residual_exprs] in *.
  - destruct (K e (or_introl eq_refl)) as (r & Er & Hr). eexists (_, js), _, _, _, _. split; [exact E1|]. rewrite E2. cbn [bind]. rewrite Er. cbn [bind].
    assert (ET : match t with TScalar => match v r with [] => UB UBOutOfBounds | d :: _ => Ret ([d * a r], [[d * d]]) end
                 | _ => Ret (scl (a r) (v r), map (fun d => scl d (v r)) (v r)) end = Ret (scl (a r) (v r), map (fun d => scl d (v r)) (v r))).
    { destruct t; try reflexivity. pose proof (static_size TScalar x 1 eq_refl Ht) as L1. destruct Hr as (_ & Lr & _). fold X in L1. rewrite L1 in Lr.
      destruct (v r) as [|d [|]]; try discriminate Lr. cbn. now rewrite (Rmult_comm d). }
    rewrite ET. cbn [bind fst snd]. split; [reflexivity|]. split; [reflexivity|]. split; [reflexivity|]. split; [|apply (scalar_gn e X r Hr)].
    destruct Hr as (Ha & _). unfold sum_sq, residual, num_res. cbn. rewrite Ha. destruct nlls; ring.
  - assert (Q : exists rs, eval_all t es (seeds X) = Ret rs /\ Forall2 (jet_of X) es rs).
    { clear - K. induction es as [|e es IH]; [exists []; split; [reflexivity|constructor]|].
      destruct (K e (or_introl eq_refl)) as (j & Ej & Hj). destruct IH as (rs & Ers & Hrs); [intros; apply K; now right|].
      exists (j :: rs). unfold eval_all in *. cbn [map sequence]. rewrite Ej. cbn [bind]. rewrite Ers. cbn [bind]. split; [reflexivity|now constructor]. }
    destruct Q as (rs & Ers & Hrs). destruct (mat_gn rows cols es X rs Hrs) as (G & Gc).
    assert (Rw : sequence (map (row_of t (List.length X) false) rs) = Ret (map v rs)).
    { clear - Hrs. induction Hrs as [|e j es rs (_ & L & _) _ IH]; cbn [map sequence]; [reflexivity|]. unfold row_of at 1. rewrite L, Nat.eqb_refl.
      replace (match Dims t with Some _ => false | None => false end) with false by now destruct (Dims t). cbn [andb bind]. now rewrite IH. }
    eexists (_, js), _, _, _, _. split; [exact E1|]. rewrite E2. cbn [bind]. rewrite Ers. cbn [bind fst]. rewrite Rw. cbn [bind].
    split; [reflexivity|]. split; [reflexivity|]. split; [|split; [exact Gc|exact G]].
    unfold num_res. cbn [residual_exprs num_resisuals Cost_make]. rewrite map_length, <- (Forall2_len _ _ _ Hrs). intros L. apply wrap_id. lia.
Qed.
End Acc.
