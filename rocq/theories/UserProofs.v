(** Proofs about user-defined parameters. *)
From Coq Require Import ZArith List Bool Lia ZifyBool.
From Verif Require Import BaseModel TraitsModel TraitsProofs UserModel UserSpec.
Import ListNotations.
Open Scope Z_scope.

Section User.
Context {S K M : Type}.
Variable T : user_traits S K M.
Variable count : K -> M -> nat.
Implicit Types (v w : uval M) (d : list S) (t : uty K).
Notation usize := (usize count).
Notation moved := (moved T count).

Definition csum (l : list (K * M)) : nat := fold_right (fun km n => (count (fst km) (snd km) + n)%nat) 0%nat l.
Lemma csum_app l l' : csum (l ++ l') = (csum l + csum l')%nat.
Proof. induction l as [|a l IH]; [reflexivity|]. cbn. fold (csum (l ++ l')) (csum l). rewrite IH. lia. Qed.
Lemma usize_def t v : usize t v = csum (leaves t v).
Proof. reflexivity. Qed.

Lemma concat_usize t vs n : Forall (fun v => usize t v = n) vs -> csum (concat (map (leaves t) vs)) = (List.length vs * n)%nat.
Proof.
  induction 1 as [|v vs H _ IH]; cbn [map concat List.length]; [reflexivity|].
  rewrite csum_app, IH, <- usize_def, H. reflexivity.
Qed.
Lemma concat_usize_in t v vs : In v vs -> (usize t v <= csum (concat (map (leaves t) vs)))%nat.
Proof.
  induction vs as [|w vs IH]; intros H; [contradiction H|]. cbn [map concat]. rewrite csum_app, <- usize_def.
  destruct H as [-> |H]; [lia|]. specialize (IH H). lia.
Qed.

Hypothesis G : good_traits T count.

Lemma ustatic_size t : forall v n, UDims T t = Some n -> uhas_type t v -> usize t v = n.
Proof.
  destruct G as (G1 & _).
  induction t as [k|t IH|k t IH|t1 IH1 t2 IH2]; intros v n Hd Ht; destruct v as [m|vs|v1 v2]; cbn in Ht; try contradiction.
  - unfold UserSpec.usize. cbn. rewrite Nat.add_0_r. exact (G1 k m n Hd).
  - discriminate Hd.
  - cbn in Hd. destruct (UDims T t) as [d|]; [|discriminate]. injection Hd as <-. destruct Ht as (<- & Ht).
    rewrite usize_def. cbn [leaves]. apply concat_usize. eapply Forall_impl; [|exact Ht]. intros w Hw. now apply IH.
  - cbn in Hd. destruct (UDims T t1) as [d1|]; [|discriminate]. destruct (UDims T t2) as [d2|]; [|discriminate].
    injection Hd as <-. destruct Ht as (T1 & T2). rewrite usize_def. cbn [leaves]. rewrite csum_app, <- !usize_def.
    f_equal; [now apply IH1|now apply IH2].
Qed.

Lemma uint_sized_list (vs : list (uval M)) : uint_sized (UList vs) ->
  Z.of_nat (List.length vs) <= INT_MAX /\ Forall uint_sized vs.
Proof. cbn. intros (H & F). split; [exact H|]. clear H. induction vs; cbn in F; constructor; tauto. Qed.

Lemma usum_ok t (f : uval M -> outcome Z) vs : forall s, 0 <= s ->
  Forall (fun v => f v = Ret (Z.of_nat (usize t v))) vs ->
  s + Z.of_nat (csum (concat (map (leaves t) vs))) <= INT_MAX ->
  usum f s vs = Ret (s + Z.of_nat (csum (concat (map (leaves t) vs)))).
Proof.
  induction vs as [|v vs IH]; cbn [usum map concat]; intros s Hs Hf Hb.
  - f_equal. cbn. lia.
  - inversion Hf as [|? ? Hv Hvs]; subst. rewrite Hv. cbn [bind]. rewrite csum_app, <- usize_def in *.
    rewrite wrap_id by lia. rewrite IH; [f_equal; lia|lia|assumption|lia].
Qed.

Lemma uscalar_one t : uscalar T t || is_one (UDims T t) = true -> UDims T t = Some 1%nat.
Proof.
  intros H. apply orb_true_iff in H as [H|H]; [|now apply one_cases].
  destruct t as [k| | |]; try discriminate H. destruct G as (_ & _ & G3 & _). now destruct (G3 k H).
Qed.

Lemma udims_size t : forall v, dims_ok T t = true -> uhas_type t v -> uint_sized v ->
  Z.of_nat (usize t v) <= INT_MAX -> udims T t v = Ret (Z.of_nat (usize t v)).
Proof.
  assert (L : forall t (vs : list (uval M)), (forall m, UDims T t = Some m -> csum (concat (map (leaves t) vs)) = (List.length vs * m)%nat) ->
    (UDims T t = None -> Forall (fun v => udims T t v = Ret (Z.of_nat (usize t v))) vs) ->
    Z.of_nat (List.length vs) <= INT_MAX -> Z.of_nat (csum (concat (map (leaves t) vs))) <= INT_MAX ->
    forall sz c, sz = Z.of_nat (List.length vs) -> (forall n, 0 <= n <= INT_MAX -> c n = Ret n) ->
    (if uscalar T t || is_one (UDims T t) then Ret sz
     else match UDims T t with None => usum (udims T t) 0 vs | Some d => c (sz * Z.of_nat d) end)
    = Ret (Z.of_nat (csum (concat (map (leaves t) vs))))).
  { clear t. intros t vs St F Hl Hs sz c -> Hc. destruct (uscalar T t || is_one (UDims T t)) eqn:E1.
    - rewrite (St _ (uscalar_one t E1)). f_equal. lia.
    - destruct (UDims T t) as [m|] eqn:E.
      + rewrite (St m) in * by reflexivity. rewrite Hc by lia. f_equal. lia.
      + rewrite (usum_ok t); [reflexivity|lia|now apply F|lia]. }
  induction t as [k|t IH|k t IH|t1 IH1 t2 IH2]; intros v Hk Ht Hi Hs; destruct v as [m|vs|v1 v2];
    cbn in Ht; try contradiction.
  - cbn in Hk |- *. destruct (k_dims T k) as [f|] eqn:E; [|discriminate]. destruct G as (_ & G2 & _).
    rewrite (G2 k f m E). unfold UserSpec.usize. cbn. f_equal. lia.
  - apply uint_sized_list in Hi as (Hl & Hi). cbn [udims]. rewrite usize_def in *. cbn [leaves] in *.
    rewrite (wrap_id (Z.of_nat (List.length vs))) by lia. apply (L t vs); auto.
    + intros m Em. apply concat_usize. eapply Forall_impl; [|exact Ht]. intros w Hw. now apply ustatic_size.
    + intros E. cbn in Hk. rewrite E in Hk. rewrite Forall_forall in *. intros w Hw. apply IH; auto.
      pose proof (concat_usize_in t w vs Hw). lia.
    + intros n Hn. unfold int_chk, in_int, INT_MIN, INT_MAX in *. destruct (_ && _) eqn:B; [reflexivity|lia].
  - apply uint_sized_list in Hi as (Hl & Hi). destruct Ht as (<- & Ht). cbn [udims]. rewrite usize_def in *. cbn [leaves] in *.
    apply (L t vs); auto.
    + intros m Em. apply concat_usize. eapply Forall_impl; [|exact Ht]. intros w Hw. now apply ustatic_size.
    + intros E. cbn in Hk. rewrite E in Hk. rewrite Forall_forall in *. intros w Hw. apply IH; auto.
      pose proof (concat_usize_in t w vs Hw). lia.
  - cbn in Hk. apply andb_true_iff in Hk as (K1 & K2). cbn in Hi. destruct Ht as (T1 & T2), Hi as (I1 & I2).
    rewrite usize_def in *. cbn [leaves udims] in *. rewrite csum_app, <- !usize_def in *.
    rewrite IH1, IH2 by (auto; lia). cbn [bind]. f_equal. lia.
Qed.

(** *** Updates *)
Lemma moved_app a d a' b e b' : moved a d a' -> moved b e b' -> moved (a ++ b) (d ++ e) (a' ++ b').
Proof.
  induction 1 as [|k m m' d ms ds ms' H1 H2 H3 IH]; intros Hb; [exact Hb|].
  cbn. rewrite <- app_assoc. constructor; auto.
Qed.
Lemma moved_one k m d m' : List.length d = count k m -> k_plus T k m d = Ret m' -> moved [(k, m)] d [(k, m')].
Proof. intros H1 H2. rewrite <- (app_nil_r d). constructor; auto. constructor. Qed.
Lemma moved_len a d a' : moved a d a' -> List.length d = csum a.
Proof. induction 1 as [|k m m' d ms ds ms' H1 H2 H3 IH]; [reflexivity|]. rewrite app_length, IH, H1. reflexivity. Qed.
Lemma moved_det a d a' : moved a d a' -> forall a'', moved a d a'' -> a' = a''.
Proof.
  induction 1 as [|k m m' d ms ds ms' H1 H2 H3 IH]; intros a'' H; inversion H; subst; [reflexivity|].
  match goal with E : _ ++ _ = _ ++ _ |- _ => apply app_eq_len in E as (-> & ->); [|congruence] end.
  assert (E : Ret m' = Ret m'0) by congruence. injection E as <-. f_equal. now apply IH.
Qed.

Lemma ushape_list (l l' : list (uval M)) : ushape (UList l) (UList l') <-> Forall2 ushape l l'.
Proof.
  cbn. revert l'. induction l as [|v l IH]; intros [|w l']; cbn.
  - split; constructor.
  - split; [contradiction|intros H; inversion H].
  - split; [contradiction|intros H; inversion H].
  - rewrite IH. split; [intros (A & B); now constructor|intros H; inversion H; subst; auto].
Qed.

Lemma leaves_len t : forall v w, uhas_type t v -> uhas_type t w -> ushape v w ->
  List.length (leaves t v) = List.length (leaves t w).
Proof.
  assert (L : forall t, (forall v w : uval M, uhas_type t v -> uhas_type t w -> ushape v w -> List.length (leaves t v) = List.length (leaves t w)) ->
    forall vs ws : list (uval M), Forall (uhas_type t) vs -> Forall (uhas_type t) ws -> Forall2 ushape vs ws ->
    List.length (concat (map (leaves t) vs)) = List.length (concat (map (leaves t) ws))).
  { clear t. intros t IH vs ws Hv Hw H. induction H as [|v w vs ws H1 H2 IHl]; [reflexivity|].
    inversion Hv; inversion Hw; subst. cbn. rewrite !app_length. f_equal; auto. }
  induction t as [k|t IH|k t IH|t1 IH1 t2 IH2]; intros v w Hv Hw H; destruct v as [m|vs|v1 v2], w as [m'|ws|w1 w2];
    cbn in Hv, Hw; try contradiction; cbn [leaves].
  - reflexivity.
  - apply ushape_list in H. now apply L.
  - apply ushape_list in H. now apply L.
  - cbn in H. rewrite !app_length. f_equal; [apply IH1|apply IH2]; tauto.
Qed.

Lemma ushape_eq t : forall v w, uhas_type t v -> uhas_type t w -> ushape v w -> leaves t v = leaves t w -> v = w.
Proof.
  assert (L : forall t, (forall v w : uval M, uhas_type t v -> uhas_type t w -> ushape v w -> leaves t v = leaves t w -> v = w) ->
    forall vs ws : list (uval M), Forall (uhas_type t) vs -> Forall (uhas_type t) ws -> Forall2 ushape vs ws ->
    concat (map (leaves t) vs) = concat (map (leaves t) ws) -> vs = ws).
  { clear t. intros t IH vs ws Hv Hw H. induction H as [|v w vs ws H1 H2 IHl]; intros E; [reflexivity|].
    inversion Hv; inversion Hw; subst. cbn in E. apply app_eq_len in E as (E1 & E2); [|now apply leaves_len].
    f_equal; auto. }
  induction t as [k|t IH|k t IH|t1 IH1 t2 IH2]; intros v w Hv Hw H E; destruct v as [m|vs|v1 v2], w as [m'|ws|w1 w2];
    cbn in Hv, Hw; try contradiction; cbn [leaves] in E.
  - now injection E as ->.
  - apply ushape_list in H. f_equal. now apply (L t).
  - apply ushape_list in H. f_equal. now apply (L t).
  - cbn in H. apply app_eq_len in E as (E1 & E2); [|now apply leaves_len].
    f_equal; [apply IH1|apply IH2]; tauto.
Qed.

Definition uupdated t v d v' : Prop :=
  moved (leaves t v) d (leaves t v') /\ uhas_type t v' /\ ushape v v' /\ uint_sized v'.

Lemma uplus_static_list t n vs d : UDims T t = Some n -> (uscalar T t || negb (is_one (UDims T t))) = true ->
  (forall v d, uhas_type t v -> uint_sized v -> Z.of_nat (usize t v) <= INT_MAX -> List.length d = usize t v ->
     exists v', UPlusEq T t v d = Ret v' /\ uupdated t v d v') ->
  Forall (uhas_type t) vs -> Forall uint_sized vs -> List.length d = csum (concat (map (leaves t) vs)) ->
  Z.of_nat (csum (concat (map (leaves t) vs))) <= INT_MAX ->
  exists vs', ueach (uplus_elem T t (UPlusEq T t) (udims T t) d) 0 vs = Ret vs' /\
    List.length vs' = List.length vs /\
    moved (concat (map (leaves t) vs)) d (concat (map (leaves t) vs')) /\
    Forall (uhas_type t) vs' /\ Forall2 ushape vs vs' /\ Forall uint_sized vs'.
Proof.
  intros Hn Hc IH Ht Hi Hd Hs.
  assert (Hl : csum (concat (map (leaves t) vs)) = (List.length vs * n)%nat).
  { apply concat_usize. eapply Forall_impl; [|exact Ht]. intros w Hw. now apply ustatic_size. }
  set (good := fun w => uhas_type t w /\ uint_sized w /\ Z.of_nat (usize t w) <= INT_MAX).
  assert (GG : Forall good vs).
  { rewrite Forall_forall in *; intros w Hw; repeat split; auto.
    pose proof (concat_usize_in t w vs Hw). lia. }
  assert (Mm : forall ws i, Forall good ws -> List.length d = ((i + List.length ws) * n)%nat ->
    exists ws', ueach (uplus_elem T t (UPlusEq T t) (udims T t) d) i ws = Ret ws' /\
      List.length ws' = List.length ws /\
      moved (concat (map (leaves t) ws)) (skipn (i * n) d) (concat (map (leaves t) ws')) /\
      Forall (uhas_type t) ws' /\ Forall2 ushape ws ws' /\ Forall uint_sized ws').
  { clear vs Ht Hi Hd Hl GG Hs. induction ws as [|v ws IHw]; intros i Gw Hd; cbn [ueach].
    - exists []. repeat split; try constructor. cbn [map concat]. rewrite skipn_all2 by (cbn in Hd; lia). constructor.
    - inversion Gw as [|? ? (Hv & Hi & Hsv) Gs]; subst. cbn [List.length] in Hd.
      assert (Hlen : List.length (firstn n (skipn (i * n) d)) = usize t v).
      { rewrite (ustatic_size t v n Hn Hv), firstn_length, skipn_length. nia. }
      assert (St : exists v', uplus_elem T t (UPlusEq T t) (udims T t) d i v = Ret v' /\
                 uupdated t v (firstn n (skipn (i * n) d)) v').
      { unfold uplus_elem. destruct (uscalar T t) eqn:Es.
        - pose proof (uscalar_one t) as H1. rewrite Es in H1. specialize (H1 eq_refl).
          assert (n = 1%nat) by congruence. subst n. rewrite Nat.mul_1_r in *. cbn [orb].
          destruct t as [k| | |]; try discriminate. destruct v as [m| |]; cbn in Hv; try contradiction.
          destruct G as (_ & _ & G3 & _). destruct (G3 k Es) as (_ & G4).
          destruct (at_ok d i) as (y & E1 & E2); [lia|]. rewrite E1. cbn [bind]. rewrite E2 in *. cbn [firstn] in *.
          destruct (IH (UOne m) [y] I I Hsv Hlen) as (v' & E & U). cbn [UPlusEq] in E.
          rewrite G4. exists v'. split; [exact E|exact U].
        - cbn [orb] in *. apply negb_true_iff in Hc. rewrite Hc, Hn.
          replace (Z.of_nat i * Z.of_nat n) with (Z.of_nat (i * n)) by lia.
          rewrite segment_ok by nia. cbn [bind]. now apply IH. }
      destruct St as (v' & E & Ef & Et & Esh & Ei). rewrite E. cbn [bind].
      destruct (IHw (i + 1)%nat Gs) as (ws' & E' & El & Ef' & Et' & Es' & Ei'); [nia|]. rewrite E'. cbn [bind].
      exists (v' :: ws'). split; [reflexivity|]. cbn [List.length map concat]. split; [now rewrite El|].
      split; [|split; [|split]; constructor; auto].
      rewrite <- (firstn_skipn n (skipn (i * n) d)). apply moved_app; [exact Ef|].
      rewrite skip_skip. replace (i * n + n)%nat with ((i + 1) * n)%nat by lia. exact Ef'. }
  destruct (Mm vs 0%nat GG) as (vs' & E & El & Ef & Et & Es); [cbn; lia|]. cbn in Ef. eauto 10.
Qed.

Lemma usized_list (l : list (uval M)) : Z.of_nat (List.length l) <= INT_MAX -> Forall uint_sized l -> uint_sized (UList l).
Proof. intros H F. cbn. split; [exact H|]. clear H. induction F; cbn; auto. Qed.

Lemma uplus_regular t : forall v d, uregular T t = true -> uhas_type t v -> uint_sized v ->
  List.length d = usize t v -> Z.of_nat (usize t v) <= INT_MAX ->
  exists v', UPlusEq T t v d = Ret v' /\ uupdated t v d v'.
Proof.
  induction t as [k|t IH|k t IH|t1 IH1 t2 IH2]; intros v d Hr Ht Hi Hd Hs;
    destruct v as [m|vs|v1 v2]; cbn in Ht; try contradiction; cbn [UPlusEq].
  - destruct G as (_ & _ & _ & G4). unfold UserSpec.usize in Hd. cbn in Hd. rewrite Nat.add_0_r in Hd.
    destruct (G4 k m d Hd) as (m' & E & _). rewrite E. cbn [bind]. exists (UOne m'). split; [reflexivity|].
    repeat split. now apply moved_one.
  - apply uint_sized_list in Hi as (Hl & Hi). cbn in Hr. apply andb_true_iff in Hr as (Hr & Ho).
    apply andb_true_iff in Hr as (Hr & Hn). destruct (UDims T t) as [n|] eqn:En; [|discriminate].
    rewrite usize_def in *. cbn [leaves] in *.
    destruct (uplus_static_list t n vs d) as (vs' & E & El & Ef & Et & Es & Ei); auto.
    { now rewrite En. }
    rewrite E. cbn [bind]. eexists. split; [reflexivity|]. split; [exact Ef|]. split; [exact Et|].
    split; [now apply ushape_list|]. apply usized_list; [now rewrite El|exact Ei].
  - apply uint_sized_list in Hi as (Hl & Hi). cbn in Hr. apply andb_true_iff in Hr as (Hr & Ho).
    apply andb_true_iff in Hr as (Hr & Hn). destruct (UDims T t) as [n|] eqn:En; [|discriminate].
    destruct Ht as (Hk & Ht). rewrite usize_def in *. cbn [leaves] in *.
    destruct (uplus_static_list t n vs d) as (vs' & E & El & Ef & Et & Es & Ei); auto.
    { now rewrite En. }
    rewrite E. cbn [bind]. eexists. split; [reflexivity|]. split; [exact Ef|].
    split; [split; [congruence|exact Et]|].
    split; [now apply ushape_list|]. apply usized_list; [now rewrite El|exact Ei].
  - cbn in Hr, Hi. apply andb_true_iff in Hr as (Hr & Hn). apply andb_true_iff in Hr as (Hr & D1).
    apply andb_true_iff in Hr as (Hr & D2). apply andb_true_iff in Hr as (Hr1 & Hr2).
    destruct (UDims T t2) as [n|] eqn:En; [discriminate|]. destruct Ht as (Ht1 & Ht2), Hi as (Hi1 & Hi2).
    rewrite usize_def in *. cbn [leaves] in *. rewrite csum_app, <- !usize_def in *.
    assert (E1 : match UDims T t1 with None => do n <- udims T t1 v1; head d n | Some n => head d (Z.of_nat n) end
                 = Ret (firstn (usize t1 v1) d)).
    { destruct (UDims T t1) as [n|] eqn:E.
      - rewrite <- (ustatic_size t1 v1 n E Ht1). apply head_ok. lia.
      - rewrite udims_size by (auto; lia). cbn [bind]. apply head_ok. lia. }
    rewrite E1. cbn [bind].
    destruct (IH1 v1 (firstn (usize t1 v1) d) Hr1 Ht1 Hi1) as (v1' & Ev1 & F1 & T1 & S1 & J1);
      [rewrite firstn_length; lia|lia|].
    rewrite Ev1. cbn [bind]. rewrite udims_size by (auto; lia). cbn [bind].
    rewrite tail_ok by lia. cbn [bind]. replace (List.length d - usize t2 v2)%nat with (usize t1 v1) by lia.
    destruct (IH2 v2 (skipn (usize t1 v1) d) Hr2 Ht2 Hi2) as (v2' & Ev2 & F2 & T2 & S2 & J2);
      [rewrite skipn_length; lia|lia|].
    rewrite Ev2. cbn [bind]. eexists. split; [reflexivity|]. split; [|repeat split; assumption].
    cbn [leaves]. rewrite <- (firstn_skipn (usize t1 v1) d). now apply moved_app.
Qed.

(** *** Undoing an update *)
Variable opp : S -> S.

Lemma moved_undo : (forall k m m' d, List.length d = count k m -> k_plus T k m d = Ret m' ->
    k_plus T k m' (map opp d) = Ret m) ->
  forall a d a', moved a d a' -> moved a' (map opp d) a.
Proof.
  intros U a d a'. induction 1 as [|k m m' d ms ds ms' H1 H2 H3 IH]; [constructor|].
  rewrite map_app. destruct G as (_ & _ & _ & G4). destruct (G4 k m d H1) as (m1 & E & Ec).
  assert (m1 = m') by congruence. subst m1. constructor; auto. rewrite map_length. congruence.
Qed.
Lemma moved_csum a d a' : moved a d a' -> csum a' = csum a.
Proof.
  induction 1 as [|k m m' d ms ds ms' H1 H2 H3 IH]; [reflexivity|]. cbn. fold (csum ms') (csum ms). rewrite IH.
  destruct G as (_ & _ & _ & G4). destruct (G4 k m d H1) as (m1 & E & Ec). assert (m1 = m') by congruence. subst m1. lia.
Qed.

Lemma ushape_sym : forall v w, ushape v w -> ushape w v.
Proof.
  fix IH 1. intros v w. destruct v as [m|vs|v1 v2], w as [m'|ws|w1 w2]; intros H; try contradiction H.
  - exact I.
  - apply ushape_list in H. apply ushape_list. revert ws H. induction vs as [|v vs IHv]; intros ws H; inversion H; subst; constructor.
    + now apply IH.
    + now apply IHv.
  - cbn in H |- *. destruct H as (H1 & H2). split; now apply IH.
Qed.
Lemma ushape_trans : forall v w u, ushape v w -> ushape w u -> ushape v u.
Proof.
  fix IH 1. intros v w u. destruct v as [m|vs|v1 v2], w as [m'|ws|w1 w2], u as [m''|us|u1 u2]; intros H1 H2;
    try contradiction H1; try contradiction H2.
  - exact I.
  - apply ushape_list in H1, H2. apply ushape_list. revert ws us H1 H2.
    induction vs as [|v vs IHv]; intros ws us H1 H2; inversion H1; subst; inversion H2; subst; constructor.
    + eapply IH; eassumption.
    + eapply IHv; eassumption.
  - cbn in H1, H2 |- *. destruct H1, H2. split; eapply IH; eassumption.
Qed.

Lemma uplus_undo t v d : (forall k m m' d, List.length d = count k m -> k_plus T k m d = Ret m' ->
    k_plus T k m' (map opp d) = Ret m) ->
  uregular T t = true -> uhas_type t v -> uint_sized v -> List.length d = usize t v -> Z.of_nat (usize t v) <= INT_MAX ->
  exists v', UPlusEq T t v d = Ret v' /\ UPlusEq T t v' (map opp d) = Ret v.
Proof.
  intros U Hr Ht Hi Hd Hs. destruct (uplus_regular t v d) as (v' & E & F & T1 & S1 & J1); auto.
  assert (Hz : usize t v' = usize t v) by exact (moved_csum _ _ _ F).
  destruct (uplus_regular t v' (map opp d)) as (v2 & E2 & F2 & T2 & S2 & J2); auto.
  { rewrite map_length. congruence. }
  { rewrite Hz. exact Hs. }
  exists v'. split; [exact E|]. rewrite E2. f_equal. apply (ushape_eq t); auto.
  - apply ushape_sym. now apply ushape_trans with v'.
  - exact (moved_det _ _ _ F2 _ (moved_undo U _ _ _ F)).
Qed.

Lemma moved_zero (z : S) : (forall k m, k_plus T k m (repeat z (count k m)) = Ret m) ->
  forall a, moved a (repeat z (csum a)) a.
Proof.
  intros Z0 a. induction a as [|[k m] a IH]; [constructor|]. cbn. rewrite repeat_app. constructor.
  - apply repeat_length.
  - apply Z0.
  - exact IH.
Qed.
Lemma uplus_zero t v (z : S) : (forall k m, k_plus T k m (repeat z (count k m)) = Ret m) ->
  uregular T t = true -> uhas_type t v -> uint_sized v -> Z.of_nat (usize t v) <= INT_MAX ->
  UPlusEq T t v (repeat z (usize t v)) = Ret v.
Proof.
  intros Z0 Hr Ht Hi Hs. destruct (uplus_regular t v (repeat z (usize t v))) as (v' & E & F & T1 & S1 & J1); auto.
  { apply repeat_length. }
  rewrite E. f_equal. symmetry. apply (ushape_eq t); auto. exact (moved_det _ _ _ (moved_zero z Z0 _) _ F).
Qed.
End User.

(** traits.h:347 updates the first member twice. *)
Lemma upair_second_kept {S K M} (T : user_traits S K M) t1 t2 n (v1 v2 : uval M) d v' : UDims T t2 = Some n ->
  UPlusEq T (UPair t1 t2) (UTwo v1 v2) d = Ret v' -> exists w, v' = UTwo w v2.
Proof.
  intros En. cbn [UPlusEq]. rewrite En. intros H.
  repeat match type of H with (bind ?o _) = _ => destruct o; cbn [bind] in H; try discriminate H end.
  injection H as <-. eauto.
Qed.
