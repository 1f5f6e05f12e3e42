(** Jets nested once are the jets of JetModel.v. *)
From Coq Require Import ZArith List Bool Reals Lra Lia.
From Flocq Require Import Core.Raux.
From Verif Require Import BaseModel FunModel JetModel JetSpec JetProofs NestModel NestSpec NestProofs.
Import ListNotations.
Open Scope R_scope.

Definition flat (j : gjet R) : Jet := mkJet (ja j) (jv j).

Section Flat.
Variable n : nat.
Notation L := (nest n 1).

Lemma int_sym y : is_int y = Req_bool y (std_floor y).
Proof. unfold is_int, std_floor. destruct (Req_bool_spec (IZR (Zfloor y)) y), (Req_bool_spec y (IZR (Zfloor y))); congruence. Qed.
Lemma copysign_1 y : std_copysign 1 y = sign1 y.
Proof. unfold std_copysign. rewrite Rabs_R1. ring. Qed.
Lemma jet_eq a1 a2 v1 v2 : a1 = a2 -> v1 = v2 -> mkJet a1 v1 = mkJet a2 v2.
Proof. now intros -> ->. Qed.
Lemma vop_zip f u w : List.length u = List.length w -> vop f u w = Ret (zip f u w).
Proof. intros E. unfold vop. now rewrite E, Nat.eqb_refl. Qed.
Lemma zip_zip2 (f : R -> R -> R) u w : zip f u w = zip2 f u w.
Proof. revert w; induction u as [|p u IH]; intros [|q w]; cbn; auto. now rewrite IH. Qed.
Lemma zip2_map2 (f : R -> R -> R) (g h : R -> R) u w : zip2 f (map g u) (map h w) = zip2 (fun p q => f (g p) (h q)) u w.
Proof. revert w; induction u as [|p u IH]; intros [|q w]; cbn; auto. now rewrite IH. Qed.
Lemma zip2_map_r f g (u w : list R) : zip2 f u (map g w) = zip2 (fun p q => f p (g q)) u w.
Proof. revert w; induction u as [|p u IH]; intros [|q w]; cbn; auto. now rewrite IH. Qed.
Lemma map_zip2 (f : R -> R -> R) (g : R -> R) u w : map g (zip2 f u w) = zip2 (fun p q => g (f p q)) u w.
Proof. revert w; induction u as [|p u IH]; intros [|q w]; cbn; auto. now rewrite IH. Qed.
Lemma zip2_ext (f g : R -> R -> R) u w : (forall p q, f p q = g p q) -> zip2 f u w = zip2 g u w.
Proof. intros E. revert w; induction u as [|p u IH]; intros [|q w]; cbn; auto. now rewrite IH, E. Qed.
Lemma zip2_swap (f : R -> R -> R) u w : zip2 f u w = zip2 (fun p q => f q p) w u.
Proof. revert w; induction u as [|p u IH]; intros [|q w]; cbn; auto. now rewrite IH. Qed.
Lemma zip2_zip3 (f g : R -> R -> R) u w z : zip2 f (zip2 g u w) z = zip3 (fun p q r => f (g p q) r) u w z.
Proof. revert w z; induction u as [|p u IH]; intros [|q w] [|r z]; cbn; auto. now rewrite IH. Qed.
Lemma zip2_zip3_map (f g : R -> R -> R) h u w z : zip2 f (zip2 g u w) (map h z) = zip3 (fun p q r => f (g p q) (h r)) u w z.
Proof. revert w z; induction u as [|p u IH]; intros [|q w] [|r z]; cbn; auto. now rewrite IH. Qed.
Lemma zip3_ext (f g : R -> R -> R -> R) u w z : (forall p q r, f p q r = g p q r) -> zip3 f u w z = zip3 g u w z.
Proof. intros E. revert w z; induction u as [|p u IH]; intros [|q w] [|r z]; cbn; auto. now rewrite IH, E. Qed.
Lemma mark_nan_zip gv rv : List.length gv = n -> List.length rv = n ->
  mark_nan n gv rv = Ret (zip2 (fun x y => if Req_bool x 0 then y else nan_) gv rv).
Proof.
  intros E1 E2. unfold mark_nan. rewrite firstn_all2 by lia. rewrite !skipn_all2 by lia.
  cbn [existsb orb]. rewrite E1, Nat.ltb_irrefl. rewrite app_nil_r. now rewrite zip_zip2.
Qed.

Lemma flat_un u (f : gjet R) : List.length (jv f) = n -> un_jet (Some n) u (flat f) = Ret (flat (uno L u f)).
Proof.
  intros E. destruct f as [fa fv]. cbn in E.
  destruct u; cbn; unfold flat; cbn; try (f_equal; apply jet_eq; [reflexivity|]; unfold scl, neg; rewrite ?map_map; apply map_ext; intros; cbn; try ring; lra);
    try reflexivity.
  { unfold jet_abs; cbn. f_equal. apply jet_eq; [reflexivity|]. apply map_ext. intros q. cbn. now rewrite copysign_1. }
  unfold jet_s_pow. rewrite int_sym. cbn.
  destruct (Req_bool s 0 && Rlt_bool 0 fa); [reflexivity|].
  destruct (Rlt_bool s 0 && _).
  - rewrite mark_nan_zip by (auto; apply repeat_length). cbn. f_equal. apply jet_eq; [reflexivity|].
    clear -E. revert n E. induction fv as [|p fv IH]; intros [|m] E; cbn in *; try discriminate; auto. f_equal; auto.
  - f_equal.
Qed.
Lemma len_un u (f : gjet R) : List.length (jv f) = n -> List.length (jv (uno L u f)) = n.
Proof.
  intros E. destruct u; cbn; unfold jconst; cbn; rewrite ?map_length, ?repeat_length; auto.
  repeat match goal with |- context [if ?b then _ else _] => destruct b end; cbn; rewrite ?map_length, ?repeat_length; auto.
Qed.

Lemma midpoint_zip fa ga fv gv : List.length fv = n -> List.length gv = n ->
  jet_midpoint (Some n) (mkJet fa fv) (mkJet ga gv) = Ret (mkJet (std_midpoint fa ga) (zip2 std_midpoint fv gv)).
Proof.
  intros E1 E2. unfold jet_midpoint; cbn. rewrite E1, E2, repeat_length, Nat.leb_refl. cbn.
  rewrite skipn_all2 by (rewrite repeat_length; lia). now rewrite app_nil_r, zip_zip2.
Qed.
Lemma flat_bin b (f g : gjet R) : List.length (jv f) = n -> List.length (jv g) = n ->
  bin_jet (Some n) b (flat f) (flat g) = Ret (flat (bino L b f g)).
Proof.
  intros E1 E2. destruct f as [fa fv], g as [ga gv]. cbn in E1, E2.
  assert (E : List.length fv = List.length gv) by congruence.
  destruct b; cbn [bin_jet]; unfold flat; cbn [nest jet_num bino nest_bin nest_midpoint ja jv real_num].
  - unfold jet_add, vadd; cbn. rewrite vop_zip by assumption. cbn. now rewrite zip_zip2.
  - unfold jet_sub, vsub; cbn. rewrite vop_zip by assumption. cbn. now rewrite zip_zip2.
  - unfold jet_mul, vadd, scl; cbn. rewrite vop_zip by (rewrite !map_length; auto). cbn. rewrite zip_zip2, zip2_map2, zip2_swap.
    f_equal. apply jet_eq; [reflexivity|]. apply zip2_ext. intros. ring.
  - unfold jet_div, vsub, scl; cbn. rewrite vop_zip by (rewrite !map_length; auto). cbn. rewrite zip_zip2, zip2_map_r, map_zip2.
    f_equal. apply jet_eq; [reflexivity|]. apply zip2_ext. intros. cbn. ring.
  - unfold jet_copysign, vadd, scl; cbn. rewrite vop_zip by (rewrite !map_length; auto). cbn. rewrite zip_zip2, zip2_map2.
    now rewrite !copysign_1.
  - unfold jet_hypot, vadd, scl; cbn. rewrite vop_zip by (rewrite !map_length; auto). cbn. rewrite zip_zip2, zip2_map2. reflexivity.
  - unfold jet_fmax, jet_lt, jet_gt; cbn. destruct (_ || _); [destruct (Rlt_bool fa ga); reflexivity|]. now apply midpoint_zip.
  - unfold jet_fmin, jet_lt, jet_gt; cbn. destruct (_ || _); [destruct (Rlt_bool ga fa); reflexivity|]. now apply midpoint_zip.
  - unfold jet_fdim, jet_gt; cbn. destruct (Rlt_bool ga fa); [|reflexivity].
    unfold jet_sub, vsub; cbn. rewrite vop_zip by assumption. cbn. now rewrite zip_zip2.
  - now apply midpoint_zip.
  - unfold jet_atan2, vadd, scl; cbn. rewrite vop_zip by (rewrite !map_length; auto). cbn. rewrite zip_zip2, zip2_map2, map_zip2, zip2_swap.
    reflexivity.
  - unfold jet_pow. rewrite int_sym. cbn. destruct (_ && Rle_bool 1 ga); [destruct (Rlt_bool 1 ga); reflexivity|].
    destruct (_ && Req_bool ga _).
    + unfold scl. rewrite mark_nan_zip by (rewrite ?map_length; auto). cbn. rewrite zip2_map_r, zip2_swap. reflexivity.
    + unfold vadd, scl. rewrite vop_zip by (rewrite !map_length; auto). cbn. rewrite zip_zip2, zip2_map2. reflexivity.
Qed.
Lemma len_bin b (f g : gjet R) : List.length (jv f) = n -> List.length (jv g) = n -> List.length (jv (bino L b f g)) = n.
Proof.
  intros E1 E2. assert (E : List.length (jv f) = List.length (jv g)) by congruence.
  destruct b; cbn; unfold nest_midpoint, jconst; cbn; rewrite ?zip2_len by assumption; auto;
  repeat match goal with |- context [if ?b then _ else _] => destruct b end; cbn; rewrite ?zip2_len, ?repeat_length by assumption; auto.
Qed.
Lemma flat_tern t (f g h : gjet R) : List.length (jv f) = n -> List.length (jv g) = n -> List.length (jv h) = n ->
  tern_jet t (flat f) (flat g) (flat h) = Ret (flat (terno L t f g h)).
Proof.
  intros E1 E2 E3. destruct f as [fa fv], g as [ga gv], h as [ha hv]. cbn in E1, E2, E3.
  assert (E : List.length fv = List.length gv) by congruence.
  assert (E' : List.length fv = List.length hv) by congruence.
  destruct t; cbn [tern_jet]; unfold flat; cbn [nest jet_num terno nest_tern ja jv real_num].
  - unfold jet_hypot3, vadd, scl; cbn. rewrite vop_zip by (rewrite !map_length; auto). cbn. rewrite zip_zip2, zip2_map2.
    rewrite vop_zip by (rewrite zip2_len, map_length; auto). cbn. rewrite zip_zip2, zip2_zip3_map. reflexivity.
  - unfold jet_fma, vadd, scl; cbn. rewrite vop_zip by (rewrite !map_length; auto). cbn. rewrite zip_zip2, zip2_map2.
    rewrite vop_zip by (rewrite zip2_len; auto). cbn. rewrite zip_zip2, zip2_zip3. reflexivity.
  - unfold jet_lerp, vadd, scl; cbn. rewrite vop_zip by (rewrite !map_length; auto). cbn. rewrite zip_zip2, zip2_map2.
    rewrite vop_zip by (rewrite zip2_len, map_length; auto). cbn. rewrite zip_zip2, zip2_zip3_map. reflexivity.
Qed.
Lemma len_tern t (f g h : gjet R) : List.length (jv f) = n -> List.length (jv g) = n -> List.length (jv h) = n ->
  List.length (jv (terno L t f g h)) = n.
Proof. intros E1 E2 E3. destruct t; cbn; rewrite zip3_len; congruence. Qed.

Lemma flat_eval e (xs : list (gjet R)) : scoped e (List.length xs) -> List.Forall (fun j => List.length (jv j) = n) xs ->
  eval_jet (Some n) e (map flat xs) = Ret (flat (eval_num L e xs)) /\ List.length (jv (eval_num L e xs)) = n.
Proof.
  intros S0 B.
  induction e as [i|c|u e IH|b e1 IH1 e2 IH2|t e1 IH1 e2 IH2 e3 IH3|c e1 IH1 e2 IH2 e3 IH3 e4 IH4]; cbn [eval_jet eval_num]; cbn [scoped] in S0.
  - rewrite nth_error_map. rewrite (nth_error_nth' xs (cst L 0) S0). cbn [option_map]. split; [reflexivity|].
    rewrite List.Forall_forall in B. apply B. now apply nth_In.
  - split; [reflexivity|]. apply repeat_length.
  - destruct (IH S0) as (-> & E). cbn [bind]. split; [now apply flat_un|now apply len_un].
  - destruct S0 as (S1 & S2). destruct (IH1 S1) as (-> & E1), (IH2 S2) as (-> & E2). cbn [bind].
    split; [now apply flat_bin|now apply len_bin].
  - destruct S0 as (S1 & S2 & S3). destruct (IH1 S1) as (-> & E1), (IH2 S2) as (-> & E2), (IH3 S3) as (-> & E3). cbn [bind].
    split; [now apply flat_tern|now apply len_tern].
  - destruct S0 as (S1 & S2 & S3 & S4). destruct (IH1 S1) as (-> & E1), (IH2 S2) as (-> & E2). cbn [bind].
    assert (Q : cmp_jet c (flat (eval_num L e1 xs)) (flat (eval_num L e2 xs)) =
      cmp_val c (re L (eval_num L e1 xs)) (re L (eval_num L e2 xs))) by (destruct c; reflexivity).
    rewrite Q. destruct (cmp_val c _ _); auto.
Qed.
End Flat.

Lemma flat_lemma e x : scoped e (List.length x) ->
  eval_jet (Some (List.length x)) e (seeds x) =
  Ret (flat (eval_num (nest (List.length x) 1) e (nest_seeds 1 x))).
Proof.
  intros S0. 
  assert (E : seeds x = map flat (nest_seeds 1 x)).
  { unfold seeds, nest_seeds. rewrite map_map. 
    apply nth_ext with (d := mkJet 0 []) (d' := mkJet 0 []); rewrite !map_length, ?combine_length, !seq_length; [lia|].
    intros i Hi. rewrite Nat.min_id in Hi.
    rewrite (nth_map_in _ _ _ (0, 0%nat)) by (rewrite combine_length, seq_length; lia).
    rewrite (nth_map_in _ _ _ 0%nat) by now rewrite seq_length.
    rewrite combine_nth by now rewrite seq_length. rewrite seq_nth by exact Hi. reflexivity. }
  rewrite E. apply flat_eval.
  - unfold nest_seeds. now rewrite map_length, seq_length.
  - unfold nest_seeds. apply List.Forall_forall. intros j Hj. apply in_map_iff in Hj. destruct Hj as (i & <- & _).
    cbn. now rewrite map_length, seq_length.
Qed.
