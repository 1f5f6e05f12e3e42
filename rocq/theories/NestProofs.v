(** Nested jets hold the higher derivatives. *)
From Coq Require Import ZArith List Bool Reals Lra Lia.
From Flocq Require Import Core.Raux.
From Coquelicot Require Import Coquelicot.
From Verif Require Import BaseModel FunModel JetModel SumSpec SumProofs JetSpec DerivProofs JetProofs NestModel NestSpec.
Import ListNotations.
Open Scope R_scope.

(** *** Vectors *)
Lemma nth_map_in {A B} (g : A -> B) l i da db : (i < List.length l)%nat -> nth i (map g l) db = g (nth i l da).
Proof.
  intros H. rewrite (nth_indep _ db (g da)) by now rewrite map_length. apply map_nth.
Qed.
Lemma nth_zip2 {A} (g : A -> A -> A) u w i d : List.length u = List.length w -> (i < List.length u)%nat ->
  nth i (zip2 g u w) d = g (nth i u d) (nth i w d).
Proof.
  revert w i; induction u as [|p u IH]; intros [|q w] i L H; cbn in *; try lia.
  destruct i; [reflexivity|]. apply IH; lia.
Qed.
Lemma zip2_len {A} (g : A -> A -> A) u w : List.length u = List.length w -> List.length (zip2 g u w) = List.length u.
Proof. revert w; induction u as [|p u IH]; intros [|q w] L; cbn in *; try discriminate; auto. Qed.
Lemma nth_zip3 {A} (g : A -> A -> A -> A) u w z i d : List.length u = List.length w -> List.length u = List.length z ->
  (i < List.length u)%nat -> nth i (zip3 g u w z) d = g (nth i u d) (nth i w d) (nth i z d).
Proof.
  revert w z i; induction u as [|p u IH]; intros [|q w] [|r z] i L1 L2 H; cbn in *; try lia.
  destruct i; [reflexivity|]. apply IH; lia.
Qed.
Lemma zip3_len {A} (g : A -> A -> A -> A) u w z : List.length u = List.length w -> List.length u = List.length z ->
  List.length (zip3 g u w z) = List.length u.
Proof. revert w z; induction u as [|p u IH]; intros [|q w] [|r z] L1 L2; cbn in *; try discriminate; auto. Qed.
Lemma nth_repeat_in {A} (c : A) m i d : (i < m)%nat -> nth i (repeat c m) d = c.
Proof. revert i; induction m as [|m IH]; intros [|i] H; cbn; try lia; auto. apply IH; lia. Qed.

Lemma map_repeat_fix {A} (s : A -> A) z m : s z = z -> map s (repeat z m) = repeat z m.
Proof. intros Z. induction m as [|m IH]; cbn; [reflexivity|]. now rewrite IH, Z. Qed.
Lemma zip2_repeat_fix {A} (s : A -> A -> A) z m : s z z = z -> zip2 s (repeat z m) (repeat z m) = repeat z m.
Proof. intros Z. induction m as [|m IH]; cbn; [reflexivity|]. now rewrite IH, Z. Qed.

(** *** Constants *)
Section Constants.
Variable n : nat.
Lemma cst_neg d c : uno (nest n d) Neg (cst (nest n d) c) = cst (nest n d) (- c).
Proof.
  revert c; induction d as [|d IH]; intros c; cbn; [reflexivity|].
  unfold jconst; cbn. rewrite IH. f_equal.
  assert (Z : uno (nest n d) Neg (cst (nest n d) 0) = cst (nest n d) 0) by (rewrite IH, Ropp_0; reflexivity).
  now apply map_repeat_fix.
Qed.
Lemma cst_sub d b c : bino (nest n d) Sub (cst (nest n d) b) (cst (nest n d) c) = cst (nest n d) (b - c).
Proof.
  revert b c; induction d as [|d IH]; intros b c; cbn; [reflexivity|].
  unfold jconst; cbn. rewrite IH. f_equal.
  assert (Z : bino (nest n d) Sub (cst (nest n d) 0) (cst (nest n d) 0) = cst (nest n d) 0).
  { rewrite IH. f_equal. ring. }
  now apply zip2_repeat_fix.
Qed.
Lemma cst_ssub d b c : uno (nest n d) (SSub b) (cst (nest n d) c) = cst (nest n d) (b - c).
Proof.
  destruct d as [|d]; cbn; [reflexivity|].
  unfold jconst; cbn. rewrite cst_sub. f_equal.
  assert (Z : uno (nest n d) Neg (cst (nest n d) 0) = cst (nest n d) 0) by (rewrite cst_neg, Ropp_0; reflexivity).
  now apply map_repeat_fix.
Qed.
End Constants.

(** *** The derivatives of the functions, as expressions *)
Notation f0 := (Var 0).
Notation f1 := (Var 1).
Notation f2 := (Var 2).
Notation f3 := (Var 3).
Notation f4 := (Var 4).
Notation f5 := (Var 5).
Notation K := Const.
Infix "[*]" := (Bin Mul) (at level 40, left associativity).
Infix "[/]" := (Bin Div) (at level 40, left associativity).
Infix "[+]" := (Bin Add) (at level 50, left associativity).
Infix "[-]" := (Bin Sub) (at level 50, left associativity).

(** Of a function of f0, whose derivative is f1. *)
Definition d_un (u : un) : expr :=
  match u with
  | Neg => Un Neg f1
  | Abs => Bin Copysign (K 1) f0 [*] f1
  | Log => f1 [*] (K 1 [/] f0)
  | Log10 => f1 [*] (K 1 [/] (f0 [*] Un Log (K 10)))
  | Log1p => f1 [*] (K 1 [/] (K 1 [+] f0))
  | Exp => Un Exp f0 [*] f1
  | Expm1 => (Un Expm1 f0 [+] K 1) [*] f1
  | Sqrt => f1 [*] (K 1 [/] (K 2 [*] Un Sqrt f0))
  | Cos => Un Neg (Un Sin f0) [*] f1
  | Acos => (Un Neg (K 1) [/] Un Sqrt (K 1 [-] f0 [*] f0)) [*] f1
  | Sin => Un Cos f0 [*] f1
  | Asin => (K 1 [/] Un Sqrt (K 1 [-] f0 [*] f0)) [*] f1
  | Tan => (K 1 [+] Un Tan f0 [*] Un Tan f0) [*] f1
  | Atan => (K 1 [/] (K 1 [+] f0 [*] f0)) [*] f1
  | Sinh => Un Cosh f0 [*] f1
  | Cosh => Un Sinh f0 [*] f1
  | Tanh => (K 1 [-] Un Tanh f0 [*] Un Tanh f0) [*] f1
  | Floor | Ceil => K 0
  | Cbrt => f1 [*] (K 1 [/] (K 3 [*] Un Cbrt (f0 [*] f0)))
  | Exp2 => f1 [*] (Un Exp2 f0 [*] Un Log (K 2))
  | Log2 => f1 [*] (K 1 [/] (f0 [*] Un Log (K 2)))
  | Erf => f1 [*] Un Exp (Un Neg f0 [*] f0) [*] (K 1 [/] Un Sqrt (Un Atan (K 1)))
  | Erfc => Un Neg f1 [*] Un Exp (Un Neg f0 [*] f0) [*] (K 1 [/] Un Sqrt (Un Atan (K 1)))
  | Norm => K 2 [*] f0 [*] f1
  | AddS _ | SAdd _ | SubS _ => f1
  | SSub _ => Un Neg f1
  | MulS s | SMul s => f1 [*] K s
  | SDiv s => f1 [*] (Un Neg (K s) [/] (f0 [*] f0))
  | DivS s => f1 [*] (K 1 [/] K s)
  | PowS p => Un (SMul p) (Bin Pow f0 (K (p - 1))) [*] f1
  | SPow s => if Req_bool s 0 then K 0 else Un Log (K s) [*] Bin Pow (K s) f0 [*] f1
  end.
(** Of functions of f0 and f1, with derivatives f2 and f3. *)
Definition d_bin (b : bin) : expr :=
  match b with
  | Add => f2 [+] f3
  | Sub => f2 [-] f3
  | Mul => f0 [*] f3 [+] f2 [*] f1
  | Div => (f2 [-] f0 [*] (K 1 [/] f1) [*] f3) [*] (K 1 [/] f1)
  | Copysign => Bin Copysign (K 1) f0 [*] Bin Copysign (K 1) f1 [*] f2 [+] Un Abs f0 [*] K 0 [*] f3
  | Hypot => f0 [/] Bin Hypot f0 f1 [*] f2 [+] f1 [/] Bin Hypot f0 f1 [*] f3
  | Fmax | Fmin | Fdim => K 0                       (* not used *)
  | Midpoint => Bin Midpoint f2 f3
  | Atan2 => (K 1 [/] (f1 [*] f1 [+] f0 [*] f0)) [*] (Un Neg f0 [*] f3 [+] f1 [*] f2)
  | Pow => f1 [*] Bin Pow f0 (f1 [-] K 1) [*] f2 [+] Bin Pow f0 f1 [*] Un Log f0 [*] f3
  end.
Definition d_tern (t : tern) : expr :=
  match t with
  | Hypot3 => f0 [/] Tern Hypot3 f0 f1 f2 [*] f3 [+] f1 [/] Tern Hypot3 f0 f1 f2 [*] f4
              [+] f2 [/] Tern Hypot3 f0 f1 f2 [*] f5
  | Fma => f1 [*] f3 [+] f0 [*] f4 [+] f5
  | Lerp => (K 1 [-] f2) [*] f3 [+] f2 [*] f4 [+] (f1 [-] f0) [*] f5
  end.

(** A partial derivative as a jet with one derivative. *)
Section Partial.
Variables (y : list R) (i : nat).
Let line (F : list R -> R) (l : list R) : R := F (set_nth y i (nth 0 l 0)).
Let t0 := nth i y 0.

Lemma partial_good F d : is_partial F y i d -> good [t0] (line F) (mkJet (F y) [d]).
Proof.
  intros H. split; [|split; [reflexivity|]].
  - unfold line. cbn. unfold t0. now rewrite set_nth_id.
  - intros c t dv (C1 & _ & C2). pose proof (C2 0%nat (Nat.lt_0_succ 0)) as C.
    evar_last.
    + apply (chain (fun u => nth 0 (c u) 0) t _ C (fun u => F (set_nth y i u))).
      cbv beta. rewrite C1. exact H.
    + cbn. ring.
Qed.
Lemma good_partial F j : good [t0] (line F) j -> is_partial F y i (nth 0 (v j) 0).
Proof.
  intros (_ & _ & G). exact (derivative_partial _ _ _ 0 G (Nat.lt_0_succ 0)).
Qed.

Lemma partial_un u F d : is_partial F y i d -> un_smooth u (F y) ->
  is_partial (fun z => un_val u (F z)) y i (eval (d_un u) [F y; d]).
Proof.
  intros H S.
  assert (E : F y = line F [t0]) by (unfold line, t0; cbn; now rewrite set_nth_id).
  destruct (good_un [t0] u (line F) (mkJet (F y) [d]) (partial_good F d H)) as (j & Ej & Gj).
  { rewrite <- E. exact S. }
  assert (G : is_partial (fun z => un_val u (F z)) y i (nth 0 (v j) 0)) by (apply good_partial; exact Gj).
  evar_last; [exact G|]. clear - Ej S.
  destruct u; cbn in Ej; try (injection Ej as <-); cbn [d_un eval un_val bin_val nth v scl map];
    cbn; unfold std_copysign, Rdiv; rewrite ?Rabs_R1; try ring.
  - cbn in S. unfold jet_s_pow in Ej. cbn [a v] in Ej.
    destruct (Req_bool_spec s 0) as [->|N].
    + rewrite Rlt_bool_true in Ej by (destruct S as [S|S]; lra). cbn in Ej. injection Ej as <-. reflexivity.
    + cbn [andb] in Ej. rewrite (Rlt_bool_false s 0) in Ej by (destruct S as [S|S]; lra).
      injection Ej as <-. cbn. ring.
Qed.

Lemma partial_bin b F G df dg : is_partial F y i df -> is_partial G y i dg -> bin_smooth b (F y) (G y) ->
  b <> Fmax -> b <> Fmin -> b <> Fdim ->
  is_partial (fun z => bin_val b (F z) (G z)) y i (eval (d_bin b) [F y; G y; df; dg]).
Proof.
  intros HF HG S B1 B2 B3.
  assert (E : F y = line F [t0]) by (unfold line, t0; cbn; now rewrite set_nth_id).
  assert (E2 : G y = line G [t0]) by (unfold line, t0; cbn; now rewrite set_nth_id).
  destruct (good_bin [t0] (line F) (line G) _ _ (partial_good F df HF) (partial_good G dg HG) b) as (j & Ej & Gj).
  { rewrite <- E, <- E2. exact S. }
  assert (P : is_partial (fun z => bin_val b (F z) (G z)) y i (nth 0 (v j) 0)) by (apply good_partial; exact Gj).
  evar_last; [exact P|]. clear - Ej S B1 B2 B3.
  destruct b; try congruence; cbn in Ej; try (injection Ej as <-); cbn.
  - ring.
  - ring.
  - ring.
  - unfold Rdiv; ring.
  - unfold std_copysign. rewrite Rabs_R1. cbn in S. rewrite Req_bool_false by tauto. ring.
  - ring.
  - reflexivity.
  - ring.
  - unfold jet_pow in Ej. cbn [a v padded] in Ej. cbn in S.
    rewrite Req_bool_false, (Rlt_bool_false (F y) 0) in Ej by lra. cbn in Ej. injection Ej as <-. cbn. ring.
Qed.

Lemma partial_tern t F G H df dg dh : is_partial F y i df -> is_partial G y i dg -> is_partial H y i dh ->
  tern_smooth t (F y) (G y) (H y) ->
  is_partial (fun z => tern_val t (F z) (G z) (H z)) y i (eval (d_tern t) [F y; G y; H y; df; dg; dh]).
Proof.
  intros HF HG HH S.
  assert (E : F y = line F [t0]) by (unfold line, t0; cbn; now rewrite set_nth_id).
  assert (E2 : G y = line G [t0]) by (unfold line, t0; cbn; now rewrite set_nth_id).
  assert (E3 : H y = line H [t0]) by (unfold line, t0; cbn; now rewrite set_nth_id).
  destruct (good_tern [t0] (line F) (line G) (line H) _ _ _ (partial_good F df HF) (partial_good G dg HG)
    (partial_good H dh HH) t) as (j & Ej & Gj).
  { rewrite <- E, <- E2, <- E3. exact S. }
  assert (P : is_partial (fun z => tern_val t (F z) (G z) (H z)) y i (nth 0 (v j) 0)) by (apply good_partial; exact Gj).
  evar_last; [exact P|]. clear - Ej.
  destruct t; cbn in Ej; injection Ej as <-; cbn; ring.
Qed.

Lemma partial_ext F G d : is_partial F y i d -> locally t0 (fun t => F (set_nth y i t) = G (set_nth y i t)) ->
  is_partial G y i d.
Proof.
  intros H L. unfold is_partial. apply (derive_near _ _ _ _ H). revert L. apply filter_imp. auto.
Qed.
End Partial.

(** *** Where the functions are smooth and take the same branches as at X *)
Definition un_dom (u : un) (X Y : R) : Prop :=
  match u with
  | PowS p => 0 < Y \/ exists m : Z, p = IZR m /\ 0 < X * Y
  | _ => un_smooth u Y
  end.
Definition bin_dom (b : bin) (X1 X2 Y1 Y2 : R) : Prop :=
  match b with
  | Fmax | Fmin | Fdim => (X1 < X2 /\ Y1 < Y2) \/ (X2 < X1 /\ Y2 < Y1)
  | _ => bin_smooth b Y1 Y2
  end.
Fixpoint dom (e : expr) (X Y : list R) : Prop :=
  match e with
  | Var i => (i < List.length Y)%nat
  | Const _ => True
  | Un u e => dom e X Y /\ un_dom u (eval e X) (eval e Y)
  | Bin b e1 e2 => dom e1 X Y /\ dom e2 X Y /\
      (bin_dom b (eval e1 X) (eval e2 X) (eval e1 Y) (eval e2 Y) \/
       b = Pow /\ exists m : Z, e2 = Const (IZR m) /\ 0 < eval e1 X * eval e1 Y)
  | Tern t e1 e2 e3 => dom e1 X Y /\ dom e2 X Y /\ dom e3 X Y /\
      tern_smooth t (eval e1 Y) (eval e2 Y) (eval e3 Y)
  | If c e1 e2 e3 e4 => dom e1 X Y /\ dom e2 X Y /\ eval e1 Y <> eval e2 Y /\
      cmp_val c (eval e1 Y) (eval e2 Y) = cmp_val c (eval e1 X) (eval e2 X) /\
      if cmp_val c (eval e1 X) (eval e2 X) then dom e3 X Y else dom e4 X Y
  end.

Lemma un_dom_smooth u X Y : un_dom u X Y -> un_smooth u Y.
Proof.
  destruct u; cbn; try tauto. intros [H|(m & E & H)]; [now left|right].
  exists m; split; [exact E|left]. intros ->. lra.
Qed.
Lemma bin_dom_smooth b X1 X2 Y1 Y2 : bin_dom b X1 X2 Y1 Y2 -> bin_smooth b Y1 Y2.
Proof. destruct b; cbn; try tauto; lra. Qed.
Lemma dom_smooth e X Y : dom e X Y -> smooth e Y.
Proof.
  induction e as [i|c|u e IH|b e1 IH1 e2 IH2|t e1 IH1 e2 IH2 e3 IH3|c e1 IH1 e2 IH2 e3 IH3 e4 IH4]; cbn.
  - auto.
  - auto.
  - intros (D1 & D2). split; [auto|]. revert D2. apply un_dom_smooth.
  - intros (D1 & D2 & D3). split; [auto|split; [auto|]]. destruct D3 as [D3|(-> & m & -> & D3)].
    + left. revert D3. apply bin_dom_smooth.
    + right. split; [reflexivity|]. exists m. split; [reflexivity|left]. intros E. rewrite E in D3. lra.
  - tauto.
  - intros (D1 & D2 & D3 & D4 & D5). split; [auto|split; [auto|split; [exact D3|]]]. rewrite D4.
    destruct (cmp_val c (eval e1 X) (eval e2 X)); auto.
Qed.
Lemma smooth_dom e X : smooth e X -> nonzero_bases e X -> dom e X X.
Proof.
  induction e as [i|c|u e IH|b e1 IH1 e2 IH2|t e1 IH1 e2 IH2 e3 IH3|c e1 IH1 e2 IH2 e3 IH3 e4 IH4]; cbn.
  - auto.
  - auto.
  - intros (S1 & S2) (N1 & N2). split; [auto|]. destruct u; cbn in *; try assumption.
    destruct S2 as [S2|(m & E & _)]; [now left|right]. exists m. split; [exact E|]. nra.
  - intros (S1 & S2 & S3) (N1 & N2 & N3). split; [auto|split; [auto|]].
    destruct S3 as [S3|(-> & m & E & _)].
    + left. destruct b; cbn in *; try assumption; lra.
    + right. split; [reflexivity|]. exists m. split; [exact E|]. nra.
  - tauto.
  - intros (S1 & S2 & S3 & S4) (N1 & N2 & N3 & N4).
    split; [auto|split; [auto|split; [exact S3|split; [reflexivity|]]]].
    destruct (cmp_val c (eval e1 X) (eval e2 X)); auto.
Qed.

(** The set is open along the axes. *)
Lemma near_not_int (f : R -> R) t df : is_derive f t df -> not_int (f t) -> locally t (fun u => not_int (f u)).
Proof.
  intros H N.
  assert (L : IZR (Zfloor (f t)) < f t).
  { destruct (Zfloor_lb (f t)) as [L|L]; [exact L|]. destruct (N (Zfloor (f t))). now symmetry. }
  pose proof (Zfloor_ub (f t)) as U.
  eapply filter_imp; [|apply filter_and; [apply (near_gt_c f t df _ H L)|apply (near_lt_c f t df _ H U)]].
  cbn. intros u (A & B) z E. rewrite E in A, B. apply lt_IZR in A. rewrite <- plus_IZR in B. apply lt_IZR in B. lia.
Qed.
Lemma near_ne_c (f : R -> R) t df c : is_derive f t df -> f t <> c -> locally t (fun u => f u <> c).
Proof.
  intros H N. apply (near_ne f (fun _ => c) t df 0 H); [apply (is_derive_const (K := R_AbsRing) (V := R_NormedModule))|exact N].
Qed.
Lemma near_same_sign (f : R -> R) t df X : is_derive f t df -> 0 < X * f t -> locally t (fun u => 0 < X * f u).
Proof.
  intros H N. assert (D : is_derive (fun u => X * f u) t (X * df)).
  { apply (chain f t df H (fun u => X * u)). auto_derive; [trivial|ring]. }
  now apply (near_gt_c _ _ _ _ D).
Qed.

Lemma un_dom_open u X (f : R -> R) t df : is_derive f t df -> un_dom u X (f t) -> locally t (fun s => un_dom u X (f s)).
Proof.
  intros H. destruct u; cbn; intros D; try (apply filter_forall; intros; exact I);
    try (now apply (near_ne_c f t df)); try (now apply (near_gt_c f t df)); try (now apply (near_not_int f t df));
    try (apply filter_and; [apply (near_gt_c f t df)|apply (near_lt_c f t df)]; tauto);
    try (apply filter_forall; intros; exact D).
  - apply (near_ne_c (fun s => cos (f s)) t (- sin (f t) * df)); [|exact D].
    apply (chain f t df H cos). apply d_cos.
  - destruct D as [D|(m & E & D)].
    + eapply filter_imp; [|apply (near_gt_c f t df _ H D)]. cbn; auto.
    + eapply filter_imp; [|apply (near_same_sign f t df _ H D)]. cbn. intros s Hs. right. eauto.
  - destruct D as [D|(E & D)].
    + apply filter_forall. auto.
    + eapply filter_imp; [|apply (near_gt_c f t df _ H D)]. cbn; auto.
Qed.
Lemma bin_dom_open b X1 X2 (f g : R -> R) t df dg : is_derive f t df -> is_derive g t dg ->
  bin_dom b X1 X2 (f t) (g t) -> locally t (fun s => bin_dom b X1 X2 (f s) (g s)).
Proof.
  intros H G. destruct b; cbn; intros D; try (apply filter_forall; intros; exact I);
    try (now apply (near_ne_c g t dg)); try (now apply (near_gt_c f t df)).
  - apply filter_and; [now apply (near_ne_c f t df)|now apply (near_ne_c g t dg)].
  - destruct D as [D|D].
    + eapply filter_imp; [|apply (near_ne_c f t df _ H D)]. cbn; auto.
    + eapply filter_imp; [|apply (near_ne_c g t dg _ G D)]. cbn; auto.
  - destruct D as [(A & D)|(A & D)].
    + eapply filter_imp; [|apply (near_lt f g t df dg H G D)]. cbn; auto.
    + eapply filter_imp; [|apply (near_lt g f t dg df G H D)]. cbn; auto.
  - destruct D as [(A & D)|(A & D)].
    + eapply filter_imp; [|apply (near_lt f g t df dg H G D)]. cbn; auto.
    + eapply filter_imp; [|apply (near_lt g f t dg df G H D)]. cbn; auto.
  - destruct D as [(A & D)|(A & D)].
    + eapply filter_imp; [|apply (near_lt f g t df dg H G D)]. cbn; auto.
    + eapply filter_imp; [|apply (near_lt g f t dg df G H D)]. cbn; auto.
  - destruct D as [D|D].
    + eapply filter_imp; [|apply (near_gt_c g t dg _ G D)]. cbn; auto.
    + eapply filter_imp; [|apply (near_ne_c f t df _ H D)]. cbn; auto.
Qed.
Lemma tern_dom_open r (f g h : R -> R) t df dg dh : is_derive f t df -> is_derive g t dg -> is_derive h t dh ->
  tern_smooth r (f t) (g t) (h t) -> locally t (fun s => tern_smooth r (f s) (g s) (h s)).
Proof.
  intros F G H. destruct r; cbn; intros D; try (apply filter_forall; intros; exact I).
  destruct D as [D|[D|D]].
  - eapply filter_imp; [|apply (near_ne_c f t df _ F D)]. cbn; auto.
  - eapply filter_imp; [|apply (near_ne_c g t dg _ G D)]. cbn; auto.
  - eapply filter_imp; [|apply (near_ne_c h t dh _ H D)]. cbn; auto.
Qed.

Lemma eval_partial e X y i : dom e X y -> (i < List.length y)%nat ->
  exists d, is_derive (fun t => eval e (set_nth y i t)) (nth i y 0) d.
Proof.
  intros D Hi. apply dom_smooth in D. destruct (good_expr y e D) as (j & _ & (_ & _ & G)).
  exists (nth i (v j) 0). exact (derivative_partial _ _ _ i G Hi).
Qed.
Lemma dom_open e X y i : dom e X y -> (i < List.length y)%nat ->
  locally (nth i y 0) (fun t => dom e X (set_nth y i t)).
Proof.
  intros D0 Hi. pose proof D0 as D. revert D.
  assert (E : forall e, eval e y = eval e (set_nth y i (nth i y 0))) by (intros e'; now rewrite set_nth_id).
  clear D0. induction e as [k|c|u e IH|b e1 IH1 e2 IH2|t e1 IH1 e2 IH2 e3 IH3|c e1 IH1 e2 IH2 e3 IH3 e4 IH4]; cbn.
  - intros D. apply filter_forall. intros t. now rewrite set_nth_len.
  - intros _. now apply filter_forall.
  - intros (D1 & D2). destruct (eval_partial e X y i D1 Hi) as (d & Hd). apply filter_and; [now apply IH|].
    apply (un_dom_open u (eval e X) _ _ d Hd). cbv beta. now rewrite <- E.
  - intros (D1 & D2 & D3). destruct (eval_partial e1 X y i D1 Hi) as (d & Hd).
    destruct (eval_partial e2 X y i D2 Hi) as (d' & Hd'). apply filter_and; [now apply IH1|apply filter_and; [now apply IH2|]].
    destruct D3 as [D3|(-> & m & E2 & D3)].
    + eapply filter_imp; [|apply (bin_dom_open b (eval e1 X) (eval e2 X) _ _ _ d d' Hd Hd'); cbv beta; rewrite <- !E; exact D3].
      cbn. auto.
    + eapply filter_imp; [|apply (near_same_sign _ _ d (eval e1 X) Hd); cbv beta; rewrite <- E; exact D3].
      cbn. intros s Hs. right. eauto.
  - intros (D1 & D2 & D3 & D4). destruct (eval_partial e1 X y i D1 Hi) as (d & Hd).
    destruct (eval_partial e2 X y i D2 Hi) as (d' & Hd'), (eval_partial e3 X y i D3 Hi) as (d'' & Hd'').
    repeat (apply filter_and; [auto|]). apply (tern_dom_open t _ _ _ _ d d' d'' Hd Hd' Hd''). cbv beta. now rewrite <- !E.
  - intros (D1 & D2 & D3 & D4 & D5). destruct (eval_partial e1 X y i D1 Hi) as (d & Hd).
    destruct (eval_partial e2 X y i D2 Hi) as (d' & Hd').
    apply filter_and; [auto|]. apply filter_and; [auto|]. apply filter_and.
    { apply (near_ne _ _ _ _ _ Hd Hd'). cbv beta. now rewrite <- !E. }
    apply filter_and.
    + pose proof (cmp_near c _ _ _ _ _ Hd Hd') as L. cbv beta in L. rewrite <- !E in L. specialize (L D3).
      eapply filter_imp; [|exact L]. cbn. intros s ->. exact D4.
    + destruct (cmp_val c (eval e1 X) (eval e2 X)); auto.
Qed.
