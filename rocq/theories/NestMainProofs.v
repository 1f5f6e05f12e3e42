(** Nested jets hold the higher derivatives: the induction on the depth. *)
From Coq Require Import ZArith List Bool Reals Lra Lia.
From Flocq Require Import Core.Raux.
From Coquelicot Require Import Coquelicot.
From Verif Require Import BaseModel FunModel JetModel SumSpec SumProofs JetSpec DerivProofs JetProofs NestModel NestSpec NestProofs.
Import ListNotations.
Open Scope R_scope.

Section Main.
Variables (n : nat) (P : list R -> Prop) (x : list R).
Hypotheses (Px : P x) (Open : open_axes n P).

Lemma open_near y i : P y -> (i < n)%nat -> locally (nth i y 0) (fun t => P (set_nth y i t)).
Proof using Open. intros Hy Hi. now apply Open. Qed.

Notation rep d := (derivatives n P d).
Notation N d := (nest n d).

Lemma rep_ext d : forall F G j, (forall y, P y -> F y = G y) -> rep d F x j -> rep d G x j.
Proof using Px Open.
  induction d as [|d IH]; intros F G j E.
  - cbn. intros ->. now apply E.
  - cbn. intros (A & L & H). split; [now apply (IH F)|]. split; [exact L|].
    intros i Hi. destruct (H i Hi) as (D & HD & RD). exists D. split; [|exact RD].
    intros y Py. apply (partial_ext y i F); [now apply HD|].
    eapply filter_imp; [|exact (open_near y i Py Hi)]. cbn. intros t Ht. now apply E.
Qed.
Lemma rep_re d : forall F j, rep d F x j -> re (N d) j = F x.
Proof. induction d as [|d IH]; intros F j; cbn; [auto|]. intros (A & _). now apply IH. Qed.
Lemma re_cst d c : re (N d) (cst (N d) c) = c.
Proof. induction d as [|d IH]; cbn; auto. Qed.
Lemma is_partial_const y i c : is_partial (fun _ => c) y i 0.
Proof. unfold is_partial. auto_derive; [trivial|reflexivity]. Qed.
Lemma rep_const d : forall c, rep d (fun _ => c) x (cst (N d) c).
Proof.
  induction d as [|d IH]; intros c; cbn; [reflexivity|]. split; [apply IH|].
  split; [apply repeat_length|]. intros i Hi. exists (fun _ => 0). split.
  - intros y _. apply is_partial_const.
  - rewrite nth_repeat_in by exact Hi. apply IH.
Qed.

(** What is to be proved about depth [d]. *)
Definition vals (fs : list (list R -> R)) (y : list R) : list R := map (fun f => f y) fs.
Definition closed (d : nat) : Prop := forall e fs js,
  Forall2 (fun F j => rep d F x j) fs js ->
  (forall y, P y -> dom e (vals fs x) (vals fs y)) ->
  rep d (fun y => eval e (vals fs y)) x (eval_num (N d) e js).

Lemma eval_real e xs : eval_num real_num e xs = eval e xs.
Proof.
  induction e as [i|c|u e IH|b e1 IH1 e2 IH2|t e1 IH1 e2 IH2 e3 IH3|c e1 IH1 e2 IH2 e3 IH3 e4 IH4]; cbn.
  - reflexivity.
  - reflexivity.
  - now rewrite IH.
  - now rewrite IH1, IH2.
  - now rewrite IH1, IH2, IH3.
  - now rewrite IH1, IH2, IH3, IH4.
Qed.
Lemma closed_0 : closed 0.
Proof.
  intros e fs js H _. cbn [derivatives nest]. rewrite eval_real. f_equal.
  induction H as [|F j fs js E _ IH]; [reflexivity|]. cbn. f_equal; [exact E|exact IH].
Qed.

Section Step.
Variable d : nat.
Hypothesis C : closed d.

(** A jet from its parts. *)
Lemma rep_parts F a v : rep d F x a -> List.length v = n ->
  (forall i, (i < n)%nat -> exists G, (forall y, P y -> is_partial F y i (G y)) /\ rep d G x (nth i v (cst (N d) 0))) ->
  rep (S d) F x (J a v).
Proof. intros A L H. cbn. auto. Qed.

Lemma closed_1 e F j : rep d F x j -> (forall y, P y -> dom e [F x] [F y]) ->
  rep d (fun y => eval e [F y]) x (eval_num (N d) e [j]).
Proof using C. intros R1 D. apply (C e [F] [j]); [repeat constructor; assumption|exact D]. Qed.
Lemma closed_2 e F G j l : rep d F x j -> rep d G x l -> (forall y, P y -> dom e [F x; G x] [F y; G y]) ->
  rep d (fun y => eval e [F y; G y]) x (eval_num (N d) e [j; l]).
Proof using C. intros R1 R2 D. apply (C e [F; G] [j; l]); [repeat constructor; assumption|exact D]. Qed.

Lemma step_un_gen u F (j : gjet (tower d)) : rep (S d) F x j ->
  (forall y, P y -> un_dom u (F x) (F y)) ->
  (forall y e, P y -> dom (d_un u) [F x; e x] [F y; e y]) ->
  ja (uno (N (S d)) u j) = uno (N d) u (ja j) \/ rep d (fun y => un_val u (F y)) x (ja (uno (N (S d)) u j)) ->
  List.length (jv (uno (N (S d)) u j)) = n ->
  (forall i, (i < n)%nat -> nth i (jv (uno (N (S d)) u j)) (cst (N d) 0) =
     eval_num (N d) (d_un u) [ja j; nth i (jv j) (cst (N d) 0)]) ->
  rep (S d) (fun y => un_val u (F y)) x (uno (N (S d)) u j).
Proof using C.
  intros (A & L & H) D1 D2 EA LV EV. cbn [derivatives].
  split; [|split; [exact LV|]].
  - destruct EA as [EA|EA]; [|exact EA]. rewrite EA.
    apply (closed_1 (Un u (Var 0)) F (ja j) A). intros y Py. cbn. split; [lia|]. now apply D1.
  - intros i Hi. destruct (H i Hi) as (G & HG & RG).
    exists (fun y => eval (d_un u) [F y; G y]). split.
    + intros y Py. apply (partial_un y i u F (G y)); [now apply HG|]. apply (un_dom_smooth u (F x)). now apply D1.
    + rewrite EV by exact Hi. apply closed_2; [exact A|exact RG|]. intros y Py. now apply (D2 y G).
Qed.

(** Domains of the derivatives. *)
Lemma sq_pos p : p <> 0 -> p * p <> 0.
Proof. intros H E. apply Rmult_integral in E. tauto. Qed.
Lemma ln10 : ln 10 <> 0. Proof. pose proof (ln_pos 10). lra. Qed.
Lemma ln2 : ln 2 <> 0. Proof. pose proof (ln_pos 2). lra. Qed.
Lemma sqrt_ne p : 0 < p -> sqrt p <> 0.
Proof. intros H. pose proof (sqrt_lt_R0 p H). lra. Qed.
Lemma cbrt_ne p : p <> 0 -> std_cbrt (p * p) <> 0.
Proof.
  intros H. assert (0 < p * p) by nra. rewrite cbrt_pos by assumption. unfold Rpower.
  pose proof (exp_pos (/ 3 * ln (p * p))). lra.
Qed.
Lemma sqrt_atan_ne : sqrt (atan 1) <> 0.
Proof. apply sqrt_ne. rewrite atan_1. pose proof PI_RGT_0. lra. Qed.
Lemma atan1_pos : 0 < atan 1.
Proof. rewrite atan_1. pose proof PI_RGT_0. lra. Qed.

Lemma dom_d_un u X Y e e' : un_dom u X Y -> un_dom u X X -> dom (d_un u) [X; e] [Y; e'].
Proof.
  destruct u; cbn; intros D DX; repeat split; auto; try lia; try (left; exact I); try exact ln10; try exact ln2;
    try (left; repeat split; auto; lra).
  - lra.
  - left. apply Rmult_integral_contrapositive_currified; [lra|exact ln10].
  - left. apply Rmult_integral_contrapositive_currified; [lra|now apply sqrt_ne].
  - nra.
  - left. apply sqrt_ne. nra.
  - nra.
  - left. apply sqrt_ne. nra.
  - left. nra.
  - left. apply Rmult_integral_contrapositive_currified; [lra|now apply cbrt_ne].
  - lra.
  - lra.
  - left. apply Rmult_integral_contrapositive_currified; [lra|exact ln2].
  - exact atan1_pos.
  - left. exact sqrt_atan_ne.
  - exact atan1_pos.
  - left. exact sqrt_atan_ne.
  - destruct D as [D|(m & -> & D)]; [now left|right]. split; [reflexivity|]. exists (m - 1)%Z.
    split; [now rewrite minus_IZR|exact D].
  - destruct (Req_bool_spec s 0) as [E|E]; cbn; [exact I|]. assert (0 < s) by (destruct D as [D|D]; lra).
    repeat split; auto; try (left; exact I); try lia.
Qed.

Lemma len_of F (j : gjet (tower d)) : rep (S d) F x j -> List.length (jv j) = n.
Proof. intros H. exact (proj1 (proj2 H)). Qed.
Lemma step_un u F (j : gjet (tower d)) : (forall y, P y -> un_dom u (F x) (F y)) -> rep (S d) F x j ->
  rep (S d) (fun y => un_val u (F y)) x (uno (N (S d)) u j).
Proof using C Px Open.
  intros D H. pose proof (len_of F j H) as L. pose proof H as (A & _ & _).
  assert (M : forall (g : tower d -> tower d) i, (i < n)%nat ->
    nth i (map g (jv j)) (cst (N d) 0) = g (nth i (jv j) (cst (N d) 0))).
  { intros g i Hi. apply nth_map_in. now rewrite L. }
  assert (Z : forall i, (i < n)%nat -> nth i (repeat (cst (N d) 0) n) (cst (N d) 0) = cst (N d) 0).
  { intros i Hi. now apply nth_repeat_in. }
  apply step_un_gen; [exact H|exact D| | | |].
  - intros y e Py. apply dom_d_un; [now apply D|now apply D].
  - destruct u; try (left; reflexivity); right.
    + apply (closed_1 (Bin Add f0 (K s)) F (ja j) A). intros; cbn. repeat split; auto; lia.
    + apply (rep_ext d (fun y => F y + s)); [intros; cbn; ring|].
      apply (closed_1 (Bin Add f0 (K s)) F (ja j) A). intros; cbn. repeat split; auto; lia.
    + apply (closed_1 (Bin Sub f0 (K s)) F (ja j) A). intros; cbn. repeat split; auto; lia.
    + apply (closed_1 (Bin Sub (K s) f0) F (ja j) A). intros; cbn. repeat split; auto; lia.
    + apply (closed_1 (Bin Mul f0 (K s)) F (ja j) A). intros; cbn. repeat split; auto; lia.
    + apply (rep_ext d (fun y => F y * s)); [intros; cbn; ring|].
      apply (closed_1 (Bin Mul f0 (K s)) F (ja j) A). intros; cbn. repeat split; auto; lia.
    + apply (closed_1 (Bin Div (K s) f0) F (ja j) A). intros y Py; cbn. split; [exact I|split; [lia|left; exact (D y Py)]].
    + apply (rep_ext d (fun y => F y * (1 / s))).
      { intros y Py; cbn. pose proof (D y Py) as S0. cbn in S0. now field. }
      apply (closed_1 (Bin Mul f0 (Bin Div (K 1) (K s))) F (ja j) A). intros y Py; cbn.
      split; [lia|split; [split; [exact I|split; [exact I|left; exact (D y Py)]]|left; exact I]].
    + cbn [nest jet_num uno nest_un]. rewrite re_cst, (rep_re d F (ja j) A). pose proof (D x Px) as Dx. cbn in Dx.
      destruct (Req_bool_spec s 0) as [E|E]; cbn [andb].
      * rewrite Rlt_bool_true by lra. apply (rep_ext d (fun _ => 0)); [|apply rep_const].
        intros y Py. cbn. pose proof (D y Py) as Dy. cbn in Dy. subst s. unfold std_pow.
        rewrite Rlt_bool_false, Req_bool_true, Req_bool_false by lra. reflexivity.
      * rewrite (Rlt_bool_false s 0) by lra. cbn [andb ja].
        apply (closed_1 (Bin Pow (K s) f0) F (ja j) A). intros y Py. cbn. repeat split; [lia|left; lra].
  - destruct u; cbn; unfold jconst; cbn; rewrite ?map_length, ?repeat_length; auto.
    repeat match goal with |- context [if ?b then _ else _] => destruct b end; cbn; rewrite ?map_length, ?repeat_length; auto.
  - intros i Hi. destruct u; cbn [nest jet_num uno nest_un jv jconst d_un]; try (rewrite M by exact Hi; reflexivity);
      try (rewrite Z by exact Hi; reflexivity); try reflexivity.
    + rewrite M by exact Hi. cbn [eval_num nth]. now rewrite cst_ssub.
    + rewrite re_cst, (rep_re d F (ja j) A). pose proof (D x Px) as Dx. cbn in Dx.
      destruct (Req_bool_spec s 0) as [E|E]; cbn [andb].
      * rewrite Rlt_bool_true by lra. cbn [jconst jv]. now rewrite Z.
      * rewrite (Rlt_bool_false s 0) by lra. cbn [andb jv]. now rewrite M.
Qed.

Lemma step_bin_gen b F G (j l : gjet (tower d)) : rep (S d) F x j -> rep (S d) G x l ->
  b <> Fmax -> b <> Fmin -> b <> Fdim ->
  (forall y, P y -> bin_dom b (F x) (G x) (F y) (G y)) ->
  (forall y e e', P y -> dom (d_bin b) [F x; G x; e x; e' x] [F y; G y; e y; e' y]) ->
  rep d (fun y => bin_val b (F y) (G y)) x (ja (bino (N (S d)) b j l)) ->
  List.length (jv (bino (N (S d)) b j l)) = n ->
  (forall i, (i < n)%nat -> nth i (jv (bino (N (S d)) b j l)) (cst (N d) 0) =
     eval_num (N d) (d_bin b) [ja j; ja l; nth i (jv j) (cst (N d) 0); nth i (jv l) (cst (N d) 0)]) ->
  rep (S d) (fun y => bin_val b (F y) (G y)) x (bino (N (S d)) b j l).
Proof using C.
  intros (A & L & H) (A' & L' & H') B1 B2 B3 D1 D2 EA LV EV. cbn [derivatives].
  split; [exact EA|split; [exact LV|]].
  intros i Hi. destruct (H i Hi) as (D & HD & RD), (H' i Hi) as (E & HE & RE).
  exists (fun y => eval (d_bin b) [F y; G y; D y; E y]). split.
  - intros y Py. apply (partial_bin y i b F G (D y) (E y)); auto. apply (bin_dom_smooth b (F x) (G x)). now apply D1.
  - rewrite EV by exact Hi. apply (C (d_bin b) [F; G; D; E]); [repeat constructor; assumption|].
    intros y Py. now apply (D2 y D E).
Qed.

Lemma dom_d_bin b X1 X2 Y1 Y2 e1 e2 e1' e2' : bin_dom b X1 X2 Y1 Y2 ->
  dom (d_bin b) [X1; X2; e1; e2] [Y1; Y2; e1'; e2'].
Proof.
  destruct b; cbn; intros D; repeat split; auto; try lia; try (left; exact I); try (left; repeat split; auto; lra); try tauto.
  - left. unfold std_hypot. apply sqrt_ne. nra.
  - left. unfold std_hypot. apply sqrt_ne. nra.
  - left. nra.
Qed.

Lemma step_bin b F G (j l : gjet (tower d)) : (forall y, P y -> bin_dom b (F x) (G x) (F y) (G y)) ->
  rep (S d) F x j -> rep (S d) G x l ->
  rep (S d) (fun y => bin_val b (F y) (G y)) x (bino (N (S d)) b j l).
Proof using C Px Open.
  assert (Main : forall b, b <> Fmax -> b <> Fmin -> b <> Fdim ->
    (forall y, P y -> bin_dom b (F x) (G x) (F y) (G y)) ->
    rep (S d) F x j -> rep (S d) G x l ->
    rep (S d) (fun y => bin_val b (F y) (G y)) x (bino (N (S d)) b j l)).
  { clear b. intros b B1 B2 B3 D H1 H2. pose proof (len_of F j H1) as L. pose proof H1 as (A & _ & _). pose proof (len_of G l H2) as L'. pose proof H2 as (A' & _ & _).
    assert (LL : List.length (jv j) = List.length (jv l)) by now rewrite L, L'.
    assert (M : forall (g : tower d -> tower d -> tower d) i, (i < n)%nat ->
      nth i (zip2 g (jv j) (jv l)) (cst (N d) 0) = g (nth i (jv j) (cst (N d) 0)) (nth i (jv l) (cst (N d) 0))).
    { intros g i Hi. apply nth_zip2; [exact LL|now rewrite L]. }
    assert (V : rep d (fun y => bin_val b (F y) (G y)) x (bino (N d) b (ja j) (ja l))).
    { apply (closed_2 (Bin b f0 f1) F G); [exact A|exact A'|]. intros y Py. cbn. repeat split; [lia|lia|left]. now apply D. }
    apply step_bin_gen; try assumption.
    - intros y e e' Py. apply dom_d_bin. now apply D.
    - destruct b; try congruence; try exact V.
      + cbn [nest jet_num bino nest_bin ja].
        apply (rep_ext d (fun y => F y * (1 / G y))).
        { intros y Py. pose proof (D y Py) as Dy. cbn in Dy. cbn. now field. }
        apply (closed_2 (f0 [*] (K 1 [/] f1)) F G); [exact A|exact A'|]. intros y Py. pose proof (D y Py) as Dy. cbn in Dy.
        cbn. repeat split; auto; lia.
      + cbn [nest jet_num bino nest_bin]. rewrite (rep_re d F (ja j) A). pose proof (D x Px) as Dx. cbn in Dx.
        rewrite Req_bool_false, (Rlt_bool_false (F x) 0) by lra. exact V.
    - destruct b; try congruence; cbn; rewrite ?zip2_len; auto.
      rewrite (rep_re d F (ja j) A). pose proof (D x Px) as Dx. cbn in Dx.
      rewrite Req_bool_false, (Rlt_bool_false (F x) 0) by lra. cbn. rewrite zip2_len; auto.
    - intros i Hi. destruct b; try congruence; try (cbn [nest jet_num bino nest_bin nest_midpoint jv]; rewrite M by exact Hi; reflexivity).
      + cbn [nest jet_num bino nest_bin jv]. rewrite M by exact Hi. rewrite (rep_re d G (ja l) A').
        pose proof (D x Px) as Dx. cbn in Dx. rewrite Req_bool_false by tauto. reflexivity.
      + cbn [nest jet_num bino nest_bin]. rewrite (rep_re d F (ja j) A). pose proof (D x Px) as Dx. cbn in Dx.
        rewrite Req_bool_false, (Rlt_bool_false (F x) 0) by lra. cbn [andb jv]. rewrite M by exact Hi. reflexivity. }
  intros D H1 H2. pose proof (len_of F j H1) as L. pose proof H1 as (A & _ & _). pose proof (len_of G l H2) as L'. pose proof H2 as (A' & _ & _).
  destruct b; try (apply Main; [discriminate|discriminate|discriminate|exact D|exact H1|exact H2]).
  - cbn [nest jet_num bino nest_bin]. rewrite (rep_re d F (ja j) A), (rep_re d G (ja l) A').
    destruct (D x Px) as [Dx|Dx]; cbn in Dx.
    + rewrite (Rlt_bool_true (F x) (G x)) by tauto. cbn [orb]. apply (rep_ext (S d) G); [|exact H2].
      intros y Py. destruct (D y Py) as [Dy|Dy]; cbn in Dy; cbn; [|lra]. symmetry. apply Rmax_right. lra.
    + rewrite (Rlt_bool_false (F x) (G x)), (Rlt_bool_true (G x) (F x)) by lra. cbn [orb]. apply (rep_ext (S d) F); [|exact H1].
      intros y Py. destruct (D y Py) as [Dy|Dy]; cbn in Dy; cbn; [lra|]. symmetry. apply Rmax_left. lra.
  - cbn [nest jet_num bino nest_bin]. rewrite (rep_re d F (ja j) A), (rep_re d G (ja l) A').
    destruct (D x Px) as [Dx|Dx]; cbn in Dx.
    + rewrite (Rlt_bool_true (F x) (G x)), (Rlt_bool_false (G x) (F x)) by lra. cbn [orb]. apply (rep_ext (S d) F); [|exact H1].
      intros y Py. destruct (D y Py) as [Dy|Dy]; cbn in Dy; cbn; [|lra]. symmetry. apply Rmin_left. lra.
    + rewrite (Rlt_bool_false (F x) (G x)), (Rlt_bool_true (G x) (F x)) by lra. cbn [orb]. apply (rep_ext (S d) G); [|exact H2].
      intros y Py. destruct (D y Py) as [Dy|Dy]; cbn in Dy; cbn; [lra|]. symmetry. apply Rmin_right. lra.
  - destruct (D x Px) as [Dx|Dx]; cbn in Dx.
    + cbn [nest jet_num bino nest_bin]. rewrite (rep_re d F (ja j) A), (rep_re d G (ja l) A').
      rewrite (Rlt_bool_false (G x) (F x)) by lra. apply (rep_ext (S d) (fun _ => 0)); [|apply (rep_const (S d) 0)].
      intros y Py. destruct (D y Py) as [Dy|Dy]; cbn in Dy; cbn; [|lra]. symmetry. apply Rmax_right. lra.
    + apply (rep_ext (S d) (fun y => F y - G y)).
      { intros y Py. destruct (D y Py) as [Dy|Dy]; cbn in Dy; cbn; [lra|]. symmetry. apply Rmax_left. lra. }
      assert (Q : bino (N (S d)) Fdim j l = bino (N (S d)) Sub j l).
      { cbn [nest jet_num bino nest_bin]. rewrite (rep_re d F (ja j) A), (rep_re d G (ja l) A').
        rewrite (Rlt_bool_true (G x) (F x)) by lra. reflexivity. }
      rewrite Q. apply (Main Sub); [discriminate|discriminate|discriminate|intros; exact I|exact H1|exact H2].
Qed.

Lemma step_tern t F G H (j l q : gjet (tower d)) : (forall y, P y -> tern_smooth t (F y) (G y) (H y)) ->
  rep (S d) F x j -> rep (S d) G x l -> rep (S d) H x q ->
  rep (S d) (fun y => tern_val t (F y) (G y) (H y)) x (terno (N (S d)) t j l q).
Proof using C.
  intros D R1 R2 R3. pose proof (len_of F j R1) as L1. pose proof (len_of G l R2) as L2. pose proof (len_of H q R3) as L3.
  destruct R1 as (A1 & _ & H1), R2 as (A2 & _ & H2), R3 as (A3 & _ & H3).
  assert (L12 : List.length (jv j) = List.length (jv l)) by now rewrite L1, L2.
  assert (L13 : List.length (jv j) = List.length (jv q)) by now rewrite L1, L3.
  cbn [derivatives]. split; [|split].
  - assert (E : ja (terno (N (S d)) t j l q) = terno (N d) t (ja j) (ja l) (ja q)) by now destruct t.
    rewrite E. apply (C (Tern t f0 f1 f2) [F; G; H] [ja j; ja l; ja q]); [repeat constructor; assumption|].
    intros y Py. cbn. repeat split; try lia. now apply D.
  - destruct t; cbn; rewrite zip3_len; auto.
  - intros i Hi. destruct (H1 i Hi) as (D1 & HD1 & RD1), (H2 i Hi) as (D2 & HD2 & RD2), (H3 i Hi) as (D3 & HD3 & RD3).
    exists (fun y => eval (d_tern t) [F y; G y; H y; D1 y; D2 y; D3 y]). split.
    + intros y Py. apply (partial_tern y i t F G H); auto.
    + assert (E : nth i (jv (terno (N (S d)) t j l q)) (cst (N d) 0) = eval_num (N d) (d_tern t)
        [ja j; ja l; ja q; nth i (jv j) (cst (N d) 0); nth i (jv l) (cst (N d) 0); nth i (jv q) (cst (N d) 0)]).
      { assert (Hj : (i < List.length (jv j))%nat) by now rewrite L1. destruct t; cbn [nest jet_num terno nest_tern jv]; (rewrite nth_zip3; [reflexivity|exact L12|exact L13|exact Hj]). }
      rewrite E. apply (C (d_tern t) [F; G; H; D1; D2; D3]); [repeat constructor; assumption|].
      intros y Py. pose proof (D y Py) as Dy.
      destruct t; cbn in *; repeat split; auto; try lia; try (left; exact I);
        left; unfold std_hypot3; apply sqrt_ne; nra.
Qed.

(** pow(Jet, Jet) with an integer constant. *)
Lemma step_pow_int m F (j : gjet (tower d)) : (forall y, P y -> 0 < F y \/ 0 < F x * F y) -> rep (S d) F x j ->
  rep (S d) (fun y => std_pow (F y) (IZR m)) x (bino (N (S d)) Pow j (cst (N (S d)) (IZR m))).
Proof using C Px Open.
  intros D H. pose proof (len_of F j H) as L. pose proof H as (A & _ & HD).
  assert (NZ : forall y, P y -> F y <> 0). { intros y Py E. pose proof (D y Py) as Dy. rewrite E in Dy. lra. }
  assert (PW : forall k, rep d (fun y => std_pow (F y) (IZR k)) x (bino (N d) Pow (ja j) (cst (N d) (IZR k)))).
  { intros k. apply (closed_1 (Bin Pow f0 (K (IZR k))) F (ja j) A). intros y Py. cbn.
    split; [lia|split; [exact I|]]. destruct (D y Py) as [Dy|Dy]; [now left|right].
    split; [reflexivity|]. exists k. split; [reflexivity|exact Dy]. }
  set (g := fun (e : list R -> R) y => IZR m * std_pow (F y) (IZR (m - 1)) * e y).
  assert (PD : forall i G, (i < n)%nat -> (forall y, P y -> is_partial F y i (G y)) ->
    forall y, P y -> is_partial (fun z => std_pow (F z) (IZR m)) y i (g G y)).
  { intros i G Hi HG y Py.
    pose proof (partial_un y i (PowS (IZR m)) F (G y) (HG y Py)) as Q. cbn in Q. unfold g. rewrite minus_IZR.
    refine (Q _). right. exists m. split; [reflexivity|left; now apply NZ]. }
  assert (RD : forall i G, (forall y, P y -> is_partial F y i (G y)) -> rep d G x (nth i (jv j) (cst (N d) 0)) ->
    rep d (g G) x (bino (N d) Mul (bino (N d) Mul (cst (N d) (IZR m)) (bino (N d) Pow (ja j) (cst (N d) (IZR (m - 1)))))
      (nth i (jv j) (cst (N d) 0)))).
  { intros i G HG RG. apply (closed_2 (K (IZR m) [*] Bin Pow f0 (K (IZR (m - 1))) [*] f1) F G); [exact A|exact RG|].
    intros y Py. cbn. repeat split; auto; try lia. destruct (D y Py) as [Dy|Dy]; [now left|right].
    split; [reflexivity|]. exists (m - 1)%Z. split; [reflexivity|exact Dy]. }
  cbn [nest jet_num bino nest_bin cst]. unfold jconst; cbn [ja jv].
  rewrite re_cst, (rep_re d F (ja j) A), Req_bool_false by now apply NZ. cbn [andb].
  rewrite cst_sub, <- minus_IZR.
  assert (FL : re (N d) (uno (N d) Floor (cst (N d) (IZR m))) = IZR m).
  { assert (Q : forall k, re (N k) (uno (N k) Floor (cst (N k) (IZR m))) = std_floor (IZR m)).
    { induction k as [|k IHk]; [reflexivity|exact IHk]. }
    rewrite Q. unfold std_floor. now rewrite Zfloor_IZR. }
  rewrite FL, Req_bool_true by reflexivity. rewrite Bool.andb_true_r.
  assert (LR : List.length (jv j) = List.length (repeat (cst (N d) 0) n)) by now rewrite repeat_length.
  destruct (Rlt_bool_spec (F x) 0) as [S0|S0].
  - apply rep_parts; [apply PW|rewrite zip2_len; assumption|].
    intros i Hi. destruct (HD i Hi) as (G & HG & RG). exists (g G). split; [now apply PD|].
    rewrite nth_zip2; [|exact LR|now rewrite L]. rewrite nth_repeat_in by exact Hi.
    rewrite re_cst, Req_bool_true by reflexivity. now apply RD.
  - assert (POS : forall y, P y -> 0 < F y).
    { intros y Py. pose proof (D y Py) as Dy. destruct Dy as [Dy|Dy]; [exact Dy|]. assert (0 < F x) by (destruct S0 as [S0|S0]; [exact S0|rewrite <- S0 in Dy; lra]). nra. }
    apply rep_parts; [apply PW|rewrite zip2_len; assumption|].
    intros i Hi. destruct (HD i Hi) as (G & HG & RG). exists (g G). split; [now apply PD|].
    rewrite nth_zip2; [|exact LR|now rewrite L]. rewrite nth_repeat_in by exact Hi.
    apply (rep_ext d (fun y => IZR m * std_pow (F y) (IZR (m - 1)) * G y + std_pow (F y) (IZR m) * ln (F y) * 0)).
    { intros y Py. unfold g. ring. }
    apply (closed_2 (K (IZR m) [*] Bin Pow f0 (K (IZR (m - 1))) [*] f1 [+] Bin Pow f0 (K (IZR m)) [*] Un Log f0 [*] K 0) F G);
      [exact A|exact RG|].
    intros y Py. pose proof (POS y Py). cbn. repeat split; auto; try lia.
Qed.

Lemma step : closed (S d).
Proof using C Px Open.
  intros e fs js H.
  induction e as [i|c|u e IH|b e1 IH1 e2 IH2|t e1 IH1 e2 IH2 e3 IH3|c e1 IH1 e2 IH2 e3 IH3 e4 IH4]; intros D.
  - pose proof (D x Px) as Dx. cbn [dom] in Dx. unfold vals in Dx. rewrite map_length in Dx.
    cbn [eval eval_num]. clear D. revert i Dx. induction H as [|F j fs js HF _ IH]; intros i Dx; cbn in Dx; [lia|].
    destruct i as [|i]; [exact HF|]. cbn [vals map nth]. apply IH. lia.
  - apply (rep_const (S d) c).
  - cbn [eval eval_num]. apply step_un; [intros y Py; now apply D|]. apply IH. intros y Py. now apply D.
  - assert (R1 : rep (S d) (fun y => eval e1 (vals fs y)) x (eval_num (N (S d)) e1 js)) by (apply IH1; intros y Py; now apply D).
    assert (R2 : rep (S d) (fun y => eval e2 (vals fs y)) x (eval_num (N (S d)) e2 js)) by (apply IH2; intros y Py; now apply D).
    destruct (D x Px) as (_ & _ & [Dx|(-> & m & -> & Dx)]).
    + assert (Q : (forall y, P y -> bin_dom b (eval e1 (vals fs x)) (eval e2 (vals fs x)) (eval e1 (vals fs y)) (eval e2 (vals fs y)))
        \/ b = Pow /\ exists m, e2 = Const (IZR m) /\ forall y, P y -> 0 < eval e1 (vals fs y) \/ 0 < eval e1 (vals fs x) * eval e1 (vals fs y)).
      { destruct b; try (left; intros y Py; destruct (D y Py) as (_ & _ & [Dy|(E & _)]); [exact Dy|discriminate E]).
        destruct e2 as [ | c2 | | | | ];
          try (left; intros y Py; destruct (D y Py) as (_ & _ & [Dy|(_ & m & E & _)]); [exact Dy|discriminate E]).
        cbn in Dx. left. intros y Py. destruct (D y Py) as (_ & _ & [Dy|(_ & m & E & Dy)]); [exact Dy|]. cbn. nra. }
      destruct Q as [Q|(-> & m & -> & Q)]; cbn [eval eval_num].
      * apply step_bin; assumption.
      * cbn [bin_val]. now apply step_pow_int.
    + cbn [eval eval_num bin_val]. apply step_pow_int; [|exact R1].
      intros y Py. destruct (D y Py) as (_ & _ & [Dy|(_ & m' & E & Dy)]); [left; exact Dy|right; exact Dy].
  - cbn [eval eval_num]. apply step_tern; [intros y Py; now apply D| | |].
    + apply IH1. intros y Py. now apply D.
    + apply IH2. intros y Py. now apply D.
    + apply IH3. intros y Py. now apply D.
  - cbn [eval eval_num].
    assert (R1 : rep (S d) (fun y => eval e1 (vals fs y)) x (eval_num (N (S d)) e1 js)) by (apply IH1; intros y Py; now apply D).
    assert (R2 : rep (S d) (fun y => eval e2 (vals fs y)) x (eval_num (N (S d)) e2 js)) by (apply IH2; intros y Py; now apply D).
    rewrite (rep_re (S d) _ _ R1), (rep_re (S d) _ _ R2).
    destruct (cmp_val c (eval e1 (vals fs x)) (eval e2 (vals fs x))) eqn:E.
    + apply (rep_ext (S d) (fun y => eval e3 (vals fs y))).
      * intros y Py. destruct (D y Py) as (_ & _ & _ & -> & _). now rewrite E.
      * apply IH3. intros y Py. destruct (D y Py) as (_ & _ & _ & _ & Q). now rewrite E in Q.
    + apply (rep_ext (S d) (fun y => eval e4 (vals fs y))).
      * intros y Py. destruct (D y Py) as (_ & _ & _ & -> & _). now rewrite E.
      * apply IH4. intros y Py. destruct (D y Py) as (_ & _ & _ & _ & Q). now rewrite E in Q.
Qed.
End Step.

Lemma closed_all d : closed d.
Proof using Px Open. induction d as [|d IH]; [apply closed_0|now apply step]. Qed.
End Main.

(** *** User code *)
Lemma rep_var n P d x i : open_axes n P -> P x -> (i < n)%nat ->
  derivatives n P d (fun y => nth i y 0) x (nest_var n d (nth i x 0) i).
Proof.
  intros Open Px Hi. induction d as [|d IH]; [reflexivity|].
  cbn [derivatives nest_var jvar ja jv]. split; [exact IH|]. split; [now rewrite map_length, seq_length|].
  intros k Hk. rewrite (nth_map_in _ _ _ 0%nat) by now rewrite seq_length. rewrite seq_nth by exact Hk. change (0 + k)%nat with k.
  exists (fun _ => if (k =? i)%nat then 1 else 0). split.
  - intros y Py. unfold is_partial. assert (LY : (k < List.length y)%nat) by now rewrite (proj1 (Open y Py)).
    destruct (Nat.eqb_spec k i) as [E|E].
    + subst k. apply (is_derive_ext (fun t => t)); [intros t; symmetry; now apply set_nth_same|].
      auto_derive; [trivial|reflexivity].
    + apply (is_derive_ext (fun _ => nth i y 0)); [intros t; symmetry; apply set_nth_other; auto|].
      auto_derive; [trivial|reflexivity].
  - destruct (k =? i)%nat; [apply (rep_const n P x d 1)|apply (rep_const n P x d 0)].
Qed.

Definition nbhd (e : expr) (x y : list R) : Prop := List.length y = List.length x /\ dom e x y.
Lemma nbhd_open e x : open_axes (List.length x) (nbhd e x).
Proof.
  intros y (L & D). split; [exact L|]. intros i Hi.
  eapply filter_imp; [|apply (dom_open e x y i D); now rewrite L].
  cbn. intros t Ht. split; [now rewrite set_nth_len|exact Ht].
Qed.
Lemma vals_nth (x y : list R) : List.length y = List.length x -> vals (map (fun i z => nth i z 0) (seq 0 (List.length x))) y = y.
Proof.
  intros L. unfold vals. rewrite map_map, <- L. clear. 
  apply nth_ext with (d := 0) (d' := 0); rewrite map_length, seq_length; [reflexivity|].
  intros i Hi. rewrite (nth_map_in _ _ _ 0%nat) by now rewrite seq_length. now rewrite seq_nth.
Qed.
Lemma nested_lemma e x d : smooth e x -> nonzero_bases e x ->
  nbhd e x x /\ open_axes (List.length x) (nbhd e x) /\
  derivatives (List.length x) (nbhd e x) d (eval e) x (eval_num (nest (List.length x) d) e (nest_seeds d x)).
Proof.
  intros S0 NB. assert (Px : nbhd e x x) by (split; [reflexivity|now apply smooth_dom]).
  split; [exact Px|]. split; [apply nbhd_open|].
  set (n := List.length x). pose proof (nbhd_open e x) as Open.
  apply (rep_ext n _ x Px Open d (fun y => eval e (vals (map (fun i z => nth i z 0) (seq 0 n)) y))).
  - intros y (L & _). unfold n; now rewrite vals_nth.
  - apply (closed_all n _ x Px Open d).
    + unfold nest_seeds. fold n. assert (Q : forall i, In i (seq 0 n) -> (i < n)%nat) by (intros i Hi; apply in_seq in Hi; lia).
      induction (seq 0 n) as [|i l IH]; cbn; constructor.
      * apply rep_var; [exact Open|exact Px|apply Q; now left].
      * apply IH. intros k Hk. apply Q. now right.
    + intros y (L & D). unfold n. rewrite !vals_nth by auto. exact D.
Qed.

(** *** Iterated partial derivatives *)
Lemma partials_ext n P : open_axes n P -> forall (is : list nat) (F G : list R -> R), List.Forall (fun i => (i < n)%nat) is ->
  (forall y, P y -> F y = G y) -> forall y, P y -> partials F is y = partials G is y.
Proof.
  intros Open is. induction is as [|i is IH]; intros F G B E y Py; cbn; [now apply E|].
  inversion B as [|i' is' Hi B']; subst. apply IH; [exact B'| |exact Py]. intros z Pz. unfold partial.
  apply Derive_ext_loc. eapply filter_imp; [|exact (proj2 (Open z Pz) i Hi)]. cbn. intros t Ht. now apply E.
Qed.
Lemma entry_nil n d : forall F P x j, derivatives n P d F x j -> entry n d j [] = F x.
Proof. induction d as [|d IH]; intros F P x j H; [exact H|]. cbn. apply (IH F P). exact (proj1 H). Qed.
Lemma entries_gen n P x : open_axes n P -> P x -> forall d F j is, derivatives n P d F x j ->
  List.Forall (fun i => (i < n)%nat) is -> (List.length is <= d)%nat -> entry n d j is = partials F is x.
Proof.
  intros Open Px d. induction d as [|d IH]; intros F j is H B L.
  - destruct is; [exact H|cbn in L; lia].
  - destruct is as [|i is]; [cbn; apply (entry_nil n d F P); exact (proj1 H)|].
    inversion B as [|i' is' Hi B']; subst. cbn [entry partials].
    destruct H as (_ & _ & H). destruct (H i Hi) as (G & HG & RG).
    rewrite (IH G _ is RG B') by (cbn in L; lia). apply (partials_ext n P Open); [exact B'| |exact Px].
    intros y Py. symmetry. apply is_derive_unique. now apply HG.
Qed.
Lemma differentiable_gen n P x : open_axes n P -> P x -> forall d F j is i, derivatives n P d F x j ->
  List.Forall (fun i => (i < n)%nat) is -> (i < n)%nat -> (List.length is < d)%nat ->
  ex_derive (fun t => partials F is (set_nth x i t)) (nth i x 0).
Proof.
  intros Open Px d. induction d as [|d IH]; intros F j is i H B Hi L; [lia|].
  destruct is as [|k is].
  - destruct H as (_ & _ & H). destruct (H i Hi) as (G & HG & _). exists (G x). now apply HG.
  - inversion B as [|i' is' Hk B']; subst. cbn [partials].
    destruct H as (_ & _ & H). destruct (H k Hk) as (G & HG & RG).
    apply (ex_derive_ext_loc (fun t => partials G is (set_nth x i t))).
    + eapply filter_imp; [|exact (proj2 (Open x Px) i Hi)]. cbn. intros t Ht.
      apply (partials_ext n P Open); [exact B'| |exact Ht].
      intros y Py. symmetry. apply is_derive_unique. now apply HG.
    + apply (IH G _ is i RG B' Hi). cbn in L. lia.
Qed.

Lemma entries_lemma e x d is : smooth e x -> nonzero_bases e x ->
  List.Forall (fun i => (i < List.length x)%nat) is -> (List.length is <= d)%nat ->
  entry (List.length x) d (eval_num (nest (List.length x) d) e (nest_seeds d x)) is = partials (eval e) is x.
Proof.
  intros S0 NB B L. destruct (nested_lemma e x d S0 NB) as (Px & Open & H).
  exact (entries_gen _ _ x Open Px d _ _ is H B L).
Qed.
Lemma differentiable_lemma e x is i : smooth e x -> nonzero_bases e x ->
  List.Forall (fun i => (i < List.length x)%nat) is -> (i < List.length x)%nat ->
  ex_derive (fun t => partials (eval e) is (set_nth x i t)) (nth i x 0).
Proof.
  intros S0 NB B Hi. destruct (nested_lemma e x (S (List.length is)) S0 NB) as (Px & Open & H).
  exact (differentiable_gen _ _ x Open Px _ _ _ is i H B Hi (Nat.lt_succ_diag_r _)).
Qed.
Lemma every_order_lemma e x is : smooth e x -> nonzero_bases e x -> List.Forall (fun i => (i < List.length x)%nat) is ->
  (forall d, (List.length is <= d)%nat ->
    entry (List.length x) d (eval_num (nest (List.length x) d) e (nest_seeds d x)) is = partials (eval e) is x) /\
  forall i, (i < List.length x)%nat -> ex_derive (fun t => partials (eval e) is (set_nth x i t)) (nth i x 0).
Proof.
  intros S0 NB B. split; [intros d L; now apply entries_lemma|intros i Hi; now apply differentiable_lemma].
Qed.
