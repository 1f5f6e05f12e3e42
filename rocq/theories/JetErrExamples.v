(** Concrete programs for the statements about rounding errors of derivatives. *)
From Coq Require Import ZArith List Bool Reals Lia Lra.
From Coquelicot Require Import Coquelicot.
From Flocq Require Import Core.
From Verif Require Import BaseModel NumModel NumSpec IeeeProofs RoundProofs RollSpec RealModel DiffFloatSpec JetFloatModel JetFloatSpec JetRealSpec JetRealProofs JetErrSpec JetErrProofs.
Import ListNotations.
Open Scope R_scope.

Definition near (b : ball) (q r : R) : Prop := mid b = q /\ 0 <= rad b <= r.
Lemma u_small T : unit_roundoff T <= / 1000000.
Proof. unfold unit_roundoff. apply Rinv_le_contravar; [lra|]. apply Rle_trans with (2 ^ 20); [lra|]. apply Rle_pow; [lra|]. destruct T; cbn [prec_of]; lia. Qed.
Lemma eta_small T : underflow T <= / 1000000.
Proof.
  unfold underflow. rewrite <- (bpow_powerRZ radix2). apply Rle_trans with (bpow radix2 (-20)); [|cbn; lra].
  assert (bpow radix2 (3 - emax_of T - prec_of T) <= bpow radix2 (-20)) by (apply bpow_le; destruct T; cbn; lia). pose proof (bpow_gt_0 radix2 (3 - emax_of T - prec_of T)). lra.
Qed.
Lemma near_rounded T v e q r s : v = q -> 0 <= e <= r -> r + (Rabs q + r + 1) / 1000000 <= s -> near (rounded T v e) q s.
Proof.
  intros -> H K. split; [reflexivity|]. cbn [rounded rad]. pose proof (u_small T). pose proof (u_pos T). pose proof (eta_small T). pose proof (eta_pos T). pose proof (Rabs_pos q).
  assert (0 <= unit_roundoff T * (Rabs q + e) <= / 1000000 * (Rabs q + e)) by (split; [apply Rmult_le_pos; lra|apply Rmult_le_compat_r; lra]). lra.
Qed.
Lemma near_exactly v : near (exactly v) v 0. Proof. split; cbn; lra. Qed.
Lemma near_add T a b q r q' r' p s : near a q r -> near b q' r' -> q + q' = p -> (r + r') + (Rabs p + (r + r') + 1) / 1000000 <= s -> near (b_add T a b) p s.
Proof. intros (A & B) (A' & B') E K. apply (near_rounded _ _ _ _ (r + r')); [now rewrite A, A'|lra|exact K]. Qed.
Lemma near_sub T a b q r q' r' p s : near a q r -> near b q' r' -> q - q' = p -> (r + r') + (Rabs p + (r + r') + 1) / 1000000 <= s -> near (b_sub T a b) p s.
Proof. intros (A & B) (A' & B') E K. apply (near_rounded _ _ _ _ (r + r')); [now rewrite A, A'|lra|exact K]. Qed.
Lemma near_mul T a b q r q' r' p e s : near a q r -> near b q' r' -> q * q' = p -> Rabs q * r' + Rabs q' * r + r * r' = e -> e + (Rabs p + e + 1) / 1000000 <= s -> near (b_mul T a b) p s.
Proof.
  intros (A & B) (A' & B') E F K. apply (near_rounded _ _ _ _ e); [now rewrite A, A'| |exact K]. rewrite A, A'. pose proof (Rabs_pos q). pose proof (Rabs_pos q').
  assert (0 <= Rabs q * rad b <= Rabs q * r') by (split; [apply Rmult_le_pos|apply Rmult_le_compat_l]; lra).
  assert (0 <= Rabs q' * rad a <= Rabs q' * r) by (split; [apply Rmult_le_pos|apply Rmult_le_compat_l]; lra).
  assert (0 <= rad a * rad b <= r * r') by (split; [apply Rmult_le_pos|apply Rmult_le_compat]; lra). lra.
Qed.
Lemma near_div T a b q r q' r' p e s : near a q r -> near b q' r' -> r' < Rabs q' -> q / q' = p -> (r + Rabs p * r') / (Rabs q' - r') = e -> e + (Rabs p + e + 1) / 1000000 <= s -> near (b_div T a b) p s.
Proof.
  intros (A & B) (A' & B') L E F K. apply (near_rounded _ _ _ _ e); [now rewrite A, A'| |exact K]. rewrite A, A', E. pose proof (Rabs_pos p).
  assert (0 <= Rabs p * rad b <= Rabs p * r') by (split; [apply Rmult_le_pos|apply Rmult_le_compat_l]; lra). rewrite <- F. split.
  - apply Rmult_le_pos; [lra|]. left. apply Rinv_0_lt_compat. lra.
  - apply Rmult_le_compat; [lra|left; apply Rinv_0_lt_compat; lra|lra|apply Rinv_le_contravar; lra].
Qed.
Lemma near_sqrt T a q r p s : near a q r -> 0 < p -> q = p * p -> r / p + (Rabs p + r / p + 1) / 1000000 <= s -> near (b_sqrt T a) p s.
Proof.
  intros (A & B) P E K. assert (S : sqrt (mid a) = p) by (rewrite A, E; apply sqrt_square; lra). apply (near_rounded _ _ _ _ (r / p)); [exact S| |exact K]. rewrite S.
  split; [apply Rmult_le_pos; [lra|left; apply Rinv_0_lt_compat; lra]|apply Rmult_le_compat_r; [left; apply Rinv_0_lt_compat; lra|lra]].
Qed.
Lemma near_fits T b q r : near b q r -> Rabs q + r <= 1000 -> fits T b.
Proof.
  intros (A & B) K. unfold fits. rewrite A. apply Rle_trans with (bpow radix2 10); [cbn; lra|]. apply bpow_le. destruct T; cbn; lia.
Qed.
Lemma near_divides b q r : near b q r -> r < Rabs q -> divides b.
Proof. intros (A & B) K. unfold divides. rewrite A. lra. Qed.

(** x < y ? sqrt (x * y) / (y - 3) : |x| at x = 2, y = 8. *)
Definition je_lit (z : Z) : IEEE := @nlit IEEE F64 z 0.
Definition je_prog : prog IEEE function :=
  PIf Lt (PVar 0) (PVar 1) (PDiv (PFun (square_root F64) (PMul (PVar 0) (PVar 1))) (PSubS (PVar 1) (je_lit 3))) (PFun (absolute F64) (PVar 0)).
Definition je_x : list (FJet IEEE) := [mkFJet (je_lit 2) [je_lit 1; je_lit 0]; mkFJet (je_lit 8) [je_lit 0; je_lit 1]].
Lemma je_0 : toR (je_lit 0) = 0. Proof. reflexivity. Qed.
Lemma je_1 : toR (je_lit 1) = 1. Proof. cbn; unfold F2R; cbn; lra. Qed.
Lemma je_2 : toR (je_lit 2) = 2. Proof. cbn; unfold F2R; cbn; lra. Qed.
Lemma je_3 : toR (je_lit 3) = 3. Proof. cbn; unfold F2R; cbn; lra. Qed.
Lemma je_8 : toR (je_lit 8) = 8. Proof. cbn; unfold F2R; cbn; lra. Qed.
Lemma je_jets : jets_of F64 2 je_x.
Proof. intros j [<-|[<-|[]]]; (split; [split; reflexivity|]; split; [reflexivity|]); repeat constructor. Qed.
Notation V p := (value_ball F64 je_x p).
Notation D p := (slope_ball F64 je_x 0 p).
Lemma je_V0 : near (V (PVar 0)) 2 0. Proof. rewrite <- je_2. apply near_exactly. Qed.
Lemma je_V1 : near (V (PVar 1)) 8 0. Proof. rewrite <- je_8. apply near_exactly. Qed.
Lemma je_D0 : near (D (PVar 0)) 1 0. Proof. rewrite <- je_1. apply near_exactly. Qed.
Lemma je_D1 : near (D (PVar 1)) 0 0. Proof. rewrite <- je_0. apply near_exactly. Qed.
Lemma je_N3 : near (exactly (toR (je_lit 3))) 3 0. Proof. rewrite je_3. apply near_exactly. Qed.
Ltac num := repeat match goal with |- context [Rabs ?a] => first [rewrite (Rabs_pos_eq a) by lra | rewrite (Rabs_left a) by lra] end; lra.
Ltac numd := repeat match goal with |- context [Rabs ?a] => first [rewrite (Rabs_pos_eq a) by lra | rewrite (Rabs_left a) by lra] end; first [lra | (field; lra) | reflexivity].
Ltac nadd_ A B := eapply near_add; [exact A|exact B|lra|num].
Ltac nsub_ A B := eapply near_sub; [exact A|exact B|lra|num].
Ltac nmul_ A B := eapply near_mul; [exact A|exact B|lra|reflexivity|num].
Definition je_m : prog IEEE function := PMul (PVar 0) (PVar 1).
Definition je_s : prog IEEE function := PFun (square_root F64) je_m.
Definition je_y : prog IEEE function := PSubS (PVar 1) (je_lit 3).
Lemma je_Vm : near (V je_m) 16 (/ 10000). Proof. nmul_ je_V0 je_V1. Qed.
Lemma je_t1 : near (b_mul F64 (V (PVar 0)) (D (PVar 1))) 0 (/ 100000). Proof. nmul_ je_V0 je_D1. Qed.
Lemma je_t2 : near (b_mul F64 (D (PVar 0)) (V (PVar 1))) 8 (/ 100000). Proof. nmul_ je_D0 je_V1. Qed.
Lemma je_Dm : near (D je_m) 8 (/ 10000). Proof. nadd_ je_t1 je_t2. Qed.
Lemma je_Vs : near (b_sqrt F64 (V je_m)) 4 (/ 10000).
Proof. eapply near_sqrt; [exact je_Vm|lra|lra|num]. Qed.
Lemma je_w : near (b_mul F64 (exactly 2) (b_sqrt F64 (V je_m))) 8 (/ 1000).
Proof. nmul_ (near_exactly 2) je_Vs. Qed.
Lemma je_d : near (b_div F64 (exactly 1) (b_mul F64 (exactly 2) (b_sqrt F64 (V je_m)))) (/ 8) (/ 10000).
Proof. eapply near_div; [apply near_exactly|exact je_w|num|lra|reflexivity|num]. Qed.
Lemma je_root : accurate F64 (square_root F64) (V je_m).
Proof.
  destruct je_Vm as (A & B). apply square_root_ok; [lra|lra|exact (near_fits _ _ _ _ je_w ltac:(num))|exact (near_divides _ _ _ je_w ltac:(num))|exact (near_fits _ _ _ _ je_d ltac:(num))].
Qed.
Lemma je_Vs' : near (V je_s) 4 (/ 10000). Proof. exact je_Vs. Qed.
Lemma je_f : near (f_slope_ball (square_root F64) (V je_m)) (/ 8) (/ 10000).
Proof. destruct je_d as (_ & B). split; [|exact B]. cbn [f_slope_ball square_root f_exact u_val u_der mid]. pose proof (proj1 je_Vs) as E. cbn [b_sqrt rounded mid] in E. rewrite E. lra. Qed.
Lemma je_Ds : near (D je_s) 1 (/ 100). Proof. nmul_ je_f je_Dm. Qed.
Lemma je_Vy : near (V je_y) 5 (/ 10000). Proof. nsub_ je_V1 je_N3. Qed.
Lemma je_Dy : near (D je_y) 0 0. Proof. exact je_D1. Qed.
Notation je_i := (b_div F64 (exactly 1) (V je_y)).
Lemma je_I : near je_i (/ 5) (/ 10000). Proof. eapply near_div; [apply near_exactly|exact je_Vy|num|lra|reflexivity|num]. Qed.
Lemma je_Q : near (b_mul F64 (V je_s) je_i) (4 / 5) (/ 1000). Proof. nmul_ je_Vs' je_I. Qed.
Lemma je_c : near (b_mul F64 (b_mul F64 (V je_s) je_i) (D je_y)) 0 (/ 1000). Proof. nmul_ je_Q je_Dy. Qed.
Lemma je_b : near (b_sub F64 (D je_s) (b_mul F64 (b_mul F64 (V je_s) je_i) (D je_y))) 1 (/ 10). Proof. nsub_ je_Ds je_c. Qed.
Lemma je_r : near (D (PDiv je_s je_y)) (/ 5) (/ 10). Proof. nmul_ je_b je_I. Qed.
Lemma je_cmp : @cmp REAL Lt (mid (V (PVar 0))) (mid (V (PVar 1))) = true.
Proof. rewrite (proj1 je_V0), (proj1 je_V1). apply cmp_holds. cbn. lra. Qed.
Ltac fit H := exact (near_fits _ _ _ _ H ltac:(num)).
Lemma je_guarded : guarded F64 je_x 0 je_prog.
Proof.
  unfold je_prog. fold je_m. fold je_s. fold je_y. cbn [guarded]. rewrite je_cmp. split; [exact Logic.I|]. split; [exact Logic.I|]. split.
  - destruct je_V0 as (A & A'), je_V1 as (B & B'). rewrite A, B. rewrite (Rabs_left (2 - 8)) by lra. lra.
  - split; [|split; [|split; [|split]]].
    + split; [|split; [exact je_root|fit je_Ds]]. split; [exact Logic.I|]. split; [exact Logic.I|]. split; [split; [fit je_Vm|fit je_Dm]|]. split; [fit je_t1|fit je_t2].
    + split; [exact Logic.I|]. split; [split; reflexivity|fit je_Vy].
    + split; [fit je_Q|fit je_r].
    + exact (near_divides _ _ _ je_Vy ltac:(num)).
    + split; [fit je_I|]. split; [fit je_c|fit je_b].
Qed.

(** x * y - 3 * x at the same point. *)
Definition je_poly : prog IEEE function := PSub je_m (PSMul (je_lit 3) (PVar 0)).
Lemma je_V3 : near (V (PSMul (je_lit 3) (PVar 0))) 6 (/ 10000). Proof. nmul_ je_V0 je_N3. Qed.
Lemma je_D3 : near (D (PSMul (je_lit 3) (PVar 0))) 3 (/ 10000). Proof. nmul_ je_D0 je_N3. Qed.
Lemma je_Vp : near (V je_poly) 10 (/ 1000). Proof. nsub_ je_Vm je_V3. Qed.
Lemma je_Dp : near (D je_poly) 5 (/ 1000). Proof. nsub_ je_Dm je_D3. Qed.
Lemma je_poly_guarded : polynomial je_poly /\ guarded F64 je_x 0 je_poly.
Proof.
  split; [repeat split|]. cbn [je_poly guarded]. split; [|split; [|split; [fit je_Vp|fit je_Dp]]].
  - split; [exact Logic.I|]. split; [exact Logic.I|]. split; [split; [fit je_Vm|fit je_Dm]|]. split; [fit je_t1|fit je_t2].
  - split; [exact Logic.I|]. split; [split; reflexivity|]. split; [fit je_V3|fit je_D3].
Qed.
Lemma je_mid : mid (V je_prog) = 4 / 5 /\ mid (D je_prog) = / 5.
Proof.
  change (V je_prog) with (if @cmp REAL Lt (mid (V (PVar 0))) (mid (V (PVar 1))) then V (PDiv je_s je_y) else V (PFun (absolute F64) (PVar 0))).
  change (D je_prog) with (if @cmp REAL Lt (mid (V (PVar 0))) (mid (V (PVar 1))) then D (PDiv je_s je_y) else D (PFun (absolute F64) (PVar 0))).
  rewrite je_cmp. split; [exact (proj1 je_Q)|exact (proj1 je_r)].
Qed.
