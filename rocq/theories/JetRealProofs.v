(** Derivatives computed with jets of exact numbers. *)
From Coq Require Import ZArith List Bool Reals Lia Lra.
From Flocq Require Import Core.
From Coquelicot Require Import Coquelicot.
From Verif Require Import BaseModel NumModel RealModel JetSpec JetFloatModel JetFloatSpec JetFloatProofs JetRealSpec LmProofs.
Import ListNotations.
Open Scope R_scope.

Lemma evaluates_once p : forall x a b, evaluates p x a -> evaluates p x b -> a = b.
Proof.
  induction p as [i|c|p IH|p IHp q IHq|p IHp q IHq|p IHp q IHq|p IHp q IHq|p IH s|s p IH|p IH s|s p IH|p IH s|s p IH|p IH s|s p IH|k p IH|c p IHp q IHq y IHy z IHz]; intros x a b; cbn [evaluates].
  1,2: congruence.
  - intros (u & H & ->) (u' & H' & ->). f_equal. now apply (IH x).
  - intros (u & w & H & K & ->) (u' & w' & H' & K' & ->). now rewrite (IHp x u u' H H'), (IHq x w w' K K').
  - intros (u & w & H & K & ->) (u' & w' & H' & K' & ->). now rewrite (IHp x u u' H H'), (IHq x w w' K K').
  - intros (u & w & H & K & ->) (u' & w' & H' & K' & ->). now rewrite (IHp x u u' H H'), (IHq x w w' K K').
  - intros (u & w & H & K & _ & ->) (u' & w' & H' & K' & _ & ->). now rewrite (IHp x u u' H H'), (IHq x w w' K K').
  - intros (u & H & ->) (u' & H' & ->). now rewrite (IH x u u' H H').
  - intros (u & H & ->) (u' & H' & ->). now rewrite (IH x u u' H H').
  - intros (u & H & ->) (u' & H' & ->). now rewrite (IH x u u' H H').
  - intros (u & H & ->) (u' & H' & ->). now rewrite (IH x u u' H H').
  - intros (u & H & ->) (u' & H' & ->). now rewrite (IH x u u' H H').
  - intros (u & H & ->) (u' & H' & ->). now rewrite (IH x u u' H H').
  - intros (u & H & _ & ->) (u' & H' & _ & ->). now rewrite (IH x u u' H H').
  - intros (u & H & _ & ->) (u' & H' & _ & ->). now rewrite (IH x u u' H H').
  - intros (u & H & ->) (u' & H' & ->). now rewrite (IH x u u' H H').
  - intros (u & w & H & K & C) (u' & w' & H' & K' & C'). rewrite <- (IHp x u u' H H'), <- (IHq x w w' K K') in C'.
    destruct C as [(C & E)|(C & E)], C' as [(C' & E')|(C' & E')]; try contradiction; [now apply (IHy x)|now apply (IHz x)].
Qed.

(** Comparisons and [holds]. *)
Lemma cmp_holds c (u w : R) : @cmp REAL c u w = true <-> holds c u w.
Proof.
  destruct c; cbn.
  - destruct (Rlt_bool_spec u w); split; try easy; lra.
  - destruct (Rle_bool_spec u w); split; try easy; lra.
  - destruct (Rlt_bool_spec w u); split; try easy; lra.
  - destruct (Rle_bool_spec w u); split; try easy; lra.
  - destruct (Req_bool_spec u w); split; try easy; lra.
  - destruct (Req_bool_spec u w); split; try easy; lra.
Qed.
Lemma holds_near c (u w : R) : u <> w -> exists e : posreal, forall u' w', Rabs (u' - u) < e -> Rabs (w' - w) < e -> (holds c u' w' <-> holds c u w).
Proof.
  intros N. assert (P : 0 < Rabs (u - w) / 2) by (assert (0 < Rabs (u - w)) by (apply Rabs_pos_lt; lra); lra).
  exists (mkposreal _ P). intros u' w' A B. cbn [pos] in A, B. apply Rabs_def2 in A. apply Rabs_def2 in B.
  assert (C : u < w /\ u' < w' \/ w < u /\ w' < u').
  { destruct (Rtotal_order u w) as [L|[L|L]]; [left|contradiction|right]; (split; [exact L|]); revert A B; unfold Rabs; destruct (Rcase_abs (u - w)); lra. }
  destruct C as [(C & D)|(C & D)]; destruct c; cbn; split; intros H; lra.
Qed.

Lemma const_derive (c t : R) : is_derive (fun _ => c) t 0.
Proof. exact (is_derive_const c t). Qed.
Lemma line_derive (a b : R) : is_derive (fun t => a + t * b) 0 b.
Proof. auto_derive; [trivial|ring]. Qed.

Lemma nth_in (f : FJet REAL -> R) (x : list (FJet REAL)) i d : (i < List.length x)%nat -> nth i (map f x) 0 = f (nth i x d).
Proof. intros L. rewrite (nth_indep _ _ (f d)) by (now rewrite map_length). apply map_nth. Qed.

Section Derivatives.
Variables (T : fmt) (n : nat) (x : list (FJet REAL)) (k : nat).
Hypothesis Hx : forall j, In j x -> List.length (inf j) = n.
Hypothesis Hk : (k < n)%nat.
Variables (c : R -> list R) (t0 : R).
Hypothesis Hc : curve_through (map re x) (map (fun j : FJet REAL => nth k (inf j) 0) x) c t0.
Notation J p := (@on_jets REAL T n p x).
Notation D p := (nth k (inf (J p)) 0).

Lemma len p : List.length (inf (J p)) = n. Proof. now apply jets_size. Qed.
Lemma nth_fz (f : R -> R -> R) (u w : list R) : List.length u = n -> List.length w = n -> nth k (@fzip REAL f u w) 0 = f (nth k u 0) (nth k w 0).
Proof.
  intros Lu Lw. assert (H : (k < List.length u)%nat) by lia. assert (L : List.length u = List.length w) by congruence. clear Lu Lw Hx Hk Hc. revert w k H L. induction u as [|a u IH]; intros [|b w] k' H L; cbn in H, L; try lia; try discriminate.
  destruct k'; [reflexivity|]. cbn [fzip nth]. apply IH; lia.
Qed.
Lemma nth_mp (f : R -> R) (u : list R) : List.length u = n -> nth k (map f u) 0 = f (nth k u 0).
Proof. intros L. rewrite (nth_indep _ _ (f 0)) by (rewrite map_length; lia). apply map_nth. Qed.

Lemma nth_scl (w : list R) (s : R) : List.length w = n -> nth k (@fscl REAL T w s) 0 = nth k w 0 * s.
Proof. exact (nth_mp (fun v => v * s) w). Qed.
Lemma nth_times (w : list R) (s : R) : List.length w = n -> nth k (map (@nmul REAL T s) w) 0 = s * nth k w 0.
Proof. exact (nth_mp (Rmult s) w). Qed.
Lemma fzip_n (f : R -> R -> R) (u w : list R) : List.length u = n -> List.length w = n -> List.length (@fzip REAL f u w) = n.
Proof. intros A B. transitivity (List.length u); [exact (@fzip_len REAL f u w (eq_trans A (eq_sym B)))|exact A]. Qed.
Lemma zeros : nth k (repeat (@nzero REAL T) n) 0 = 0.
Proof. rewrite real_zero. exact (nth_repeat 0 n k). Qed.

Definition tracked p := exists V : R -> R, V t0 = re (J p) /\ locally t0 (fun t => evaluates p (c t) (V t)) /\ is_derive V t0 (D p).

Lemma tracked_here p : tracked p -> evaluates p (map re x) (re (J p)).
Proof. intros (V & E & L & _). apply locally_singleton in L. now rewrite E, (proj1 Hc) in L. Qed.
Lemma tracked_only p v : tracked p -> evaluates p (map re x) v -> v = re (J p).
Proof. intros H E. eapply evaluates_once; [exact E|now apply tracked_here]. Qed.
Lemma and_near (P Q S : R -> Prop) : locally t0 P -> locally t0 Q -> (forall t, P t -> Q t -> S t) -> locally t0 S.
Proof. intros A B C. generalize (filter_and _ _ A B). apply filter_imp. intros t (H & K). now apply C. Qed.
Lemma near_value (V : R -> R) d (e : posreal) : is_derive V t0 d -> locally t0 (fun t => Rabs (V t - V t0) < e).
Proof.
  intros H. assert (C : continuous V t0) by (apply (ex_derive_continuous V t0); now exists d).
  exact (C (fun y => Rabs (y - V t0) < e) (ex_intro _ e (fun y Hy => Hy))).
Qed.
Lemma not_zero_near (V : R -> R) d : is_derive V t0 d -> V t0 <> 0 -> locally t0 (fun t => V t <> 0).
Proof.
  intros H N. assert (P : 0 < Rabs (V t0)) by (now apply Rabs_pos_lt). generalize (near_value V d (mkposreal _ P) H). apply filter_imp.
  cbn [pos]. intros t Ht E. rewrite E in Ht. replace (0 - V t0) with (- V t0) in Ht by ring. rewrite Rabs_Ropp in Ht. lra.
Qed.

Lemma all_tracked p : smooth p (map re x) -> tracked p.
Proof.
  induction p as [i|v0|p IH|p IHp q IHq|p IHp q IHq|p IHp q IHq|p IHp q IHq|p IH s|s p IH|p IH s|s p IH|p IH s|s p IH|p IH s|s p IH|f p IH|cm p IHp q IHq y IHy z IHz]; intros S; cbn [smooth] in S.
  - exists (fun t => nth i (c t) 0). destruct Hc as (C0 & CL & CD). split; [|split; [apply filter_forall; reflexivity|]]; cbn [on_jets]; destruct (Nat.lt_ge_cases i (List.length x)) as [L|L].
    + rewrite C0. exact (nth_in (re : FJet REAL -> R) x i _ L).
    + rewrite C0, !nth_overflow by (rewrite ?map_length; assumption). cbn [re]. now rewrite real_zero.
    + evar_last; [apply CD; now rewrite map_length|]. exact (nth_in (fun j : FJet REAL => nth k (inf j) 0) x i _ L).
    + rewrite (nth_overflow x) by exact L. cbn [inf]. rewrite zeros. apply (is_derive_ext (fun _ => 0)); [|apply const_derive]. intros t. symmetry. apply nth_overflow. rewrite CL, map_length. exact L.
  - exists (fun _ => v0). split; [reflexivity|]. split; [apply filter_forall; reflexivity|]. cbn [on_jets inf]. rewrite zeros. apply const_derive.
  - destruct (IH S) as (V & E & L & H). exists (fun t => - V t). split; [cbn [on_jets fj_neg re]; now rewrite E|]. split.
    + revert L. apply filter_imp. intros t Ht. cbn [evaluates]. eauto.
    + cbn [on_jets fj_neg inf]. rewrite (nth_mp Ropp) by apply len. exact (is_derive_opp V t0 _ H).
  - destruct S as (Sp & Sq). destruct (IHp Sp) as (V & E & L & H). destruct (IHq Sq) as (W & E' & L' & H'). exists (fun t => V t + W t). split; [cbn [on_jets fj_add re]; now rewrite E, E'|]. split.
    + apply (and_near _ _ _ L L'). intros t Ht Kt. cbn [evaluates]. eauto 6.
    + cbn [on_jets fj_add inf]. rewrite (nth_fz Rplus) by apply len. exact (is_derive_plus V W t0 _ _ H H').
  - destruct S as (Sp & Sq). destruct (IHp Sp) as (V & E & L & H). destruct (IHq Sq) as (W & E' & L' & H'). exists (fun t => V t - W t). split; [cbn [on_jets fj_sub re]; now rewrite E, E'|]. split.
    + apply (and_near _ _ _ L L'). intros t Ht Kt. cbn [evaluates]. eauto 6.
    + cbn [on_jets fj_sub inf]. rewrite (nth_fz Rminus) by apply len. exact (is_derive_minus V W t0 _ _ H H').
  - destruct S as (Sp & Sq). destruct (IHp Sp) as (V & E & L & H). destruct (IHq Sq) as (W & E' & L' & H'). exists (fun t => V t * W t). split; [cbn [on_jets fj_mul re]; now rewrite E, E'|]. split.
    + apply (and_near _ _ _ L L'). intros t Ht Kt. cbn [evaluates]. eauto 6.
    + cbn [on_jets fj_mul inf]. rewrite (nth_fz Rplus) by (unfold fscl; rewrite map_length; apply len). rewrite nth_times, nth_scl by apply len.
      rewrite <- E, <- E'. evar_last; [exact (is_derive_mult V W t0 _ _ H H' Rmult_comm)|]. cbn. ring.
  - destruct S as (Sp & Sq & N). destruct (IHp Sp) as (V & E & L & H). pose proof (IHq Sq) as Tq. destruct (IHq Sq) as (W & E' & L' & H'). assert (N' : W t0 <> 0) by (rewrite E'; intros Z; apply N; rewrite <- Z; now apply tracked_here).
    exists (fun t => V t / W t). split; [cbn [on_jets fj_div re]; rewrite E, E'; cbn; unfold none_; cbn; rewrite <- E'; field; exact N'|]. split.
    + apply (and_near _ _ _ (filter_and _ _ L L') (not_zero_near W _ H' N')). intros t (Ht & Kt) Mt. cbn [evaluates]. exists (V t), (W t). auto.
    + cbn [on_jets fj_div inf]. rewrite nth_scl by (apply fzip_n; rewrite ?map_length; apply len). rewrite (nth_fz Rminus) by (rewrite ?map_length; apply len). rewrite nth_times by apply len.
      rewrite <- E, <- E'. evar_last; [exact (is_derive_div V W t0 _ _ H H' N')|]. unfold none_. cbn. field. exact N'.
  - destruct (IH S) as (V & E & L & H). exists (fun t => V t + s). split; [cbn [on_jets fj_add_s re]; now rewrite E|]. split.
    + revert L. apply filter_imp. intros t Ht. cbn [evaluates]. eauto.
    + cbn [on_jets fj_add_s inf]. evar_last; [exact (is_derive_plus V (fun _ => s) t0 _ _ H (const_derive s t0))|]. apply Rplus_0_r.
  - destruct (IH S) as (V & E & L & H). exists (fun t => s + V t). split; [cbn [on_jets fj_s_add re]; rewrite E; cbn; apply Rplus_comm|]. split.
    + revert L. apply filter_imp. intros t Ht. cbn [evaluates]. eauto.
    + cbn [on_jets fj_s_add inf]. evar_last; [exact (is_derive_plus (fun _ => s) V t0 _ _ (const_derive s t0) H)|]. apply Rplus_0_l.
  - destruct (IH S) as (V & E & L & H). exists (fun t => V t - s). split; [cbn [on_jets fj_sub_s re]; now rewrite E|]. split.
    + revert L. apply filter_imp. intros t Ht. cbn [evaluates]. eauto.
    + cbn [on_jets fj_sub_s inf]. evar_last; [exact (is_derive_minus V (fun _ => s) t0 _ _ H (const_derive s t0))|]. apply Rminus_0_r.
  - destruct (IH S) as (V & E & L & H). exists (fun t => s - V t). split; [cbn [on_jets fj_s_sub re]; now rewrite E|]. split.
    + revert L. apply filter_imp. intros t Ht. cbn [evaluates]. eauto.
    + cbn [on_jets fj_s_sub inf]. rewrite (nth_mp Ropp) by apply len. evar_last; [exact (is_derive_minus (fun _ => s) V t0 _ _ (const_derive s t0) H)|]. apply Rminus_0_l.
  - destruct (IH S) as (V & E & L & H). exists (fun t => V t * s). split; [cbn [on_jets fj_mul_s re]; now rewrite E|]. split.
    + revert L. apply filter_imp. intros t Ht. cbn [evaluates]. eauto.
    + cbn [on_jets fj_mul_s inf]. rewrite nth_scl by apply len. evar_last; [exact (is_derive_mult V (fun _ => s) t0 _ _ H (const_derive s t0) Rmult_comm)|]. cbn. ring.
  - destruct (IH S) as (V & E & L & H). exists (fun t => s * V t). split; [cbn [on_jets fj_s_mul re]; rewrite E; cbn; apply Rmult_comm|]. split.
    + revert L. apply filter_imp. intros t Ht. cbn [evaluates]. eauto.
    + cbn [on_jets fj_s_mul inf]. rewrite nth_scl by apply len. evar_last; [exact (is_derive_mult (fun _ => s) V t0 _ _ (const_derive s t0) H Rmult_comm)|]. cbn. ring.
  - destruct S as (Sp & N). destruct (IH Sp) as (V & E & L & H). exists (fun t => V t / s). split; [cbn [on_jets fj_div_s re]; rewrite E; unfold none_; cbn; field; exact N|]. split.
    + revert L. apply filter_imp. intros t Ht. cbn [evaluates]. eauto.
    + cbn [on_jets fj_div_s inf]. rewrite nth_scl by apply len. evar_last; [exact (is_derive_div V (fun _ => s) t0 _ _ H (const_derive s t0) N)|]. unfold none_. cbn. field. exact N.
  - destruct S as (Sp & N). pose proof (IH Sp) as Tp. destruct (IH Sp) as (V & E & L & H). assert (N' : V t0 <> 0) by (rewrite E; intros Z; apply N; rewrite <- Z; now apply tracked_here).
    exists (fun t => s / V t). split; [cbn [on_jets fj_s_div re]; now rewrite E|]. split.
    + apply (and_near _ _ _ L (not_zero_near V _ H N')). intros t Ht Mt. cbn [evaluates]. eauto.
    + cbn [on_jets fj_s_div inf]. rewrite nth_scl by apply len. rewrite <- E. evar_last; [exact (is_derive_div (fun _ => s) V t0 _ _ (const_derive s t0) H N')|]. cbn. field. exact N'.
  - destruct S as (Sp & G). pose proof (IH Sp) as Tp. destruct (IH Sp) as (V & E & L & H). specialize (G _ (tracked_here p Tp)).
    exists (fun t => u_val f (V t)). split; [cbn [on_jets fj_unary re]; now rewrite E|]. split.
    + revert L. apply filter_imp. intros t Ht. cbn [evaluates]. eauto.
    + cbn [on_jets fj_unary inf]. rewrite nth_times by apply len. rewrite <- E in G |- *. evar_last; [exact (is_derive_comp (u_val f : R -> R) V t0 _ _ G H)|]. cbn. ring.
  - destruct S as (Sp & Sq & C). pose proof (IHp Sp) as Tp. pose proof (IHq Sq) as Tq. destruct (C _ _ (tracked_here p Tp) (tracked_here q Tq)) as (N & Cy & Cz).
    destruct (IHp Sp) as (V & E & L & H). destruct (IHq Sq) as (W & E' & L' & H'). destruct (holds_near cm _ _ N) as (e & He).
    pose proof (near_value V _ e H) as NV. pose proof (near_value W _ e H') as NW. rewrite E in NV. rewrite E' in NW.
    pose proof (cmp_holds cm (re (J p)) (re (J q))) as K. unfold tracked. cbn [on_jets]. unfold fj_cmp. destruct (@cmp REAL cm (re (J p)) (re (J q))) eqn:B.
    + assert (Q : holds cm (re (J p)) (re (J q))) by (now apply K). destruct (IHy (Cy Q)) as (U & EU & LU & HU). exists U. split; [exact EU|]. split; [|exact HU].
      apply (and_near _ _ _ (filter_and _ _ L L') (filter_and _ _ (filter_and _ _ NV NW) LU)). intros t (A1 & A2) ((A3 & A4) & A5). cbn [evaluates]. exists (V t), (W t). split; [exact A1|]. split; [exact A2|]. left. split; [now apply He|exact A5].
    + assert (Q : ~ holds cm (re (J p)) (re (J q))) by (intros Q; apply K in Q; discriminate). destruct (IHz (Cz Q)) as (U & EU & LU & HU). exists U. split; [exact EU|]. split; [|exact HU].
      apply (and_near _ _ _ (filter_and _ _ L L') (filter_and _ _ (filter_and _ _ NV NW) LU)). intros t (A1 & A2) ((A3 & A4) & A5). cbn [evaluates]. exists (V t), (W t). split; [exact A1|]. split; [exact A2|]. right. split; [|exact A5]. intros Z. apply Q. now apply (He (V t) (W t)).
Qed.
End Derivatives.
Lemma moved_curve (x : list (FJet REAL)) k : curve_through (map re x) (map (fun j : FJet REAL => nth k (inf j) 0) x) (moved x k) 0.
Proof.
  split; [|split].
  - unfold moved. apply map_ext. intros j. rewrite Rmult_0_l. apply Rplus_0_r.
  - intros t. unfold moved. now rewrite !map_length.
  - intros i Hi. rewrite map_length in Hi. set (d := mkFJet (0 : REAL) [] : FJet REAL). apply (is_derive_ext (fun t => re (nth i x d) + t * nth k (inf (nth i x d)) 0)).
    + intros t. symmetry. exact (nth_in (fun j : FJet REAL => re j + t * nth k (inf j) 0) x i d Hi).
    + evar_last; [apply line_derive|]. symmetry. exact (nth_in (fun j : FJet REAL => nth k (inf j) 0) x i d Hi).
Qed.
Lemma curves_ok T n (x : list (FJet REAL)) p k c t0 : (forall j, In j x -> List.length (inf j) = n) -> (k < n)%nat -> smooth p (map re x) ->
  curve_through (map re x) (map (fun j : FJet REAL => nth k (inf j) 0) x) c t0 ->
  exists V : R -> R, V t0 = re (on_jets T n p x) /\ locally t0 (fun t => evaluates p (c t) (V t)) /\ is_derive V t0 (nth k (inf (on_jets T n p x)) 0).
Proof. intros Hx Hk S C. exact (all_tracked T n x k Hx Hk c t0 C p S). Qed.
Lemma derivatives_ok T n (x : list (FJet REAL)) p k : (forall j, In j x -> List.length (inf j) = n) -> (k < n)%nat -> smooth p (map re x) ->
  (forall v, evaluates p (map re x) v <-> v = re (on_jets T n p x)) /\
  exists V : R -> R, locally 0 (fun t => evaluates p (moved x k t) (V t)) /\ is_derive V 0 (nth k (inf (on_jets T n p x)) 0).
Proof.
  intros Hx Hk S. pose proof (all_tracked T n x k Hx Hk _ _ (moved_curve x k) p S) as H. split.
  - intros v. split; [now apply (tracked_only T n x k (moved x k) 0 (moved_curve x k))|]. intros ->. now apply (tracked_here T n x k (moved x k) 0 (moved_curve x k)).
  - destruct H as (V & _ & L & D). now exists V.
Qed.
