(** Dynamic jets follow static ones, as long as only functions that pad are used. *)
From Coq Require Import ZArith List Bool Reals Lra Lia.
From Flocq Require Import Core.Raux.
From Coquelicot Require Import Coquelicot.
From Verif Require Import BaseModel FunModel JetModel JetSpec DerivProofs JetProofs.
Import ListNotations.
Open Scope R_scope.

Section Dyn.
Variable n : nat.
Definition rel (js jd : Jet) : Prop := a jd = a js /\ List.length (v js) = n /\ (v jd = v js \/ (v jd = [] /\ v js = repeat 0 n)).

Lemma scl_zeros s : scl s (repeat 0 n) = repeat 0 n.
Proof. unfold scl. induction n as [|m IH]; cbn; [reflexivity|]. now rewrite IH, Rmult_0_r. Qed.
Lemma neg_zeros : neg (repeat 0 n) = repeat 0 n.
Proof. unfold neg. induction n as [|m IH]; cbn; [reflexivity|]. now rewrite IH, Ropp_0. Qed.
Lemma zip_zeros f : f 0 0 = 0 -> zip f (repeat 0 n) (repeat 0 n) = repeat 0 n.
Proof. intros H. induction n as [|m IH]; cbn; [reflexivity|]. now rewrite IH, H. Qed.

Lemma rel_scl s A B js jd : rel js jd -> A = B -> rel (mkJet B (scl s (v js))) (mkJet A (scl s (v jd))).
Proof.
  intros (_ & L & V) ->. split; [reflexivity|]. cbn. split; [now rewrite scl_len|].
  destruct V as [->|(-> & ->)]; [now left|]. right. split; [reflexivity|apply scl_zeros].
Qed.
Lemma rel_neg A B js jd : rel js jd -> A = B -> rel (mkJet B (neg (v js))) (mkJet A (neg (v jd))).
Proof.
  intros (_ & L & V) ->. split; [reflexivity|]. cbn. split; [now rewrite neg_len|].
  destruct V as [->|(-> & ->)]; [now left|]. right. split; [reflexivity|apply neg_zeros].
Qed.
Lemma rel_same A B js jd : rel js jd -> A = B -> rel (mkJet B (v js)) (mkJet A (v jd)).
Proof. intros (_ & L & V) ->. split; [reflexivity|]. cbn. now split. Qed.
Lemma rel_const A B : A = B -> rel (Jet_const (Some n) A) (Jet_const None B).
Proof. intros ->. split; [reflexivity|]. cbn. split; [apply repeat_length|]. now right. Qed.

Lemma rel_un u js jd : rel js jd -> match u with SPow s => 0 <= s | _ => True end ->
  exists rs rd, un_jet (Some n) u js = Ret rs /\ un_jet None u jd = Ret rd /\ rel rs rd /\ a rs = un_val u (a js).
Proof.
  intros H S. pose proof H as (Ea & L & _).
  destruct u; cbn [un_jet un_val];
    try (eexists; eexists; split; [reflexivity|]; split; [reflexivity|]; split; [|cbn; unfold Rdiv; ring || reflexivity];
         first [apply rel_scl; [exact H|now rewrite Ea]|apply rel_neg; [exact H|now rewrite Ea]|apply rel_const; now rewrite Ea|apply rel_same; [exact H|now rewrite Ea]
               |unfold jet_abs, jet_log, jet_log10, jet_log1p, jet_exp, jet_expm1, jet_sqrt, jet_cos, jet_acos, jet_sin, jet_asin, jet_tan, jet_atan,
                  jet_sinh, jet_cosh, jet_tanh, jet_cbrt, jet_exp2, jet_log2, jet_norm, jet_s_div, jet_div_s, jet_pow_s; cbv zeta; rewrite Ea; apply rel_scl; [exact H|reflexivity]]).
  - (* erf *) eexists; eexists; split; [reflexivity|]; split; [reflexivity|]. split; [|reflexivity].
    unfold jet_erf. rewrite Ea. apply (rel_scl _ _ _ (mkJet 0 _) (mkJet 0 _)); [|reflexivity].
    apply (rel_scl _ _ _ js jd); [exact H|reflexivity].
  - eexists; eexists; split; [reflexivity|]; split; [reflexivity|]. split; [|reflexivity].
    unfold jet_erfc. rewrite Ea. apply (rel_scl _ _ _ (mkJet 0 _) (mkJet 0 _)); [|reflexivity].
    apply (rel_scl _ _ _ (mkJet 0 _) (mkJet 0 _)); [|reflexivity]. apply (rel_neg _ _ js jd); [exact H|reflexivity].
  - unfold jet_s_pow. rewrite Ea, (Rlt_bool_false s 0) by assumption. cbn [andb].
    destruct (Req_bool_spec s 0) as [E|E], (Rlt_bool_spec 0 (a js)) as [P|P]; cbn [andb];
      (eexists; eexists; split; [reflexivity|]; split; [reflexivity|]; split; [first [now apply rel_const|apply rel_scl; [exact H|reflexivity]]|]); try reflexivity.
    cbn. subst s. unfold std_pow. rewrite Rlt_bool_false, Req_bool_true, Req_bool_false; lra.
Qed.

(** What the padding of two related pairs of vectors gives. *)
Lemma rel_pad js jd ls ld : rel js jd -> rel ls ld ->
  (padded None (v jd) (v ld) = v js /\ padded None (v ld) (v jd) = v ls) \/
  (padded None (v jd) (v ld) = [] /\ padded None (v ld) (v jd) = [] /\ v js = repeat 0 n /\ v ls = repeat 0 n).
Proof.
  intros (_ & L1 & V1) (_ & L2 & V2).
  assert (P : forall u w, List.length u = n -> List.length w = n -> padded None u w = u).
  { intros [|p u] w Hu Hw; cbn; [|reflexivity]. cbn in Hu. now rewrite Hw, <- Hu. }
  destruct V1 as [->|(-> & ->)], V2 as [->|(-> & ->)].
  - left. rewrite !P by assumption. now split.
  - left. cbn. rewrite L1. split; [|reflexivity]. destruct (v js); reflexivity.
  - left. cbn. rewrite L2. split; [reflexivity|]. destruct (v ls); reflexivity.
  - right. cbn. auto.
Qed.

Lemma rel_bin b js jd ls ld : rel js jd -> rel ls ld ->
  match b with Hypot | Midpoint => False | Fmax | Fmin => a js <> a ls | _ => True end ->
  exists rs rd, bin_jet (Some n) b js ls = Ret rs /\ bin_jet None b jd ld = Ret rd /\ rel rs rd /\ a rs = bin_val b (a js) (a ls).
Proof.
  intros H1 H2 S. pose proof H1 as (Ea & L1 & _). pose proof H2 as (Eb & L2 & _).
  pose proof (rel_pad _ _ _ _ H1 H2) as P.
  assert (K : forall (f : R -> R -> R) c1 c2 c3 A u w, f 0 0 = 0 ->
    (u = v js /\ w = v ls) \/ (u = [] /\ w = [] /\ v js = repeat 0 n /\ v ls = repeat 0 n) ->
    rel (mkJet A (scl c3 (zip f (scl c1 (v js)) (scl c2 (v ls))))) (mkJet A (scl c3 (zip f (scl c1 u) (scl c2 w))))
    /\ vop f (scl c1 u) (scl c2 w) = Ret (zip f (scl c1 u) (scl c2 w))).
  { intros f c1 c2 c3 A u w F [(-> & ->)|(-> & -> & E1 & E2)].
    - split; [|apply vop_ok; rewrite !scl_len; congruence]. split; [reflexivity|]. cbn. split; [|now left].
      rewrite scl_len, zip_len; rewrite !scl_len; congruence.
    - split; [|reflexivity]. split; [reflexivity|]. cbn. rewrite E1, E2, !scl_zeros, zip_zeros, scl_zeros by assumption.
      split; [apply repeat_length|]. now right. }
  assert (one : forall u, scl 1 u = u).
  { intros u. unfold scl. rewrite <- (map_id u) at 2. apply map_ext. intros; ring. }
  destruct b; try contradiction; cbn [bin_jet bin_val].
  - destruct (K Rplus 1 1 1 (a js + a ls) _ _ ltac:(ring) P) as (K1 & K2). repeat rewrite one in K1; repeat rewrite one in K2.
    unfold jet_add, vadd. rewrite K2, Ea, Eb. cbn [padded]. rewrite vop_ok by congruence. cbn [bind].
    eexists; eexists; split; [reflexivity|]; split; [reflexivity|]. split; [exact K1|reflexivity].
  - destruct (K Rminus 1 1 1 (a js - a ls) _ _ ltac:(ring) P) as (K1 & K2). repeat rewrite one in K1; repeat rewrite one in K2.
    unfold jet_sub, vsub. rewrite K2, Ea, Eb. cbn [padded]. rewrite vop_ok by congruence. cbn [bind].
    eexists; eexists; split; [reflexivity|]; split; [reflexivity|]. split; [exact K1|reflexivity].
  - assert (K' : rel (mkJet (a js * a ls) (zip Rplus (scl (a js) (v ls)) (scl (a ls) (v js))))
        (mkJet (a js * a ls) (zip Rplus (scl (a js) (padded None (v ld) (v jd))) (scl (a ls) (padded None (v jd) (v ld)))))
        /\ vop Rplus (scl (a js) (padded None (v ld) (v jd))) (scl (a ls) (padded None (v jd) (v ld)))
           = Ret (zip Rplus (scl (a js) (padded None (v ld) (v jd))) (scl (a ls) (padded None (v jd) (v ld))))).
    { destruct P as [(-> & ->)|(-> & -> & E1 & E2)].
      - split; [|apply vop_ok; rewrite !scl_len; congruence]. split; [reflexivity|]. cbn. split; [|now left]. rewrite zip_len; rewrite !scl_len; congruence.
      - split; [|reflexivity]. split; [reflexivity|]. cbn. rewrite E1, E2, !scl_zeros, zip_zeros by ring. split; [apply repeat_length|now right]. }
    destruct K' as (K1 & K2).
    unfold jet_mul, vadd. rewrite Ea, Eb, K2. cbn [padded]. rewrite vop_ok by (rewrite !scl_len; congruence). cbn [bind].
    eexists; eexists; split; [reflexivity|]; split; [reflexivity|]. split; [exact K1|reflexivity].
  - destruct (K Rminus 1 (a js * (1 / a ls)) (1 / a ls) (a js * (1 / a ls)) _ _ ltac:(ring) P) as (K1 & K2). repeat rewrite one in K1; repeat rewrite one in K2.
    unfold jet_div, vsub. cbv zeta. rewrite Ea, Eb, K2. cbn [padded]. rewrite vop_ok by (rewrite scl_len; congruence). cbn [bind].
    eexists; eexists; split; [reflexivity|]; split; [reflexivity|]. split; [exact K1|cbn; unfold Rdiv; ring].
  - destruct (K Rplus (sign1 (a js) * sign1 (a ls)) (Rabs (a js) * (if Req_bool (a ls) 0 then nan_ else 0)) 1 (std_copysign (a js) (a ls)) _ _ ltac:(ring) P) as (K1 & K2). repeat rewrite one in K1.
    unfold jet_copysign, vadd. cbv zeta. rewrite Ea, Eb, K2. cbn [padded]. rewrite vop_ok by (rewrite !scl_len; congruence). cbn [bind].
    eexists; eexists; split; [reflexivity|]; split; [reflexivity|]. split; [exact K1|reflexivity].
  - unfold jet_fmax, jet_lt, jet_gt. rewrite Ea, Eb.
    assert (E : Rlt_bool (a js) (a ls) || Rlt_bool (a ls) (a js) = true).
    { destruct (Rlt_bool_spec (a js) (a ls)); [reflexivity|]. rewrite (Rlt_bool_true (a ls)) by lra. reflexivity. }
    rewrite E. eexists; eexists; split; [reflexivity|]; split; [reflexivity|].
    destruct (Rlt_bool_spec (a js) (a ls)); (split; [assumption|]); [rewrite Rmax_right|rewrite Rmax_left]; auto; lra.
  - unfold jet_fmin, jet_lt, jet_gt. rewrite Ea, Eb.
    assert (E : Rlt_bool (a js) (a ls) || Rlt_bool (a ls) (a js) = true).
    { destruct (Rlt_bool_spec (a js) (a ls)); [reflexivity|]. rewrite (Rlt_bool_true (a ls)) by lra. reflexivity. }
    rewrite E. eexists; eexists; split; [reflexivity|]; split; [reflexivity|].
    destruct (Rlt_bool_spec (a ls) (a js)); (split; [assumption|]); [rewrite Rmin_right|rewrite Rmin_left]; auto; lra.
  - unfold jet_fdim, jet_gt. rewrite Ea, Eb. destruct (Rlt_bool_spec (a ls) (a js)) as [H|H].
    + destruct (K Rminus 1 1 1 (a js - a ls) _ _ ltac:(ring) P) as (K1 & K2). repeat rewrite one in K1; repeat rewrite one in K2.
      unfold jet_sub, vsub. rewrite K2, Ea, Eb. cbn [padded]. rewrite vop_ok by congruence. cbn [bind].
      eexists; eexists; split; [reflexivity|]; split; [reflexivity|]. split; [exact K1|]. cbn. rewrite Rmax_left; lra.
    + eexists; eexists; split; [reflexivity|]; split; [reflexivity|]. split; [now apply rel_const|]. cbn. rewrite Rmax_right; lra.
  - assert (K' : let t := 1 / (a ls * a ls + a js * a js) in
        rel (mkJet (std_atan2 (a js) (a ls)) (scl t (zip Rplus (scl (- a js) (v ls)) (scl (a ls) (v js)))))
        (mkJet (std_atan2 (a js) (a ls)) (scl t (zip Rplus (scl (- a js) (padded None (v ld) (v jd))) (scl (a ls) (padded None (v jd) (v ld))))))
        /\ vop Rplus (scl (- a js) (padded None (v ld) (v jd))) (scl (a ls) (padded None (v jd) (v ld)))
           = Ret (zip Rplus (scl (- a js) (padded None (v ld) (v jd))) (scl (a ls) (padded None (v jd) (v ld))))).
    { cbv zeta. destruct P as [(-> & ->)|(-> & -> & E1 & E2)].
      - split; [|apply vop_ok; rewrite !scl_len; congruence]. split; [reflexivity|]. cbn. split; [|now left]. rewrite scl_len, zip_len; rewrite !scl_len; congruence.
      - split; [|reflexivity]. split; [reflexivity|]. cbn. rewrite E1, E2, !scl_zeros, zip_zeros, scl_zeros by ring. split; [apply repeat_length|now right]. }
    destruct K' as (K1 & K2).
    unfold jet_atan2, vadd. cbv zeta. rewrite Ea, Eb, K2. cbn [padded]. rewrite vop_ok by (rewrite !scl_len; congruence). cbn [bind].
    eexists; eexists; split; [reflexivity|]; split; [reflexivity|]. split; [exact K1|reflexivity].
  - unfold jet_pow. rewrite Ea, Eb. destruct (Req_bool (a js) 0 && Rle_bool 1 (a ls)) eqn:C1.
    + eexists; eexists; split; [reflexivity|]; split; [reflexivity|].
      apply andb_prop in C1. destruct C1 as (C1 & C2).
      assert (C1' : a js = 0) by (destruct (Req_bool_spec (a js) 0); [assumption|discriminate]).
      assert (C2' : 1 <= a ls) by (destruct (Rle_bool_spec 1 (a ls)); [assumption|discriminate]).
      assert (Z : std_pow (a js) (a ls) = 0).
      { unfold std_pow. rewrite Rlt_bool_false, Req_bool_true, Req_bool_false; lra. }
      destruct (Rlt_bool 1 (a ls)); (split; [first [now apply rel_const|exact H1]|]); rewrite Z; [reflexivity|exact C1'].
    + cbv zeta. destruct (Rlt_bool (a js) 0 && is_int (a ls)).
      * assert (M : forall gv rv, List.length gv = List.length rv ->
            mark_nan (List.length gv) gv rv = Ret (zip (fun x y => if Req_bool x 0 then y else nan_) gv rv)).
        { intros gv rv Hl. unfold mark_nan. rewrite Nat.ltb_irrefl, firstn_all, <- Hl, skipn_all. cbn [existsb orb].
          rewrite Hl, skipn_all, app_nil_r. reflexivity. }
        pose proof (M (v ls) (scl (a ls * std_pow (a js) (a ls - 1)) (v js)) ltac:(rewrite scl_len; congruence)) as M1. rewrite L2 in M1.
        change (padded (Some n) (v ls) (v js)) with (v ls). change (padded (Some n) (v js) (v ls)) with (v js). rewrite M1. cbn [bind].
        destruct P as [(-> & ->)|(-> & -> & E1 & E2)].
        -- rewrite L1, M1. cbn [bind].
           eexists; eexists; split; [reflexivity|]; split; [reflexivity|]. split; [|reflexivity]. split; [reflexivity|]. cbn.
           split; [|now left]. rewrite zip_len; [congruence|rewrite scl_len; congruence].
        -- cbn. eexists; eexists; split; [reflexivity|]; split; [reflexivity|]. split; [|reflexivity]. split; [reflexivity|]. cbn.
           rewrite E1, E2, scl_zeros, zip_zeros by (rewrite Req_bool_true; reflexivity). split; [apply repeat_length|now right].
      * destruct (K Rplus (a ls * std_pow (a js) (a ls - 1)) (std_pow (a js) (a ls) * ln (a js)) 1 (std_pow (a js) (a ls)) _ _ ltac:(ring) P) as (K1 & K2). repeat rewrite one in K1.
        unfold vadd. rewrite K2. cbn [padded]. rewrite vop_ok by (rewrite !scl_len; congruence). cbn [bind].
        eexists; eexists; split; [reflexivity|]; split; [reflexivity|]. split; [exact K1|reflexivity].
Qed.
End Dyn.

Lemma dyn_static e x : scoped e (List.length x) -> dyn_safe e x ->
  exists js jd, eval_jet (Some (List.length x)) e (seeds x) = Ret js /\ eval_jet None e (seeds x) = Ret jd
    /\ rel (List.length x) js jd /\ a js = eval e x.
Proof.
  set (n := List.length x).
  induction e as [i|c|u e IH|b e1 IH1 e2 IH2|t e1 IH1 e2 IH2 e3 IH3|c e1 IH1 e2 IH2 e3 IH3 e4 IH4]; cbn [scoped dyn_safe eval eval_jet]; intros C S.
  - rewrite seeds_nth by assumption. eexists; eexists; split; [reflexivity|]; split; [reflexivity|]. split; [|reflexivity].
    split; [reflexivity|]. split; [apply unit_len|now left].
  - eexists; eexists; split; [reflexivity|]; split; [reflexivity|]. split; [now apply rel_const|reflexivity].
  - destruct S as (S1 & S2). destruct (IH C S1) as (js & jd & -> & -> & H & E). cbn [bind]. rewrite <- E. now apply rel_un.
  - destruct C as (C1 & C2), S as (S1 & S2 & S3).
    destruct (IH1 C1 S1) as (js & jd & -> & -> & H & E), (IH2 C2 S2) as (ls & ld & -> & -> & H' & E'). cbn [bind]. rewrite <- E, <- E'.
    apply rel_bin; try assumption. rewrite E, E'. destruct b; auto.
  - contradiction.
  - destruct C as (C1 & C2 & C3 & C4), S as (S1 & S2 & S3 & S4).
    destruct (IH1 C1 S1) as (js & jd & -> & -> & (H & _) & E), (IH2 C2 S2) as (ls & ld & -> & -> & (H' & _) & E'). cbn [bind].
    rewrite !cmp_jet_val, H, H', E, E'. destruct (cmp_val c (eval e1 x) (eval e2 x)); auto.
Qed.

Lemma smooth_scoped e x : smooth e x -> dyn_safe e x -> exists js jd,
    eval_jet (Some (List.length x)) e (seeds x) = Ret js /\ eval_jet None e (seeds x) = Ret jd /\ rel (List.length x) js jd.
Proof.
  set (n := List.length x).
  induction e as [i|c|u e IH|b e1 IH1 e2 IH2|t e1 IH1 e2 IH2 e3 IH3|c e1 IH1 e2 IH2 e3 IH3 e4 IH4]; cbn [smooth dyn_safe eval eval_jet]; intros C S.
  - rewrite seeds_nth by assumption. eexists; eexists; split; [reflexivity|]; split; [reflexivity|].
    split; [reflexivity|]. split; [apply unit_len|now left].
  - eexists; eexists; split; [reflexivity|]; split; [reflexivity|]. now apply rel_const.
  - destruct S as (S1 & S2), C as (C & _). destruct (IH C S1) as (js & jd & -> & -> & H). cbn [bind].
    destruct (rel_un n u js jd H S2) as (rs & rd & ? & ? & ? & _). eauto.
  - destruct C as (C1 & C2 & _), S as (S1 & S2 & S3). pose proof (good_expr x e1 C1) as (g1 & E1 & (A1 & _)). pose proof (good_expr x e2 C2) as (g2 & E2 & (A2 & _)).
    destruct (IH1 C1 S1) as (js & jd & F1 & -> & H), (IH2 C2 S2) as (ls & ld & F2 & -> & H').
    fold n in E1, E2. rewrite F1 in E1. injection E1 as ->. rewrite F2 in E2. injection E2 as ->. rewrite F1, F2. cbn [bind].
    destruct (rel_bin n b g1 jd g2 ld H H') as (rs & rd & ? & ? & ? & _); [rewrite A1, A2; destruct b; auto|]. eauto.
  - contradiction.
  - destruct C as (C1 & C2 & _ & C3), S as (S1 & S2 & S3 & S4).
    pose proof (good_expr x e1 C1) as (g1 & E1 & (A1 & _)). pose proof (good_expr x e2 C2) as (g2 & E2 & (A2 & _)).
    destruct (IH1 C1 S1) as (js & jd & F1 & -> & H), (IH2 C2 S2) as (ls & ld & F2 & -> & H').
    fold n in E1, E2. rewrite F1 in E1. injection E1 as ->. rewrite F2 in E2. injection E2 as ->. rewrite F1, F2. cbn [bind].
    destruct H as (H & _), H' as (H' & _). rewrite !cmp_jet_val, H, H', A1, A2. destruct (cmp_val c (eval e1 x) (eval e2 x)); auto.
Qed.

(** Values do not depend on differentiability. *)
Lemma dyn_stands e x : scoped e (List.length x) -> dyn_safe e x ->
  exists js jd, eval_jet (Some (List.length x)) e (seeds x) = Ret js /\ eval_jet None e (seeds x) = Ret jd
    /\ a js = eval e x /\ a jd = eval e x /\ List.length (v js) = List.length x /\ stands_for (v jd) (v js).
Proof.
  intros C S. destruct (dyn_static e x C S) as (js & jd & E1 & E2 & (Ea & L & V) & Ev).
  exists js, jd. repeat split; try assumption; [congruence|]. unfold stands_for. now rewrite L.
Qed.

Lemma dyn_good e x : smooth e x -> dyn_safe e x ->
  exists j, eval_jet None e (seeds x) = Ret j /\ a j = eval e x /\ (List.length (v j) = List.length x \/ v j = [])
    /\ derivative_of (eval e) x (v j).
Proof.
  intros C S. destruct (smooth_scoped e x C S) as (js & jd & E1 & E2 & (Ea & L & V)).
  destruct (good_expr x e C) as (j & E & (Ga & Gl & Gv)). rewrite E1 in E. injection E as <-.
  exists jd. split; [exact E2|]. split; [congruence|]. split; [destruct V as [->|(-> & _)]; auto|].
  apply derivative_entries with (1 := Gv). intros k Hk. destruct V as [->|(-> & Z)]; [reflexivity|].
  rewrite Z, zeros_nth. now destruct k.
Qed.
