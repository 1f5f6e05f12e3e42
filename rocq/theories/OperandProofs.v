(** Proofs about the operand traits. *)
From Coq Require Import ZArith List Bool Lia Permutation.
From Verif Require Import OperandModel OperandSpec.
Import ListNotations.
Open Scope Z_scope.

Lemma is_same_eq t u : is_same t u = true <-> t = u.
Proof.
  revert u; induction t as [j|j|t IH m]; intros [k|k|u n]; cbn; try (split; discriminate).
  - rewrite Nat.eqb_eq; split; [intros ->|intros [= ->]]; reflexivity.
  - rewrite Nat.eqb_eq; split; [intros ->|intros [= ->]]; reflexivity.
  - rewrite andb_true_iff, IH, Z.eqb_eq. split; [intros [-> ->]|intros [= -> ->]]; auto.
Qed.

Lemma any_jet ts : AreAnyJet ts = true <-> exists t, In t ts /\ is_jet t.
Proof.
  induction ts as [|t ts IH]; cbn.
  - split; [discriminate|intros (? & [] & _)].
  - destruct t as [k|k|u n].
    1,2: rewrite IH; split; [intros (t & ? & ?); eauto|
      intros (t & [<- | In_] & J); [destruct J as (? & ? & [=])|eauto]].
    split; [intros _; exists (TJet u n); split; [auto|now exists u, n]|reflexivity].
Qed.

Lemma remove_impl v s : forall h, RemoveValueImpl v h s = h ++ filter (fun x => negb (x =? v)) s.
Proof.
  induction s as [|x s IH]; intro h; cbn; [now rewrite app_nil_r|].
  destruct (x =? v); cbn; rewrite IH; [reflexivity|]. now rewrite <- app_assoc.
Qed.
Lemma remove_value s v : RemoveValue s v = filter (fun x => negb (x =? v)) s.
Proof. exact (remove_impl v s []). Qed.

Lemma all_equal s : IsEmptyOrAreAllEqual s = true <-> forall x y, In x s -> In y s -> x = y.
Proof.
  destruct s as [|h s]; cbn; [split; [intros _ x y []|reflexivity]|].
  unfold AreAllEqual; rewrite forallb_forall. split.
  - intros E x y Hx Hy.
    assert (A : forall z, h = z \/ In z s -> z = h).
    { intros z [<- |I_]; [reflexivity|]. symmetry. apply Z.eqb_eq, E, I_. }
    now rewrite (A x Hx), (A y Hy).
  - intros E x I_. apply Z.eqb_eq. apply E; auto.
Qed.

Lemma ranks_equal ts :
  IsEmptyOrAreAllEqual (RemoveValue (Ranks ts) 0) = true <->
  forall t u, In t ts -> In u ts -> Rank t <> 0 -> Rank u <> 0 -> Rank t = Rank u.
Proof.
  rewrite all_equal, remove_value. unfold Ranks. split.
  - intros E t u It Iu Ht Hu.
    apply E; apply filter_In; (split; [now apply in_map|]).
    all: apply negb_true_iff, Z.eqb_neq; assumption.
  - intros E x y Hx Hy. apply filter_In in Hx, Hy.
    destruct Hx as [Hx Nx], Hy as [Hy Ny].
    apply in_map_iff in Hx, Hy. destruct Hx as (t & <- & It), Hy as (u & <- & Iu).
    apply negb_true_iff, Z.eqb_neq in Nx, Ny. now apply E.
Qed.

Lemma all_same ts b : AreAllSame ts = Some b ->
  (b = true <-> forall t u, In t ts -> In u ts -> t = u).
Proof.
  destruct ts as [|h ts]; cbn; [discriminate|]. intros [= <-].
  rewrite forallb_forall. split.
  - intros E x y Hx Hy.
    assert (A : forall z, h = z \/ In z ts -> z = h).
    { intros z [<- |I_]; [reflexivity|]. symmetry. apply is_same_eq, E, I_. }
    now rewrite (A x Hx), (A y Hy).
  - intros E x I_. apply is_same_eq. apply E; auto.
Qed.

Lemma underlying_tower t : tower (UnderlyingScalar t) t.
Proof.
  induction t as [k|k|t IH n]; cbn.
  1,2: constructor; intros (? & ? & [=]).
  now constructor.
Qed.
Lemma tower_unique s t : tower s t -> s = UnderlyingScalar t.
Proof.
  induction 1 as [N|t n _ IH]; [|exact IH].
  destruct s; cbn; try reflexivity. destruct N. now eexists _, _.
Qed.

Lemma same_scalar_iff ts : ts <> [] ->
  ((forall t u, In t ts -> In u ts -> UnderlyingScalar t = UnderlyingScalar u) <->
   same_scalar ts).
Proof.
  intros NE. split.
  - intros E. destruct ts as [|h ts]; [congruence|].
    exists (UnderlyingScalar h). intros t It.
    rewrite (E h t (or_introl eq_refl) It). apply underlying_tower.
  - intros (s & E) t u It Iu.
    now rewrite <- (tower_unique _ _ (E t It)), <- (tower_unique _ _ (E u Iu)).
Qed.

Lemma promotable_iff ts :
  PromotableJetOperands ts = true <->
  (exists t, In t ts /\ is_jet t) /\
  forall t u, In t ts -> In u ts -> Rank t <> 0 -> Rank u <> 0 -> Rank t = Rank u.
Proof.
  unfold PromotableJetOperands. now rewrite andb_true_iff, any_jet, ranks_equal.
Qed.

Lemma compatible_iff ts : exists b, CompatibleJetOperands ts = Some b /\
  (b = true <->
   (exists t, In t ts /\ is_jet t) /\ same_scalar ts /\
   forall t u, In t ts -> In u ts -> Rank t <> 0 -> Rank u <> 0 -> Rank t = Rank u).
Proof.
  destruct ts as [|t1 [|t2 ts]].
  - eexists; split; [reflexivity|]. split; [discriminate|intros ((? & [] & _) & _)].
  - assert (E : exists b, CompatibleJetOperands [t1] = Some b /\ (b = true <-> is_jet t1)).
    { destruct t1 as [k|k|u n]; cbn; eexists; (split; [reflexivity|]).
      1,2: split; [discriminate|intros (? & ? & [=])].
      split; [now eexists _, _|reflexivity]. }
    destruct E as (b & -> & Hb). exists b; split; [reflexivity|].
    rewrite Hb. split.
    + intros J. split; [exists t1; cbn; auto|]. split.
      * exists (UnderlyingScalar t1). intros t [<- |[]]. apply underlying_tower.
      * intros t u [<- |[]] [<- |[]] _ _. reflexivity.
    + intros ((t & [<- |[]] & J) & _). exact J.
  - set (l := t1 :: t2 :: ts).
    assert (C : CompatibleJetOperands l =
      match AreAllSame (map UnderlyingScalar l) with
      | None => None
      | Some same => Some (AreAnyJet l && same && IsEmptyOrAreAllEqual (RemoveValue (Ranks l) 0))
      end) by (destruct t1; reflexivity).
    destruct (AreAllSame (map UnderlyingScalar l)) as [same|] eqn:S_; [|discriminate].
    exists (AreAnyJet l && same && IsEmptyOrAreAllEqual (RemoveValue (Ranks l) 0)).
    split; [exact C|].
    rewrite !andb_true_iff, any_jet, ranks_equal, (all_same _ _ S_), <- same_scalar_iff by discriminate.
    assert (M : (forall t u, In t (map UnderlyingScalar l) -> In u (map UnderlyingScalar l) -> t = u)
      <-> forall t u, In t l -> In u l -> UnderlyingScalar t = UnderlyingScalar u).
    { split.
      - intros E t u It Iu. apply E; now apply in_map.
      - intros E t u It Iu. apply in_map_iff in It, Iu.
        destruct It as (t' & <- & It), Iu as (u' & <- & Iu). now apply E. }
    tauto.
Qed.

Lemma ranks_regular ts : regular ts -> (exists t, In t ts /\ is_jet t) ->
  ((forall t u, In t ts -> In u ts -> Rank t <> 0 -> Rank u <> 0 -> Rank t = Rank u) <->
   same_dimension ts).
Proof.
  intros Reg (j & Ij & (u & n & ->)). split.
  - intros E. exists n. intros t It.
    destruct (Reg t It) as [K|(w & m & -> & Nm)]; [now right|]. left; exists w.
    destruct (Reg _ Ij) as [(? & [=])|(? & ? & [= <- <-] & Nn)].
    f_equal. exact (E _ _ It Ij Nm Nn).
  - intros (N & D) t w It Iw Ht Hw.
    destruct (D t It) as [(? & ->)|(? & ->)]; [|now destruct Ht].
    destruct (D w Iw) as [(? & ->)|(? & ->)]; [|now destruct Hw].
    reflexivity.
Qed.

Lemma promotable_regular ts : regular ts ->
  (PromotableJetOperands ts = true <-> (exists t, In t ts /\ is_jet t) /\ same_dimension ts).
Proof.
  intros Reg. rewrite promotable_iff. split; intros [J E]; (split; [exact J|]);
    now apply (ranks_regular ts Reg J).
Qed.

Lemma compatible_regular ts : regular ts ->
  exists b, CompatibleJetOperands ts = Some b /\
  (b = true <-> (exists t, In t ts /\ is_jet t) /\ same_scalar ts /\ same_dimension ts).
Proof.
  intros Reg. destruct (compatible_iff ts) as (b & C & B). exists b; split; [exact C|].
  rewrite B. split; intros (J & S_ & E); (split; [exact J|split; [exact S_|]]);
    now apply (ranks_regular ts Reg J).
Qed.

Lemma in_perm {T} (l l' : list T) : Permutation l l' -> forall x, In x l <-> In x l'.
Proof. intros P x; split; apply Permutation_in; [exact P|now symmetry]. Qed.

(** The traits only depend on the set of types. *)
Lemma promotable_set ts us : (forall t, In t ts <-> In t us) ->
  PromotableJetOperands ts = PromotableJetOperands us.
Proof.
  intros E. apply eq_true_iff_eq. rewrite !promotable_iff.
  split; (intros ((t & It & J) & F); split; [exists t; split; [now apply E|exact J]|]);
    intros; apply F; auto; now apply E.
Qed.
Lemma compatible_set ts us : (forall t, In t ts <-> In t us) ->
  CompatibleJetOperands ts = CompatibleJetOperands us.
Proof.
  intros E. destruct (compatible_iff ts) as (b & -> & B), (compatible_iff us) as (b' & -> & B').
  f_equal. apply eq_true_iff_eq. rewrite B, B'.
  split; (intros ((t & It & J) & (s & S_) & F); split; [exists t; split; [now apply E|exact J]|];
    split; [exists s; intros u Iu; apply S_; now apply E|]);
    intros; apply F; auto; now apply E.
Qed.

Lemma compatible_promotable ts : CompatibleJetOperands ts = Some true ->
  PromotableJetOperands ts = true.
Proof.
  intros C. destruct (compatible_iff ts) as (b & C' & B). rewrite C in C'. injection C' as <-.
  apply promotable_iff. destruct (proj1 B eq_refl) as (J & _ & F). auto.
Qed.

(** Adding a scalar operand. *)
Lemma promotable_scalar ts k : PromotableJetOperands (TScalar k :: ts) = PromotableJetOperands ts.
Proof.
  apply eq_true_iff_eq. rewrite !promotable_iff. split; intros ((t & It & J) & F).
  - split.
    + destruct It as [<- |It]; [destruct J as (? & ? & [=])|eauto].
    + intros; apply F; cbn; auto.
  - split; [exists t; cbn; auto|].
    intros x y [<- |Ix] [<- |Iy] Hx Hy; try reflexivity; cbn in *; try congruence; auto.
Qed.

Section Scan.
Variable T : itype.

Lemma prefix_0 s : prefix_sum 0 s = 0.
Proof. reflexivity. Qed.
Lemma prefix_S k n s : prefix_sum (S k) (n :: s) = n + prefix_sum k s.
Proof. reflexivity. Qed.

Lemma scan_checked (W : wraps T = false) s : forall sum rs r,
  ExclusiveScanImpl T sum s rs = Some r <->
  (forall k, (1 <= k <= length s)%nat -> representable T (sum + prefix_sum k s)) /\
  r = rs ++ map (fun k => sum + prefix_sum k s) (seq 0 (length s)).
Proof.
  induction s as [|n s IH]; intros sum rs r; cbn [ExclusiveScanImpl length].
  - cbn [seq map]. rewrite app_nil_r. split; [intros [= ->]; split; [lia|reflexivity]|].
    intros [_ ->]; reflexivity.
  - unfold const_add; rewrite W.
    assert (M : map (fun k => sum + prefix_sum k (n :: s)) (seq 0 (S (length s))) =
                sum :: map (fun k => (sum + n) + prefix_sum k s) (seq 0 (length s))).
    { cbn [seq map]. f_equal; [cbn; lia|]. rewrite <- seq_shift, map_map.
      apply map_ext. intro k. rewrite prefix_S; lia. }
    destruct (Z.leb_spec (ilo T) (sum + n)) as [L|L]; cbn [andb].
    + destruct (Z.leb_spec (sum + n) (ihi T)) as [H|H].
      * rewrite IH, M, <- app_assoc. cbn [app].
        split; intros [F ->]; (split; [|reflexivity]).
        -- intros [|[|k]] K; [lia| |].
           ++ rewrite prefix_S, prefix_0. unfold representable; lia.
           ++ rewrite prefix_S. specialize (F (S k)). rewrite <- Z.add_assoc in F. apply F; lia.
        -- intros k K. specialize (F (S k)). rewrite prefix_S, Z.add_assoc in F. apply F; lia.
      * split; [discriminate|]. intros [F _]. specialize (F 1%nat).
        rewrite prefix_S, prefix_0 in F. unfold representable in F. lia.
    + split; [discriminate|]. intros [F _]. specialize (F 1%nat).
      rewrite prefix_S, prefix_0 in F. unfold representable in F. lia.
Qed.

Lemma scan_wrapping (W : wraps T = true) (B : 0 <= bits T) s : forall sum rs, 
  ExclusiveScanImpl T (sum mod 2 ^ bits T) s rs =
  Some (rs ++ map (fun k => (sum + prefix_sum k s) mod 2 ^ bits T) (seq 0 (length s))).
Proof.
  assert (P : 0 < 2 ^ bits T) by (apply Z.pow_pos_nonneg; lia).
  induction s as [|n s IH]; intros sum rs; cbn [ExclusiveScanImpl length].
  - cbn [seq map]. now rewrite app_nil_r.
  - unfold const_add; rewrite W. rewrite Zplus_mod_idemp_l, IH, <- app_assoc. f_equal. f_equal.
    cbn [seq map app]. f_equal; [f_equal; cbn; lia|]. rewrite <- seq_shift, map_map.
    apply map_ext. intro k. rewrite prefix_S. f_equal; lia.
Qed.
End Scan.

Lemma exclusive_scan T s r : wraps T = false -> representable T 0 ->
  (ExclusiveScan T s = Some r <->
   (forall k, (k <= length s)%nat -> representable T (prefix_sum k s)) /\
   length r = length s /\
   forall k, (k < length s)%nat -> nth k r 0 = prefix_sum k s).
Proof.
  intros W R0. unfold ExclusiveScan. rewrite (scan_checked T W). split.
  - intros [F ->]. split; [|split].
    + intros [|k] K; [exact R0|]. apply (F (S k)); lia.
    + cbn [app]. now rewrite map_length, seq_length.
    + intros k K. cbn [app].
      rewrite (nth_indep _ 0 (0 + prefix_sum 0 s)) by now rewrite map_length, seq_length.
      rewrite (map_nth (fun k => 0 + prefix_sum k s)), seq_nth by exact K. reflexivity.
  - intros (F & L & E). split; [intros k K; apply F; lia|].
    apply (nth_ext _ _ 0 0); cbn [app].
    { rewrite map_length, seq_length. exact L. }
    intros k K. rewrite L in K. rewrite (E k K).
    rewrite (nth_indep _ 0 (0 + prefix_sum 0 s)) by now rewrite map_length, seq_length.
    rewrite (map_nth (fun k => 0 + prefix_sum k s)), seq_nth by exact K. reflexivity.
Qed.

Lemma exclusive_scan_wrap T s : wraps T = true ->
  exists r, ExclusiveScan T s = Some r /\ length r = length s /\
  forall k, (k < length s)%nat -> nth k r 0 = prefix_sum k s mod 2 ^ bits T.
Proof.
  intros W.
  assert (B : 0 <= bits T).
  { unfold wraps in W. apply andb_true_iff in W. destruct W as [_ W]. apply Z.leb_le in W. lia. }
  assert (P : 0 < 2 ^ bits T) by (apply Z.pow_pos_nonneg; lia).
  pose proof (scan_wrapping T W B s 0 []) as E. rewrite (Z.mod_0_l (2 ^ bits T)) in E by lia.
  eexists; split; [exact E|]. cbn [app]. split.
  - now rewrite map_length, seq_length.
  - intros k K.
    rewrite (nth_indep _ 0 ((0 + prefix_sum 0 s) mod 2 ^ bits T)) by now rewrite map_length, seq_length.
    rewrite (map_nth (fun k => (0 + prefix_sum k s) mod 2 ^ bits T)), seq_nth by exact K. reflexivity.
Qed.

(** Removing a value. *)
Lemma remove_in s v x : In x (RemoveValue s v) <-> In x s /\ x <> v.
Proof. rewrite remove_value, filter_In, negb_true_iff, Z.eqb_neq. reflexivity. Qed.
Lemma remove_app s u v : RemoveValue (s ++ u) v = RemoveValue s v ++ RemoveValue u v.
Proof.
  rewrite !remove_value. induction s as [|x s IH]; cbn; [reflexivity|].
  destruct (x =? v); cbn; now rewrite IH.
Qed.
Lemma remove_count s v x :
  count_occ Z.eq_dec (RemoveValue s v) x = if Z.eq_dec x v then O else count_occ Z.eq_dec s x.
Proof.
  rewrite remove_value. induction s as [|y s IH]; cbn; [destruct (Z.eq_dec x v); reflexivity|].
  destruct (Z.eqb_spec y v) as [E|E]; cbn; rewrite IH;
    destruct (Z.eq_dec y x), (Z.eq_dec x v); subst; congruence.
Qed.

(** Values: comparisons look at the innermost scalar part only. *)
Lemma as_scalar_tower {T} (x : T) (l : list (list (cval T))) :
  AsScalar (fold_right (fun v a => VJet a v) (VPlain x) l) = x.
Proof. induction l; cbn; auto. Qed.
Lemma tower_of_value {T} (f : cval T) :
  exists l, f = fold_right (fun v a => VJet a v) (VPlain (AsScalar f)) l.
Proof.
  revert f; fix IH 1; intros [x|f v]; [now exists []|].
  destruct (IH f) as (l & E). exists (v :: l). cbn. now rewrite <- E.
Qed.

(** The corner cases. *)
Lemma zero_dimension_compatible :
  let ts := [TJet (TScalar 0) 0; TJet (TScalar 0) 3] in
  CompatibleJetOperands ts = Some true /\ ~ same_dimension ts.
Proof.
  split; [reflexivity|]. intros (N & D).
  destruct (D (TJet (TScalar 0) 0)) as [(? & [=])|(? & [=])]; [cbn; auto|].
  destruct (D (TJet (TScalar 0) 3)) as [(? & [=])|(? & [=])]; [cbn; auto|]. lia.
Qed.
Lemma dynamic_promotable s k :
  PromotableJetOperands [TJet s (-1); TClass k] = true /\
  ~ same_dimension [TJet s (-1); TClass k] /\
  PromotableJetOperands [TClass k; TJet s (-1)] = true.
Proof.
  split; [reflexivity|split; [|reflexivity]]. intros (N & D).
  destruct (D (TClass k)) as [(? & [=])|(? & [=])]; cbn; auto.
Qed.
