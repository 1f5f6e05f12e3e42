(** Jets of jets: powers, functions of three arguments, and the symmetry of the second
    derivatives of expressions. *)
From Coq Require Import ZArith List Bool Reals Lra Lia.
From Flocq Require Import Core.Raux.
From Verif Require Import BaseModel FunModel JetModel JetSpec DerivProofs JetProofs NestModel NestSpec NestProofs NestFlatProofs NestSymProofs.
Import ListNotations.
Open Scope R_scope.

(** The cases of pow(Jet, Jet). *)
Lemma pow_case_pos T (L : Num T) n f g : 0 < re L (ja f) ->
  nest_bin T L n Pow f g = J (bino L Pow (ja f) (ja g))
    (zip2 (fun p q => bino L Add (bino L Mul (bino L Mul (ja g) (bino L Pow (ja f) (bino L Sub (ja g) (cst L 1)))) p)
                                 (bino L Mul (bino L Mul (bino L Pow (ja f) (ja g)) (uno L Log (ja f))) q)) (jv f) (jv g)).
Proof. intros H. cbn [nest_bin]. rewrite (Req_bool_false (re L (ja f)) 0), (Rlt_bool_false (re L (ja f)) 0) by lra. reflexivity. Qed.
Lemma pow_case_neg T (L : Num T) n f g : re L (ja f) < 0 -> re L (ja g) = re L (uno L Floor (ja g)) ->
  nest_bin T L n Pow f g = J (bino L Pow (ja f) (ja g))
    (zip2 (fun p q => if Req_bool (re L q) 0 then bino L Mul (bino L Mul (ja g) (bino L Pow (ja f) (bino L Sub (ja g) (cst L 1)))) p
                      else cst L nan_) (jv f) (jv g)).
Proof. intros H F. cbn [nest_bin]. rewrite (Req_bool_false (re L (ja f)) 0) by lra. rewrite (Rlt_bool_true (re L (ja f)) 0) by exact H. rewrite <- F, (Req_bool_true _ _ eq_refl). reflexivity. Qed.
Lemma pow_case_zero T (L : Num T) n f g : re L (ja f) = 0 -> 1 <= re L (ja g) ->
  nest_bin T L n Pow f g = (if Rlt_bool 1 (re L (ja g)) then jconst T L n (cst L 0) else f).
Proof. intros H F. cbn [nest_bin]. rewrite Req_bool_true, Rle_bool_true by assumption. reflexivity. Qed.

Section Sym.
Variable n : nat.
Notation L1 := (nest n 1).
Notation L2 := (nest n 2).
Notation sym := (sym n).
Ltac len := repeat (rewrite ?zip2_len, ?zip3_len, ?map_length, ?repeat_length; try assumption; try lia; try congruence); try congruence; try lia.
Ltac read := cbn [tower nest jet_num uno bino terno nest_un nest_bin nest_tern nest_midpoint jconst cst re ja jv real_num un_val bin_val tern_val];
  repeat (first [rewrite nth_zip2 by len | rewrite nth_zip3 by len | rewrite (nth_map_in _ _ _ 0) by len | rewrite nth_repeat_in by len]); cbn [un_val bin_val tern_val].

Lemma sym_lin A (T S : gjet R) (j l : gjet (gjet R)) t1 t2 t3 : sym j -> sym l ->
  List.length (jv A) = n -> List.length (jv T) = n -> List.length (jv S) = n ->
  (forall i, (i < n)%nat -> nth i (jv A) 0 = ja T * nth i (jv (ja j)) 0 + ja S * nth i (jv (ja l)) 0) ->
  (forall k, (k < n)%nat -> nth k (jv T) 0 = t1 * nth k (jv (ja j)) 0 + t2 * nth k (jv (ja l)) 0) ->
  (forall k, (k < n)%nat -> nth k (jv S) 0 = t2 * nth k (jv (ja j)) 0 + t3 * nth k (jv (ja l)) 0) ->
  sym (J A (zip2 (fun p q => bino L1 Add (bino L1 Mul T p) (bino L1 Mul S q)) (jv j) (jv l))).
Proof.
  intros [E EA ER E1 E2] [E' EA' ER' E1' E2'] LA LT LS H1 H2 H3. split; cbn [ja jv].
  - len.
  - exact LA.
  - intros i Hi. rewrite row_zip by assumption. pose proof (ER i Hi). pose proof (ER' i Hi). cbn. len.
  - intros i Hi. rewrite row_zip by assumption. pose proof (ER i Hi). pose proof (ER' i Hi). read. now rewrite H1, E1, E1'.
  - intros i k Hi Hk. rewrite !row_zip by assumption. pose proof (ER i Hi). pose proof (ER k Hk).
    pose proof (ER' i Hi). pose proof (ER' k Hk). read.
    rewrite !H2, !H3, !E1, !E1', (E2 i k), (E2' i k) by assumption. cbn [un_val bin_val]. ring.
Qed.
Lemma Mul_v (f g : gjet R) k : List.length (jv f) = n -> List.length (jv g) = n -> (k < n)%nat ->
  nth k (jv (bino L1 Mul f g)) 0 = ja f * nth k (jv g) 0 + nth k (jv f) 0 * ja g.
Proof. intros Lf Lg Hk. read. reflexivity. Qed.
Lemma sym_pow_pos j l : sym j -> sym l -> 0 < ja (ja j) -> sym (bino L2 Pow j l).
Proof.
  intros SJ SL PO. pose proof SJ as [E EA ER E1 E2]. pose proof SL as [E' EA' ER' E1' E2'].
  set (B := bino L1 Sub (ja l) (cst L1 1)).
  set (T := bino L1 Mul (ja l) (bino L1 Pow (ja j) B)).
  set (S := bino L1 Mul (bino L1 Pow (ja j) (ja l)) (uno L1 Log (ja j))).
  assert (X : bino L2 Pow j l = J (bino L1 Pow (ja j) (ja l))
    (zip2 (fun p q => bino L1 Add (bino L1 Mul T p) (bino L1 Mul S q)) (jv j) (jv l))).
  { exact (pow_case_pos _ L1 n j l PO). }
  rewrite X.
  assert (LB : List.length (jv B) = n) by (cbn; len).
  assert (LP : List.length (jv (bino L1 Pow (ja j) B)) = n) by now apply pow_len.
  assert (LQ : List.length (jv (bino L1 Pow (ja j) (ja l))) = n) by now apply pow_len.
  assert (LL : List.length (jv (uno L1 Log (ja j))) = n) by (cbn; len).
  assert (BV : forall k, (k < n)%nat -> nth k (jv B) 0 = nth k (jv (ja l)) 0).
  { intros k Hk. unfold B. read. ring. }
  assert (LV : forall k, (k < n)%nat -> nth k (jv (uno L1 Log (ja j))) 0 = nth k (jv (ja j)) 0 * (1 / ja (ja j))).
  { intros k Hk. read. reflexivity. }
  set (F := ja (ja j)) in *. set (G := ja (ja l)) in *.
  assert (PW : std_pow F G * (1 / F) = std_pow F (G - 1)).
  { rewrite !DerivProofs.pow_pos by exact PO. unfold Rminus. rewrite Rpower_plus, Rpower_Ropp, Rpower_1 by exact PO. field. lra. }
  apply (sym_lin _ T S j l (G * ((G - 1) * std_pow F (G - 1 - 1))) (std_pow F (G - 1) + G * std_pow F (G - 1) * ln F)
    (std_pow F G * ln F * ln F) SJ SL LQ).
  - apply (len_bin n Mul); assumption.
  - apply (len_bin n Mul); assumption.
  - intros i Hi. rewrite pow_v_pos by assumption. fold F G. unfold T, S.
    change (ja (bino L1 Mul (ja l) (bino L1 Pow (ja j) B))) with (G * ja (bino L1 Pow (ja j) B)).
    change (ja (bino L1 Mul (bino L1 Pow (ja j) (ja l)) (uno L1 Log (ja j)))) with (ja (bino L1 Pow (ja j) (ja l)) * ln F).
    rewrite !pow_a. fold F G. change (ja B) with (G - 1). reflexivity.
  - intros k Hk. unfold T. rewrite Mul_v, pow_v_pos, BV, pow_a by assumption. fold F G. change (ja B) with (G - 1). ring.
  - intros k Hk. unfold S. rewrite Mul_v, LV, pow_v_pos, pow_a by assumption. fold F G. change (ja (uno L1 Log (ja j))) with (ln F).
    replace (std_pow F G * (nth k (jv (ja j)) 0 * (1 / F))) with (std_pow F G * (1 / F) * nth k (jv (ja j)) 0) by ring.
    rewrite PW. ring.
Qed.
Lemma zip2_const {A} (g : A -> A -> A) (z : A) u m : List.length u = m -> zip2 g u (repeat z m) = map (fun p => g p z) u.
Proof. revert m; induction u as [|p u IH]; intros [|m] H; cbn in *; try discriminate; auto. now rewrite IH by congruence. Qed.
Lemma sym_pow_const j c : sym j -> (exists m, c = IZR m /\ (ja (ja j) <> 0 \/ (1 <= m)%Z)) -> sym (bino L2 Pow j (cst L2 c)).
Proof.
  intros SJ (m & -> & SM). pose proof SJ as [E EA ER E1 E2].
  destruct (Rlt_le_dec 0 (ja (ja j))) as [PO|NP]; [now apply sym_pow_pos; [|apply sym_const|]|].
  destruct (Req_dec (ja (ja j)) 0) as [Z|Z].
  - assert (M : 1 <= IZR m) by (apply IZR_le; destruct SM; [congruence|assumption]).
    assert (X : bino L2 Pow j (cst L2 (IZR m)) = if Rlt_bool 1 (IZR m) then cst L2 0 else j)
      by exact (pow_case_zero _ L1 n j (cst L2 (IZR m)) Z M).
    rewrite X. destruct (Rlt_bool 1 (IZR m)); [exact (sym_const n 0)|exact SJ].
  - set (c := IZR m). set (B := bino L1 Sub (cst L1 c) (cst L1 1)).
    set (T := bino L1 Mul (cst L1 c) (bino L1 Pow (ja j) B)).
    assert (X : bino L2 Pow j (cst L2 c) = J (bino L1 Pow (ja j) (cst L1 c)) (map (bino L1 Mul T) (jv j))).
    { refine (eq_trans (pow_case_neg _ L1 n j (cst L2 c) _ _) _).
      - change (ja (ja j) < 0). lra.
      - change (c = std_floor c). unfold std_floor, c. now rewrite Zfloor_IZR.
      - f_equal. refine (eq_trans (zip2_const _ (cst L1 0) (jv j) n E) _). apply map_ext. intros p.
        change (re L1 (cst L1 0)) with 0. now rewrite Req_bool_true by reflexivity. }
    rewrite X.
    assert (LB : List.length (jv B) = n) by (cbn; len).
    assert (LC : List.length (jv (cst L1 c)) = n) by apply repeat_length.
    assert (BZ : forall k, (k < n)%nat -> nth k (jv B) 0 = 0).
    { intros k Hk. unfold B. read. ring. }
    assert (CZ : forall k, (k < n)%nat -> nth k (jv (cst L1 c)) 0 = 0).
    { intros k Hk. now apply nth_repeat_in. }
    assert (LP : List.length (jv (bino L1 Pow (ja j) B)) = n) by now apply pow_len.
    destruct (pow_v n (ja j) B EA LB BZ) as (t & Ht).
    assert (TV : forall k, (k < n)%nat -> nth k (jv T) 0 = c * t * nth k (jv (ja j)) 0).
    { intros k Hk. unfold T. rewrite Mul_v, Ht, CZ by assumption. change (ja (cst L1 c)) with c. ring. }
    apply (sym_scale n _ T j (c * t) SJ); [now apply pow_len|now apply (len_bin n Mul)| |exact TV].
    intros i Hi. unfold T. change (ja (bino L1 Mul (cst L1 c) (bino L1 Pow (ja j) B))) with (c * ja (bino L1 Pow (ja j) B)).
    rewrite pow_a. change (ja B) with (c - 1).
    assert (Y : bino L1 Pow (ja j) (cst L1 c) = J (std_pow (ja (ja j)) c)
      (zip2 (fun p q => if Req_bool q 0 then c * std_pow (ja (ja j)) (c - 1) * p else nan_) (jv (ja j)) (repeat 0 n))).
    { refine (pow_case_neg _ real_num n (ja j) (cst L1 c) _ _).
      - change (ja (ja j) < 0). lra.
      - change (c = std_floor c). unfold std_floor, c. now rewrite Zfloor_IZR. }
    rewrite Y. cbn [jv]. rewrite nth_zip2 by len. rewrite nth_repeat_in by exact Hi.
    now rewrite Req_bool_true by reflexivity.
Qed.

Lemma sym_tern t j l q : sym j -> sym l -> sym q -> tern_smooth t (ja (ja j)) (ja (ja l)) (ja (ja q)) -> sym (terno L2 t j l q).
Proof.
  intros SJ SL SQ. pose proof SJ as [E EA ER E1 E2]. pose proof SL as [E' EA' ER' E1' E2']. pose proof SQ as [F FA FR F1 F2]. intros TS.
  destruct t; (split; cbn [terno nest jet_num nest_tern];
    [ cbn; len
    | cbn; len
    | let i := fresh in let Hi := fresh in intros i Hi; rewrite ?row_zip3 by assumption; pose proof (ER i Hi); pose proof (ER' i Hi); pose proof (FR i Hi); cbn; len
    | let i := fresh "i" in let Hi := fresh "Hi" in intros i Hi; rewrite ?row_zip3 by assumption;
      pose proof (ER i Hi); pose proof (ER' i Hi); pose proof (FR i Hi); read; rewrite ?E1, ?E1', ?F1 by assumption; cbn [un_val bin_val tern_val]; try reflexivity; unfold Rdiv; try ring
    | let i := fresh "i" in let Hi := fresh "Hi" in let k := fresh "k" in let Hk := fresh "Hk" in
      intros i k Hi Hk; rewrite ?row_zip3 by assumption; pose proof (ER i Hi); pose proof (ER k Hk);
      pose proof (ER' i Hi); pose proof (ER' k Hk); pose proof (FR i Hi); pose proof (FR k Hk); read;
      rewrite ?E1, ?E1', ?F1 by assumption; rewrite ?(E2 i k), ?(E2' i k), ?(F2 i k) by assumption; cbn [un_val bin_val tern_val]; unfold Rdiv; try ring ]).
Qed.

(** *** The values *)
Lemma re_all d :
  (forall u f, re (nest n d) (uno (nest n d) u f) = un_val u (re (nest n d) f)) /\
  (forall b f g, re (nest n d) (bino (nest n d) b f g) = bin_val b (re (nest n d) f) (re (nest n d) g)) /\
  (forall t f g h, re (nest n d) (terno (nest n d) t f g h) = tern_val t (re (nest n d) f) (re (nest n d) g) (re (nest n d) h)) /\
  forall c, re (nest n d) (cst (nest n d) c) = c.
Proof.
  induction d as [|d (U & B & T & C)]; [repeat split; auto|].
  assert (Half : forall p, (p + p) / 2 = p) by (intros; field).
  assert (PZ : forall p, 1 <= p -> std_pow 0 p = 0).
  { intros p Hp. unfold std_pow. rewrite Rlt_bool_false, Req_bool_true, Req_bool_false by lra. reflexivity. }
  split; [|split; [|split]].
  - cut (forall u (f : gjet (tower d)), re (nest n (S d)) (uno (nest n (S d)) u f) = un_val u (re (nest n (S d)) f)); [exact (fun H => H)|].
    intros u f. destruct u; cbn [nest jet_num uno nest_un re ja jconst]; rewrite ?U, ?B, ?C; cbn [un_val bin_val]; try reflexivity; try (unfold Rdiv; ring).
    destruct (Req_bool_spec s 0) as [Z|Z]; cbn [andb].
    + destruct (Rlt_bool_spec 0 (re (nest n d) (ja f))) as [H|H].
      * unfold jconst; cbn [ja]. rewrite C, Z. unfold std_pow. rewrite Rlt_bool_false, Req_bool_true, Req_bool_false by lra. reflexivity.
      * destruct (_ && _); cbn [ja]; rewrite ?B, ?C; reflexivity.
    + destruct (_ && _); cbn [ja]; rewrite ?B, ?C; reflexivity.
  - cut (forall b (f g : gjet (tower d)), re (nest n (S d)) (bino (nest n (S d)) b f g) = bin_val b (re (nest n (S d)) f) (re (nest n (S d)) g)); [exact (fun H => H)|].
    intros b f g. destruct b; cbn [nest jet_num bino nest_bin nest_midpoint re ja jconst]; rewrite ?U, ?B, ?C; cbn [un_val bin_val]; try reflexivity; try (unfold Rdiv; ring).
    + destruct (Rlt_bool_spec (re (nest n d) (ja f)) (re (nest n d) (ja g))) as [H|H]; cbn [orb].
      * rewrite Rmax_right by lra. reflexivity.
      * destruct (Rlt_bool_spec (re (nest n d) (ja g)) (re (nest n d) (ja f))) as [H'|H']; cbn [ja].
        -- rewrite Rmax_left by lra. reflexivity.
        -- cbn. rewrite B. cbn. unfold std_midpoint. replace (re (nest n d) (ja g)) with (re (nest n d) (ja f)) by lra.
           rewrite Half. now rewrite Rmax_left by lra.
    + destruct (Rlt_bool_spec (re (nest n d) (ja g)) (re (nest n d) (ja f))) as [H|H]; rewrite ?orb_true_r.
      * rewrite Rmin_right by lra. reflexivity.
      * destruct (Rlt_bool_spec (re (nest n d) (ja f)) (re (nest n d) (ja g))) as [H'|H']; cbn [orb ja].
        -- rewrite Rmin_left by lra. reflexivity.
        -- cbn. rewrite B. cbn. unfold std_midpoint. replace (re (nest n d) (ja g)) with (re (nest n d) (ja f)) by lra.
           rewrite Half. now rewrite Rmin_left by lra.
    + destruct (Rlt_bool_spec (re (nest n d) (ja g)) (re (nest n d) (ja f))) as [H|H]; cbn [ja]; rewrite ?B, ?C; cbn.
      * rewrite Rmax_left by lra. reflexivity.
      * rewrite Rmax_right by lra. now rewrite C.
    + destruct (Req_bool_spec (re (nest n d) (ja f)) 0) as [Z|Z]; cbn [andb].
      * rewrite Z. destruct (Rle_bool_spec 1 (re (nest n d) (ja g))) as [H|H].
        -- rewrite PZ by exact H. destruct (Rlt_bool 1 _); [exact (C 0)|exact Z].
        -- destruct (_ && _); cbn [ja]; rewrite B; cbn; now rewrite Z.
      * destruct (_ && _); cbn [ja]; rewrite B; reflexivity.
  - intros t f g h. destruct t; cbn [nest jet_num terno nest_tern re ja]; now rewrite T.
  - intros c. cbn. apply C.
Qed.
Lemma re_eval d e xs : re (nest n d) (eval_num (nest n d) e xs) = eval e (map (re (nest n d)) xs).
Proof.
  destruct (re_all d) as (U & B & T & C).
  induction e as [i|c|u e IH|b e1 IH1 e2 IH2|t e1 IH1 e2 IH2 e3 IH3|c e1 IH1 e2 IH2 e3 IH3 e4 IH4]; cbn [eval eval_num].
  - rewrite <- map_nth with (f := re (nest n d)). now rewrite C.
  - apply C.
  - now rewrite U, IH.
  - now rewrite B, IH1, IH2.
  - now rewrite T, IH1, IH2, IH3.
  - rewrite IH1, IH2. destruct (cmp_val c _ _); assumption.
Qed.

Lemma sym_eval e xs x : List.Forall sym xs -> map (re L2) xs = x -> smooth e x -> sym (eval_num L2 e xs).
Proof.
  intros B X. assert (V : forall e, ja (ja (eval_num L2 e xs)) = eval e x).
  { intros e'. rewrite <- X. exact (re_eval 2 e' xs). }
  induction e as [i|c|u e IH|b e1 IH1 e2 IH2|t e1 IH1 e2 IH2 e3 IH3|c e1 IH1 e2 IH2 e3 IH3 e4 IH4]; cbn [smooth]; intros S0.
  - cbn [eval_num]. rewrite List.Forall_forall in B. apply B. apply nth_In. now rewrite <- X, map_length in S0.
  - apply sym_const.
  - destruct S0 as (S1 & S2). cbn [eval_num]. apply sym_un; [auto|]. now rewrite V.
  - destruct S0 as (S1 & S2 & S3). cbn [eval_num]. destruct S3 as [S3|(-> & m & -> & S3)].
    + assert (Q : b = Pow \/ b <> Pow) by (destruct b; auto; right; discriminate).
      destruct Q as [->|Q].
      * apply sym_pow_pos; auto. now rewrite V.
      * apply sym_bin; auto. now rewrite !V.
    + apply sym_pow_const; [auto|]. exists m. split; [reflexivity|]. now rewrite V.
  - destruct S0 as (S1 & S2 & S3 & S4). cbn [eval_num]. apply sym_tern; auto. now rewrite !V.
  - destruct S0 as (S1 & S2 & _ & S3). cbn [eval_num].
    change (re L2 (eval_num L2 e1 xs)) with (ja (ja (eval_num L2 e1 xs))). change (re L2 (eval_num L2 e2 xs)) with (ja (ja (eval_num L2 e2 xs))).
    rewrite !V. destruct (cmp_val c _ _); auto.
Qed.
End Sym.

Lemma sym_seed n c i : sym n (nest_var n 2 c i).
Proof.
  assert (Q : forall k, (k < n)%nat -> row n (nest_var n 2 c i) k = if (k =? i)%nat then cst (nest n 1) 1 else cst (nest n 1) 0).
  { intros k Hk. unfold row. cbn [nest_var jvar jv]. rewrite (nth_map_in _ _ _ 0%nat) by now rewrite seq_length. now rewrite seq_nth. }
  split.
  - cbn. now rewrite map_length, seq_length.
  - cbn. now rewrite map_length, seq_length.
  - intros k Hk. rewrite Q by exact Hk. destruct (k =? i)%nat; apply repeat_length.
  - intros k Hk. rewrite Q by exact Hk. cbn. rewrite (nth_map_in _ _ _ 0%nat) by now rewrite seq_length. rewrite seq_nth by exact Hk.
    cbn. now destruct (k =? i)%nat.
  - intros k m Hk Hm. rewrite !Q by assumption.
    destruct (k =? i)%nat, (m =? i)%nat; cbn; now rewrite !nth_repeat_in by assumption.
Qed.
Lemma re_seeds d x : map (re (nest (List.length x) d)) (nest_seeds d x) = x.
Proof.
  unfold nest_seeds. rewrite map_map. apply nth_ext with (d := 0) (d' := 0); rewrite map_length, seq_length; [reflexivity|].
  intros i Hi. rewrite (nth_map_in _ _ _ 0%nat) by now rewrite seq_length. rewrite seq_nth by exact Hi. cbn [plus].
  induction d as [|d IH]; [reflexivity|]. exact IH.
Qed.
Lemma value_lemma e x d : re (nest (List.length x) d) (eval_num (nest (List.length x) d) e (nest_seeds d x)) = eval e x.
Proof. rewrite re_eval, re_seeds. reflexivity. Qed.
Lemma symmetric_lemma e x i k : smooth e x -> (i < List.length x)%nat -> (k < List.length x)%nat ->
  let j := eval_num (nest (List.length x) 2) e (nest_seeds 2 x) in
  entry (List.length x) 2 j [i; k] = entry (List.length x) 2 j [k; i] /\
  nth i (jv (ja j)) 0 = entry (List.length x) 2 j [i].
Proof.
  intros S0 Hi Hk j. assert (Y : sym (List.length x) j).
  { apply (sym_eval (List.length x) e (nest_seeds 2 x) x); [|apply re_seeds|exact S0].
    apply List.Forall_forall. intros q Hq. unfold nest_seeds in Hq. apply in_map_iff in Hq. destruct Hq as (m & <- & _). apply sym_seed. }
  split; [exact (s_second _ _ Y i k Hi Hk)|exact (s_first _ _ Y i Hi)].
Qed.
