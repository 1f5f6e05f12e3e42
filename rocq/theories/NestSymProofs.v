(** Jets of jets: the matrix of second derivatives is symmetric, even where the function is not
    differentiable. *)
From Coq Require Import ZArith List Bool Reals Lra Lia.
From Flocq Require Import Core.Raux.
From Verif Require Import BaseModel FunModel JetModel JetSpec JetProofs NestModel NestSpec NestProofs NestFlatProofs.
Import ListNotations.
Open Scope R_scope.

Section Sym.
Variable n : nat.
Notation L1 := (nest n 1).
Notation L2 := (nest n 2).

Definition row (j : gjet (gjet R)) (i : nat) : gjet R := nth i (jv j) (cst L1 0).
Record sym (j : gjet (gjet R)) : Prop := mk_sym {
  s_len : List.length (jv j) = n;
  s_a : List.length (jv (ja j)) = n;
  s_row : forall i, (i < n)%nat -> List.length (jv (row j i)) = n;
  s_first : forall i, (i < n)%nat -> nth i (jv (ja j)) 0 = ja (row j i);
  s_second : forall i k, (i < n)%nat -> (k < n)%nat -> nth k (jv (row j i)) 0 = nth i (jv (row j k)) 0 }.

Lemma row_map g (j : gjet (gjet R)) A i : List.length (jv j) = n -> (i < n)%nat ->
  row (J A (map g (jv j))) i = g (row j i).
Proof. intros E H. unfold row; cbn. apply nth_map_in. now rewrite E. Qed.
Lemma row_zip g (j l : gjet (gjet R)) A i : List.length (jv j) = n -> List.length (jv l) = n -> (i < n)%nat ->
  row (J A (zip2 g (jv j) (jv l))) i = g (row j i) (row l i).
Proof. intros E E' H. unfold row; cbn. apply nth_zip2; [congruence|now rewrite E]. Qed.
Lemma row_zip3 g (j l q : gjet (gjet R)) A i : List.length (jv j) = n -> List.length (jv l) = n -> List.length (jv q) = n ->
  (i < n)%nat -> row (J A (zip3 g (jv j) (jv l) (jv q))) i = g (row j i) (row l i) (row q i).
Proof. intros E E' E'' H. unfold row; cbn. apply nth_zip3; [congruence|congruence|now rewrite E]. Qed.

(** Reading entries of the functions of single jets. *)
Ltac len := repeat (rewrite ?zip2_len, ?zip3_len, ?map_length, ?repeat_length; try assumption; try lia; try congruence); try congruence; try lia.
Ltac conds := repeat match goal with
  | |- context [if ?b then _ else _] => let E := fresh "C" in destruct b eqn:E
  end.
Ltac read := cbn [tower nest jet_num uno bino terno nest_un nest_bin nest_tern nest_midpoint jconst cst re ja jv real_num un_val bin_val tern_val];
  repeat (first [rewrite nth_zip2 by len | rewrite nth_zip3 by len | rewrite (nth_map_in _ _ _ 0) by len | rewrite nth_repeat_in by len]).

Lemma sym_const c : sym (cst L2 c).
Proof.
  split; cbn; unfold jconst; cbn; unfold row; cbn.
  - apply repeat_length.
  - apply repeat_length.
  - intros i H. rewrite nth_repeat_in by exact H. cbn. apply repeat_length.
  - intros i H. rewrite (nth_repeat_in (J 0 (repeat 0 n))) by exact H. rewrite nth_repeat_in by exact H. reflexivity.
  - intros i k Hi Hk. rewrite !(nth_repeat_in (J 0 (repeat 0 n))) by assumption. cbn. now rewrite !nth_repeat_in by assumption.
Qed.
Lemma sym_repeat A : List.length (jv A) = n -> (forall i, (i < n)%nat -> nth i (jv A) 0 = 0) ->
  sym (J A (repeat (cst L1 0) n)).
Proof.
  intros EA Z. assert (Q : forall i, (i < n)%nat -> row (J A (repeat (cst L1 0) n)) i = cst L1 0).
  { intros i Hi. unfold row; cbn [jv]. now apply nth_repeat_in. }
  split; cbn [ja jv]; [apply repeat_length|exact EA| | |].
  - intros i Hi. rewrite Q by exact Hi. apply repeat_length.
  - intros i Hi. rewrite Q by exact Hi. now apply Z.
  - intros i k Hi Hk. rewrite !Q by assumption. cbn. now rewrite !nth_repeat_in by assumption.
Qed.

Ltac un_case E EA ER E1 E2 :=
  split; cbn [uno nest jet_num nest_un];
    [ cbn; len
    | cbn; len
    | let i := fresh in let Hi := fresh in intros i Hi; rewrite ?row_map by assumption; pose proof (ER i Hi); cbn; len
    | let i := fresh "i" in let Hi := fresh "Hi" in intros i Hi; rewrite ?row_map by assumption; pose proof (ER i Hi); read; rewrite ?E1 by assumption; cbn [un_val bin_val]; try reflexivity; unfold Rdiv; try ring
    | let i := fresh "i" in let Hi := fresh "Hi" in let k := fresh "k" in let Hk := fresh "Hk" in
      intros i k Hi Hk; rewrite ?row_map by assumption; pose proof (ER i Hi); pose proof (ER k Hk); read;
      rewrite ?E1 by assumption; rewrite ?(E2 i k) by assumption; cbn [un_val bin_val]; unfold Rdiv; try ring ].

(** The powers of single jets. *)
Lemma pow_a (A B : gjet R) : ja (bino L1 Pow A B) = std_pow (ja A) (ja B).
Proof.
  cbn. destruct (Req_bool_spec (ja A) 0) as [Z|Z]; cbn [andb].
  - destruct (Rle_bool_spec 1 (ja B)) as [H|H].
    + assert (Q : std_pow (ja A) (ja B) = 0).
      { unfold std_pow. rewrite Rlt_bool_false, Req_bool_true, Req_bool_false by lra. reflexivity. }
      rewrite Q. destruct (Rlt_bool_spec 1 (ja B)); [reflexivity|exact Z].
    + destruct (_ && _); reflexivity.
  - destruct (_ && _); reflexivity.
Qed.
Lemma pow_len (A B : gjet R) : List.length (jv A) = n -> List.length (jv B) = n -> List.length (jv (bino L1 Pow A B)) = n.
Proof. apply (len_bin n Pow A B). Qed.
Lemma pow_v (A B : gjet R) : List.length (jv A) = n -> List.length (jv B) = n -> (forall k, (k < n)%nat -> nth k (jv B) 0 = 0) ->
  exists c, forall k, (k < n)%nat -> nth k (jv (bino L1 Pow A B)) 0 = c * nth k (jv A) 0.
Proof.
  intros LA LB Z. cbn. destruct (_ && Rle_bool 1 (ja B)).
  - destruct (Rlt_bool 1 (ja B)).
    + exists 0. intros k Hk. cbn. rewrite nth_repeat_in by exact Hk. ring.
    + exists 1. intros. cbn. ring.
  - destruct (_ && _); cbn.
    + eexists. intros k Hk. rewrite nth_zip2 by len. rewrite Z by exact Hk. rewrite Req_bool_true by reflexivity. reflexivity.
    + eexists. intros k Hk. rewrite nth_zip2 by len. rewrite Z by exact Hk. rewrite Rmult_0_r, Rplus_0_r. reflexivity.
Qed.
Lemma pow_v_pos (A B : gjet R) k : 0 < ja A -> List.length (jv A) = n -> List.length (jv B) = n -> (k < n)%nat ->
  nth k (jv (bino L1 Pow A B)) 0 = ja B * std_pow (ja A) (ja B - 1) * nth k (jv A) 0 + std_pow (ja A) (ja B) * ln (ja A) * nth k (jv B) 0.
Proof.
  intros P LA LB Hk. cbn. rewrite (Req_bool_false (ja A) 0), (Rlt_bool_false (ja A) 0) by lra. cbn. now rewrite nth_zip2 by len.
Qed.

Lemma sym_scale A (T : gjet R) (j : gjet (gjet R)) c : sym j -> List.length (jv A) = n -> List.length (jv T) = n ->
  (forall i, (i < n)%nat -> nth i (jv A) 0 = ja T * nth i (jv (ja j)) 0) ->
  (forall k, (k < n)%nat -> nth k (jv T) 0 = c * nth k (jv (ja j)) 0) ->
  sym (J A (map (bino L1 Mul T) (jv j))).
Proof.
  intros [E EA ER E1 E2] LA LT H1 H2. split; cbn [ja jv].
  - len.
  - exact LA.
  - intros i Hi. rewrite row_map by assumption. pose proof (ER i Hi). cbn. len.
  - intros i Hi. rewrite row_map by assumption. read. now rewrite H1, E1.
  - intros i k Hi Hk. rewrite !row_map by assumption. pose proof (ER i Hi). pose proof (ER k Hk). read.
    rewrite !H2, !E1, (E2 i k) by assumption. ring.
Qed.

Lemma sym_un u j : sym j -> un_smooth u (ja (ja j)) -> sym (uno L2 u j).
Proof.
  intros SJ. pose proof SJ as [E EA ER E1 E2]. intros US.
  destruct u;
  try solve [un_case E EA ER E1 E2].
  - apply sym_repeat; [apply repeat_length|]. intros i Hi. cbn. now apply nth_repeat_in.
  - apply sym_repeat; [apply repeat_length|]. intros i Hi. cbn. now apply nth_repeat_in.
  - split; cbn [uno nest jet_num nest_un ja jv]; auto; [cbn; len|]. intros i Hi. read. rewrite E1 by exact Hi. unfold row; cbn. ring.
  - split; cbn [uno nest jet_num nest_un ja jv]; auto; [cbn; len|]. intros i Hi. read. rewrite E1 by exact Hi. unfold row; cbn. ring.
  - split; cbn [uno nest jet_num nest_un ja jv]; auto; [cbn; len|]. intros i Hi. read. rewrite E1 by exact Hi. unfold row; cbn. ring.
  - un_case E EA ER E1 E2. rewrite Rinv_mult. ring.
  - set (B := uno L1 (SSub p) (cst L1 1)).
    assert (LB : List.length (jv B) = n) by (cbn; len).
    destruct (pow_v (ja j) B EA LB) as (c & Hc).
    { intros k Hk. cbn. rewrite (nth_map_in _ _ _ 0) by len. rewrite nth_repeat_in by exact Hk. cbn. ring. }
    set (T := uno L1 (SMul p) (bino L1 Pow (ja j) B)).
    assert (TA : ja T = p * std_pow (ja (ja j)) (p - 1)).
    { transitivity (ja (bino L1 Pow (ja j) B) * p); [reflexivity|]. rewrite pow_a. cbn. ring. }
    assert (TV : forall k, (k < n)%nat -> nth k (jv T) 0 = c * p * nth k (jv (ja j)) 0).
    { intros k Hk. transitivity (nth k (map (fun w => w * p) (jv (bino L1 Pow (ja j) B))) 0); [reflexivity|].
      rewrite (nth_map_in _ _ _ 0) by (rewrite pow_len; auto). rewrite Hc by exact Hk. ring. }
    assert (LT : List.length (jv T) = n) by (apply (len_un n); now apply pow_len).
    change (sym (J (uno L1 (PowS p) (ja j)) (map (bino L1 Mul T) (jv j)))).
    apply (sym_scale _ T j (c * p) SJ); [cbn; len|exact LT| |exact TV].
    intros i Hi. rewrite TA. read. cbn. ring.
  - cbn [uno nest jet_num nest_un]. cbn in US. cbn [re cst jet_num nest real_num jconst ja].
    destruct US as [US|(-> & US)].
    + rewrite (Req_bool_false s 0), (Rlt_bool_false s 0) by lra. cbn [andb].
      set (T := bino L1 Mul (uno L1 Log (cst L1 s)) (bino L1 Pow (cst L1 s) (ja j))).
      change (sym (J (bino L1 Pow (cst L1 s) (ja j)) (map (bino L1 Mul T) (jv j)))).
      assert (PV : forall k, (k < n)%nat -> nth k (jv (bino L1 Pow (cst L1 s) (ja j))) 0 = ln s * std_pow s (ja (ja j)) * nth k (jv (ja j)) 0).
      { intros k Hk. rewrite pow_v_pos; [|exact US|apply repeat_length|exact EA|exact Hk].
        cbn. rewrite nth_repeat_in by exact Hk. ring. }
      assert (LP : List.length (jv (bino L1 Pow (cst L1 s) (ja j))) = n) by (apply pow_len; [apply repeat_length|exact EA]).
      assert (LL : List.length (jv (uno L1 Log (cst L1 s))) = n) by (cbn; len).
      assert (TA : ja T = ln s * std_pow s (ja (ja j))).
      { transitivity (ln s * ja (bino L1 Pow (cst L1 s) (ja j))); [reflexivity|].
        now rewrite pow_a. }
      assert (TV : forall k, (k < n)%nat -> nth k (jv T) 0 = ln s * (ln s * std_pow s (ja (ja j))) * nth k (jv (ja j)) 0).
      { intros k Hk.
        transitivity (nth k (zip2 (fun p q => ln s * q + p * ja (bino L1 Pow (cst L1 s) (ja j))) (jv (uno L1 Log (cst L1 s))) (jv (bino L1 Pow (cst L1 s) (ja j)))) 0); [reflexivity|].
        rewrite nth_zip2; [|exact (eq_trans LL (eq_sym LP))|exact (eq_ind_r (fun m => (k < m)%nat) Hk LL)]. rewrite PV by exact Hk. cbn. rewrite (nth_map_in _ _ _ 0) by len. rewrite nth_repeat_in by exact Hk. ring. }
      apply (sym_scale _ T j (ln s * (ln s * std_pow s (ja (ja j)))) SJ).
      * exact LP.
      * unfold T. apply (len_bin n Mul); assumption.
      * intros i Hi. rewrite PV, TA by exact Hi. reflexivity.
      * exact TV.
    + rewrite Req_bool_true, Rlt_bool_true by auto. cbn [andb]. apply (sym_const 0).
Qed.

Ltac bin_case E EA ER E1 E2 E' EA' ER' E1' E2' :=
  split; cbn [bino nest jet_num nest_bin nest_midpoint];
    [ cbn; len
    | cbn; len
    | let i := fresh in let Hi := fresh in intros i Hi; rewrite ?row_zip by assumption; pose proof (ER i Hi); pose proof (ER' i Hi); cbn; len
    | let i := fresh "i" in let Hi := fresh "Hi" in intros i Hi; rewrite ?row_zip by assumption;
      pose proof (ER i Hi); pose proof (ER' i Hi); read; rewrite ?E1, ?E1' by assumption; cbn [un_val bin_val]; try reflexivity; unfold Rdiv; try ring
    | let i := fresh "i" in let Hi := fresh "Hi" in let k := fresh "k" in let Hk := fresh "Hk" in
      intros i k Hi Hk; rewrite ?row_zip by assumption; pose proof (ER i Hi); pose proof (ER k Hk);
      pose proof (ER' i Hi); pose proof (ER' k Hk); read;
      rewrite ?E1, ?E1' by assumption; rewrite ?(E2 i k), ?(E2' i k) by assumption; cbn [un_val bin_val]; unfold Rdiv; try ring ].
Lemma sym_bin b j l : sym j -> sym l -> b <> Pow -> bin_smooth b (ja (ja j)) (ja (ja l)) -> sym (bino L2 b j l).
Proof.
  intros SJ SL. pose proof SJ as [E EA ER E1 E2]. pose proof SL as [E' EA' ER' E1' E2']. intros NP BS.
  destruct b; try congruence; try solve [bin_case E EA ER E1 E2 E' EA' ER' E1' E2'].
  - cbn in BS. cbn [tower bino nest jet_num nest_bin re real_num]. rewrite (Req_bool_false (ja (ja l)) 0) by tauto.
    split; cbn [bino nest jet_num nest_bin].
    + cbn. len.
    + cbn. len.
    + intros i Hi. rewrite row_zip by assumption. pose proof (ER i Hi). pose proof (ER' i Hi). cbn. len.
    + intros i Hi. rewrite row_zip by assumption. pose proof (ER i Hi). pose proof (ER' i Hi). read.
      rewrite E1, E1' by assumption. ring.
    + intros i k Hi Hk. rewrite !row_zip by assumption. pose proof (ER i Hi). pose proof (ER k Hk).
      pose proof (ER' i Hi). pose proof (ER' k Hk). read.
      rewrite ?E1, ?E1', ?(E2 i k), ?(E2' i k) by assumption. unfold nan_. conds; cbn [un_val bin_val]; ring.
  - cbn in BS. cbn [tower bino nest jet_num nest_bin re real_num].
    destruct (Rlt_bool_spec (ja (ja j)) (ja (ja l))); [exact SL|]. rewrite Rlt_bool_true by lra. exact SJ.
  - cbn in BS. cbn [tower bino nest jet_num nest_bin re real_num].
    destruct (Rlt_bool_spec (ja (ja l)) (ja (ja j))); [rewrite orb_true_r; exact SL|]. rewrite Rlt_bool_true by lra. exact SJ.
  - cbn [tower bino nest jet_num nest_bin re real_num]. destruct (Rlt_bool _ _); [|exact (sym_const 0)].
    bin_case E EA ER E1 E2 E' EA' ER' E1' E2'.
  - change (sym (J (bino L1 Midpoint (ja j) (ja l)) (zip2 (bino L1 Midpoint) (jv j) (jv l)))). split; cbn [ja jv].
    + len.
    + cbn. len.
    + intros i Hi. rewrite row_zip by assumption. pose proof (ER i Hi). pose proof (ER' i Hi). cbn. len.
    + intros i Hi. rewrite row_zip by assumption. pose proof (ER i Hi). pose proof (ER' i Hi). read.
      now rewrite E1, E1' by assumption.
    + intros i k Hi Hk. rewrite !row_zip by assumption. pose proof (ER i Hi). pose proof (ER k Hk).
      pose proof (ER' i Hi). pose proof (ER' k Hk). read. now rewrite (E2 i k), (E2' i k) by assumption.
  - bin_case E EA ER E1 E2 E' EA' ER' E1' E2'.
    cbn in BS. assert (ja (ja l) * ja (ja l) + ja (ja j) * ja (ja j) <> 0) by (destruct BS; nra). field. assumption.
Qed.

End Sym.
