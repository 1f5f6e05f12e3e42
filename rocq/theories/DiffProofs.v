(** Numerical differentiation evaluates the documented quotients. *)
From Coq Require Import ZArith List Bool Lia.
From Verif Require Import BaseModel NumModel TraitsModel TraitsSpec TraitsProofs DiffModel DiffSpec.
Import ListNotations.
Open Scope Z_scope.

Lemma put_len {S} (l : list S) i y : List.length (put l i y) = List.length l.
Proof. revert i; induction l as [|x l IH]; intros [|i]; cbn; auto. Qed.
Lemma put_put {S} (l : list S) i y z : put (put l i y) i z = put l i z.
Proof. revert i; induction l as [|x l IH]; intros [|i]; cbn; auto. now rewrite IH. Qed.
Lemma put_repeat {S} (z : S) n i : put (repeat z n) i z = repeat z n.
Proof. revert i; induction n as [|n IH]; intros [|i]; cbn; auto. now rewrite IH. Qed.

Lemma put_step {A : Arith} sc n j (y : A) : put (repeat (nzero sc) n) j y = step_vec sc n j y.
Proof.
  unfold step_vec.
  assert (G : forall n s j, put (repeat (nzero sc) n) j y = map (fun i => if (i =? s + j)%nat then y else nzero sc) (seq s n)).
  { clear. induction n as [|n IH]; intros s [|j]; cbn; try reflexivity.
    - rewrite Nat.add_0_r, Nat.eqb_refl. f_equal.
      assert (E : forall n s', (s < s')%nat -> map (fun i => if (i =? s)%nat then y else nzero sc) (seq s' n) = repeat (nzero sc) n).
      { clear. induction n as [|n IH]; intros s' H; cbn; [reflexivity|]. rewrite IH by lia. destruct (Nat.eqb_spec s' s); [lia|reflexivity]. }
      now rewrite E by lia.
    - destruct (Nat.eqb_spec s (s + S j)); [lia|]. f_equal. rewrite (IH (S s)). apply map_ext. intros i. now rewrite Nat.add_succ_r. }
  apply (G n O j).
Qed.

Lemma shape_refl {S} (y : val S) : same_shape y y.
Proof.
  revert y. fix IH 1. intros [a|r c l|l|v1 v2]; cbn; auto.
  induction l as [|y l IHl]; cbn; auto.
Qed.

Section Num.
Context {A : Arith}.
Variables (sc : fmt) (t : ty) (f : val A -> residuals A) (method : Method) (h : A) (x : val A) (m : nat).
Hypothesis P : good_params t x.
Hypothesis R : returns method f m.
Let n := List.length (flatten x).

Lemma shift_ok y d : same_shape x y -> has_type t y -> List.length d = n ->
  exists y', PlusEq (nadd sc) t y d = Ret y' /\ shifted sc y d y' /\ has_type t y' /\ same_shape x y'.
Proof.
  intros Hs Ht Hd. destruct P as (Pr & Pc & Pt & Pi & Ps). pose proof (shape_len _ _ Hs) as L.
  destruct (plus_regular (nadd sc) t y d) as (y' & E & Ef & Et & Es); auto.
  - now apply (shape_int x).
  - unfold n in Hd. congruence.
  - unfold size in *. now rewrite <- L.
  - exists y'. split; [exact E|]. split; [split; [exact Es|]|]; [exact Ef|]. split; [exact Et|]. now apply (shape_trans _ y).
Qed.

Lemma quotients_nth (p q : list A) (d : A) i : (i < List.length p)%nat -> List.length p = List.length q ->
  nth i (quotients sc p q d) (nzero sc) = ndiv sc (nsub sc (nth i p (nzero sc)) (nth i q (nzero sc))) d.
Proof.
  revert q i; induction p as [|a p IH]; intros [|b q] [|i] H E; cbn in *; try lia; auto. apply IH; lia.
Qed.
Lemma quotients_len (p q : list A) (d : A) : List.length p = List.length q -> List.length (quotients sc p q d) = List.length p.
Proof. revert q; induction p as [|a p IH]; intros [|b q] E; cbn in *; try lia. now rewrite IH by lia. Qed.

Lemma column_ok y1 y2 d : exists c, column sc m (coefs_of (f y1)) (coefs_of (f y2)) d = Ret c /\ List.length c = m /\
  forall i, (i < m)%nat -> nth i c (nzero sc) =
    ndiv sc (nsub sc (nth i (coefs_of (f y1)) (nzero sc)) (nth i (coefs_of (f y2)) (nzero sc))) d.
Proof.
  destruct (R y1) as (L1 & _), (R y2) as (L2 & _). unfold column. rewrite L1, L2, Nat.eqb_refl. cbn [andb].
  eexists. split; [reflexivity|]. split; [rewrite quotients_len; congruence|]. intros i Hi. apply quotients_nth; congruence.
Qed.
Lemma as_column_ok : method = kForward -> as_column (f x) = Ret (coefs_of (f x)).
Proof. intros E. destruct (R x) as (_ & H). specialize (H E). unfold as_column. destruct (f x); [reflexivity|]. now rewrite H. Qed.

Definition entry (j : nat) (p q : val A) (c : list A) : Prop :=
  shifted sc x (step_vec sc n j h) p /\
  match method with
  | kForward => True
  | kCentral => shifted sc x (step_vec sc n j (nopp h)) q
  | kFastCentral => shifted sc p (step_vec sc n j (nmul sc (nofZ sc (-2)) h)) q
  end /\
  List.length c = m /\
  forall i, (i < m)%nat -> nth i c (nzero sc) =
    quotient sc method h (nth i (coefs_of (f p)) (nzero sc)) (nth i (coefs_of (f q)) (nzero sc)) (nth i (coefs_of (f x)) (nzero sc)).

Definition dx_ok (r : nat) (dx : list A) : Prop :=
  match r with O => dx = repeat (nzero sc) n | S r => exists w, dx = put (repeat (nzero sc) n) r w end.
Lemma dx_next r dx : dx_ok r dx ->
  (if (0 <? r)%nat then put dx (r - 1) (nzero sc) else dx) = repeat (nzero sc) n.
Proof.
  destruct r as [|r]; cbn; [trivial|]. intros (w & ->). now rewrite Nat.sub_0_r, put_put, put_repeat.
Qed.
Lemma num_column_ok log r dx : dx_ok r dx -> exists p q c dx',
  num_column sc t (logged f) method h x log (f x) dx r =
    Ret (log ++ match method with kForward => [p] | _ => [p; q] end, dx', c) /\ dx_ok (S r) dx' /\ entry r p q c.
Proof.
  intros Hdx. unfold num_column. rewrite (dx_next r dx Hdx).
  destruct P as (_ & _ & Pt & _).
  assert (L : forall w : A, List.length (put (repeat (nzero sc) n) r w) = n) by (intros; now rewrite put_len, repeat_length).
  destruct (shift_ok x (put (repeat (nzero sc) n) r h) (shape_refl x) Pt (L h)) as (p & Ep & Sp & Tp & Hp).
  rewrite Ep. cbn [bind logged]. destruct (R x) as (Lx & _). rewrite Lx.
  unfold entry. rewrite <- !put_step. remember method as mth eqn:M in |- *. destruct mth.
  - rewrite as_column_ok by (now symmetry). cbn [bind]. destruct (column_ok p x h) as (c & Ec & Lc & Hc). rewrite Ec. cbn [bind].
    exists p, p, c. eexists. split; [reflexivity|]. split; [eexists; reflexivity|]. repeat split; try apply Sp; auto.
  - rewrite put_put. destruct (shift_ok x (put (repeat (nzero sc) n) r (nopp h)) (shape_refl x) Pt (L _)) as (q & Eq & Sq & Tq & Hq).
    rewrite Eq. cbn [bind]. destruct (column_ok p q (nmul sc (nofZ sc 2) h)) as (c & Ec & Lc & Hc). rewrite Ec. cbn [bind].
    exists p, q, c. eexists. split; [rewrite <- app_assoc; reflexivity|]. split; [eexists; reflexivity|].
    repeat split; try apply Sp; try apply Sq; auto.
  - rewrite put_put. destruct (shift_ok p (put (repeat (nzero sc) n) r (nmul sc (nofZ sc (-2)) h)) Hp Tp (L _)) as (q & Eq & Sq & Tq & Hq).
    rewrite Eq. cbn [bind]. destruct (column_ok p q (nmul sc (nofZ sc 2) h)) as (c & Ec & Lc & Hc). rewrite Ec. cbn [bind].
    exists p, q, c. eexists. split; [rewrite <- app_assoc; reflexivity|]. split; [eexists; reflexivity|].
    repeat split; try apply Sp; try apply Sq; auto.
Qed.

Lemma num_columns_ok k : forall log r dx, dx_ok r dx -> exists ps qs J,
  num_columns sc t (logged f) method h x log (f x) dx r k = Ret (log ++ calls method ps qs, J) /\
  List.length ps = k /\ List.length qs = k /\ List.length J = k /\
  forall j, (j < k)%nat -> exists p q c, nth_error ps j = Some p /\ nth_error qs j = Some q /\ nth_error J j = Some c /\ entry (r + j) p q c.
Proof.
  induction k as [|k IH]; intros log r dx Hdx; cbn [num_columns].
  - exists [], [], []. split; [destruct method; cbn; now rewrite app_nil_r|]. repeat split. intros j Hj. lia.
  - destruct (num_column_ok log r dx Hdx) as (p & q & c & dx' & E & Hdx' & He). rewrite E. cbn [bind].
    replace (r + 1)%nat with (S r) by lia.
    destruct (IH (log ++ match method with kForward => [p] | _ => [p; q] end) (S r) dx' Hdx') as (ps & qs & J & E2 & L1 & L2 & L3 & HJ).
    rewrite E2. cbn [bind]. exists (p :: ps), (q :: qs), (c :: J).
    split; [rewrite <- app_assoc; destruct method; reflexivity|]. cbn [List.length]. repeat split; try lia.
    intros [|j] Hj.
    + exists p, q, c. cbn. rewrite Nat.add_0_r. auto.
    + destruct (HJ j) as (p' & q' & c' & ? & ? & ? & ?); [lia|]. exists p', q', c'. cbn. rewrite Nat.add_succ_r. auto.
Qed.

Lemma NumEval_ok log : exists ps qs J,
  NumEval sc t (logged f) method h x log = Ret (log ++ x :: calls method ps qs, f x, J) /\
  List.length ps = n /\ List.length qs = n /\ List.length J = n /\
  forall j, (j < n)%nat -> exists p q c, nth_error ps j = Some p /\ nth_error qs j = Some q /\ nth_error J j = Some c /\ entry j p q c.
Proof.
  destruct P as (Pr & Pc & Pt & Pi & Ps). unfold NumEval. rewrite (DynDims_size t x Pt Pi Ps). cbn [bind logged].
  replace (Z.to_nat (size x)) with n by (unfold size, n; lia).
  destruct (num_columns_ok n (log ++ [x]) 0 (repeat (nzero sc) n)) as (ps & qs & J & E & L1 & L2 & L3 & H); [reflexivity|].
  rewrite E. cbn [bind]. exists ps, qs, J. split; [now rewrite <- app_assoc|]. auto.
Qed.

End Num.

Lemma calls_count {A : Arith} method (ps qs : list (val A)) n : List.length ps = n -> List.length qs = n ->
  List.length (calls method ps qs) = match method with kForward => n | _ => 2 * n end%nat.
Proof.
  assert (G : forall ps qs : list (val A), List.length ps = List.length qs ->
    List.length (flat_map (fun p => [fst p; snd p]) (combine ps qs)) = (2 * List.length ps)%nat).
  { clear. induction ps as [|p ps IH]; intros [|q qs] E; cbn in *; try lia. rewrite IH by lia. lia. }
  intros L1 L2. unfold calls. destruct method; [assumption| |]; rewrite G; congruence.
Qed.
