(** Updates on Lie groups, and rigid motions as a concrete group. *)
From Coq Require Import ZArith List Bool Lia Reals Lra.
From Verif Require Import BaseModel NumModel RealModel CostModel SolverModel OptimizerModel RunModel RunSpec.
From Verif Require Import TraitsModel UserModel UserSpec UserProofs.
Import ListNotations.

Section Lie.
Context {S G : Type}.
Variables (mul : G -> G -> G) (e : G) (exp : list S -> G) (opp : S -> S) (dof : nat).

Lemma lie_good : good_traits (lie_traits mul exp dof) (fun _ _ => dof).
Proof.
  repeat split; cbn; intros; try discriminate; try congruence.
  rewrite H, Nat.eqb_refl. eauto.
Qed.

Hypothesis assoc : forall x y z, mul (mul x y) z = mul x (mul y z).
Hypothesis unit_r : forall x, mul x e = x.
Hypothesis exp_opp : forall d, List.length d = dof -> mul (exp d) (exp (map opp d)) = e.

Lemma lie_undo x d : List.length d = dof -> lie_plus mul exp (lie_plus mul exp x d) (map opp d) = x.
Proof. intros H. unfold lie_plus. rewrite assoc, exp_opp by exact H. apply unit_r. Qed.

Lemma lie_containers t v d : uregular (lie_traits mul exp dof) t = true -> uhas_type t v -> uint_sized v ->
  List.length d = usize (fun _ _ => dof) t v -> (Z.of_nat (usize (fun _ _ => dof) t v) <= INT_MAX)%Z ->
  exists v', UPlusEq (lie_traits mul exp dof) t v d = Ret v' /\
    moved (lie_traits mul exp dof) (fun _ _ => dof) (leaves t v) d (leaves t v') /\
    UPlusEq (lie_traits mul exp dof) t v' (map opp d) = Ret v.
Proof.
  intros Hr Ht Hi Hd Hs.
  destruct (uplus_regular _ _ lie_good t v d Hr Ht Hi Hd Hs) as (v' & E & (F & _)).
  destruct (uplus_undo _ _ lie_good opp t v d) as (v2 & E2 & E3); auto.
  - intros k m m' d0 Hl H. cbn in *. rewrite map_length. rewrite Hl, Nat.eqb_refl in *.
    injection H as <-. f_equal. now apply lie_undo.
  - assert (v2 = v') by congruence. subst v2. eauto.
Qed.
End Lie.

Lemma lie_rollback {U G} (P : Problem REAL U G) (mul : G -> G -> G) (e : G) (exp : list R -> G) :
  (forall x y z, mul (mul x y) z = mul x (mul y z)) -> (forall x, mul x e = x) ->
  (forall d, mul (exp d) (exp (map Ropp d)) = e) -> p_plus P = lie_plus mul exp -> exact_rollback P.
Proof.
  intros A Un E Hp x d. rewrite Hp. unfold lie_plus. rewrite A.
  exact (eq_trans (f_equal (mul x) (E d)) (Un x)).
Qed.

(** *** Rigid motions, with the exponential of SE(3) *)
Open Scope R_scope.
Record rigid := mkRigid { r11 : R; r12 : R; r13 : R; r21 : R; r22 : R; r23 : R; r31 : R; r32 : R; r33 : R;
  t1 : R; t2 : R; t3 : R }.
Definition rmul (x y : rigid) : rigid := {|
  r11 := r11 x * r11 y + r12 x * r21 y + r13 x * r31 y;
  r12 := r11 x * r12 y + r12 x * r22 y + r13 x * r32 y;
  r13 := r11 x * r13 y + r12 x * r23 y + r13 x * r33 y;
  r21 := r21 x * r11 y + r22 x * r21 y + r23 x * r31 y;
  r22 := r21 x * r12 y + r22 x * r22 y + r23 x * r32 y;
  r23 := r21 x * r13 y + r22 x * r23 y + r23 x * r33 y;
  r31 := r31 x * r11 y + r32 x * r21 y + r33 x * r31 y;
  r32 := r31 x * r12 y + r32 x * r22 y + r33 x * r32 y;
  r33 := r31 x * r13 y + r32 x * r23 y + r33 x * r33 y;
  t1 := r11 x * t1 y + r12 x * t2 y + r13 x * t3 y + t1 x;
  t2 := r21 x * t1 y + r22 x * t2 y + r23 x * t3 y + t2 x;
  t3 := r31 x * t1 y + r32 x * t2 y + r33 x * t3 y + t3 x |}.
Definition rid : rigid := mkRigid 1 0 0 0 1 0 0 0 1 0 0 0.

(** I + a W + b W^2 where W v = w x v. *)
Definition rod (a b w1 w2 w3 : R) : R * R * R * R * R * R * R * R * R :=
  (1 - b * (w2 * w2 + w3 * w3), b * w1 * w2 - a * w3, b * w1 * w3 + a * w2,
   b * w1 * w2 + a * w3, 1 - b * (w1 * w1 + w3 * w3), b * w2 * w3 - a * w1,
   b * w1 * w3 - a * w2, b * w2 * w3 + a * w1, 1 - b * (w1 * w1 + w2 * w2)).
Definition rexp_with (a b c v1 v2 v3 w1 w2 w3 : R) : rigid :=
  let '(p11, p12, p13, p21, p22, p23, p31, p32, p33) := rod a b w1 w2 w3 in
  let '(q11, q12, q13, q21, q22, q23, q31, q32, q33) := rod b c w1 w2 w3 in
  mkRigid p11 p12 p13 p21 p22 p23 p31 p32 p33
    (q11 * v1 + q12 * v2 + q13 * v3) (q21 * v1 + q22 * v2 + q23 * v3) (q31 * v1 + q32 * v2 + q33 * v3).
Definition coef_a (th : R) : R := if Req_EM_T th 0 then 1 else sin th / th.
Definition coef_b (th : R) : R := if Req_EM_T th 0 then 1 / 2 else (1 - cos th) / (th * th).
Definition coef_c (th : R) : R := if Req_EM_T th 0 then 1 / 6 else (th - sin th) / (th * th * th).
Definition rexp (d : list R) : rigid :=
  match d with
  | [v1; v2; v3; w1; w2; w3] =>
      let th := sqrt (w1 * w1 + w2 * w2 + w3 * w3) in
      rexp_with (coef_a th) (coef_b th) (coef_c th) v1 v2 v3 w1 w2 w3
  | _ => rid
  end.

Lemma coefs th : th * th * coef_c th = 1 - coef_a th /\ coef_a th * coef_a th + th * th * (coef_b th * coef_b th) = 2 * coef_b th.
Proof.
  unfold coef_a, coef_b, coef_c. destruct (Req_EM_T th 0) as [-> |H]; [split; lra|].
  pose proof (sin2_cos2 th) as Hc. unfold Rsqr in Hc. split; [field; exact H|].
  replace (sin th / th * (sin th / th) + th * th * ((1 - cos th) / (th * th) * ((1 - cos th) / (th * th))))
    with ((sin th * sin th + cos th * cos th + 1 - 2 * cos th) / (th * th)) by (field; exact H).
  rewrite Hc. field. exact H.
Qed.

Lemma rexp_inverse a b c n v1 v2 v3 w1 w2 w3 : n = w1 * w1 + w2 * w2 + w3 * w3 ->
  n * c = 1 - a -> a * a + n * (b * b) = 2 * b ->
  rmul (rexp_with a b c v1 v2 v3 w1 w2 w3) (rexp_with a b c (- v1) (- v2) (- v3) (- w1) (- w2) (- w3)) = rid.
Proof.
  intros En E1 E2. set (k := 2 * b - a * a - n * (b * b)). assert (Ek : k = 0) by (unfold k; lra).
  set (l := n * c - (1 - a)). assert (El : l = 0) by (unfold l; lra).
  unfold rid, rmul, rexp_with, rod. cbn.
  (* R R' = I + k W^2 and V - R V' = (a l - k) W + b l W^2 *)
  f_equal.
  - transitivity (1 - k * (w2 * w2 + w3 * w3)); [unfold k; rewrite En; ring|rewrite Ek; ring].
  - transitivity (k * w1 * w2); [unfold k; rewrite En; ring|rewrite Ek; ring].
  - transitivity (k * w1 * w3); [unfold k; rewrite En; ring|rewrite Ek; ring].
  - transitivity (k * w1 * w2); [unfold k; rewrite En; ring|rewrite Ek; ring].
  - transitivity (1 - k * (w1 * w1 + w3 * w3)); [unfold k; rewrite En; ring|rewrite Ek; ring].
  - transitivity (k * w2 * w3); [unfold k; rewrite En; ring|rewrite Ek; ring].
  - transitivity (k * w1 * w3); [unfold k; rewrite En; ring|rewrite Ek; ring].
  - transitivity (k * w2 * w3); [unfold k; rewrite En; ring|rewrite Ek; ring].
  - transitivity (1 - k * (w1 * w1 + w2 * w2)); [unfold k; rewrite En; ring|rewrite Ek; ring].
  - transitivity ((a * l + k) * (w2 * v3 - w3 * v2) + b * l * (w1 * w2 * v2 + w1 * w3 * v3 - (w2 * w2 + w3 * w3) * v1));
      [unfold k, l; rewrite En; ring|rewrite Ek, El; ring].
  - transitivity ((a * l + k) * (w3 * v1 - w1 * v3) + b * l * (w1 * w2 * v1 + w2 * w3 * v3 - (w1 * w1 + w3 * w3) * v2));
      [unfold k, l; rewrite En; ring|rewrite Ek, El; ring].
  - transitivity ((a * l + k) * (w1 * v2 - w2 * v1) + b * l * (w1 * w3 * v1 + w2 * w3 * v2 - (w1 * w1 + w2 * w2) * v3));
      [unfold k, l; rewrite En; ring|rewrite Ek, El; ring].
Qed.

Lemma rassoc x y z : rmul (rmul x y) z = rmul x (rmul y z).
Proof. destruct x, y, z. unfold rmul. cbn. f_equal; ring. Qed.
Lemma runit_r x : rmul x rid = x.
Proof. destruct x. unfold rmul, rid. cbn. f_equal; ring. Qed.
Lemma rexp_opp d : rmul (rexp d) (rexp (map Ropp d)) = rid.
Proof.
  destruct d as [|v1 [|v2 [|v3 [|w1 [|w2 [|w3 [|]]]]]]]; try (apply runit_r).
  cbn [map]. unfold rexp.
  replace (- w1 * - w1 + - w2 * - w2 + - w3 * - w3) with (w1 * w1 + w2 * w2 + w3 * w3) by ring.
  set (n := w1 * w1 + w2 * w2 + w3 * w3). assert (Hn : sqrt n * sqrt n = n).
  { apply sqrt_sqrt. unfold n. nra. }
  destruct (coefs (sqrt n)) as (H1 & H2). rewrite Hn in H1, H2.
  exact (rexp_inverse _ _ _ n v1 v2 v3 w1 w2 w3 eq_refl H1 H2).
Qed.
Lemma rexp_zero : rexp (repeat 0 6) = rid.
Proof.
  cbn. unfold rexp_with, rod, rid. f_equal; ring.
Qed.
(** Not commutative: the right update differs from a left update. *)
Lemma rigid_noncomm : exists x d, lie_plus rmul rexp x d <> rmul (rexp d) x.
Proof.
  exists (mkRigid 0 (-1) 0 1 0 0 0 0 1 0 0 0), [1; 0; 0; 0; 0; 0]. unfold lie_plus, rexp.
  intros H. apply (f_equal t1) in H. unfold rexp_with, rod in H. cbn in H. lra.
Qed.
