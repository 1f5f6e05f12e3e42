(** Vocabulary of the statements about Bessel functions: the functions themselves, by their
    power series (https://dlmf.nist.gov/10.2#E2). *)
From Coq Require Import ZArith List Reals.
From Coquelicot Require Import Hierarchy Derive PSeries.
From Verif Require Import JetModel.
Open Scope R_scope.

(** Sum of (-t)^k / (k! g(k)). *)
Definition bessel_series (g : nat -> R) (t : R) : R :=
  PSeries (fun k => (-1) ^ k / (INR (fact k) * g k)) t.
(** J_n(x) = (x/2)^n * sum of (-x^2/4)^k / (k! (n+k)!), J_{-n} = (-1)^n J_n. *)
Definition J_nat (n : nat) (x : R) : R :=
  (x / 2) ^ n * bessel_series (fun k => INR (fact (n + k))) (x * x / 4).
Definition J (n : Z) (x : R) : R :=
  if (0 <=? n)%Z then J_nat (Z.to_nat n) x else (-1) ^ Z.to_nat (- n) * J_nat (Z.to_nat (- n)) x.

(** Real orders: (n+k)! becomes G(nu+k+1), for any function with the factorial equation, Euler's
    Gamma function in particular. *)
Definition gamma_like (G : R -> R) : Prop :=
  G 1 = 1 /\ forall s, 0 < s -> 0 < G s /\ G (s + 1) = s * G s.
Definition J_real (G : R -> R) (nu x : R) : R :=
  Rpower (x / 2) nu * bessel_series (fun k => G (nu + INR k + 1)) (x * x / 4).
(** A library function that computes the Bessel functions of orders >= 0 for arguments >= 0. *)
Definition computes_bessel (G : R -> R) (cyl : R -> R -> R) : Prop :=
  (forall nu x, 0 <= nu -> 0 < x -> cyl nu x = J_real G nu x) /\
  (forall n x, 0 <= x -> cyl (INR n) x = J_nat n x).

(** The jet [j] has the value of [h] at the value of [f], and its derivatives are those of h(g)
    for every function g of which [f] holds the value and the derivative. *)
Definition composed (h : R -> R) (f j : Jet) : Prop :=
  a j = h (a f) /\ List.length (v j) = List.length (v f) /\
  forall i g t, (i < List.length (v f))%nat -> g t = a f -> is_derive g t (List.nth i (v f) 0) ->
  is_derive (fun s => h (g s)) t (List.nth i (v j) 0).
