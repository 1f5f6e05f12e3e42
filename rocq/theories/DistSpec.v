(** Vocabulary used by the statements about distances. *)
From Coq Require Import ZArith List Bool Reals.
From Coquelicot Require Import Coquelicot.
From Verif Require Import BaseModel JetSpec SumSpec AutoModel LossModel LossSpec DistModel.
Import ListNotations.
Open Scope R_scope.

Definition difference (a b : list R) : list R := map (fun i => nth i a 0 - nth i b 0) (seq 0 (List.length a)).
(** d is a metric on the vectors of each size. *)
Definition metric (d : list R -> list R -> outcome R) : Prop :=
  (forall a b, List.length a = List.length b -> exists r, d a b = Ret r /\ d b a = Ret r /\ 0 <= r /\ (r = 0 <-> a = b)) /\
  (forall a b c r s t, List.length a = List.length b -> List.length b = List.length c ->
     d a b = Ret r -> d b c = Ret s -> d a c = Ret t -> t <= r + s).
(** J and J' are the gradients of D with respect to its first and second argument. *)
Definition pair_gradient (D : list R -> list R -> R) (a b J J' : list R) : Prop :=
  gradient_of (fun y => D y b) a J /\ gradient_of (fun y => D a y) b J'.

(** Matrices. *)
Definition entry (M : list (list R)) (i j : nat) : R := nth j (nth i M []) 0.
Definition square (n : nat) (M : list (list R)) : Prop :=
  List.length M = n /\ forall i, (i < n)%nat -> List.length (nth i M []) = n.
(** Only the upper triangle of a covariance is read. *)
Definition sym_upper (C : list (list R)) (i j : nat) : R := if (i <=? j)%nat then entry C i j else entry C j i.
Definition delta (i j : nat) : R := if (i =? j)%nat then 1 else 0.
Definition is_inverse (n : nat) (c : nat -> nat -> R) (Inv : list (list R)) : Prop :=
  square n Inv /\ forall i k, (i < n)%nat -> (k < n)%nat -> sum n (fun j => c i j * entry Inv j k) = delta i k.
Definition is_cholesky (n : nat) (c : nat -> nat -> R) (L : list (list R)) : Prop :=
  square n L /\ (forall i, (i < n)%nat -> 0 < entry L i i) /\
  (forall i j, (i < j)%nat -> (j < n)%nat -> entry L i j = 0) /\
  forall i j, (i < n)%nat -> (j < n)%nat -> sum n (fun k => entry L i k * entry L j k) = c i j.
(** x^T M x *)
Definition quad (M : nat -> nat -> R) (x : list R) : R :=
  sum (List.length x) (fun i => sum (List.length x) (fun j => nth i x 0 * M i j * nth j x 0)).
(** f never throws, and returns F and its gradient. *)
Definition opt_row_exports (F : list R -> R) (x : list R) (f : Export -> outcome (option (R * list R))) : Prop :=
  exists g, (forall e, f e = (do p <- g e; Ret (Some p))) /\ row_exports F x g.
(** The same with a Jacobian. *)
Definition whitens (W : list R -> list R) (x : list R) (f : Export -> outcome WResult) : Prop :=
  f NoJ = Ret (WVal (W x)) /\
  (exists J, f Own = Ret (WMat (W x) J) /\ jacobian_of W (List.length x) x J) /\
  (forall X p Jx, X p = x -> parametrised X p Jx ->
     exists J, f (Chain Jx) = Ret (WMat (W x) J) /\ List.length J = List.length x /\
       forall i, (i < List.length x)%nat -> partials (fun q => nth i (W (X q)) 0) p (nth i J [])).
Definition inner (a b : list R) : R := sum (List.length a) (fun i => nth i a 0 * nth i b 0).
Definition cosine (a b : list R) : R := inner a b / (euclidean a * euclidean b).
(** Weighted sums of squares and whitened vectors. *)
Definition over_variances (v x : list R) : R := sum (List.length x) (fun i => nth i x 0 ^ 2 / nth i v 0).
Definition over_stdevs (s x : list R) : list R := map (fun i => nth i x 0 / nth i s 0) (seq 0 (List.length x)).
(** An m x n matrix, and U^T U for the upper triangle of U. *)
Definition rect (m n : nat) (U : list (list R)) : Prop := List.length U = m /\ forall i, (i < m)%nat -> List.length (nth i U []) = n.
Definition factor_form (m : nat) (U : list (list R)) (i j : nat) : R :=
  sum m (fun k => (if (i <? k)%nat then 0 else entry U k i) * (if (j <? k)%nat then 0 else entry U k j)).
