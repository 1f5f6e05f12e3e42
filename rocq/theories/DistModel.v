(** losses/mahalanobis.h and distances.h in exact arithmetic. Definitions only. *)
From Coq Require Import ZArith List Bool Reals.
From Flocq Require Import Core.Raux.
From Verif Require Import BaseModel JetModel AutoModel LossModel.
Import ListNotations.
Open Scope R_scope.

(** distances.h:19, 38, 57, 98: [a - b]. Differences of vectors; Eigen requires equal sizes. *)
Definition vsub (a b : list R) : outcome (list R) :=
  if (List.length a =? List.length b)%nat then Ret (zip Rminus a b) else UB UBOutOfBounds.
(** mahalanobis.h:46, 69: [I.value() * x]. *)
Definition mat_vec (M : list (list R)) (x : list R) : list R := map (fun row => dotp row x) M.

(** *** mahalanobis.h *)
Section Maha.
(** math.h:89 InvCov and Eigen's LLT (the matrix L) are arguments. *)
Variable InvCov : list (list R) -> option (list (list R)).
Variable llt : list (list R) -> list (list R).

(** mahalanobis.h:38, 41-42, 47. cov_or_var for vectors: a matrix with one column, or a square one with more. *)
Inductive Cov := Variances (v : list R) | Covariance (C : list (list R)).
(** mahalanobis.h:34-53 and 54-76: Jt before scaling. None: std::invalid_argument is thrown. *)
Definition maha_Jt (cov : Cov) (x : list R) : outcome (option (list R)) :=
  match cov with
  | Variances v => if (List.length x =? List.length v)%nat then Ret (Some (zip Rmult (map Rinv v) x)) else UB UBOutOfBounds
  | Covariance C =>
      match InvCov C with
      | None => Ret None
      | Some Inv => if (List.length x =? List.length Inv)%nat then Ret (Some (mat_vec Inv x)) else UB UBOutOfBounds
      end
  end.
(** mahalanobis.h:34-82. *)
Definition MahaSquaredNorm (x : list R) (cov : Cov) (e : Export) (add_scale : bool) : outcome (option (R * list R)) :=
  do o <- maha_Jt cov x;
  match o with
  | None => Ret None
  | Some Jt =>
      let n2 := dotp x Jt in
      do J <- export_row (if add_scale then map (fun y => y * 2) Jt else Jt) e;
      Ret (Some (n2, J))
  end.
(** mahalanobis.h:86-106. *)
Definition MahaNorm (x : list R) (cov : Cov) (e : Export) : outcome (option (R * list R)) :=
  do o <- MahaSquaredNorm x cov e false;
  match o with
  | None => Ret None
  | Some (n2, J) =>
      let n := sqrt n2 in
      let s := if Rlt_bool FloatEpsilon n then n else 1 in
      Ret (Some (n, map (fun y => y / s) J))
  end.
(** mahalanobis.h:22-33: of a scalar and its derivative; [jx] is the derivative of x, or 1. *)
Definition MahaSquaredNorm_s (x var jx : R) (add_scale : bool) : R * R :=
  let s := if Rlt_bool var FloatEpsilon then 1 else 1 / var in
  let n2 := x * x * s in
  let J := if add_scale then 2 * s * x else s * x in
  (n2, J * jx).
(** mahalanobis.h:94-99. *)
Definition MahaNorm_s (x var jx : R) : R * R :=
  let (n2, J) := MahaSquaredNorm_s x var jx false in
  let n := sqrt n2 in
  let s := if Rlt_bool FloatEpsilon n then n else 1 in
  (n, J / s).

(** mahalanobis.h:144. L.solve(b), by forward substitution: the i-th coefficient is
    (b_i - sum_{j<i} L_ij y_j) / L_ii. *)
Fixpoint forward (i : nat) (L : list (list R)) (b y : list R) : list R :=
  match L, b with
  | row :: L, s :: b => forward (S i) L b (y ++ [(s - dotp (firstn i row) y) / nth i row 0])
  | _, _ => y
  end.
Definition lsolve (L : list (list R)) (b : list R) : list R := forward 0 L b [].
(** mahalanobis.h:150, 152. The same for the columns of a matrix with [m] columns. *)
Definition lsolve_mat (L B : list (list R)) (m : nat) : list (list R) :=
  map (fun r => map (fun c => nth r (lsolve L (col B c)) 0) (seq 0 m)) (seq 0 (List.length L)).
(** mahalanobis.h:150: Mat::Identity(). *)
Definition identity (n : nat) : list (list R) := map (fun r => map (fun c => if (r =? c)%nat then 1 else 0) (seq 0 n)) (seq 0 n).
(** mahalanobis.h:110-156. The Jacobian of the isotropic case is a number if none is given. *)
Inductive Stdev := Iso (s : R) | Stdevs (s : list R) | FullCov (C : list (list R)).
Inductive WResult := WVal (y : list R) | WNum (y : list R) (d : R) | WMat (y : list R) (J : list (list R)).
Definition MahaWhitened (x : list R) (cov : Stdev) (e : Export) : outcome WResult :=
  match cov with
  | Iso s =>
      let y := map (fun v => v / s) x in
      match e with
      | NoJ => Ret (WVal y)
      | Own => Ret (WNum y (1 / s))
      | Chain Jx => Ret (WMat y (map (map (fun v => v / s)) Jx))
      end
  | Stdevs s =>
      if (List.length x =? List.length s)%nat then
        let y := zip Rdiv x s in
        match e with
        | NoJ => Ret (WVal y)
        | Own => Ret (WMat y (diag (map Rinv s)))
        | Chain Jx => if (List.length s =? List.length Jx)%nat then Ret (WMat y (map (fun p => map (Rmult (fst p)) (snd p)) (combine (map Rinv s) Jx)))
                      else UB UBOutOfBounds
        end
      else UB UBOutOfBounds
  | FullCov C =>
      let L := llt C in
      if (List.length x =? List.length L)%nat then
        let y := lsolve L x in
        match e with
        | NoJ => Ret (WVal y)
        | Own => Ret (WMat y (lsolve_mat L (identity (List.length L)) (List.length L)))
        | Chain Jx => if (List.length L =? List.length Jx)%nat then Ret (WMat y (lsolve_mat L Jx (cols_of Jx))) else UB UBOutOfBounds
        end
      else UB UBOutOfBounds
  end.
(** mahalanobis.h:160-172: the upper triangle of U, but U itself as Jacobian. *)
Definition upper_part (U : list (list R)) : list (list R) :=
  map (fun r => map (fun c => if (c <? r)%nat then 0 else nth c (nth r U []) 0) (seq 0 (List.length (nth r U [])))) (seq 0 (List.length U)).
Definition MahaWhitenedInfoU (x : list R) (U : list (list R)) (e : Export) : outcome (list R * list (list R)) :=
  let UU := upper_part U in
  if (List.length x =? cols_of U)%nat then
    let y := mat_vec UU x in
    match e with
    | NoJ => Ret (y, [])
    | Own => Ret (y, U)
    | Chain Jx => if (cols_of U =? List.length Jx)%nat then Ret (y, mat_mul UU Jx) else UB UBOutOfBounds
    end
  else UB UBOutOfBounds.

(** *** distances.h, with export_jac either nullptr or a bool. *)
(** distances.h:16-27, 35-46, 54-65. L2 (29-32) and L1 (48-51) only call Euclidean and
    Manhattan. *)
Definition with_opposite (r : outcome (R * list R)) : outcome (R * list R * list R) :=
  do p <- r; Ret (p, map Ropp (snd p)).
Definition Euclidean (a b : list R) : outcome R := do d <- vsub a b; Ret (L2 d).
Definition Euclidean_J (a b : list R) : outcome (R * list R * list R) := do d <- vsub a b; with_opposite (L2_J d Own).
Definition Manhattan (a b : list R) : outcome R := do d <- vsub a b; Ret (L1 d).
Definition Manhattan_J (a b : list R) : outcome (R * list R * list R) := do d <- vsub a b; with_opposite (Ret (L1_J d)).
Definition Chebyshev (a b : list R) : outcome R := do d <- vsub a b; Ret (Linf d).
Definition Chebyshev_J (a b : list R) : outcome (R * list R * list R) := do d <- vsub a b; with_opposite (Linf_J d Own).
(** distances.h:94-106. *)
Definition MahaDistance (a b : list R) (cov : Cov) : outcome (option R) :=
  do d <- vsub a b; do o <- MahaNorm d cov NoJ; Ret (option_map fst o).
Definition MahaDistance_J (a b : list R) (cov : Cov) : outcome (option (R * list R * list R)) :=
  do d <- vsub a b; do o <- MahaNorm d cov Own; Ret (option_map (fun p => (p, map Ropp (snd p))) o).
(** distances.h:74-90, of vectors with a Jacobian. math.h:303-306: FloatEpsilon2 for double. As written the
    two make_tuple have different types (Vec::Zero is an expression), so this branch does not
    compile; these are the values it would return. *)
Definition FloatEpsilon2 : R := 2951479 / 295147905179352825856.
Definition Cosine_J (a b : list R) : outcome (R * list R * list R) :=
  let a_norm := L2 a in
  let b_norm := L2 b in
  if Rlt_bool (a_norm * b_norm) FloatEpsilon2 then
    Ret (0, repeat 0 (List.length a), repeat 0 (List.length a))
  else if (List.length a =? List.length b)%nat then
    let ab := dotp a b in
    let d := ab / (a_norm * b_norm) in
    let Ja := zip Rminus (map (fun y => y / (a_norm * b_norm)) b) (map (fun y => ab * y / (a_norm * a_norm * a_norm * b_norm)) a) in
    let Jb := zip Rminus (map (fun y => y / (a_norm * b_norm)) a) (map (fun y => ab * y / (a_norm * b_norm * b_norm)) b) in
    Ret (d, Ja, Jb)
  else UB UBOutOfBounds.
(** distances.h:70-73: without Jacobian, for scalars: TA(0). *)
Definition Cosine_s (a b : R) : R := 0.
End Maha.
