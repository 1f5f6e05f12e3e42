(** Property C60: parameters of user-defined types and poses. *)
From Coq Require Import ZArith List Bool Reals.
From Verif Require Import BaseModel NumModel RealModel CostModel StopModel OptionsModel SolverModel OptimizerModel RunModel RunSpec.
From Verif Require Import TraitsModel UserModel UserSpec UserProofs LieProofs LieRunProofs UserExamples.
Import ListNotations.
Open Scope Z_scope.

(** C60: dims of nested containers is the number of parameters of all elements. *)
Theorem C60_dims : forall S K M (T : user_traits S K M) (count : K -> M -> nat), good_traits T count ->
  forall (t : uty K) (v : uval M), dims_ok T t = true -> uhas_type t v -> uint_sized v ->
  Z.of_nat (usize count t v) <= INT_MAX -> udims T t v = Ret (Z.of_nat (usize count t v)).
Proof. exact @udims_size. Qed.
Print Assumptions C60_dims.
Example C60_dims_ex : good_traits poly_traits (fun _ m => List.length m) /\ dims_ok poly_traits poly_ty = true /\
  uhas_type poly_ty poly_val /\ uint_sized poly_val /\ usize (fun _ m => List.length m) poly_ty poly_val = 5%nat.
Proof. destruct poly_ok as (_ & H1 & H2 & H3 & H4 & _). exact (conj poly_good (conj H1 (conj H2 (conj H3 H4)))). Qed.

(** C60: every element is updated by the PlusEq of its own type with its own part of the
    delta; the type and the shape are kept. Missing: the types excluded by [uregular], for
    which it is false or does not compile (C30, C31, C60_refuted). *)
Theorem C60_plus_partial : forall S K M (T : user_traits S K M) (count : K -> M -> nat), good_traits T count ->
  forall (t : uty K) (v : uval M) (d : list S), uregular T t = true -> uhas_type t v -> uint_sized v ->
  List.length d = usize count t v -> Z.of_nat (usize count t v) <= INT_MAX ->
  exists v', UPlusEq T t v d = Ret v' /\
    moved T count (leaves t v) d (leaves t v') /\ uhas_type t v' /\ ushape v v' /\ uint_sized v'.
Proof. exact @uplus_regular. Qed.
Print Assumptions C60_plus_partial.
Example C60_plus_partial_ex : uregular poly_traits poly_ty = true /\
  UPlusEq poly_traits poly_ty poly_val [10; 20; 30; 40; 50] = Ret (UTwo (UOne [11; 22]) (UOne [33; 44; 55])).
Proof. destruct poly_ok as (H1 & _ & _ & _ & _ & H2). exact (conj H1 H2). Qed.

(** C60 fails for all pairs with a fixed-size second member: it is never updated. *)
Theorem C60_second_never_updated : forall S K M (T : user_traits S K M) t1 t2 n (v1 v2 : uval M) d v',
  UDims T t2 = Some n -> UPlusEq T (UPair t1 t2) (UTwo v1 v2) d = Ret v' -> exists w, v' = UTwo w v2.
Proof. exact @upair_second_kept. Qed.
Print Assumptions C60_second_never_updated.
Example C60_second_never_updated_ex :
  UPlusEq (lie_traits Z.add (fun d => match d with [s] => s | _ => 0 end) 1) (UPair (ULeaf tt) (ULeaf tt))
    (UTwo (UOne 1) (UOne 2)) [10; 20] = Ret (UTwo (UOne 31) (UOne 2)).
Proof. reflexivity. Qed.

(** C60: the elements and the shape determine the value. *)
Theorem C60_leaves_injective : forall K M (t : uty K) (v w : uval M), uhas_type t v -> uhas_type t w ->
  ushape v w -> leaves t v = leaves t w -> v = w.
Proof. exact @ushape_eq. Qed.
Print Assumptions C60_leaves_injective.

(** C60: if the opposite delta undoes the update of every element type, it does so for the
    containers. *)
Theorem C60_undo : forall S K M (T : user_traits S K M) (count : K -> M -> nat), good_traits T count ->
  forall (opp : S -> S) (t : uty K) (v : uval M) (d : list S),
  (forall k m m' d, List.length d = count k m -> k_plus T k m d = Ret m' -> k_plus T k m' (map opp d) = Ret m) ->
  uregular T t = true -> uhas_type t v -> uint_sized v ->
  List.length d = usize count t v -> Z.of_nat (usize count t v) <= INT_MAX ->
  exists v', UPlusEq T t v d = Ret v' /\ UPlusEq T t v' (map opp d) = Ret v.
Proof. exact @uplus_undo. Qed.
Print Assumptions C60_undo.
Example C60_undo_ex : forall k m m' d, List.length d = List.length m -> k_plus poly_traits k m d = Ret m' ->
  k_plus poly_traits k m' (map Z.opp d) = Ret m.
Proof. exact (fun _ m m' d _ => zadd_undo m d m'). Qed.

(** C60: if a zero step leaves every element unchanged, it does so for the containers. *)
Theorem C60_zero : forall S K M (T : user_traits S K M) (count : K -> M -> nat), good_traits T count ->
  forall (t : uty K) (v : uval M) (z : S), (forall k m, k_plus T k m (repeat z (count k m)) = Ret m) ->
  uregular T t = true -> uhas_type t v -> uint_sized v -> Z.of_nat (usize count t v) <= INT_MAX ->
  UPlusEq T t v (repeat z (usize count t v)) = Ret v.
Proof. exact @uplus_zero. Qed.
Print Assumptions C60_zero.
Example C60_zero_ex : forall k m, k_plus poly_traits k m (repeat 0 (List.length m)) = Ret m.
Proof. exact (fun _ => zadd_zero). Qed.

(** C60: an update of poses multiplies every pose from the right by the exponential of its
    part of the delta, and the opposite delta takes it back, for every group in which exp(-d)
    is the inverse of exp(d). *)
Theorem C60_poses : forall S G (mul : G -> G -> G) (e : G) (exp : list S -> G) (opp : S -> S) (dof : nat),
  (forall x y z, mul (mul x y) z = mul x (mul y z)) -> (forall x, mul x e = x) ->
  (forall d, List.length d = dof -> mul (exp d) (exp (map opp d)) = e) ->
  forall (t : uty unit) (v : uval G) (d : list S),
  uregular (lie_traits mul exp dof) t = true -> uhas_type t v -> uint_sized v ->
  List.length d = usize (fun _ _ => dof) t v -> Z.of_nat (usize (fun _ _ => dof) t v) <= INT_MAX ->
  exists v', UPlusEq (lie_traits mul exp dof) t v d = Ret v' /\
    moved (lie_traits mul exp dof) (fun _ _ => dof) (leaves t v) d (leaves t v') /\
    UPlusEq (lie_traits mul exp dof) t v' (map opp d) = Ret v.
Proof. exact @lie_containers. Qed.
Print Assumptions C60_poses.
Example C60_poses_ex : (forall x y z, rmul (rmul x y) z = rmul x (rmul y z)) /\ (forall x, rmul x rid = x) /\
  (forall d, List.length d = 6%nat -> rmul (rexp d) (rexp (map Ropp d)) = rid) /\
  uregular (lie_traits rmul rexp 6) (UVec (ULeaf tt)) = true /\ uhas_type (UVec (ULeaf tt)) two_poses /\
  uint_sized two_poses /\ usize (fun _ _ => 6%nat) (UVec (ULeaf tt)) two_poses = 12%nat /\
  exists x d, lie_plus rmul rexp x d <> rmul (rexp d) x.
Proof.
  destruct two_poses_ok as (H1 & H2 & H3 & H4).
  exact (conj rassoc (conj runit_r (conj (fun d _ => rexp_opp d) (conj H1 (conj H2 (conj H3 (conj H4 rigid_noncomm))))))).
Qed.

(** C60: so when poses are optimized in exact arithmetic, a run that returns after rejected
    steps is at the pose with the reported cost (C07). *)
Theorem C60_best_pose : forall U G (P : Problem REAL U G) (k : SolverType) (f : G -> Cost REAL)
  (mul : G -> G -> G) (e : G) (exp : list R -> G) fuel u (s : solver_state P k) x max_iters u' s' x' out,
  (forall x y z, mul (mul x y) z = mul x (mul y z)) -> (forall x, mul x e = x) ->
  (forall d, mul (exp d) (exp (map Ropp d)) = e) -> p_plus P = lie_plus mul exp ->
  wf_options (p_options P) = true -> allowed_iters (p_options P) max_iters <= 65535 -> pure_cost P f ->
  run P k fuel u s x max_iters = Ret (u', s', x', out) ->
  (errs out = [] /\ x' = x) \/
  (errs out <> [] /\ exists xb, final_cost out = reported P f xb /\
     (x' = xb \/ exists d, x' = mul xb (exp d) /\ Succeeded out = true /\
        stop_reason out <> kMaxNoDecr /\ stop_reason out <> kMaxConsecNoDecr)).
Proof. exact @lie_run. Qed.
Print Assumptions C60_best_pose.
Example C60_best_pose_ex : (forall d, rmul (pose_exp d) (pose_exp (map Ropp d)) = rid) /\
  p_plus pose_problem = lie_plus rmul pose_exp /\ wf_options (p_options pose_problem) = true /\
  allowed_iters (p_options pose_problem) 0 <= 65535 /\ pure_cost pose_problem pose_cost /\
  exists u' s' x' o, run pose_problem GaussNewton 5 tt (fresh pose_problem GaussNewton) pose0 0 = Ret (u', s', x', o) /\
    (exists y, x' = lie_plus rmul pose_exp pose0 [y] /\ y = Ropp 2) /\ errs o <> [].
Proof. exact pose_ok. Qed.

(** C60 fails for vectors and arrays of elements with one parameter: they are updated with
    += instead of PlusEq. Here 350 + 20 degrees become 10 alone and 370 in a std::vector. *)
Theorem C60_refuted : exists (T : user_traits Z kind (list Z)) (k : kind) m s, k_Dims T k = Some 1%nat /\
  k_plus T k m [s] = Ret [10] /\ UPlusEq T (ULeaf k) (UOne m) [s] = Ret (UOne [10]) /\
  UPlusEq T (UVec (ULeaf k)) (UList [UOne m]) [s] = Ret (UList [UOne [370]]).
Proof. exists ex_traits, KAngle, [350], 20. exact (conj eq_refl (conj eq_refl angle_bypassed)). Qed.
Print Assumptions C60_refuted.
