(** Concrete user-defined types. *)
From Coq Require Import ZArith List Bool Lia Reals Lra.
From Verif Require Import BaseModel TraitsModel UserModel UserSpec UserProofs LieProofs.
Import ListNotations.
Open Scope Z_scope.

(** Three types: whole numbers (scalars), angles in degrees whose PlusEq wraps around while
    their += does not, and polygons with any number of vertices. *)
Inductive kind := KNumber | KAngle | KPolygon.
Fixpoint zadd (l d : list Z) : outcome (list Z) :=
  match l, d with
  | [], [] => Ret []
  | a :: l, b :: d => do r <- zadd l d; Ret (a + b :: r)
  | _, _ => UB UBOutOfBounds
  end.
Definition ex_traits : user_traits Z kind (list Z) := {|
  k_Dims := fun k => match k with KPolygon => None | _ => Some 1%nat end;
  k_dims := fun _ => Some (fun m => Ret (Z.of_nat (List.length m)));
  k_scalar := fun k => match k with KNumber => true | _ => false end;
  k_plus := fun k m d => do r <- zadd m d; Ret (match k with KAngle => map (fun a => a mod 360) r | _ => r end);
  k_add := fun _ m s => zadd m [s]
|}.
Lemma angle_bypassed :
  UPlusEq ex_traits (ULeaf KAngle) (UOne [350]) [20] = Ret (UOne [10]) /\
  UPlusEq ex_traits (UVec (ULeaf KAngle)) (UList [UOne [350]]) [20] = Ret (UList [UOne [370]]).
Proof. split; reflexivity. Qed.

(** Polygons alone: number of parameters = number of entries. *)
Definition poly_traits : user_traits Z unit (list Z) := {|
  k_Dims := fun _ => None;
  k_dims := fun _ => Some (fun m => Ret (Z.of_nat (List.length m)));
  k_scalar := fun _ => false;
  k_plus := fun _ m d => zadd m d;
  k_add := fun _ m s => zadd m [s]
|}.
Lemma zadd_ok : forall l d, List.length d = List.length l -> exists r, zadd l d = Ret r /\ List.length r = List.length l.
Proof.
  induction l as [|a l IH]; intros [|b d] H; try discriminate H; [exists []; auto|].
  cbn. injection H as H. destruct (IH d H) as (r & E & L). rewrite E. cbn. eexists. split; [reflexivity|]. cbn. congruence.
Qed.
Lemma poly_good : good_traits poly_traits (fun _ m => List.length m).
Proof.
  split; [intros k m n H; discriminate H|]. split; [intros k f m H; now injection H as <-|].
  split; [intros k H; discriminate H|]. intros k m d H. cbn. destruct (zadd_ok m d H) as (r & E & L). eauto.
Qed.
Lemma zadd_undo : forall l d r, zadd l d = Ret r -> zadd r (map Z.opp d) = Ret l.
Proof.
  induction l as [|a l IH]; intros [|b d] r H; cbn in H; try discriminate H; [now injection H as <-|].
  destruct (zadd l d) as [r'| |] eqn:E; cbn in H; try discriminate H. injection H as <-. cbn.
  rewrite (IH d r' E). cbn. f_equal. f_equal. lia.
Qed.
Lemma zadd_zero : forall l, zadd l (repeat 0 (List.length l)) = Ret l.
Proof. induction l as [|a l IH]; [reflexivity|]. cbn. rewrite IH. cbn. now rewrite Z.add_0_r. Qed.

Definition poly_ty : uty unit := UPair (ULeaf tt) (ULeaf tt).
Definition poly_val : uval (list Z) := UTwo (UOne [1; 2]) (UOne [3; 4; 5]).
Lemma poly_ok : uregular poly_traits poly_ty = true /\ dims_ok poly_traits poly_ty = true /\
  uhas_type poly_ty poly_val /\ uint_sized poly_val /\ usize (fun _ m => List.length m) poly_ty poly_val = 5%nat /\
  UPlusEq poly_traits poly_ty poly_val [10; 20; 30; 40; 50] = Ret (UTwo (UOne [11; 22]) (UOne [33; 44; 55])).
Proof. repeat split. Qed.

(** A vector of two poses. *)
Definition two_poses : uval rigid := UList [UOne rid; UOne (mkRigid 0 (-1) 0 1 0 0 0 0 1 1 2 3)].
Lemma two_poses_ok : uregular (lie_traits rmul rexp 6) (UVec (ULeaf tt)) = true /\
  uhas_type (UVec (ULeaf tt)) two_poses /\ uint_sized two_poses /\
  usize (fun _ _ => 6%nat) (UVec (ULeaf tt)) two_poses = 12%nat.
Proof. repeat split; try (unfold INT_MAX; cbn; lia). repeat constructor. Qed.
