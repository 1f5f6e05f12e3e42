(** The accumulation in any arithmetic, in exact arithmetic. *)
From Coq Require Import ZArith List Bool String Reals Lia Lra.
From Verif Require Import BaseModel NumModel RealModel CostModel OptionsModel TraitsModel JetModel JetSpec JetFloatModel AutoModel AccumModel AccumExactSpec.
Import ListNotations.
Open Scope R_scope.

Lemma zero_real T : @nzero REAL T = 0.
Proof. unfold nzero. cbn. ring. Qed.
Lemma rows_of t n rs : sequence (map (row_of t n false) rs) =
  if forallb (fun j => (List.length (inf j) =? n)%nat) (map as_fjet rs) then Ret (map v rs) else UB UBOutOfBounds.
Proof.
  induction rs as [|j rs IH]; [reflexivity|]. cbn [map sequence forallb]. change (@List.length (num REAL) (inf (as_fjet j))) with (@List.length R (v j)). rewrite IH. unfold row_of.
  replace (match Dims t with Some _ => false | None => false end) with false by (destruct (Dims t); reflexivity). cbn [andb].
  destruct (List.length (v j) =? n)%nat; cbn [bind andb]; [|reflexivity]. destruct (forallb _ _); reflexivity.
Qed.
Lemma columns_of T n rs : jet_columns T n (map as_fjet rs) = map (fun k => col (map v rs) k) (seq 0 n).
Proof.
  unfold jet_columns, col. apply map_ext. intros k. rewrite !map_map. apply map_ext. intros j. cbn [as_fjet inf]. now rewrite zero_real.
Qed.
Lemma auto_exact t T nlls f k x : auto_acc t nlls f k x =
  do xs <- update_x_jet t k x; do js <- user_jets t f xs; @auto_sums REAL T dotp (fun r => dotp r r) nlls (is_float t) (fst k) js.
Proof.
  unfold auto_acc. destruct (update_x_jet t k x) as [xs| |]; cbn [bind]; try reflexivity. destruct f as [e|rows cols es]; unfold user_jets.
  - destruct (eval_jet (Dims t) e xs) as [r| |]; cbn [bind]; try reflexivity. unfold auto_sums. cbn [as_fjet re inf].
    assert (E1 : scl (a r) (v r) = map (fun d => @nmul REAL T d (a r)) (v r)) by (unfold scl; apply map_ext; intros; cbn; ring).
    assert (E2 : map (fun d => scl d (v r)) (v r) = map (fun d => map (@nmul REAL T d) (v r)) (v r)) by (apply map_ext; intros; unfold scl; apply map_ext; intros; cbn; ring).
    rewrite E1, E2. destruct t; cbn [is_float]; reflexivity.
  - destruct (eval_all t es xs) as [rs| |]; cbn [bind]; try reflexivity. unfold auto_sums. rewrite rows_of. destruct (forallb _ _); [|reflexivity]. cbn [bind].
    rewrite columns_of, !map_length.
    replace (map re (map as_fjet rs)) with (map a rs) by (rewrite map_map; reflexivity).
    unfold JtR, JtJ. rewrite !map_map. refine (f_equal (fun z => Ret (_, z)) _). apply map_ext. intros k0. now rewrite map_map.
Qed.
