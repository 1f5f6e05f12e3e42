(** format2 replaces the placeholders. *)
From Coq Require Import Arith List Bool Ascii Lia.
From Verif Require Import BaseModel FormatModel FormatSpec.
Import ListNotations.

Lemma skipn_cons {T} (s : list T) i c t d : skipn i s = c :: t -> i < List.length s /\ nth i s d = c /\ skipn (S i) s = t.
Proof.
  revert i. induction s as [|x s IH]; intros [|i] H; cbn in *; try discriminate.
  - injection H as -> ->. split; [lia|]. now split.
  - destruct (IH i H) as (L & N & K). split; [lia|]. now split.
Qed.
Lemma skipn_end {T} (s : list T) i : skipn i s = [] -> List.length s <= i.
Proof. intros H. apply (f_equal (@List.length T)) in H. rewrite skipn_length in H. cbn in H. lia. Qed.
Lemma at_in s i c t : skipn i s = c :: t -> at_ s i = Ret c.
Proof. intros H. destruct (skipn_cons s i c t zero H) as (L & N & _). unfold at_. destruct (Nat.ltb_spec i (List.length s)); [now rewrite N|lia]. Qed.
Lemma at_end s i : i = List.length s -> at_ s i = Ret zero.
Proof. intros ->. unfold at_. now rewrite Nat.ltb_irrefl, Nat.eqb_refl. Qed.

(** The position of the closing brace, or the end. *)
Lemma skip_spec fuel s : forall i rest, skipn (S i) s = rest -> S i <= List.length s -> List.length rest < fuel ->
  (exists body t, rest = body ++ close_brace :: t /\ ~ In close_brace body /\ exists i', skip fuel s i = Ret i' /\ skipn (S i') s = t /\ S i' <= List.length s) \/
  (~ In close_brace rest /\ skip fuel s i = Ret (List.length s)).
Proof.
  induction fuel as [|fuel IH]; intros i rest H Hi F; [lia|]. cbn [skip]. destruct rest as [|c t].
  - apply skipn_end in H. assert (S i = List.length s) by lia. rewrite at_end by assumption. cbn [bind].
    right. split; [tauto|]. destruct (Nat.ltb_spec (S i) (List.length s)); [lia|]. rewrite andb_false_r. now f_equal.
  - rewrite (at_in _ _ _ _ H). cbn [bind]. destruct (skipn_cons _ _ _ _ zero H) as (L & _ & K). destruct (Ascii.eqb_spec c close_brace) as [->|N]; cbn [negb andb].
    + left. exists [], t. split; [reflexivity|]. split; [tauto|]. exists (S i). split; [reflexivity|]. split; [exact K|lia].
    + destruct (Nat.ltb_spec (S i) (List.length s)); [|lia]. cbn in F.
      destruct (IH (S i) t K ltac:(lia) ltac:(lia)) as [(body & t' & E & NI & i' & S1 & S2 & S3)|(NI & S1)].
      * left. exists (c :: body), t'. split; [now rewrite E|]. split; [intros [X|X]; congruence|]. exists i'. now split.
      * right. split; [intros [X|X]; congruence|exact S1].
Qed.

(** What the rest of the text gives. *)
Inductive outcome_of : text -> list text -> formatted -> Prop :=
| o_end : outcome_of [] [] (Text [])
| o_many a args : outcome_of [] (a :: args) InvalidArgument
| o_stray s args : outcome_of (close_brace :: s) args InvalidArgument
| o_few s : outcome_of (open_brace :: s) [] OutOfRange
| o_char c s args o : c <> open_brace -> c <> close_brace -> outcome_of s args o -> outcome_of (c :: s) args (match o with Text t => Text (c :: t) | o => o end)
| o_place body s a args o : ~ In close_brace body -> outcome_of s args o ->
    outcome_of (open_brace :: body ++ close_brace :: s) (a :: args) (match o with Text t => Text (a ++ t) | o => o end)
| o_open body a args o : ~ In close_brace body -> outcome_of [] args o ->
    outcome_of (open_brace :: body) (a :: args) (match o with Text t => Text (a ++ t) | o => o end).

Definition prefix (r : text) (o : formatted) : formatted := match o with Text t => Text (r ++ t) | o => o end.
Lemma prefix_prefix r a o : prefix (r ++ a) o = prefix r (prefix a o).
Proof. destruct o; cbn; [now rewrite app_assoc|reflexivity|reflexivity]. Qed.

Lemma loop_spec fuel s args : forall i k r rest, skipn i s = rest -> i <= List.length s \/ rest = [] -> List.length rest < fuel -> k <= List.length args ->
  exists o, outcome_of rest (skipn k args) o /\ format_loop fuel s args i k r = Ret (prefix r o).
Proof.
  induction fuel as [|fuel IH]; intros i k r rest H Hi F Hk; [lia|]. cbn [format_loop]. destruct rest as [|c t].
  - apply skipn_end in H. destruct (Nat.ltb_spec i (List.length s)); [lia|]. destruct (skipn k args) as [|a args'] eqn:EA.
    + apply skipn_end in EA. destruct (Nat.ltb_spec k (List.length args)); [lia|]. exists (Text []). split; [constructor|]. cbn. now rewrite app_nil_r.
    + destruct (@skipn_cons text _ _ _ _ [] EA) as (L & _). destruct (Nat.ltb_spec k (List.length args)); [|lia]. exists InvalidArgument. split; [constructor|reflexivity].
  - destruct (skipn_cons _ _ _ _ zero H) as (L & _ & K). destruct (Nat.ltb_spec i (List.length s)); [|lia]. rewrite (at_in _ _ _ _ H). cbn [bind]. cbn in F.
    destruct (Ascii.eqb_spec c open_brace) as [->|N1].
    + destruct (skipn k args) as [|a args'] eqn:EA.
      * apply skipn_end in EA. destruct (Nat.leb_spec (List.length args) k); [|lia]. exists OutOfRange. split; [constructor|reflexivity].
      * destruct (@skipn_cons text _ _ _ _ [] EA) as (LA & NA & KA). destruct (Nat.leb_spec (List.length args) k); [lia|].
        unfold arg_at. rewrite (@nth_error_nth' text args k [] LA), NA. cbn [bind].
        assert (Ft : List.length t < S (List.length s)) by (rewrite <- K, skipn_length; lia).
        destruct (skip_spec _ _ _ _ K ltac:(lia) Ft) as [(body & t' & E & NI & i' & S1 & S2 & S3)|(NI & S1)]; rewrite S1; cbn [bind].
        -- destruct (IH (S i') (S k) (r ++ a) t' S2 (or_introl S3)) as (o & O & E'); [rewrite E, app_length in F; cbn in F; lia|lia|].
           rewrite KA in O. exists (prefix a o). split; [rewrite E; exact (o_place body t' a args' o NI O)|]. now rewrite E', prefix_prefix.
        -- destruct (IH (S (List.length s)) (S k) (r ++ a) []) as (o & O & E'); [apply skipn_all2; lia|now right|cbn; lia|lia|].
           rewrite KA in O. exists (prefix a o). split; [exact (o_open t a args' o NI O)|]. now rewrite E', prefix_prefix.
    + destruct (Ascii.eqb_spec c close_brace) as [->|N2].
      * exists InvalidArgument. split; [constructor|reflexivity].
      * assert (Li : S i <= List.length s \/ t = []) by (left; lia). destruct (IH (S i) k (r ++ [c]) t K Li ltac:(lia) Hk) as (o & O & E'). exists (prefix [c] o). split; [exact (o_char c t _ o N1 N2 O)|].
        now rewrite E', prefix_prefix.
Qed.
Lemma format_outcome s args : exists o, outcome_of s args o /\ format2 s args = Ret o.
Proof.
  destruct (loop_spec (S (List.length s)) s args 0 0 [] s eq_refl (or_introl (Nat.le_0_l _)) ltac:(lia) (Nat.le_0_l _)) as (o & O & E).
  exists o. split; [exact O|]. unfold format2. rewrite E. now destruct o.
Qed.

(** *** Determinism and the independent description *)
Lemma split_brace b1 b2 t1 t2 : ~ In close_brace b1 -> ~ In close_brace b2 -> b1 ++ close_brace :: t1 = b2 ++ close_brace :: t2 -> b1 = b2 /\ t1 = t2.
Proof.
  revert b2. induction b1 as [|c b1 IH]; intros [|d b2] N1 N2 E; cbn in *.
  - injection E. auto.
  - injection E as <- _. tauto.
  - injection E as -> _. tauto.
  - injection E as -> E. destruct (IH b2) as (-> & ->); tauto.
Qed.
Lemma outcome_det s args o : outcome_of s args o -> forall o', outcome_of s args o' -> o = o'.
Proof.
  induction 1 as [| | | |c s args o N1 N2 H IH|body s a args o NI H IH|body a args o NI H IH]; intros o' H'; inversion H'; subst; try reflexivity; try congruence; try tauto.
  - rewrite (IH _ H6). reflexivity.
  - match goal with E : _ ++ close_brace :: _ = _ ++ close_brace :: _ |- _ => apply split_brace in E; [|assumption|assumption]; destruct E as (-> & ->) end.
    match goal with O : outcome_of s args ?o1 |- _ => now rewrite (IH _ O) end.
  - exfalso. match goal with N : ~ In close_brace (_ ++ _) |- _ => apply N end. apply in_or_app. right. now left.
  - exfalso. apply NI. apply in_or_app. right. now left.
  - match goal with O : outcome_of [] args ?o1 |- _ => now rewrite (IH _ O) end.
Qed.
Lemma format_iff s args o : format2 s args = Ret o <-> outcome_of s args o.
Proof.
  destruct (format_outcome s args) as (o' & O & E). split.
  - intros H. rewrite H in E. injection E as ->. exact O.
  - intros H. now rewrite E, (outcome_det _ _ _ O _ H).
Qed.

Lemma renders_outcome s args out : renders s args out -> forall rest args' o, outcome_of rest args' o -> outcome_of (s ++ rest) (args ++ args') (prefix out o).
Proof.
  induction 1 as [|c s args out N1 N2 H IH|body s a args out NI H IH]; intros rest args' o O; cbn [app].
  - now destruct o.
  - specialize (IH _ _ _ O). pose proof (o_char c _ _ _ N1 N2 IH) as K. now destruct o.
  - specialize (IH _ _ _ O). pose proof (o_place body _ a _ _ NI IH) as K. rewrite <- app_assoc. cbn [app]. destruct o; cbn in *; try exact K. now rewrite <- app_assoc.
Qed.
Lemma outcome_text s args o : outcome_of s args o -> forall out, o = Text out -> renders_open s args out.
Proof.
  induction 1 as [| | | |c s args o N1 N2 H IH|body s a args o NI H IH|body a args o NI H IH]; intros out E; try discriminate.
  - injection E as <-. left. constructor.
  - destruct o as [t| |]; try discriminate. injection E as <-. destruct (IH t eq_refl) as [R|(s1 & b & a1 & a & o1 & -> & NB & -> & -> & R)].
    + left. now constructor.
    + right. exists (c :: s1), b, a1, a, (c :: o1). split; [reflexivity|]. split; [exact NB|]. split; [reflexivity|]. split; [reflexivity|]. now constructor.
  - destruct o as [t| |]; try discriminate. injection E as <-. destruct (IH t eq_refl) as [R|(s1 & b & a1 & a' & o1 & -> & NB & -> & -> & R)].
    + left. now constructor.
    + right. exists (open_brace :: body ++ close_brace :: s1), b, (a :: a1), a', (a ++ o1). split; [cbn; now rewrite <- app_assoc|]. split; [exact NB|]. split; [reflexivity|].
      split; [now rewrite app_assoc|]. now constructor.
  - destruct o as [t| |]; try discriminate. injection E as <-. inversion H; subst. right. exists [], body, [], a, []. rewrite app_nil_r. split; [reflexivity|]. split; [exact NI|].
    split; [reflexivity|]. split; [reflexivity|constructor].
Qed.
Lemma format_text s args out : format2 s args = Ret (Text out) <-> renders_open s args out.
Proof.
  rewrite format_iff. split.
  - intros H. exact (outcome_text _ _ _ H _ eq_refl).
  - intros [R|(s1 & b & a1 & a & o1 & -> & NB & -> & -> & R)].
    + pose proof (renders_outcome _ _ _ R [] [] _ o_end) as K. rewrite !app_nil_r in K. cbn in K. now rewrite app_nil_r in K.
    + pose proof (renders_outcome _ _ _ R _ _ _ (o_open b a [] _ NB o_end)) as K. cbn in K. now rewrite app_nil_r in K.
Qed.
(** Too few arguments: the text starts with plain characters and placeholders that use up the
    arguments, and goes on with another opening brace. *)
Lemma format_few s args : format2 s args = Ret OutOfRange <-> exists s1 s2 out, s = s1 ++ open_brace :: s2 /\ renders s1 args out.
Proof.
  rewrite format_iff. split.
  - intros H. remember OutOfRange as o. revert Heqo. induction H as [| | | |c s args o N1 N2 H IH|body s a args o NI H IH|body a args o NI H IH]; intros E; try discriminate.
    + exists [], s, []. split; [reflexivity|constructor].
    + destruct o; try discriminate. destruct (IH eq_refl) as (s1 & s2 & out & -> & R). exists (c :: s1), s2, (c :: out). split; [reflexivity|now constructor].
    + destruct o; try discriminate. destruct (IH eq_refl) as (s1 & s2 & out & -> & R). exists (open_brace :: body ++ close_brace :: s1), s2, (a ++ out). split; [cbn; now rewrite <- app_assoc|now constructor].
    + destruct o; try discriminate. inversion H.
  - intros (s1 & s2 & out & -> & R). pose proof (renders_outcome _ _ _ R _ _ _ (o_few s2)) as K. now rewrite app_nil_r in K.
Qed.
(** Too many arguments, or a closing brace outside a placeholder. *)
Lemma format_invalid s args : format2 s args = Ret InvalidArgument <->
  (exists args1 a args2 out, args = args1 ++ a :: args2 /\ renders_open s args1 out) \/
  (exists s1 s2 args1 args2 out, s = s1 ++ close_brace :: s2 /\ args = args1 ++ args2 /\ renders s1 args1 out).
Proof.
  rewrite format_iff. split.
  - intros H. remember InvalidArgument as o. revert Heqo. induction H as [|a args|s args| |c s args o N1 N2 H IH|body s a args o NI H IH|body a args o NI H IH]; intros E; try discriminate.
    + left. exists [], a, args, []. split; [reflexivity|left; constructor].
    + right. exists [], s, [], args, []. split; [reflexivity|]. split; [reflexivity|constructor].
    + destruct o; try discriminate. destruct (IH eq_refl) as [(args1 & a & args2 & out & -> & R)|(s1 & s2 & args1 & args2 & out & -> & -> & R)].
      * left. exists args1, a, args2, (c :: out). split; [reflexivity|]. destruct R as [R|(s1 & b & a1 & a' & o1 & -> & NB & -> & -> & R)]; [left; now constructor|].
        right. exists (c :: s1), b, a1, a', (c :: o1). split; [reflexivity|]. split; [exact NB|]. split; [reflexivity|]. split; [reflexivity|now constructor].
      * right. exists (c :: s1), s2, args1, args2, (c :: out). split; [reflexivity|]. split; [reflexivity|now constructor].
    + destruct o; try discriminate. destruct (IH eq_refl) as [(args1 & a' & args2 & out & -> & R)|(s1 & s2 & args1 & args2 & out & -> & -> & R)].
      * left. exists (a :: args1), a', args2, (a ++ out). split; [reflexivity|]. destruct R as [R|(s1 & b & a1 & a'' & o1 & -> & NB & -> & -> & R)]; [left; now constructor|].
        right. exists (open_brace :: body ++ close_brace :: s1), b, (a :: a1), a'', (a ++ o1). split; [cbn; now rewrite <- app_assoc|]. split; [exact NB|]. split; [reflexivity|].
        split; [now rewrite app_assoc|now constructor].
      * right. exists (open_brace :: body ++ close_brace :: s1), s2, (a :: args1), args2, (a ++ out). split; [cbn; now rewrite <- app_assoc|]. split; [reflexivity|now constructor].
    + destruct o; try discriminate. inversion H; subst. left. exists [a], a0, args0, a. split; [reflexivity|]. right. exists [], body, [], a, []. split; [reflexivity|].
      split; [exact NI|]. split; [reflexivity|]. split; [reflexivity|constructor].
  - intros [(args1 & a & args2 & out & -> & [R|(s1 & b & a1 & a' & o1 & -> & NB & -> & -> & R)])|(s1 & s2 & args1 & args2 & out & -> & -> & R)].
    + pose proof (renders_outcome _ _ _ R _ _ _ (o_many a args2)) as K. now rewrite app_nil_r in K.
    + pose proof (renders_outcome _ _ _ R _ _ _ (o_open b a' (a :: args2) _ NB (o_many a args2))) as K. cbn in K. now rewrite <- app_assoc.
    + exact (renders_outcome _ _ _ R _ _ _ (o_stray s2 args2)).
Qed.
Lemma format_total s args : exists o, format2 s args = Ret o.
Proof. destruct (format_outcome s args) as (o & _ & E). now exists o. Qed.
