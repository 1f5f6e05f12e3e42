(** Vocabulary used by the statements about format strings. *)
From Coq Require Import List Bool Ascii.
From Verif Require Import BaseModel FormatModel.
Import ListNotations.

(** [renders s args out]: s consists of plain characters and placeholders {...}, one for each
    argument, and out is s with the placeholders replaced by the arguments. *)
Inductive renders : text -> list text -> text -> Prop :=
| r_nil : renders [] [] []
| r_char c s args out : c <> open_brace -> c <> close_brace -> renders s args out -> renders (c :: s) args (c :: out)
| r_place body s a args out : ~ In close_brace body -> renders s args out ->
    renders (open_brace :: body ++ close_brace :: s) (a :: args) (a ++ out).
(** The same where the last placeholder may lack its closing brace. *)
Definition renders_open (s : text) (args : list text) (out : text) : Prop :=
  renders s args out \/
  exists s1 body args1 a out1, s = s1 ++ open_brace :: body /\ ~ In close_brace body /\ args = args1 ++ [a] /\
    out = out1 ++ a /\ renders s1 args1 out1.
