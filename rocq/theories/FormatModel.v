(** log.h: the replacement for std::format used with C++17. Definitions only. *)
From Coq Require Import ZArith List Bool Ascii.
From Verif Require Import BaseModel.
Import ListNotations.

(** std::string. *)
Definition text : Type := list ascii.
Definition open_brace : ascii := "{"%char.
Definition close_brace : ascii := "}"%char.

(** How format2 ends: the result, std::out_of_range, or std::invalid_argument. *)
Inductive formatted := Text (t : text) | OutOfRange | InvalidArgument.

(** operator[] of a const std::string: defined up to and including size(), where it is the
    null character. *)
Definition at_ (s : text) (i : nat) : outcome ascii :=
  if (i <? List.length s)%nat then Ret (nth i s zero)
  else if (i =? List.length s)%nat then Ret zero
  else UB UBOutOfBounds.
(** operator[] of std::vector. *)
Definition arg_at (args : list text) (k : nat) : outcome text :=
  match nth_error args k with Some a => Ret a | None => UB UBOutOfBounds end.

(** log.h:51-52: while (format_string[++i] != '}' && i < format_string.size()) {}. The loops
    have no bound of their own; [fuel] is the interpreter's. *)
Fixpoint skip (fuel : nat) (s : text) (i : nat) : outcome nat :=
  match fuel with
  | O => NoFuel
  | S fuel =>
    do c <- at_ s (S i);
    if negb (Ascii.eqb c close_brace) && (S i <? List.length s)%nat then skip fuel s (S i) else Ret (S i)
  end.

(** log.h:44-58, with the position i, the number of arguments used and the text so far. *)
Fixpoint format_loop (fuel : nat) (s : text) (args : list text) (i k : nat) (result : text) : outcome formatted :=
  match fuel with
  | O => NoFuel
  | S fuel =>
    if (i <? List.length s)%nat then
      do c <- at_ s i;
      if Ascii.eqb c open_brace then
        if (List.length args <=? k)%nat then Ret OutOfRange
        else
          do a <- arg_at args k;
          do i' <- skip (S (List.length s)) s i;
          format_loop fuel s args (S i') (S k) (result ++ a)
      else if Ascii.eqb c close_brace then Ret InvalidArgument
      else format_loop fuel s args (S i) k (result ++ [c])
    else if (k <? List.length args)%nat then Ret InvalidArgument
    else Ret (Text result)
  end.
(** log.h:40-65. *)
Definition format2 (s : text) (args : list text) : outcome formatted :=
  format_loop (S (List.length s)) s args 0 0 [].

(** log.h:68-84: each argument is printed by a stream, or replaced by "" if it has no operator
    <<. The arguments are their printed forms; the state that manipulators leave in the stream
    is not modelled. *)
Definition format (s : text) (args : list (option text)) : outcome formatted :=
  format2 s (map (fun o => match o with Some t => t | None => [] end) args).
