(** Property C52: the formatter of log.h. *)
From Coq Require Import List Bool Ascii String.
From Verif Require Import BaseModel FormatModel FormatSpec FormatProofs.
Import ListNotations.

(** C52: for every format string and argument list the formatter ends without reading out of
    bounds. *)
Theorem C52_total : forall s args, exists o, format2 s args = Ret o.
Proof. exact format_total. Qed.
Print Assumptions C52_total.

(** C52: it returns a text exactly if the string consists of plain characters and as many
    placeholders as arguments, and the text is the string with the k-th placeholder replaced by
    the k-th argument. A last placeholder without closing brace extends to the end. *)
Theorem C52_text : forall s args out, format2 s args = Ret (Text out) <-> renders_open s args out.
Proof. exact format_text. Qed.
Print Assumptions C52_text.
Example C52_text_ex :
  format2 (list_ascii_of_string "e={:.3e}, x=[{}]!") [list_ascii_of_string "1e-3"; list_ascii_of_string "{7}"]
    = Ret (Text (list_ascii_of_string "e=1e-3, x=[{7}]!")) /\
  format2 (list_ascii_of_string "a{0") [list_ascii_of_string "b"] = Ret (Text (list_ascii_of_string "ab")).
Proof. split; vm_compute; reflexivity. Qed.

(** C52: std::out_of_range exactly if there are fewer arguments than placeholders. *)
Theorem C52_too_few : forall s args, format2 s args = Ret OutOfRange <->
  exists s1 s2 out, s = s1 ++ open_brace :: s2 /\ renders s1 args out.
Proof. exact format_few. Qed.
Print Assumptions C52_too_few.
Example C52_too_few_ex : format2 (list_ascii_of_string "{}+{}") [list_ascii_of_string "b"] = Ret OutOfRange.
Proof. vm_compute. reflexivity. Qed.

(** C52: std::invalid_argument exactly if there are more arguments than placeholders, or a
    closing brace outside the placeholders. *)
Theorem C52_invalid : forall s args, format2 s args = Ret InvalidArgument <->
  (exists args1 a args2 out, args = args1 ++ a :: args2 /\ renders_open s args1 out) \/
  (exists s1 s2 args1 args2 out, s = s1 ++ close_brace :: s2 /\ args = args1 ++ args2 /\ renders s1 args1 out).
Proof. exact format_invalid. Qed.
Print Assumptions C52_invalid.
Example C52_invalid_ex : format2 (list_ascii_of_string "{}") [list_ascii_of_string "b"; list_ascii_of_string "c"] = Ret InvalidArgument /\
  format2 (list_ascii_of_string "{}}") [list_ascii_of_string "b"] = Ret InvalidArgument.
Proof. split; vm_compute; reflexivity. Qed.
