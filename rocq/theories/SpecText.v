(** * Text in specifications: the characters of a literal, as the model's strings hold them.

    The theorems that mention a fixed string (the output formats of hfxidx, file name
    extensions) name it by such a literal and not by the model's constant. *)
From Coq Require Import String Ascii.
From Verif Require Import Base.

Definition text (s : string) : list N := List.map N_of_ascii (list_ascii_of_string s).
