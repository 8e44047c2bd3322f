(** Vocabulary for the properties of CkksMore.v. *)
From Verif Require Import Word CkksMore.
Open Scope Z_scope.

(** The integer held by a constant; the words of the types. *)
Definition gint_value (x : gint) : Z := match x with GUint x => x | GInt x => x | GBig x => x end.
Definition gint_word (x : gint) : Prop :=
  match x with GUint x => 0 <= x < 2 ^ 64 | GInt x => - 2 ^ 63 <= x < 2 ^ 63 | GBig _ => True end.
