(** Vocabulary of C46.  Nothing here refers to the model of the code. *)
From Verif Require Import Base Spec.

(** Steps that lead from a value to its members or elements. *)
Definition one_level (s : step) : bool := match s with SDesc _ | SDescAny => false | _ => true end.

(** Texts that are files in their own right: objects and arrays. *)
Definition opens (t : bytes) : bool := match t with c :: _ => Ascii.eqb c "{"%char || Ascii.eqb c "["%char | [] => false end.
