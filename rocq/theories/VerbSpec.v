(** Texts inside of texts.  Nothing here refers to the model of the code. *)
From Verif Require Import Base.

(** The bytes [s] stand somewhere in [t], without a gap. *)
Definition occurs (s t : bytes) : Prop := exists before after, t = before ++ s ++ after.
