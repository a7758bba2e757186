(** When one query asks for more than another.  Nothing here refers to the model
    of the code. *)
From Verif Require Import Base Spec.
Open Scope Z_scope.

(** [s'] leads wherever [s] leads, and [s'] has no condition. *)
Inductive wider : step -> step -> Prop :=
| W_same s : is_path_step s = true -> wider s s              (* the step itself      *)
| W_elements lo hi : wider (SSlice lo hi) SAll               (* [2:5]   becomes [*]  *)
| W_filter e : wider (SFilter e) SAll                        (* [?(..)] becomes [*]  *)
| W_index n : wider (SIndex n) SAll                          (* [2]     becomes [*]  *)
| W_any s : match s with SDesc _ | SDescAny => False | _ => True end ->
    wider s SChildAny                                        (* .a, [*] become .*    *)
| W_desc k : wider (SChild k) (SDesc k)                      (* .a      becomes ..a  *)
| W_anywhere s : wider s SDescAny.                           (* all     become ..*   *)

Definition relaxed (q q' : query) : Prop := Forall2 wider q q'.

(** Every value that [q] selects in any document, [q'] selects too. *)
Definition contained (q q' : query) : Prop :=
  forall holds p, selects holds q p = true -> selects holds q' p = true.
