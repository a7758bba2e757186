(** Specification for the lexer: the tokens of a document, escaped quotes. *)
From Verif Require Import Base Spec Lexer.
Open Scope Z_scope.

(** The tokens of a document, read off its tree: a key without its quotes and
    its colon, a string with its quotes, a number or literal as it is written. *)
Fixpoint doc_tokens (v : json) : list token :=
  match v with
  | JBare s => [TPRI s]
  | JStr s => [TPRI ([DQ] ++ s ++ [DQ])]
  | JObj _ ms => [TLCB] ++ member_tokens ms ++ [TRCB]
  | JArr _ es => [TLB] ++ element_tokens es ++ [TRB]
  end
with member_tokens (ms : members) : list token :=
  match ms with
  | MNil => []
  | MCons _ k v ms' => [TKY k] ++ doc_tokens v ++ match ms' with MNil => [] | _ => [TCOM] ++ member_tokens ms' end
  end
with element_tokens (es : elements) : list token :=
  match es with
  | ENil => []
  | ECons _ v _ es' => doc_tokens v ++ match es' with ENil => [] | _ => [TCOM] ++ element_tokens es' end
  end.

(** The number of consecutive backslashes at the end of a text, [n] of them
    being before its first character. *)
Definition bsl_run (n : nat) (s : bytes) : nat := fold_left (fun n c => if Ascii.eqb c BSL then S n else O) s n.
Definition trailing_bsl (s : bytes) : nat := bsl_run 0 s.

(** Every double quote in the text follows an odd number of backslashes. *)
Definition quotes_escaped (s : bytes) : Prop := forall a b, s = a ++ DQ :: b -> Nat.odd (trailing_bsl a) = true.

(** The first byte that is neither a blank nor a tab is a colon. *)
Fixpoint colon_next (l : bytes) : bool :=
  match l with
  | [] => false
  | c :: l' => if Ascii.eqb c " "%char || Ascii.eqb c TAB then colon_next l' else Ascii.eqb c ":"%char
  end.
