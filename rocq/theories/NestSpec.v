(** Specification: token sequences in which every bracket meets its partner. *)
From Verif Require Import Base Lexer MalSpec.

(** A value may stand at the top level, after a key and in an array. *)
Definition value_here (l : list opened) : bool := match l with OBrace :: _ => false | _ => true end.
(** When a value ends, the key it belongs to is done with. *)
Definition value_done (l : list opened) : list opened := match l with OKey :: l' => l' | _ => l end.
(** At most 100 braces, brackets and keys may be open at a time. *)
Definition room (l : list opened) : bool := Nat.ltb (List.length l) 100.

(** [ts] can follow when the things [l] are open (the innermost first).  Several
    values may follow each other, commas may stand anywhere, and the sequence may
    end anywhere. *)
Fixpoint well_nested (l : list opened) (ts : list token) : bool :=
  match ts with
  | [] => true
  | t :: ts' =>
      match t with
      | TLCB => value_here l && room l && well_nested (OBrace :: l) ts'
      | TLB => value_here l && room l && well_nested (OBracket :: l) ts'
      | TKY _ => negb (value_here l) && room l && well_nested (OKey :: l) ts'
      | TPRI _ => value_here l && well_nested (value_done l) ts'
      | TRCB => match l with OBrace :: l' => well_nested (value_done l') ts' | _ => false end
      | TRB => match l with OBracket :: l' => well_nested (value_done l') ts' | _ => false end
      | TCOM => well_nested l ts'
      | TEND => false
      end
  end.
