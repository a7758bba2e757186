(** Specification for input that need not be JSON: what is open at each token. *)
From Verif Require Import Base Lexer.

(** Something that was opened and not yet closed: a key that waits for its
    value, a brace, a bracket. *)
Inductive opened : Type := OKey | OBrace | OBracket.

(** How a token changes what is open (the innermost first).  On JSON a closing
    bracket always meets an open bracket and a closing brace an open brace, and a
    finished value takes away the key it belongs to.  On other input a brace that
    does not stand in an array or after a key stays open, and so does a key that
    is never given a value.  At most 100 things are remembered. *)
Definition remember (o : opened) (l : list opened) : list opened :=
  if Nat.ltb (List.length l) 100 then o :: l else l.
Definition after_token (l : list opened) (t : token) : list opened :=
  match t with
  | TLCB => remember OBrace l
  | TLB => remember OBracket l
  | TKY _ => remember OKey l
  | TRCB => match l with
            | [] | [_] => []
            | _ :: OKey :: l' => l'
            | _ :: OBracket :: l' => OBracket :: l'
            | _ => l
            end
  | TRB => match l with
           | [] | [_] => []
           | _ :: OKey :: l' => l'
           | _ :: OBracket :: l' => OBracket :: l'
           | _ => l
           end
  | TPRI _ => match l with OKey :: l' => l' | _ => l end
  | TCOM | TEND => l
  end.

(** A closing bracket arrives while the innermost open thing is a brace. *)
Fixpoint bracket_closes_brace (l : list opened) (ts : list token) : bool :=
  match ts with
  | [] => false
  | t :: ts' => (match t, l with TRB, OBrace :: _ => true | _, _ => false end)
                || bracket_closes_brace (after_token l t) ts'
  end.

(** Where a byte of any text stands: between tokens; in a string, of which [k] bytes
    were read ([esc]: the byte is escaped); behind a string, with only blanks and tabs
    since its end; in a word without quotes, of which [k] bytes were read. *)
Inductive place : Type := Between | Inside (k : Z) (esc : bool) | Behind | Word (k : Z).
Definition letter_or_digit (c : ascii) : bool :=
  let n := nat_of_ascii c in (Nat.leb 48 n && Nat.leb n 57) || (Nat.leb 65 n && Nat.leb n 90) || (Nat.leb 97 n && Nat.leb n 122).
Definition ends_word (c : ascii) : bool := existsb (Ascii.eqb c) ["}"; "]"; ","; " "; TAB]%char.

(** No word directly follows a string, and neither the strings nor the words are longer
    than 3996 bytes. *)
Fixpoint lexable (w : place) (s : bytes) : bool :=
  match s with
  | [] => true
  | c :: s' =>
      match w with
      | Between => lexable (if Ascii.eqb c DQ then Inside 0 false else if letter_or_digit c then Word 1 else Between) s'
      | Inside k true => lexable (Inside (k + 1) false) s'
      | Inside k false => if Ascii.eqb c DQ then (k <=? 3996) && lexable Behind s' else lexable (Inside (k + 1) (Ascii.eqb c BSL)) s'
      | Behind => if Ascii.eqb c " "%char || Ascii.eqb c TAB then lexable Behind s' else negb (letter_or_digit c) && lexable (if Ascii.eqb c DQ then Inside 0 false else Between) s'
      | Word k => if ends_word c then (k <=? 3996) && lexable Between s' else lexable (Word (k + 1)) s'
      end
  end%Z.
