(** Specification of what a thread reports about a chunk: the chunk is cut into
    parts, and for every part and every start state there is a list of tuples.
    Used by C36. *)
From Verif Require Import Base Util Lexer Dfa Constraint Stream TreeSem Worker MalSpec NestSpec.
Open Scope Z_scope.

(** What is open after [ts]. *)
Definition open_after (l : list opened) (ts : list token) : list opened :=
  fold_left (fun l t => match t with
                        | TLCB => OBrace :: l | TLB => OBracket :: l | TKY _ => OKey :: l
                        | TPRI _ => value_done l
                        | TRCB | TRB => value_done (tl l)
                        | _ => l
                        end) ts l.

(** [ts] can follow inside of the open things [l]; at least one thing stays open
    until the last token, and never more than [D] are. *)
Fixpoint nested_in (D : nat) (l : list opened) (ts : list token) : Prop :=
  match ts with
  | [] => True
  | t :: ts' =>
      l <> [] /\
      match t with
      | TLCB | TLB => value_here l = true /\ (List.length l < D)%nat
      | TKY _ => value_here l = false /\ (List.length l < D)%nat
      | TPRI _ => value_here l = true
      | TRCB => hd_error l = Some OBrace
      | TRB => hd_error l = Some OBracket
      | TCOM => True
      | TEND => False
      end /\ nested_in D (open_after l [t]) ts'
  end.
(** Things that can be open, the innermost first: a key is the innermost or
    directly around a brace or bracket, and lies in a brace. *)
Fixpoint openable (l : list opened) : Prop :=
  match l with
  | [] => True
  | OKey :: l' => value_here l' = false /\ openable l'
  | _ :: l' => value_here l' = true /\ openable l'
  end.

(** After a brace that ends an element of an array comes another token, and that
    token does not open a brace: a comma or the end of the array in every chunk of a
    JSON text that does not end with such a brace. *)
Fixpoint elements_followed (l : list opened) (ts : list token) : Prop :=
  match ts with
  | [] => True
  | t :: ts' => (t = TRCB -> hd_error (open_after l [t]) = Some OBracket -> exists t1 ts1, ts' = t1 :: ts1 /\ t1 <> TLCB) /\ elements_followed (open_after l [t]) ts'
  end.

(** A part: tokens that end things opened before the chunk, then tokens that end
    only what they have opened. *)
Record part : Type := mkPart { pt_ends : list event; pt_inside : list event }.
Definition ending (t : token) : bool := match t with TRCB | TRB | TCOM => true | _ => false end.
Fixpoint stays_inside (l : list opened) (ts : list token) : Prop :=
  match ts with
  | [] => True
  | t :: ts' => (l = [] -> t <> TRCB /\ t <> TRB) /\ stays_inside (open_after l [t]) ts'
  end.
Definition ends_reported (evs : list event) : list usym :=
  flat_map (fun ev => match e_tok ev with TRCB => [URcb (e_next ev - 1)] | TRB => [URb (e_next ev - 1)] | _ => [] end) evs.

(** The serial engine in the given state, directly inside of the innermost thing
    that is open, with nothing found so far. *)
Definition inside_of (bs : list opened) (r : Z) : core :=
  mkCore (match bs with OBrace :: _ => [SLCB] | OBracket :: _ => [SLB] | OKey :: _ => [SKY] | [] => [] end) [] (mkElt r 0 MInv) [].
Definition serial_inside (d : dfa) (text : bytes) (bs : list opened) (r : Z) (evs : list event) : res core :=
  foldM (core_step d text) evs (inside_of bs r).

(** The tuples of a list of tuples, from index [i] on (-1: the end).  A tuple is
    a text or a part of the chunk. *)
Fixpoint follow (fuel : nat) (tl : list wtuple) (text : bytes) (i : Z) : res (list tuple) :=
  if i =? -1 then Ok []
  else match fuel with
       | O => UB Fuel
       | S fuel' =>
           t <- zread tl i ;;
           s <- match w_val t with VText s => Ok s | VSpan b e => substring text 0 b e end ;;
           rest <- follow fuel' tl text (w_next t) ;;
           Ok ((w_state t, s) :: rest)
       end.
(** What unit [u] of the worker reports for start state [r]. *)
Definition reported (w : worker) (text : bytes) (u : unit_) (r : Z) : res (list tuple) :=
  match find (fun n => t_state n =? r) (un_roots u) with
  | Some n => '(first, _) <- known (t_tup n) ;; follow (S (List.length (wa_tl w))) (wa_tl w) text first
  | None => UB UninitRead
  end.

(** Every unit reports the ends of its part, and for every start state that [ok]
    admits exactly the tuples the serial engine finds when it is started there. *)
Fixpoint faithful (ok : list opened -> Z -> Prop) (d : dfa) (text : bytes) (w : worker) (bs : list opened) (ps : list part) (us : list unit_) : Prop :=
  match ps, us with
  | [], [] => True
  | p :: ps', u :: us' =>
      let bs' := open_after bs (map e_tok (pt_ends p)) in
      un_syms u = ends_reported (pt_ends p) /\
      (forall r c, valid_state d r -> ok bs' r -> serial_inside d text bs' r (pt_inside p) = Ok c -> reported w text u r = Ok (c_tl c)) /\
      faithful ok d text w bs' ps' us'
  | _, _ => False
  end.
Definition parts_of (ps : list part) (evs : list event) : Prop :=
  flat_map (fun p => pt_ends p ++ pt_inside p) ps = evs /\
  Forall (fun p => forallb ending (map e_tok (pt_ends p)) = true /\ stays_inside [] (map e_tok (pt_inside p))) ps.

