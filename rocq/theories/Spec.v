(** Specification: JSON documents with explicit layout, and the meaning of
    JSONPath queries.  This file uses nothing from the model of the code. *)
From Verif Require Import Base.
Open Scope Z_scope.

(** * JSON text

    A document is a concrete syntax tree: every place where JSON allows
    insignificant whitespace carries the whitespace that is written there. *)

Record mpad : Type := mkPad {
  w_before : bytes;   (* before the key                 *)
  w_colon  : bytes;   (* between the key and the colon  *)
  w_value  : bytes;   (* between the colon and the value *)
  w_after  : bytes    (* after the value                *)
}.

Inductive json : Type :=
| JBare (s : bytes)                       (* number, true, false, null    *)
| JStr (s : bytes)                        (* characters between the quotes *)
| JObj (w : bytes) (ms : members)
| JArr (w : bytes) (es : elements)
with members : Type :=
| MNil
| MCons (p : mpad) (k : bytes) (v : json) (ms : members)
with elements : Type :=
| ENil
| ECons (wb : bytes) (v : json) (wa : bytes) (es : elements).

Scheme json_mut := Induction for json Sort Prop
with members_mut := Induction for members Sort Prop
with elements_mut := Induction for elements Sort Prop.
Combined Scheme json_all_ind from json_mut, members_mut, elements_mut.

(** The text of a document. *)
Fixpoint text (v : json) : bytes :=
  match v with
  | JBare s => s
  | JStr s => DQ :: s ++ [DQ]
  | JObj w ms => B "{" ++ w ++ text_ms ms ++ B "}"
  | JArr w es => B "[" ++ w ++ text_es es ++ B "]"
  end
with text_ms (ms : members) : bytes :=
  match ms with
  | MNil => []
  | MCons p k v ms' =>
      w_before p ++ (DQ :: k ++ [DQ]) ++ w_colon p ++ B ":" ++ w_value p
      ++ text v ++ w_after p
      ++ match ms' with MNil => [] | _ => B "," ++ text_ms ms' end
  end
with text_es (es : elements) : bytes :=
  match es with
  | ENil => []
  | ECons wb v wa es' =>
      wb ++ text v ++ wa
      ++ match es' with ENil => [] | _ => B "," ++ text_es es' end
  end.

(** A complete stream: a value between whitespace. *)
Record doc : Type := mkDoc { d_pre : bytes; d_val : json; d_post : bytes }.
Definition doc_text (d : doc) : bytes := d_pre d ++ text (d_val d) ++ d_post d.

(** ** Well-formed JSON *)
Definition ws_char (c : ascii) : bool :=
  Ascii.eqb c " "%char || Ascii.eqb c TAB || Ascii.eqb c LF || Ascii.eqb c CR.
Definition ws (w : bytes) : bool := forallb ws_char w.

(** Characters of numbers and literals. *)
Definition bare_char (c : ascii) : bool :=
  let n := nat_of_ascii c in
  (Nat.leb 48 n && Nat.leb n 57) || (Nat.leb 97 n && Nat.leb n 122)
  || (Nat.leb 65 n && Nat.leb n 90)
  || Ascii.eqb c "+"%char || Ascii.eqb c "-"%char || Ascii.eqb c "."%char.
Definition bare_word (s : bytes) : bool :=
  match s with [] => false | _ => forallb bare_char s end.

(** String bodies: a backslash protects the next character; no unprotected
    quote; the body does not end in the middle of an escape; no NUL byte. *)
Fixpoint str_body (esc : bool) (s : bytes) : bool :=
  match s with
  | [] => negb esc
  | c :: s' =>
      negb (Ascii.eqb c NUL) &&
      if esc then str_body false s'
      else if Ascii.eqb c BSL then str_body true s'
      else negb (Ascii.eqb c DQ) && str_body false s'
  end.

Fixpoint wf (v : json) : bool :=
  match v with
  | JBare s => bare_word s
  | JStr s => str_body false s
  | JObj w ms => ws w && wf_ms ms
  | JArr w es => ws w && wf_es es
  end
with wf_ms (ms : members) : bool :=
  match ms with
  | MNil => true
  | MCons p k v ms' =>
      ws (w_before p) && ws (w_colon p) && ws (w_value p) && ws (w_after p)
      && str_body false k && wf v && wf_ms ms'
  end
with wf_es (es : elements) : bool :=
  match es with
  | ENil => true
  | ECons wb v wa es' => ws wb && wf v && ws wa && wf_es es'
  end.

Definition is_container (v : json) : bool :=
  match v with JObj _ _ | JArr _ _ => true | _ => false end.

Definition wf_doc (d : doc) : bool :=
  ws (d_pre d) && wf (d_val d) && ws (d_post d) && is_container (d_val d).

(** ** Layouts on which the lexer of the code is exact

    The restrictions are exactly the places where the code deviates from JSON
    (see the refutations in the property files):
    - only blanks and tabs between a key and its colon;
    - numbers without a sign;
    - a bare value is followed by a comma, a closing bracket, a blank or a tab
      (not by a line break);
    - a bare value written directly after the colon is followed by a comma;
    - keys and values are short enough for the lexer's buffers. *)
Definition blank_char (c : ascii) : bool := Ascii.eqb c " "%char || Ascii.eqb c TAB.
Definition starts_blank_or_nil (w : bytes) : bool :=
  match w with [] => true | c :: _ => blank_char c end.
Definition nonempty {A} (l : list A) : bool := match l with [] => false | _ => true end.
Definition unsigned_word (s : bytes) : bool :=
  match s with
  | c :: _ => negb (Ascii.eqb c "-"%char || Ascii.eqb c "+"%char || Ascii.eqb c "."%char)
  | [] => false
  end.

Definition max_key : Z := 3998.
Definition max_str : Z := 3996.
Definition max_bare : Z := 3998.

Fixpoint lex_safe (v : json) : bool :=
  match v with
  | JBare s => unsigned_word s && (zlen s <=? max_bare)
  | JStr s => zlen s <=? max_str
  | JObj _ ms => lex_safe_ms ms
  | JArr _ es => lex_safe_es es
  end
with lex_safe_ms (ms : members) : bool :=
  match ms with
  | MNil => true
  | MCons p k v ms' =>
      (zlen k <=? max_key)
      && forallb blank_char (w_colon p)
      && lex_safe v
      && match v with
         | JBare _ => starts_blank_or_nil (w_after p)
                      && (nonempty (w_value p)
                          || (negb (nonempty (w_after p))
                              && match ms' with MNil => false | _ => true end))
         | _ => true
         end
      && lex_safe_ms ms'
  end
with lex_safe_es (es : elements) : bool :=
  match es with
  | ENil => true
  | ECons _ v wa es' =>
      lex_safe v
      && match v with JBare _ => starts_blank_or_nil wa | _ => true end
      && lex_safe_es es'
  end.

(** * JSONPath *)

(** Operators of filter expressions. *)
Inductive binop : Type :=
| BOr | BAnd | BEq | BNeq | BLt | BGt | BLe | BGe
| BAdd | BSub | BMul | BDiv | BMod.

Inductive expr : Type :=
| EField (path : list bytes)               (* @.a.b                          *)
| ENum (neg : bool) (lit : bytes)          (* number literal as written      *)
| EStr (s : bytes)                         (* string literal                 *)
| ENot (e : expr)
| EBin (op : binop) (e1 e2 : expr).

Inductive step : Type :=
| SChild (k : bytes)                       (* .k                             *)
| SChildAny                                (* .*                             *)
| SDesc (k : bytes)                        (* ..k                            *)
| SDescAny                                 (* ..*                            *)
| SAll                                     (* [*]                            *)
| SSlice (lo hi : option Z)                (* [lo:hi], [lo:], [:hi]          *)
| SIndex (n : Z)                           (* [n]                            *)
| SFilter (e : expr).                      (* [?(e)]                         *)

Definition query := list step.

(** One step down in a document: into the member with a key, or into the
    element with an index. *)
Inductive label : Type := LKey (k : bytes) | LIdx (i : nat).

(** A path from the root: the labels followed and the values reached. *)
Definition path := list (label * json).

(** All values below (and including) a value, with their paths, in the order in
    which they end in the text. *)
Fixpoint nodes (p : path) (v : json) : list (path * json) :=
  match v with
  | JBare _ | JStr _ => [(p, v)]
  | JObj _ ms => nodes_ms p ms ++ [(p, v)]
  | JArr _ es => nodes_es p 0 es ++ [(p, v)]
  end
with nodes_ms (p : path) (ms : members) : list (path * json) :=
  match ms with
  | MNil => []
  | MCons _ k v ms' => nodes (p ++ [(LKey k, v)]) v ++ nodes_ms p ms'
  end
with nodes_es (p : path) (i : nat) (es : elements) : list (path * json) :=
  match es with
  | ENil => []
  | ECons _ v _ es' => nodes (p ++ [(LIdx i, v)]) v ++ nodes_es p (S i) es'
  end.

Definition in_slice (lo hi : option Z) (i : nat) : bool :=
  match lo with None => true | Some l => l <=? Z.of_nat i end &&
  match hi with None => true | Some h => Z.of_nat i <? h end.

Definition is_object (v : json) : bool := match v with JObj _ _ => true | _ => false end.

Section Selection.
  (** The meaning of filter expressions on an object. *)
  Variable holds : expr -> json -> bool.

  (** Does the query select the value at the end of the path? *)
  Fixpoint selects (q : query) (p : path) {struct p} : bool :=
    match p with
    | [] => match q with [] => true | _ => false end
    | (l, v) :: p' =>
        match q with
        | [] => false
        | SChild k :: q' =>
            match l with LKey k' => beq k k' | LIdx _ => false end && selects q' p'
        | SChildAny :: q' => selects q' p'
        | SDesc k :: q' =>
            (match l with LKey k' => beq k k' | LIdx _ => false end && selects q' p')
            || selects q p'
        | SDescAny :: q' => selects q' p' || selects q p'
        | SAll :: q' =>
            match l with LKey _ => false | LIdx _ => true end && selects q' p'
        | SSlice lo hi :: q' =>
            match l with LKey _ => false | LIdx i => in_slice lo hi i end && selects q' p'
        | SIndex n :: q' =>
            match l with LKey _ => false | LIdx i => Z.of_nat i =? n end && selects q' p'
        | SFilter e :: q' =>
            match l with LKey _ => false | LIdx _ => is_object v && holds e v end
            && selects q' p'
        end
    end.

  (** The values a query selects, in completion order, and their texts. *)
  Definition answer (q : query) (v : json) : list json :=
    map snd (filter (fun n => selects q (fst n)) (nodes [] v)).
  Definition answer_text (q : query) (v : json) : list bytes :=
    map text (answer q v).
End Selection.

(** The part of the query language without filters does not look at [holds]. *)
Definition is_path_step (s : step) : bool :=
  match s with SChild _ | SChildAny | SDesc _ | SDescAny | SAll => true | _ => false end.
Definition path_query (q : query) : bool := nonempty q && forallb is_path_step q.
